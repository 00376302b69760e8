(** NURBS and Catmull-Rom curves. *)
From Coq Require Import Reals List Bool ZArith Lia Lra.
From Verif Require Import Xform_Model Xform_Proofs Spline_Model Spline_Spec
  Spline_Proofs Spline_Proofs2 Spline_Proofs3.
Import ListNotations.
Open Scope R_scope.

Lemma total_zero w n : (forall i, (i < n)%nat -> 0 <= w i) -> total w n = 0 -> forall i, (i < n)%nat -> w i = 0.
Proof.
  induction n as [|n IH]; intros P T i Hi; [lia|]. cbn [total] in T.
  assert (N : forall m, (m <= n)%nat -> 0 <= total w m).
  { induction m as [|m IHm]; intros Hm; cbn [total]; [lra|].
    specialize (IHm ltac:(lia)). specialize (P m ltac:(lia)). lra. }
  specialize (N n (le_n n)). assert (Pn := P n (Nat.lt_succ_diag_r n)).
  destruct (Nat.eq_dec i n) as [->|D]; [lra|].
  apply IH; [intros; apply P; lia|lra|lia].
Qed.

Lemma total_nonneg w n : (forall i, (i < n)%nat -> 0 <= w i) -> 0 <= total w n.
Proof.
  induction n as [|n IH]; intros P; cbn [total]; [lra|].
  assert (0 <= w n) by (apply P; lia). assert (0 <= total w n) by (apply IH; intros; apply P; lia). lra.
Qed.

Lemma total_scale w d n : total (fun i => w i / d) n = total w n / d.
Proof. induction n as [|n IH]; cbn [total]; [unfold Rdiv; ring|]. rewrite IH. unfold Rdiv. ring. Qed.

Section Nurbs.
  Variables (ctrl : list vec) (weights knots : list R) (p : nat).
  Let n := length ctrl.
  Hypothesis LW : length weights = n.
  Hypothesis LK : length knots = (n + p + 1)%nat.
  Hypothesis NP : (p < n)%nat.
  Hypothesis K : clamped (fun i => nth i knots 0) n p.
  Hypothesis POS : forall i, (i < n)%nat -> 0 < nth i weights 0.
  Let k := fun i => nth i knots 0.

  Lemma knots_last : last knots 0 = k n.
  Proof.
    rewrite last_kf by (intros E; rewrite E in LK; cbn in LK; lia).
    rewrite LK. change (k (n + p + 1 - 1)%nat = k n). apply (knots_end _ _ _ K); lia.
  Qed.

  Lemma nurbs_eval u :
    evaluate_nurbs (mknurbs ctrl p weights knots) u
    = nurbs_point ctrl weights knots p (k p + (k n - k p) * clamp01 u).
  Proof.
    unfold evaluate_nurbs. cbn [n_knots n_degree n_ctrl n_weights].
    rewrite LK. replace (n + p + 1 - (p + 1))%nat with n by lia.
    rewrite !at_nth by lia. reflexivity.
  Qed.

  Lemma real_u u : u < 1 -> k 0%nat <= k p + (k n - k p) * clamp01 u < k n.
  Proof.
    intros Hu. assert (C := clamp01_in u).
    assert (C1 : clamp01 u < 1).
    { unfold clamp01, Rmax, Rmin. destruct (Rle_dec 1 u), (Rle_dec 0 _); lra. }
    assert (k 0%nat = k p) by (symmetry; apply (knots_start _ _ _ K); lia).
    assert (k p < k n).
    { destruct K as (_ & _ & _ & L & _). apply Rlt_le_trans with (k (S p)); [exact L|].
      apply (knots_le _ _ _ K); lia. }
    nra.
  Qed.

  Lemma rational_good x : k 0%nat <= x < k n ->
    0 < total (fun j => nth j weights 0 * cox k j p x) n /\
    (forall i, (i < n)%nat -> 0 <= rational weights k n p x i) /\
    total (rational weights k n p x) n = 1.
  Proof.
    intros Hx. set (w := fun j => nth j weights 0 * cox k j p x).
    assert (WN : forall i, (i < n)%nat -> 0 <= w i).
    { intros i Hi. apply Rmult_le_pos; [apply Rlt_le, POS, Hi|].
      apply (cox_nonneg _ _ _ K); lia. }
    assert (T : total (fun i => cox k i p x) n = 1).
    { pose proof (cox_total _ _ _ K NP p x (le_n p)) as T.
      replace (n + p - p)%nat with n in T by lia. apply T; apply Hx. }
    assert (D : 0 < total w n).
    { destruct (Rle_lt_or_eq_dec 0 (total w n) (total_nonneg w n WN)) as [L|E]; [exact L|].
      exfalso. pose proof (total_zero w n WN (eq_sym E)) as Z.
      rewrite (total_ext _ (fun _ => 0)) in T.
      - assert (Z0 : forall j, total (fun _ => 0) j = 0) by (induction j; cbn [total]; lra).
        rewrite Z0 in T. lra.
      - intros i Hi. specialize (Z i Hi). unfold w in Z. specialize (POS i Hi).
        apply Rmult_integral in Z. destruct Z; [lra|assumption]. }
    split; [exact D|]. split.
    - intros i Hi. unfold rational. fold w. apply Rmult_le_pos; [apply WN, Hi|].
      apply Rlt_le, Rinv_0_lt_compat, D.
    - change (total (fun i => w i / total w n) n = 1). rewrite total_scale. field. lra.
  Qed.

  Lemma nurbs_inside u : u < 1 ->
    exists q, evaluate_nurbs (mknurbs ctrl p weights knots) u = Val q /\ vw q = 1 /\
      is_combination q (rational weights k n p (k p + (k n - k p) * clamp01 u)) ctrl.
  Proof.
    intros Hu. rewrite nurbs_eval. set (x := k p + (k n - k p) * clamp01 u).
    assert (Hx : k 0%nat <= x < k n) by now apply real_u.
    destruct (rational_good x Hx) as (D & _ & _).
    assert (E : forall j, (j < n)%nat -> coxb (nbase knots x) (kf knots) j p x = cox k j p x).
    { intros j Hj. rewrite (coxb_ext _ (half_open (kf knots) x)).
      - symmetry. apply cox_coxb.
      - intros i _. apply base_before. rewrite knots_last. apply Hx. }
    assert (DD : weighted (fun _ => 1) (fun j => kf weights j * coxb (nbase knots x) (kf knots) j p x) 0 ctrl
                 = total (fun j => nth j weights 0 * cox k j p x) n).
    { rewrite weighted_one. apply total_ext. intros i Hi. cbn [Nat.add]. now rewrite E. }
    destruct (nurbs_point_value ctrl weights knots p x LW LK) as (q & V & W & C).
    - intros Z. unfold n in NP. rewrite Z in NP. cbn in NP. lia.
    - rewrite DD. lra.
    - exists q. split; [exact V|]. split; [exact W|].
      rewrite DD in C. destruct C as (X & Y & Z). unfold is_combination.
      rewrite X, Y, Z. repeat split; apply weighted_ext; intros j Hj; unfold rational; rewrite E by (fold n in Hj; lia); reflexivity.
  Qed.

  Lemma nurbs_start u p0 r : ctrl = p0 :: r -> u <= 0 ->
    evaluate_nurbs (mknurbs ctrl p weights knots) u = Val (pt3 p0).
  Proof.
    intros Ec Hu. destruct (nurbs_inside u ltac:(lra)) as (q & V & W & C).
    rewrite V. f_equal. rewrite (clamp01_low u Hu), Rmult_0_r, Rplus_0_r in C.
    assert (Kp : k p = k 0%nat) by (apply (knots_start _ _ _ K); lia).
    rewrite Kp in C. destruct (rational_good (k 0%nat)) as (D & _ & _).
    { rewrite <- Kp. pose proof (real_u 0 ltac:(lra)) as RU.
      rewrite (clamp01_low 0) in RU by lra. rewrite Rmult_0_r, Rplus_0_r in RU. rewrite <- Kp in RU. exact RU. }
    assert (F : forall j, (j < n)%nat -> cox k j p (k 0%nat) = if Nat.eqb j 0 then 1 else 0).
    { intros j Hj. transitivity (if Nat.eqb (j + p) p then 1 else 0);
        [apply (cox_first _ _ _ K NP p j (le_n p)); lia|].
      destruct (Nat.eqb_spec (j + p) p), (Nat.eqb_spec j 0); lia || reflexivity. }
    assert (TT : total (fun j => nth j weights 0 * cox k j p (k 0%nat)) n = nth 0 weights 0).
    { rewrite (total_ext _ (fun j => if Nat.eqb j 0 then nth 0 weights 0 else 0)).
      - assert (G : forall m, total (fun j => if Nat.eqb j 0 then nth 0 weights 0 else 0) (S m) = nth 0 weights 0).
        { induction m as [|m IHm]; [cbn; ring|]. cbn [total] in IHm |- *. rewrite IHm. cbn. ring. }
        destruct n as [|m]; [lia|]. apply G.
      - intros i Hi. rewrite F by assumption. destruct (Nat.eqb_spec i 0) as [->|]; ring. }
    rewrite Ec in C. refine (combination_delta q _ [] p0 r C W _).
    intros j Hj. cbn [app] in Hj. rewrite <- Ec in Hj. change (j < n)%nat in Hj.
    unfold rational. rewrite TT in D |- *. rewrite F by assumption. cbn [length].
    destruct (Nat.eqb_spec j 0) as [->|].
    - field. lra.
    - unfold Rdiv. ring.
  Qed.

  (** Without interior knots the far end is the last control point. *)
  Lemma nurbs_end u r pn : ctrl = r ++ [pn] -> n = S p -> 1 <= u ->
    evaluate_nurbs (mknurbs ctrl p weights knots) u = Val (pt3 pn).
  Proof.
    intros Ec En Hu. rewrite nurbs_eval, (clamp01_high u Hu).
    replace (k p + (k n - k p) * 1) with (k n) by ring.
    assert (LT : k p < k n) by (destruct K as (_ & _ & _ & L & _); rewrite En; exact L).
    assert (F : forall j, (j < n)%nat -> coxb (nbase knots (k n)) (kf knots) j p (k n) = if Nat.eqb j (n - 1) then 1 else 0).
    { intros j Hj. apply (coxb_last _ _ _ K NP); [|lia|assumption].
      intros i Hi. unfold nbase. replace (i + 1)%nat with (S i) by lia.
      change (kf knots i) with (k i). change (kf knots (S i)) with (k (S i)).
      rewrite knots_last. replace (Reqb (k n) (k n)) with true by (symmetry; now apply Reqb_true).
      cbn [andb].
      assert (k (S i) <= k n).
      { destruct (le_lt_dec n (S i)) as [L|L].
        - assert (Ks : k (S i) = k n) by (apply (knots_end _ _ _ K); lia). lra.
        - apply (knots_le _ _ _ K); lia. }
      replace (Rltb (k n) (k (S i))) with false by (symmetry; apply Rltb_false; assumption).
      rewrite andb_false_r, orb_false_l.
      destruct (Nat.eqb_spec i (n - 1)) as [->|N].
      - replace (S (n - 1)) with n by lia. replace (n - 1)%nat with p by lia.
        now replace (Rltb (k p) (k n)) with true by (symmetry; apply Rltb_true; assumption).
      - assert (Ki : k i = k 0%nat) by (apply (knots_start _ _ _ K); lia).
        assert (KSi : k (S i) = k 0%nat) by (apply (knots_start _ _ _ K); lia).
        rewrite Ki, KSi.
        now replace (Rltb (k 0%nat) (k 0%nat)) with false by (symmetry; apply Rltb_false; lra). }
    set (w := fun j => kf weights j * coxb (nbase knots (k n)) (kf knots) j p (k n)).
    assert (DD : weighted (fun _ => 1) w 0 ctrl = nth (n - 1) weights 0).
    { rewrite weighted_one. rewrite (total_ext _ (fun j => if Nat.eqb j (n - 1) then nth (n - 1) weights 0 else 0)).
      - fold n. clear -NP. destruct n as [|m]; [lia|]. cbn [total]. replace (S m - 1)%nat with m by lia.
        rewrite Nat.eqb_refl. rewrite (total_ext _ (fun _ => 0)).
        + assert (Z0 : forall j, total (fun _ => 0) j = 0) by (induction j; cbn [total]; lra). rewrite Z0. ring.
        + intros i Hi. destruct (Nat.eqb_spec i m); [lia|reflexivity].
      - intros i Hi. cbn [Nat.add]. unfold w. rewrite F by assumption.
        destruct (Nat.eqb_spec i (n - 1)) as [->|]; unfold kf; ring. }
    assert (PL : 0 < nth (n - 1) weights 0) by (apply POS; lia).
    destruct (nurbs_point_value ctrl weights knots p (k n) LW LK) as (q & V & W & C).
    - intros Z. unfold n in NP. rewrite Z in NP. cbn in NP. lia.
    - fold w. rewrite DD. lra.
    - rewrite V. f_equal. fold w in C. rewrite DD in C.
      assert (Lr : length r = (n - 1)%nat) by (unfold n; rewrite Ec, app_length; cbn; lia).
      rewrite Ec in C. refine (combination_delta q _ r pn [] C W _).
      intros j Hj. rewrite <- Ec in Hj. change (j < n)%nat in Hj.
      unfold w. rewrite F by assumption. rewrite Lr.
      destruct (Nat.eqb_spec j (n - 1)) as [->|].
      + unfold kf. field. lra.
      + unfold Rdiv. ring.
  Qed.
End Nurbs.

Lemma open_uniform_clamped n p : (p < n)%nat -> clamped (fun i => nth i (open_uniform_knot_vector n p) 0) n p.
Proof.
  intros H. apply (clamped_ext (ku n p)); [assumption| |now apply ku_clamped].
  intros i Hi. symmetry. apply (open_uniform_ku n p i); lia.
Qed.

(** * Catmull-Rom *)
Lemma pypow_value d alpha : 0 <= alpha -> 0 <= d ->
  exists v, pypow d alpha = Val v /\ 0 <= v /\ (d <> 0 -> v = Rpower d alpha).
Proof.
  intros Ha Hd. unfold pypow. destruct (Reqb d 0) eqn:E.
  - apply Reqb_true in E. destruct (Rltb 0 alpha) eqn:L.
    + exists 0. repeat split; [lra|]. intros; contradiction.
    + apply Rltb_false in L. replace (Reqb alpha 0) with true by (symmetry; apply Reqb_true; lra).
      exists 1. repeat split; [lra|]. intros; contradiction.
  - exists (Rpower d alpha). repeat split; auto. apply Rlt_le, exp_pos.
Qed.

Lemma tj_value ti a b alpha : 0 <= alpha ->
  exists v, tj ti a b alpha = Val (ti + v) /\ 0 <= v /\ (v < tiny -> apart alpha a b -> same_place a b).
Proof.
  intros Ha. unfold tj.
  set (d := sqrt _).
  assert (Ed : d = dist a b).
  { unfold d, dist, mag, sub. cbn. f_equal. ring. }
  destruct (pypow_value d alpha Ha (sqrt_pos _)) as (v & E & P & Q).
  exists v. rewrite E. split; [reflexivity|]. split; [exact P|].
  intros L [S|B]; [exact S|].
  destruct (Req_EM_T d 0) as [Z|NZ].
  - pose proof (pow2_ge_0 (vx b - vx a)). pose proof (pow2_ge_0 (vy b - vy a)).
    pose proof (pow2_ge_0 (vz b - vz a)).
    unfold d in Z. apply sqrt_eq_0 in Z; [|lra].
    assert (SQ : forall x, x ^ 2 = 0 -> x = 0) by (intros x Hx; apply Rsqr_0_uniq; unfold Rsqr; cbn in Hx; lra).
    assert (vx b - vx a = 0) by (apply SQ; lra). assert (vy b - vy a = 0) by (apply SQ; lra).
    assert (vz b - vz a = 0) by (apply SQ; lra).
    unfold same_place. repeat split; lra.
  - rewrite <- Ed in B. rewrite (Q NZ) in L. unfold tiny in L. lra.
Qed.

Definition w1 (v : vec) : Prop := vw v = 1.

Lemma same_eq a b : w1 a -> w1 b -> same_place a b -> a = b.
Proof. destruct a, b; unfold w1, same_place; cbn. intros -> -> (-> & -> & ->). reflexivity. Qed.

Lemma blend_w1 a b t0 t1 t : w1 b -> w1 (catmull_blend a b t0 t1 t).
Proof. intros H. unfold catmull_blend. destruct (Rltb _ _); [exact H|reflexivity]. Qed.

Lemma blend_start a b t0 t1 : w1 a -> tiny <= t1 - t0 -> catmull_blend a b t0 t1 t0 = a.
Proof.
  intros W H. pose proof tiny_pos. unfold catmull_blend.
  replace (Rltb (Rabs (t1 - t0)) tiny) with false
    by (symmetry; apply Rltb_false; rewrite Rabs_right; lra).
  destruct a; unfold w1 in W; cbn in *; subst. unfold point. f_equal; field; lra.
Qed.
Lemma blend_end a b t0 t1 : w1 b -> catmull_blend a b t0 t1 t1 = b.
Proof.
  intros W. pose proof tiny_pos. unfold catmull_blend. destruct (Rltb _ _) eqn:L; [reflexivity|].
  apply Rltb_false in L.
  assert (t1 - t0 <> 0).
  { intros Z. rewrite Z, Rabs_R0 in L. lra. }
  destruct b; unfold w1 in W; cbn in *; subst. unfold point. f_equal; field; assumption.
Qed.
Lemma blend_same a t0 t1 t : w1 a -> catmull_blend a a t0 t1 t = a.
Proof.
  intros W. pose proof tiny_pos. unfold catmull_blend. destruct (Rltb _ _) eqn:L; [reflexivity|].
  apply Rltb_false in L.
  assert (t1 - t0 <> 0).
  { intros Z. rewrite Z, Rabs_R0 in L. lra. }
  destruct a; unfold w1 in W; cbn in *; subst. unfold point. f_equal; field; assumption.
Qed.

Lemma apart_pt3 alpha a b : apart alpha a b -> apart alpha (pt3 a) (pt3 b).
Proof. exact (fun H => H). Qed.

Lemma pt3_idem v : w1 v -> pt3 v = v.
Proof. destruct v; unfold w1; cbn. intros ->. reflexivity. Qed.

Lemma catmull_start p0 p1 p2 p3 alpha : 0 <= alpha -> apart alpha p1 p2 ->
  catmullrom_point p0 p1 p2 p3 alpha 0 = Val (pt3 p1).
Proof.
  intros Ha A. unfold catmullrom_point.
  set (v0 := pt3 p0). set (v1 := pt3 p1). set (v2 := pt3 p2). set (v3 := pt3 p3).
  assert (W0 : w1 v0) by reflexivity. assert (W1 : w1 v1) by reflexivity.
  assert (W2 : w1 v2) by reflexivity. assert (W3 : w1 v3) by reflexivity.
  destruct (tj_value 0 v0 v1 alpha Ha) as (d1 & E1 & P1 & _). rewrite E1. cbn [obind].
  destruct (tj_value (0 + d1) v1 v2 alpha Ha) as (d2 & E2 & P2 & Q2). rewrite E2. cbn [obind].
  destruct (tj_value (0 + d1 + d2) v2 v3 alpha Ha) as (d3 & E3 & P3 & _). rewrite E3. cbn [obind].
  replace (0 + d1 + d2 - (0 + d1)) with d2 by ring.
  destruct (Rltb d2 tiny) eqn:L.
  - apply Rltb_true in L. f_equal. symmetry. apply same_eq; auto.
  - apply Rltb_false in L. pose proof tiny_pos. f_equal.
    replace (0 + d1 + d2 * 0) with (0 + d1) by ring.
    rewrite (blend_end v0 v1) by assumption.
    rewrite (blend_start v1 v2) by (assumption || lra).
    rewrite (blend_same v1) by assumption.
    rewrite (blend_start v1) by (assumption || lra).
    apply pt3_idem, W1.
Qed.

Lemma catmull_end p0 p1 p2 p3 alpha : 0 <= alpha -> apart alpha p2 p3 ->
  catmullrom_point p0 p1 p2 p3 alpha 1 = Val (pt3 p2).
Proof.
  intros Ha A. unfold catmullrom_point.
  set (v0 := pt3 p0). set (v1 := pt3 p1). set (v2 := pt3 p2). set (v3 := pt3 p3).
  assert (W0 : w1 v0) by reflexivity. assert (W1 : w1 v1) by reflexivity.
  assert (W2 : w1 v2) by reflexivity. assert (W3 : w1 v3) by reflexivity.
  destruct (tj_value 0 v0 v1 alpha Ha) as (d1 & E1 & P1 & _). rewrite E1. cbn [obind].
  destruct (tj_value (0 + d1) v1 v2 alpha Ha) as (d2 & E2 & P2 & _). rewrite E2. cbn [obind].
  destruct (tj_value (0 + d1 + d2) v2 v3 alpha Ha) as (d3 & E3 & P3 & Q3). rewrite E3. cbn [obind].
  replace (0 + d1 + d2 - (0 + d1)) with d2 by ring.
  destruct (Rltb d2 tiny) eqn:L; [reflexivity|].
  apply Rltb_false in L. pose proof tiny_pos. f_equal.
  replace (0 + d1 + d2 * 1) with (0 + d1 + d2) by ring.
  rewrite (blend_end v1 v2) by assumption.
  assert (A3 : catmull_blend v2 v3 (0 + d1 + d2) (0 + d1 + d2 + d3) (0 + d1 + d2) = v2).
  { destruct (Rlt_le_dec d3 tiny) as [S|B].
    - assert (Eq : v2 = v3) by (apply same_eq; auto). rewrite <- Eq. now apply blend_same.
    - apply blend_start; [assumption|lra]. }
  rewrite A3, (blend_same v2) by assumption.
  rewrite blend_end by assumption. apply pt3_idem, W2.
Qed.

(** The control point with index i, cyclically for closed curves. *)
Lemma neighbours_mid ctrl (closed : bool) (idx : nat) : (2 <= length ctrl)%nat ->
  (idx < if closed then length ctrl else (length ctrl - 1))%nat ->
  exists p0 p3,
    neighbours ctrl closed idx =
      (p0, nth (idx mod length ctrl)%nat ctrl (point 0 0 0), nth ((idx + 1) mod length ctrl)%nat ctrl (point 0 0 0), p3) /\
    (p3 = nth ((idx + 2) mod length ctrl)%nat ctrl (point 0 0 0) /\ (closed = true \/ idx + 2 <> length ctrl)%nat
     \/ p3 = nth ((idx + 1) mod length ctrl)%nat ctrl (point 0 0 0) /\ closed = false /\ (idx + 2 = length ctrl)%nat).
Proof.
  intros L H. unfold neighbours. destruct closed.
  - do 2 eexists. split; [reflexivity|]. left. split; [reflexivity|now left].
  - do 2 eexists. split.
    + rewrite (Nat.mod_small (idx + 1)) by lia.
      replace (Nat.min (idx + 1) (length ctrl - 1)) with (idx + 1)%nat by lia. reflexivity.
    + destruct (Nat.eq_dec (idx + 2) (length ctrl)) as [E|N].
      * right. rewrite (Nat.mod_small (idx + 1)) by lia.
        replace (Nat.min (idx + 2) (length ctrl - 1)) with (idx + 1)%nat by lia. auto.
      * left. rewrite (Nat.mod_small (idx + 2)) by lia.
        replace (Nat.min (idx + 2) (length ctrl - 1)) with (idx + 2)%nat by lia.
        split; [reflexivity|now right].
Qed.

Lemma span_start ctrl closed alpha idx : (2 <= length ctrl)%nat -> 0 <= alpha -> all_apart alpha ctrl closed ->
  (idx < seg_count ctrl closed)%nat -> span_point ctrl closed alpha idx 0 = Val (pt3 (ctl ctrl idx)).
Proof.
  intros L Ha A H. destruct (neighbours_mid ctrl closed idx L H) as (p0 & p3 & E & _).
  unfold span_point. rewrite E. apply catmull_start; [assumption|]. apply A, H.
Qed.

Lemma span_end ctrl closed alpha idx : (2 <= length ctrl)%nat -> 0 <= alpha -> all_apart alpha ctrl closed ->
  (idx < seg_count ctrl closed)%nat -> span_point ctrl closed alpha idx 1 = Val (pt3 (ctl ctrl (idx + 1))).
Proof.
  intros L Ha A H. destruct (neighbours_mid ctrl closed idx L H) as (p0 & p3 & E & C).
  unfold span_point. rewrite E. apply catmull_end; [assumption|].
  destruct C as [(-> & C)|(-> & _)]; [|left; unfold same_place; auto].
  destruct closed.
  - cbn [seg_count] in *.
    destruct (Nat.eq_dec (idx + 1) (length ctrl)) as [Eq|N].
    + specialize (A 0%nat ltac:(cbn; lia)). unfold ctl in A. cbn [Nat.add] in A.
      replace (idx + 2)%nat with (1 + 1 * length ctrl)%nat by lia. rewrite Nat.mod_add by lia.
      unfold ctl. rewrite Eq, Nat.mod_same by lia. rewrite (Nat.mod_small 0) in A by lia. exact A.
    + specialize (A (idx + 1)%nat ltac:(cbn; lia)). unfold ctl in A.
      replace (idx + 1 + 1)%nat with (idx + 2)%nat in A by lia. exact A.
  - unfold all_apart, seg_count in *.
    destruct (Nat.eq_dec (idx + 2) (length ctrl)) as [Eq|N].
    + destruct C as [C|C]; [discriminate|contradiction].
    + specialize (A (idx + 1)%nat ltac:(lia)). unfold ctl in A.
      replace (idx + 1 + 1)%nat with (idx + 2)%nat in A by lia. exact A.
Qed.

Lemma evaluate_at_knot ctrl closed alpha j : (2 <= length ctrl)%nat -> 0 <= alpha -> all_apart alpha ctrl closed ->
  (j <= seg_count ctrl closed)%nat ->
  evaluate_catmullrom ctrl closed alpha (INR j / INR (seg_count ctrl closed)) = Val (pt3 (ctl ctrl j)).
Proof.
  intros L Ha A H.
  set (sc := seg_count ctrl closed) in *.
  assert (SP : (0 < sc)%nat) by (unfold sc, seg_count; destruct closed; lia).
  assert (P : 0 < INR sc) by (apply lt_0_INR; lia).
  assert (CL : clamp01 (INR j / INR sc) * INR sc = INR j).
  { rewrite clamp01_id; [field; lra|]. assert (INR j <= INR sc) by (apply le_INR; lia).
    pose proof (pos_INR j). split.
    - apply Rmult_le_pos; [lra|]. apply Rlt_le, Rinv_0_lt_compat, P.
    - apply Rmult_le_reg_r with (INR sc); [assumption|]. unfold Rdiv. rewrite Rmult_assoc, Rinv_l by lra. lra. }
  assert (IP : Z.to_nat (Int_part (INR j)) = j) by (rewrite Int_part_INR; apply Nat2Z.id).
  assert (EV : evaluate_catmullrom ctrl closed alpha (INR j / INR sc) =
     (if Nat.leb sc (Z.to_nat (Int_part (clamp01 (INR j / INR sc) * INR sc)))
      then span_point ctrl closed alpha (sc - 1) 1
      else span_point ctrl closed alpha (Z.to_nat (Int_part (clamp01 (INR j / INR sc) * INR sc)))
             (clamp01 (INR j / INR sc) * INR sc - INR (Z.to_nat (Int_part (clamp01 (INR j / INR sc) * INR sc)))))).
  { unfold sc, seg_count. unfold evaluate_catmullrom.
    destruct ctrl as [|a [|b r]]; [cbn in L; lia|cbn in L; lia|reflexivity]. }
  rewrite EV, CL, IP. destruct (Nat.leb_spec sc j) as [G|G].
  - rewrite span_end by (assumption || (fold sc; lia)).
    now replace (sc - 1 + 1)%nat with j by lia.
  - replace (INR j - INR j) with 0 by ring. apply span_start; assumption.
Qed.

(** * Sampling *)
Lemma concat_nth {A} (S : nat) : forall (ll : list (list A)) i j l d, (j < S)%nat ->
  (forall x, In x ll -> length x = S) -> nth_error ll i = Some l ->
  nth (i * S + j) (concat ll) d = nth j l d.
Proof.
  induction ll as [|x ll IH]; intros [|i] j l d Hj Hl Hi; cbn in Hi; try discriminate.
  - assert (x = l) by congruence; subst. cbn [concat]. apply app_nth1.
    rewrite Hl by now left. assumption.
  - cbn [concat]. assert (Lx : length x = S) by (apply Hl; now left).
    rewrite app_nth2 by (rewrite Lx; cbn; lia). rewrite Lx.
    replace (Datatypes.S i * S + j - S)%nat with (i * S + j)%nat by (cbn; lia).
    apply IH; auto. intros; apply Hl; now right.
Qed.

Lemma concat_length_same {A} (S : nat) (ll : list (list A)) :
  (forall x, In x ll -> length x = S) -> length (concat ll) = (length ll * S)%nat.
Proof.
  induction ll as [|x ll IH]; intros H; [reflexivity|].
  cbn [concat]. rewrite app_length, (H x) by now left. rewrite IH by (intros; apply H; now right). reflexivity.
Qed.

Lemma span_total ctrl closed alpha idx tau : 0 <= alpha -> exists q, span_point ctrl closed alpha idx tau = Val q.
Proof.
  intros Ha. unfold span_point. destruct (neighbours ctrl closed idx) as [[[p0 p1] p2] p3].
  unfold catmullrom_point.
  destruct (tj_value 0 (pt3 p0) (pt3 p1) alpha Ha) as (d1 & E1 & _). rewrite E1. cbn [obind].
  destruct (tj_value (0 + d1) (pt3 p1) (pt3 p2) alpha Ha) as (d2 & E2 & _). rewrite E2. cbn [obind].
  destruct (tj_value (0 + d1 + d2) (pt3 p2) (pt3 p3) alpha Ha) as (d3 & E3 & _). rewrite E3. cbn [obind].
  destruct (Rltb _ _); eauto.
Qed.

Lemma sample_through ctrl closed alpha S : (2 <= length ctrl)%nat -> 0 <= alpha -> all_apart alpha ctrl closed ->
  (1 <= S)%nat ->
  exists samples, sample_catmullrom ctrl closed alpha S = Val samples /\
    length samples = (seg_count ctrl closed * S + 1)%nat /\
    forall i, (i <= seg_count ctrl closed)%nat ->
      same_place (nth (i * S) samples (point 0 0 0)) (ctl ctrl i).
Proof.
  intros L Ha A HS. unfold sample_catmullrom.
  replace (Nat.ltb S 1) with false by (symmetry; apply Nat.ltb_ge; lia).
  replace (Nat.ltb (length ctrl) 2) with false by (symmetry; apply Nat.ltb_ge; lia).
  change (if closed then length ctrl else (length ctrl - 1)%nat) with (seg_count ctrl closed).
  set (row := fun i => collect (fun step => span_point ctrl closed alpha i (INR step / INR S)) (seq 1 S)).
  destruct (collect_all row (seq 0 (seg_count ctrl closed))) as (spans & Es).
  { intros i _. apply collect_all. intros s _. now apply span_total. }
  rewrite Es. cbn [obind]. eexists. split; [reflexivity|].
  destruct (collect_nth _ _ _ Es) as (Ls & Ns). rewrite seq_length in Ls.
  assert (AS : forall x, In x spans -> length x = S).
  { intros x Hx. apply In_nth_error in Hx. destruct Hx as [i Hi].
    assert (i < length spans)%nat by (apply nth_error_Some; congruence).
    destruct (Ns i i) as (b & Eb & Nb).
    { rewrite (nth_error_nth' _ 0%nat) by (rewrite seq_length; lia). rewrite seq_nth by lia. reflexivity. }
    assert (b = x) by congruence; subst b. unfold row in Eb.
    apply collect_nth in Eb. rewrite seq_length in Eb. apply Eb. }
  split.
  - cbn [length]. rewrite (concat_length_same S) by assumption. rewrite Ls. lia.
  - intros [|i] Hi.
    + cbn [Nat.mul nth]. unfold ctl. rewrite Nat.mod_0_l by lia. unfold same_place. auto.
    + replace (Datatypes.S i * S)%nat with (Datatypes.S (i * S + (S - 1))) by (cbn; lia).
      cbn [nth].
      destruct (Ns i i) as (b & Eb & Nb).
      { rewrite (nth_error_nth' _ 0%nat) by (rewrite seq_length; lia). rewrite seq_nth by lia. reflexivity. }
      rewrite (concat_nth S _ i (S - 1) b) by (assumption || lia).
      unfold row in Eb. destruct (collect_nth _ _ _ Eb) as (_ & Nb').
      destruct (Nb' (S - 1)%nat S) as (q & Eq & Nq).
      { rewrite (nth_error_nth' _ 0%nat) by (rewrite seq_length; lia). rewrite seq_nth by lia. f_equal. lia. }
      rewrite (nth_error_nth _ _ _ Nq).
      replace (INR S / INR S) with 1 in Eq by (field; apply not_0_INR; lia).
      rewrite span_end in Eq by (assumption || lia).
      assert (q = pt3 (ctl ctrl (i + 1))) by congruence. subst q.
      replace (Datatypes.S i) with (i + 1)%nat by lia. unfold same_place. auto.
Qed.
