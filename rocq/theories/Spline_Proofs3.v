(** The evaluation code of B-splines and NURBS against the Cox-de Boor basis. *)
From Coq Require Import Reals List Bool ZArith Lia Lra.
From Verif Require Import Xform_Model Xform_Proofs Spline_Model Spline_Spec Spline_Proofs Spline_Proofs2.
Import ListNotations.
Open Scope R_scope.

Definition kf (knots : list R) (i : nat) : R := nth i knots 0.

Lemma at_nth knots i : (i < length knots)%nat -> at_ knots i = Val (kf knots i).
Proof.
  intros H. unfold at_, kf. destruct (nth_error knots i) as [x|] eqn:E.
  - f_equal. symmetry. apply nth_error_nth, E.
  - apply nth_error_None in E. lia.
Qed.

Definition bbase (knots : list R) (u : R) (i : nat) : R :=
  if Rleb (kf knots i) u && Rltb u (kf knots (i + 1)) then 1
  else if Reqb u (last knots 0) && (Rleb (kf knots i) u && Rleb u (kf knots (i + 1))) then 1 else 0.
Definition nbase (knots : list R) (u : R) (i : nat) : R :=
  if (Rleb (kf knots i) u && Rltb u (kf knots (i + 1)))
     || (Reqb u (last knots 0) && Rltb (kf knots i) (kf knots (i + 1))) then 1 else 0.

Lemma Reqb_true a b : Reqb a b = true <-> a = b.
Proof. unfold Reqb. destruct (Req_EM_T a b); split; congruence. Qed.
Lemma Reqb_false a b : Reqb a b = false <-> a <> b.
Proof. unfold Reqb. destruct (Req_EM_T a b); split; congruence. Qed.

Lemma tiny_pos : 0 < tiny. Proof. unfold tiny. lra. Qed.

(** Knot differences are zero or larger than 1e-12. *)
Definition spaced (knots : list R) : Prop :=
  forall i j, (i <= j < length knots)%nat ->
    kf knots j - kf knots i = 0 \/ tiny < kf knots j - kf knots i.

Lemma bspline_basis_coxb knots u : spaced knots -> forall p i, (i + p + 1 < length knots)%nat ->
  bspline_basis i p u knots = Val (coxb (bbase knots u) (kf knots) i p u).
Proof.
  intros SP. induction p as [|q IH]; intros i Hi.
  - cbn [bspline_basis coxb].
    replace (Nat.leb (length knots) (i + 1)) with false by (symmetry; apply Nat.leb_gt; lia).
    rewrite !at_nth by lia. cbn [obind]. unfold bbase.
    destruct (_ && _); [reflexivity|]. destruct (_ && _); reflexivity.
  - cbn [bspline_basis coxb].
    rewrite !at_nth by lia. cbn [obind].
    rewrite (IH i) by lia. cbn [obind].
    set (d1 := kf knots (i + S q) - kf knots i).
    assert (E1 : (if Rltb tiny d1 then Val ((u - kf knots i) / d1 * coxb (bbase knots u) (kf knots) i q u) else Val 0)
       = Val (frac (u - kf knots i) d1 * coxb (bbase knots u) (kf knots) i q u)).
    { destruct (SP i (i + S q)%nat ltac:(lia)) as [Z|Z]; fold d1 in Z.
      - rewrite (frac_0 _ _ Z), Rmult_0_l.
        destruct (Rltb tiny d1) eqn:L; [|reflexivity]. apply Rltb_true in L. pose proof tiny_pos; lra.
      - rewrite frac_n by (pose proof tiny_pos; lra).
        now replace (Rltb tiny d1) with true by (symmetry; apply Rltb_true; assumption). }
    rewrite E1. cbn [obind].
    replace (Nat.ltb (i + S q + 1) (length knots)) with true by (symmetry; apply Nat.ltb_lt; lia).
    rewrite (IH (i + 1)%nat) by lia. cbn [obind].
    replace (i + S q + 1)%nat with (S (i + S q)) by lia. replace (i + 1)%nat with (S i) by lia.
    set (d2 := kf knots (S (i + S q)) - kf knots (S i)).
    assert (E2 : (if Rltb tiny d2 then Val ((kf knots (S (i + S q)) - u) / d2 * coxb (bbase knots u) (kf knots) (S i) q u) else Val 0)
       = Val (frac (kf knots (S (i + S q)) - u) d2 * coxb (bbase knots u) (kf knots) (S i) q u)).
    { destruct (SP (S i) (S (i + S q)) ltac:(lia)) as [Z|Z]; fold d2 in Z.
      - rewrite (frac_0 _ _ Z), Rmult_0_l.
        destruct (Rltb tiny d2) eqn:L; [|reflexivity]. apply Rltb_true in L. pose proof tiny_pos; lra.
      - rewrite frac_n by (pose proof tiny_pos; lra).
        now replace (Rltb tiny d2) with true by (symmetry; apply Rltb_true; assumption). }
    rewrite E2. reflexivity.
Qed.

Lemma nip_coxb knots u : forall p i, (i + p + 1 < length knots)%nat ->
  nip i p u knots = Val (coxb (nbase knots u) (kf knots) i p u).
Proof.
  induction p as [|q IH]; intros i Hi.
  - cbn [nip coxb]. rewrite !at_nth by lia. cbn [obind]. unfold nbase. destruct (_ || _); reflexivity.
  - cbn [nip coxb].
    rewrite !at_nth by lia. cbn [obind].
    rewrite (IH i), (IH (i + 1)%nat) by lia. cbn [obind].
    replace (i + S q + 1)%nat with (S (i + S q)) by lia. replace (i + 1)%nat with (S i) by lia.
    assert (E : forall d a x, (if Reqb d 0 then Val 0 else Val (a / d * x)) = Val (frac a d * x)).
    { intros d a x. destruct (Reqb d 0) eqn:L.
      - apply Reqb_true in L. now rewrite frac_0, Rmult_0_l.
      - apply Reqb_false in L. now rewrite frac_n. }
    rewrite !E. cbn [obind]. reflexivity.
Qed.

Lemma base_before knots u i : u < last knots 0 ->
  bbase knots u i = half_open (kf knots) u i /\ nbase knots u i = half_open (kf knots) u i.
Proof.
  intros H. unfold bbase, nbase, half_open.
  replace (Reqb u (last knots 0)) with false by (symmetry; apply Reqb_false; lra).
  rewrite !andb_false_l, orb_false_r. replace (i + 1)%nat with (S i) by lia.
  unfold Rleb, Rltb. destruct (Rle_dec _ _), (Rlt_dec _ _); cbn [andb]; auto.
Qed.

(** * Accumulation *)
Lemma weigh_value basis w pts : forall i acc,
  (forall j, (i <= j < i + length pts)%nat -> basis j = Val (w j)) ->
  vw acc = 1 ->
  weigh basis i pts acc =
    Val (point (vx acc + weighted vx w i pts) (vy acc + weighted vy w i pts) (vz acc + weighted vz w i pts)).
Proof.
  induction pts as [|p r IH]; intros i acc H W; cbn [weigh weighted].
  - rewrite !Rplus_0_r. destruct acc; cbn in *; subst. reflexivity.
  - rewrite H by (cbn; lia). cbn [obind]. rewrite IH; [|intros; apply H; cbn [length] in *; lia|reflexivity].
    cbn [vx vy vz point]. f_equal. unfold point. f_equal; ring.
Qed.

Lemma weighted_map_pt3 w pts : forall i,
  weighted vx w i (map pt3 pts) = weighted vx w i pts /\
  weighted vy w i (map pt3 pts) = weighted vy w i pts /\
  weighted vz w i (map pt3 pts) = weighted vz w i pts.
Proof.
  induction pts as [|p r IH]; intros i; cbn [weighted map]; [auto|].
  destruct (IH (S i)) as (-> & -> & ->). auto.
Qed.

(** * The clamped uniform knot vector *)
Definition ku (n p i : nat) : R := INR (Nat.min (i - p) (n - p)) / INR (n - p).

Lemma ku_clamped n p : (p < n)%nat -> clamped (ku n p) n p.
Proof.
  intros H. assert (P : 0 < INR (n - p)) by (apply lt_0_INR; lia).
  assert (PI : 0 < / INR (n - p)) by now apply Rinv_0_lt_compat.
  unfold clamped, ku. repeat apply conj.
  - intros i _. apply Rmult_le_compat_r; [lra|]. apply le_INR. lia.
  - intros i Hi. replace (Nat.min (i - p) (n - p)) with 0%nat by lia.
    replace (Nat.min (0 - p) (n - p)) with 0%nat by lia. reflexivity.
  - intros i Hi. replace (Nat.min (i - p) (n - p)) with (n - p)%nat by lia.
    now replace (Nat.min (n - p) (n - p)) with (n - p)%nat by lia.
  - apply Rmult_lt_compat_r; [lra|]. apply lt_INR. lia.
  - apply Rmult_lt_compat_r; [lra|]. apply lt_INR. lia.
Qed.

Lemma ku_gap n p i j : (p < n)%nat -> INR (n - p) < 1000000000000 -> (i <= j)%nat ->
  ku n p j - ku n p i = 0 \/ tiny < ku n p j - ku n p i.
Proof.
  intros H B L. unfold ku. assert (P : 0 < INR (n - p)) by (apply lt_0_INR; lia).
  set (a := Nat.min (i - p) (n - p)). set (b := Nat.min (j - p) (n - p)).
  assert (Lab : (a <= b)%nat) by (unfold a, b; lia).
  destruct (Nat.eq_dec a b) as [->|N]; [left; lra|right].
  assert (G : INR a + 1 <= INR b) by (rewrite <- S_INR; apply le_INR; lia).
  unfold Rdiv. rewrite <- Rmult_minus_distr_r.
  apply Rlt_le_trans with (1 * / INR (n - p)).
  - unfold tiny. rewrite Rmult_1_l. unfold Rdiv. rewrite Rmult_1_l.
    apply Rinv_lt_contravar; [|assumption]. apply Rmult_lt_0_compat; lra.
  - apply Rmult_le_compat_r; [apply Rlt_le, Rinv_0_lt_compat, P|lra].
Qed.

Lemma ku_0 n p : ku n p 0 = 0.
Proof. unfold ku. replace (Nat.min (0 - p) (n - p)) with 0%nat by lia. cbn. unfold Rdiv. ring. Qed.
Lemma ku_n n p : (p < n)%nat -> ku n p n = 1.
Proof. intros H. unfold ku. rewrite Nat.min_id. field. apply not_0_INR. lia. Qed.

Lemma uniform_length n p : length (uniform_knot_vector n p false) = (n + p + 1)%nat.
Proof. unfold uniform_knot_vector. now rewrite map_length, seq_length. Qed.

Lemma uniform_ku n p i : (p < n)%nat -> (i < n + p + 1)%nat -> kf (uniform_knot_vector n p false) i = ku n p i.
Proof.
  intros H Hi. unfold kf, uniform_knot_vector. rewrite nth_map_seq by assumption.
  unfold ku. destruct (Nat.ltb_spec i (p + 1)) as [L|L].
  - replace (Nat.min (i - p) (n - p)) with 0%nat by lia. cbn. unfold Rdiv. ring.
  - replace (n + p + 1 - p - 1)%nat with n by lia.
    destruct (Nat.leb_spec n i) as [L'|L'].
    + replace (Nat.min (i - p) (n - p)) with (n - p)%nat by lia. field. apply not_0_INR. lia.
    + replace (Nat.min (i - p) (n - p)) with (i - p)%nat by lia. rewrite !minus_INR by lia. reflexivity.
Qed.

Lemma open_uniform_ku n p i : (p < n)%nat -> (i < n + p + 1)%nat ->
  kf (open_uniform_knot_vector n p) i = ku n p i.
Proof.
  intros H Hi. unfold kf, open_uniform_knot_vector.
  assert (E : firstn (n + p + 1)
    (repeat 0 (p + 1) ++ (if Nat.ltb 0 (n - p - 1) then map (fun j => INR j / INR (n - p)) (seq 1 (n - p - 1)) else []) ++ repeat 1 (p + 1))
    = repeat 0 (p + 1) ++ map (fun j => INR j / INR (n - p)) (seq 1 (n - p - 1)) ++ repeat 1 (p + 1)).
  { assert (M : (if Nat.ltb 0 (n - p - 1) then map (fun j => INR j / INR (n - p)) (seq 1 (n - p - 1)) else [])
              = map (fun j => INR j / INR (n - p)) (seq 1 (n - p - 1))).
    { destruct (Nat.ltb_spec 0 (n - p - 1)) as [L|L]; [reflexivity|].
      now replace (n - p - 1)%nat with 0%nat by lia. }
    rewrite M. apply firstn_all2. rewrite !app_length, !repeat_length, map_length, seq_length. lia. }
  rewrite E. unfold ku.
  destruct (le_lt_dec (p + 1) i) as [L|L].
  - rewrite app_nth2 by (now rewrite repeat_length). rewrite repeat_length.
    destruct (le_lt_dec n i) as [L'|L'].
    + rewrite app_nth2 by (rewrite map_length, seq_length; lia). rewrite map_length, seq_length.
      replace (Nat.min (i - p) (n - p)) with (n - p)%nat by lia.
      assert (R1 : forall m j d, (j < m)%nat -> nth j (repeat 1 m) d = 1).
      { induction m as [|m IH]; intros [|j] d Hj; cbn; try lia; [reflexivity|]. apply IH. lia. }
      rewrite R1 by lia. field. apply not_0_INR. lia.
    + rewrite app_nth1 by (rewrite map_length, seq_length; lia).
      replace (Nat.min (i - p) (n - p)) with (i - p)%nat by lia.
      rewrite (nth_indep _ 0 (INR 0 / INR (n - p))) by (rewrite map_length, seq_length; lia).
      rewrite (map_nth (fun j => INR j / INR (n - p)) (seq 1 (n - p - 1)) 0%nat).
      rewrite seq_nth by lia. now replace (1 + (i - (p + 1)))%nat with (i - p)%nat by lia.
  - rewrite app_nth1 by (now rewrite repeat_length).
    replace (Nat.min (i - p) (n - p)) with 0%nat by lia.
    assert (R0 : forall m j, nth j (repeat 0 m) 0 = 0).
    { induction m as [|m IH]; intros [|j]; cbn; auto. }
    rewrite R0. cbn. unfold Rdiv. ring.
Qed.

Lemma open_uniform_length n p : (p < n)%nat -> length (open_uniform_knot_vector n p) = (n + p + 1)%nat.
Proof.
  intros H. unfold open_uniform_knot_vector.
  rewrite firstn_length, !app_length, !repeat_length.
  destruct (Nat.ltb_spec 0 (n - p - 1)) as [L|L]; [rewrite map_length, seq_length|cbn [length]]; lia.
Qed.

Lemma last_kf knots : knots <> [] -> last knots 0 = kf knots (length knots - 1).
Proof.
  intros H. unfold kf. destruct (exists_last H) as (l & x & ->).
  rewrite last_last, app_length. cbn [length].
  replace (length l + 1 - 1)%nat with (length l) by lia. now rewrite nth_middle.
Qed.

Lemma cox_ext k k' p : forall i u,
  (forall j, (i <= j <= S (i + p))%nat -> k j = k' j) -> cox k i p u = cox k' i p u.
Proof.
  induction p as [|q IH]; intros i u H; cbn [cox].
  - rewrite (H i), (H (S i)) by lia. reflexivity.
  - rewrite (IH i), (IH (S i)), (H i), (H (i + S q)%nat), (H (S (i + S q))), (H (S i)); try lia; [reflexivity| |];
      intros; apply H; lia.
Qed.

Lemma clamped_ext k k' n p : (p < n)%nat -> (forall i, (i <= n + p)%nat -> k i = k' i) -> clamped k n p -> clamped k' n p.
Proof.
  intros H E (A & B & C & D & F). unfold clamped. repeat apply conj.
  - intros i Hi. rewrite <- !E by lia. auto.
  - intros i Hi. rewrite <- !E by lia. auto.
  - intros i Hi. rewrite <- !E by lia. auto.
  - rewrite <- !E by lia. auto.
  - rewrite <- !E by lia. auto.
Qed.

(** * B-splines *)
(** the weights of the code for an open B-spline *)
Definition bweights (n p : nat) (t : R) (i : nat) : R :=
  coxb (bbase (uniform_knot_vector n p false) t) (kf (uniform_knot_vector n p false)) i p t.

Lemma uniform_spaced n p : (p < n)%nat -> INR (n - p) < 1000000000000 -> spaced (uniform_knot_vector n p false).
Proof.
  intros H B i j Hij. rewrite uniform_length in Hij. rewrite !uniform_ku by lia. apply ku_gap; lia || assumption.
Qed.

Lemma uniform_clamped n p : (p < n)%nat -> clamped (kf (uniform_knot_vector n p false)) n p.
Proof.
  intros H. apply (clamped_ext (ku n p)); [assumption| |now apply ku_clamped].
  intros i Hi. rewrite uniform_ku by lia. reflexivity.
Qed.

Lemma uniform_last n p : (p < n)%nat -> last (uniform_knot_vector n p false) 0 = 1.
Proof.
  intros H. rewrite last_kf.
  - rewrite uniform_length, uniform_ku by lia. rewrite (knots_end _ _ _ (ku_clamped n p H)) by lia. now apply ku_n.
  - intros E. pose proof (uniform_length n p) as L. rewrite E in L. cbn in L. lia.
Qed.

Lemma bspline_value pts t p : (p < length pts)%nat -> INR (length pts - p) < 1000000000000 ->
  exists q, bspline_point pts t p false = Val q /\ vw q = 1 /\
            is_combination q (bweights (length pts) p (clamp01 t)) pts.
Proof.
  intros H B. unfold bspline_point. rewrite map_length.
  replace (Nat.ltb (length pts) (p + 1)) with false by (symmetry; apply Nat.ltb_ge; lia).
  rewrite (weigh_value _ (bweights (length pts) p (clamp01 t))); [|  |reflexivity].
  - eexists. split; [reflexivity|]. split; [reflexivity|].
    destruct (weighted_map_pt3 (bweights (length pts) p (clamp01 t)) pts 0) as (-> & -> & ->).
    unfold is_combination. cbn. rewrite !Rplus_0_l. auto.
  - intros j Hj. rewrite map_length in Hj. apply bspline_basis_coxb; [now apply uniform_spaced|].
    rewrite uniform_length. lia.
Qed.

Lemma bweights_cox n p t i : (p < n)%nat -> 0 <= t < 1 -> (i < n)%nat ->
  bweights n p t i = cox (ku n p) i p t.
Proof.
  intros H Ht Hi. unfold bweights.
  rewrite (coxb_ext _ (half_open (kf (uniform_knot_vector n p false)) t)).
  - rewrite <- cox_coxb. apply cox_ext. intros j Hj. apply uniform_ku; lia.
  - intros j _. apply base_before. rewrite uniform_last by assumption. lra.
Qed.

Lemma bweights_end n p i : (p < n)%nat -> (i < n)%nat ->
  bweights n p 1 i = if Nat.eqb i (n - 1) then 1 else 0.
Proof.
  intros H Hi. unfold bweights.
  assert (E : kf (uniform_knot_vector n p false) n = 1) by (rewrite uniform_ku by lia; now apply ku_n).
  rewrite <- E at 2. apply (coxb_last _ n p (uniform_clamped n p H) H); [|lia|assumption].
  intros j Hj. unfold bbase. rewrite uniform_last by assumption.
  replace (j + 1)%nat with (S j) by lia. rewrite !uniform_ku by lia.
  assert (P : 0 < INR (n - p)) by (apply lt_0_INR; lia).
  assert (LE : forall m, ku n p m <= 1).
  { intros m. rewrite <- (ku_n n p H). unfold ku. apply Rmult_le_compat_r.
    - apply Rlt_le, Rinv_0_lt_compat, P.
    - apply le_INR. lia. }
  replace (Rltb 1 (ku n p (S j))) with false by (symmetry; apply Rltb_false; apply LE).
  rewrite andb_false_r. replace (Reqb 1 1) with true by (symmetry; now apply Reqb_true).
  replace (Rleb (ku n p j) 1) with true by (symmetry; apply Rleb_true; apply LE). cbn [andb].
  destruct (Nat.eqb_spec j (n - 1)) as [->|N].
  - replace (S (n - 1)) with n by lia. rewrite ku_n by assumption.
    now replace (Rleb 1 1) with true by (symmetry; apply Rleb_true; lra).
  - assert (L : ku n p (S j) < 1).
    { apply Rle_lt_trans with (ku n p (n - 1)).
      - apply (knots_le _ _ _ (ku_clamped n p H)); lia.
      - rewrite <- (ku_n n p H). apply (ku_clamped n p H). }
    now replace (Rleb 1 (ku n p (S j))) with false by (symmetry; apply Rleb_false; assumption).
Qed.

Lemma bweights_good n p t : (p < n)%nat -> 0 <= t <= 1 ->
  (forall i, (i < n)%nat -> 0 <= bweights n p t i) /\ total (bweights n p t) n = 1.
Proof.
  intros H [T0 T1]. destruct (Rle_lt_or_eq_dec t 1 T1) as [L|E].
  - split.
    + intros i Hi. rewrite bweights_cox by (lra || lia). apply (cox_nonneg _ _ _ (ku_clamped n p H)); lia.
    + rewrite (total_ext _ (fun i => cox (ku n p) i p t)) by (intros; now apply bweights_cox).
      pose proof (cox_total _ _ _ (ku_clamped n p H) H p t (le_n p)) as T.
      replace (n + p - p)%nat with n in T by lia.
      apply T; [rewrite ku_0; lra|rewrite ku_n by lia; lra].
  - subst t. split.
    + intros i Hi. rewrite bweights_end by assumption. destruct (Nat.eqb i (n - 1)); lra.
    + rewrite (total_ext _ (fun i => if Nat.eqb i (n - 1) then 1 else 0)) by (intros; now apply bweights_end).
      destruct n as [|m]; [lia|]. cbn [total]. replace (S m - 1)%nat with m by lia.
      rewrite Nat.eqb_refl. rewrite (total_ext _ (fun _ => 0)).
      * assert (Z : forall j, total (fun _ => 0) j = 0) by (induction j; cbn [total]; lra). rewrite Z. ring.
      * intros i Hi. destruct (Nat.eqb_spec i m); [lia|reflexivity].
Qed.

(** A point weight sequence concentrated on one index. *)
Lemma weighted_delta f w l p r : forall i,
  (forall j, (i <= j < i + length (l ++ p :: r))%nat -> w j = if Nat.eqb j (i + length l) then 1 else 0) ->
  weighted f w i (l ++ p :: r) = f p.
Proof.
  intros i H. rewrite weighted_app. cbn [weighted].
  rewrite app_length in H. cbn [length] in H.
  rewrite (weighted_zero f w l), (weighted_zero f w r), (H (i + length l)%nat).
  - rewrite Nat.eqb_refl. ring.
  - lia.
  - intros j Hj. rewrite H by lia. destruct (Nat.eqb_spec j (i + length l)); [lia|reflexivity].
  - intros j Hj. rewrite H by lia. destruct (Nat.eqb_spec j (i + length l)); [lia|reflexivity].
Qed.

Lemma combination_delta q w l p r : is_combination q w (l ++ p :: r) -> vw q = 1 ->
  (forall j, (j < length (l ++ p :: r))%nat -> w j = if Nat.eqb j (length l) then 1 else 0) -> q = pt3 p.
Proof.
  intros (X & Y & Z) W H.
  rewrite weighted_delta in X, Y, Z by (intros j Hj; cbn [Nat.add] in *; apply H; lia).
  destruct q; cbn in *; subst. reflexivity.
Qed.

Lemma bspline_first p0 r p t : (p <= length r)%nat -> INR (S (length r) - p) < 1000000000000 -> t <= 0 ->
  bspline_point (p0 :: r) t p false = Val (pt3 p0).
Proof.
  intros H B Ht. destruct (bspline_value (p0 :: r) t p) as (q & E & W & K); [cbn; lia|assumption|].
  rewrite E. f_equal. apply (combination_delta q _ [] p0 r K W).
  intros j Hj. cbn [app length] in *. rewrite (clamp01_low t Ht).
  rewrite bweights_cox by (lra || lia).
  pose proof (ku_clamped (S (length r)) p ltac:(lia)) as Kc.
  pose proof (cox_first _ _ _ Kc ltac:(lia) p j (le_n p) ltac:(lia)) as F.
  rewrite ku_0 in F. rewrite F.
  destruct (Nat.eqb_spec (j + p) p), (Nat.eqb_spec j 0); lia || reflexivity.
Qed.

Lemma bspline_last r pn p t : (p <= length r)%nat -> INR (S (length r) - p) < 1000000000000 -> 1 <= t ->
  bspline_point (r ++ [pn]) t p false = Val (pt3 pn).
Proof.
  intros H B Ht.
  assert (L : length (r ++ [pn]) = S (length r)) by (rewrite app_length; cbn; lia).
  destruct (bspline_value (r ++ [pn]) t p) as (q & E & W & K); [lia|now rewrite L|].
  rewrite E. f_equal. apply (combination_delta q _ r pn [] K W).
  intros j Hj. rewrite (clamp01_high t Ht). rewrite L in *. rewrite bweights_end by lia.
  now replace (S (length r) - 1)%nat with (length r) by lia.
Qed.

(** * Closed B-splines *)
Lemma weigh_app basis l : forall i r acc,
  weigh basis i (l ++ r) acc = obind (weigh basis i l acc) (fun a => weigh basis (i + length l) r a).
Proof.
  induction l as [|p l IH]; intros i r acc; cbn [weigh app length obind]; [now rewrite Nat.add_0_r|].
  destruct (basis i) as [b| |]; cbn [obind]; [|reflexivity|reflexivity].
  rewrite IH. replace (i + S (length l))%nat with (S i + length l)%nat by lia. reflexivity.
Qed.

Lemma at_no_value {A} (l : list A) i : at_ l i <> Value_Error.
Proof. unfold at_. destruct (nth_error l i); discriminate. Qed.

Lemma obind_no_value {A B} (m : out A) (f : A -> out B) :
  m <> Value_Error -> (forall a, f a <> Value_Error) -> obind m f <> Value_Error.
Proof. destruct m; cbn [obind]; auto; congruence. Qed.

Lemma bspline_basis_no_value knots u : forall p i, bspline_basis i p u knots <> Value_Error.
Proof.
  induction p as [|q IH]; intros i; cbn [bspline_basis].
  - destruct (Nat.leb _ _); [discriminate|].
    apply obind_no_value; [apply at_no_value|intros ki].
    apply obind_no_value; [apply at_no_value|intros kj].
    destruct (_ && _); [discriminate|]. destruct (_ && _); discriminate.
  - apply obind_no_value; [apply at_no_value|intros kp].
    apply obind_no_value; [apply at_no_value|intros ki].
    apply obind_no_value.
    { destruct (Rltb _ _); [|discriminate]. apply obind_no_value; [apply IH|discriminate]. }
    intros left. apply obind_no_value; [|discriminate].
    destruct (Nat.ltb _ _); [|discriminate].
    apply obind_no_value; [apply at_no_value|intros kr].
    apply obind_no_value; [apply at_no_value|intros kl].
    destruct (Rltb _ _); [|discriminate]. apply obind_no_value; [apply IH|discriminate].
Qed.

Lemma weigh_no_value basis pts : forall i acc, (forall j, basis j <> Value_Error) -> weigh basis i pts acc <> Value_Error.
Proof.
  induction pts as [|p r IH]; intros i acc H; cbn [weigh]; [discriminate|].
  specialize (H i) as Hi. destruct (basis i); cbn [obind]; [apply IH, H|congruence|discriminate].
Qed.

Lemma bspline_closed_fails pts t p : (2 <= p)%nat -> (p < length pts)%nat ->
  bspline_point pts t p true = Index_Error.
Proof.
  intros P2 H. unfold bspline_point. rewrite map_length.
  replace (Nat.ltb (length pts) (p + 1)) with false by (symmetry; apply Nat.ltb_ge; lia).
  set (knots := uniform_knot_vector (length pts) p true).
  assert (L : length knots = (length pts + p + 1)%nat)
    by (unfold knots, uniform_knot_vector; now rewrite map_length, seq_length).
  rewrite !at_nth by lia. cbn [obind].
  set (u := _ + _ * _).
  assert (F : exists l x, map pt3 pts ++ firstn p (map pt3 pts) = l ++ [x] /\ length l = (length pts + p - 1)%nat).
  { destruct (exists_last (l := map pt3 pts ++ firstn p (map pt3 pts))) as (l & x & E).
    - destruct pts; [cbn in H; lia|discriminate].
    - exists l, x. split; [exact E|]. apply (f_equal (@length _)) in E.
      rewrite !app_length, firstn_length, map_length in E. cbn [length] in E. lia. }
  destruct F as (l & x & -> & Ll). rewrite weigh_app.
  assert (NV := weigh_no_value (fun i => bspline_basis i p u knots) l 0 (point 0 0 0)
                  (fun j => bspline_basis_no_value knots u p j)).
  destruct (weigh _ 0 l (point 0 0 0)) as [a| |]; cbn [obind]; [|congruence|reflexivity].
  cbn [weigh Nat.add].
  destruct p as [|q]; [lia|].
  cbn [bspline_basis].
  assert (N : at_ knots (length l + S q) = Index_Error).
  { unfold at_. rewrite (proj2 (nth_error_None knots _)); [reflexivity|]. lia. }
  rewrite N. reflexivity.
Qed.

(** * NURBS *)
Lemma nurbs_sum_value basis b weights ctrl : forall i num den,
  (forall j, (i <= j < i + length ctrl)%nat -> basis j = Val (b j)) ->
  (i + length ctrl <= length weights)%nat -> vw num = 1 ->
  let w := fun j => kf weights j * b j in
  nurbs_sum basis i ctrl weights num den =
    Val (point (vx num + weighted vx w i ctrl) (vy num + weighted vy w i ctrl) (vz num + weighted vz w i ctrl),
         den + weighted (fun _ => 1) w i ctrl).
Proof.
  induction ctrl as [|p r IH]; intros i num den H LW W w; cbn [nurbs_sum weighted].
  - rewrite !Rplus_0_r. destruct num; cbn in *; subst. reflexivity.
  - cbn [length] in *. rewrite H by lia. cbn [obind].
    destruct (Reqb (b i) 0) eqn:Z.
    + apply Reqb_true in Z. rewrite IH; [|intros; apply H; lia|lia|assumption].
      assert (w i = 0) as E by (unfold w; rewrite Z; ring).
      fold w. rewrite E. f_equal. f_equal; [unfold point; f_equal; ring|ring].
    + rewrite at_nth by lia. cbn [obind]. rewrite IH; [|intros; apply H; lia|lia|reflexivity].
      fold w. f_equal. cbn. f_equal; [unfold point; f_equal; unfold w; ring|unfold w; ring].
Qed.

Lemma weighted_div f w d ctrl : forall i,
  weighted f (fun j => w j / d) i ctrl = weighted f w i ctrl / d.
Proof.
  induction ctrl as [|p r IH]; intros i; cbn [weighted]; [unfold Rdiv; ring|].
  rewrite IH. unfold Rdiv. ring.
Qed.

Lemma nurbs_point_value ctrl weights knots p u :
  length weights = length ctrl -> length knots = (length ctrl + p + 1)%nat -> ctrl <> [] ->
  let w := fun j => kf weights j * coxb (nbase knots u) (kf knots) j p u in
  let den := weighted (fun _ => 1) w 0 ctrl in
  den <> 0 ->
  exists q, nurbs_point ctrl weights knots p u = Val q /\ vw q = 1 /\
    is_combination q (fun j => w j / den) ctrl.
Proof.
  intros LW LK NE w den D. unfold nurbs_point.
  rewrite (nurbs_sum_value _ (fun j => coxb (nbase knots u) (kf knots) j p u)); [| |lia|reflexivity].
  2:{ intros j Hj. apply nip_coxb. lia. }
  cbn [obind]. fold w. fold den. rewrite Rplus_0_l.
  replace (Reqb den 0) with false by (symmetry; now apply Reqb_false).
  eexists. split; [reflexivity|]. split; [reflexivity|].
  assert (G := fun f => weighted_div f w den ctrl).
  unfold is_combination. cbn [vx vy vz point]. rewrite !G, !Rplus_0_l. auto.
Qed.
