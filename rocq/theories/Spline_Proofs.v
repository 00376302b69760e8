(** Bezier curves: De Casteljau's algorithm against the Bernstein form. *)
From Coq Require Import Reals List Bool ZArith Lia Lra.
From Verif Require Import Xform_Model Spline_Model Spline_Spec.
Import ListNotations.
Open Scope R_scope.

(** * Collecting *)
Lemma collect_nth {A B} (f : A -> out B) l bs :
  collect f l = Val bs ->
  length bs = length l /\
  (forall i a, nth_error l i = Some a -> exists b, f a = Val b /\ nth_error bs i = Some b).
Proof.
  revert bs; induction l as [|a l IH]; intros bs H; cbn [collect] in H.
  - assert (bs = []) by congruence; subst. split; [reflexivity|]. intros [|i] a; discriminate.
  - destruct (f a) as [b| |] eqn:E; cbn [obind] in H; try discriminate.
    destruct (collect f l) as [bs'| |] eqn:E'; cbn [obind] in H; try discriminate.
    assert (bs = b :: bs') by congruence; subst bs.
    destruct (IH bs' eq_refl) as [L N]. split; [cbn; congruence|].
    intros [|i] a' Ha; cbn in Ha |- *.
    + assert (a' = a) by congruence; subst. exists b; auto.
    + apply N, Ha.
Qed.

Lemma collect_all {A B} (f : A -> out B) l :
  (forall a, In a l -> exists b, f a = Val b) -> exists bs, collect f l = Val bs.
Proof.
  induction l as [|a l IH]; intros H; [now exists []|].
  destruct (H a) as [b Eb]; [now left|].
  destruct IH as [bs Es]; [intros; apply H; now right|].
  exists (b :: bs). cbn [collect]. now rewrite Eb; cbn [obind]; rewrite Es.
Qed.

Lemma collect_map {A B} (f : A -> out B) (g : A -> B) l :
  (forall a, In a l -> f a = Val (g a)) -> collect f l = Val (map g l).
Proof.
  induction l as [|a l IH]; intros H; [reflexivity|].
  cbn [collect map]. rewrite (H a) by now left. cbn [obind].
  rewrite IH by (intros; apply H; now right). reflexivity.
Qed.

(** * Clamping *)
Lemma clamp01_in t : 0 <= clamp01 t <= 1.
Proof. unfold clamp01, Rmax, Rmin. destruct (Rle_dec 1 t), (Rle_dec 0 _); lra. Qed.
Lemma clamp01_id t : 0 <= t <= 1 -> clamp01 t = t.
Proof. unfold clamp01, Rmax, Rmin. destruct (Rle_dec 1 t), (Rle_dec 0 _); lra. Qed.
Lemma clamp01_low t : t <= 0 -> clamp01 t = 0.
Proof. unfold clamp01, Rmax, Rmin. destruct (Rle_dec 1 t), (Rle_dec 0 _); lra. Qed.
Lemma clamp01_high t : 1 <= t -> clamp01 t = 1.
Proof. unfold clamp01, Rmax, Rmin. destruct (Rle_dec 1 t), (Rle_dec 0 _); lra. Qed.

(** * Scalar De Casteljau *)
Fixpoint bz (t : R) (f : nat -> R) (m i : nat) : R :=
  match m with
  | O => f i
  | S m' => (1 - t) * bz t f m' i + t * bz t f m' (S i)
  end.

Lemma bz_ext t f g m : forall i, (forall j, (j <= m)%nat -> f (i + j)%nat = g (i + j)%nat) -> bz t f m i = bz t g m i.
Proof.
  induction m as [|m IH]; intros i H; cbn [bz].
  - specialize (H 0%nat (le_n _)). now rewrite Nat.add_0_r in H.
  - rewrite (IH i), (IH (S i)); [reflexivity| |].
    + intros j Hj. specialize (H (S j)). rewrite Nat.add_succ_r in H. apply H; lia.
    + intros j Hj. apply H; lia.
Qed.

Lemma bz_0 f m : forall i, bz 0 f m i = f i.
Proof. induction m as [|m IH]; intros i; cbn [bz]; [reflexivity|]. rewrite !IH. ring. Qed.
Lemma bz_1 f m : forall i, bz 1 f m i = f (i + m)%nat.
Proof.
  induction m as [|m IH]; intros i; cbn [bz]; [now rewrite Nat.add_0_r|].
  rewrite !IH. replace (S i + m)%nat with (i + S m)%nat by lia. ring.
Qed.

Lemma bz_linear t f g h a b c m :
  (forall i, h i = a * f i + b * g i + c) ->
  forall i, bz t h m i = a * bz t f m i + b * bz t g m i + c.
Proof. intros H. induction m as [|m IH]; intros i; cbn [bz]; [apply H|]. rewrite !IH. ring. Qed.

Lemma bz_le t f d m : 0 <= t <= 1 ->
  forall i, (forall j, (j <= m)%nat -> f (i + j)%nat <= d) -> bz t f m i <= d.
Proof.
  intros Ht. induction m as [|m IH]; intros i H; cbn [bz].
  - specialize (H 0%nat (le_n _)). now rewrite Nat.add_0_r in H.
  - assert (bz t f m i <= d) by (apply IH; intros; apply H; lia).
    assert (bz t f m (S i) <= d)
      by (apply IH; intros j Hj; specialize (H (S j)); rewrite Nat.add_succ_r in H; apply H; lia).
    nra.
Qed.

(** difference of neighbours *)
Definition delta (f : nat -> R) (i : nat) : R := f (S i) - f i.

Lemma bz_delta t f m : forall i, bz t (delta f) m i = bz t f m (S i) - bz t f m i.
Proof. induction m as [|m IH]; intros i; cbn [bz]; [reflexivity|]. rewrite !IH. ring. Qed.

Lemma bz_derivative f m : forall i t,
  derivable_pt_lim (fun s => bz s f m i) t (INR m * bz t (delta f) (m - 1) i).
Proof.
  induction m as [|m IH]; intros i t.
  - cbn [bz INR]. replace (0 * bz t (delta f) (0 - 1) i) with 0 by ring. apply derivable_pt_lim_const.
  - cbn [bz].
    assert (D : derivable_pt_lim (fun s => (1 - s) * bz s f m i + s * bz s f m (S i)) t
      ((-1 * bz t f m i + (1 - t) * (INR m * bz t (delta f) (m - 1) i))
       + (1 * bz t f m (S i) + t * (INR m * bz t (delta f) (m - 1) (S i))))).
    { apply (derivable_pt_lim_plus (fun s => (1 - s) * bz s f m i) (fun s => s * bz s f m (S i))).
      - apply (derivable_pt_lim_mult (fun s => 1 - s) (fun s => bz s f m i)); [|apply IH].
        replace (-1) with (0 - 1) by ring.
        apply (derivable_pt_lim_minus (fun _ => 1) id); [apply derivable_pt_lim_const|apply derivable_pt_lim_id].
      - apply (derivable_pt_lim_mult id (fun s => bz s f m (S i))); [apply derivable_pt_lim_id|apply IH]. }
    replace (INR (S m) * bz t (delta f) (S m - 1) i)
      with ((-1 * bz t f m i + (1 - t) * (INR m * bz t (delta f) (m - 1) i))
       + (1 * bz t f m (S i) + t * (INR m * bz t (delta f) (m - 1) (S i)))); [exact D|].
    replace (S m - 1)%nat with m by lia. rewrite S_INR.
    pose proof (bz_delta t f m i) as E.
    destruct m as [|m].
    + cbn [bz INR] in *. unfold delta in *. ring.
    + replace (S m - 1)%nat with m by lia.
      assert (E2 : bz t (delta f) (S m) i = (1 - t) * bz t (delta f) m i + t * bz t (delta f) m (S i)) by reflexivity.
      rewrite Rmult_plus_distr_r, Rmult_1_l. rewrite E at 2.
      rewrite E2. ring.
Qed.

(** * The Bernstein form *)
Lemma bernstein_step n t j : (S j <= n)%nat ->
  bernstein (S n) t (S j) = (1 - t) * bernstein n t (S j) + t * bernstein n t j.
Proof.
  intros H. unfold bernstein.
  rewrite <- (pascal n j) by lia.
  replace (S n - S j)%nat with (S (n - S j)) by lia.
  replace (n - j)%nat with (S (n - S j)) by lia. cbn [pow]. ring.
Qed.
Lemma C_n_0 n : C n 0 = 1.
Proof. unfold C. rewrite Nat.sub_0_r. cbn [fact INR]. field. apply INR_fact_neq_0. Qed.
Lemma C_n_n n : C n n = 1.
Proof. unfold C. rewrite Nat.sub_diag. cbn [fact INR]. field. apply INR_fact_neq_0. Qed.
Lemma bernstein_first n t : bernstein (S n) t 0 = (1 - t) * bernstein n t 0.
Proof. unfold bernstein. rewrite !C_n_0, !Nat.sub_0_r. cbn [pow]. ring. Qed.
Lemma bernstein_last n t : bernstein (S n) t (S n) = t * bernstein n t n.
Proof. unfold bernstein. rewrite !C_n_n, !Nat.sub_diag. cbn [pow]. ring. Qed.

Lemma bz_bernstein t f m : forall i,
  bz t f m i = sum_f_R0 (fun j => bernstein m t j * f (i + j)%nat) m.
Proof.
  induction m as [|m IH]; intros i.
  - cbn [bz sum_f_R0]. unfold bernstein. rewrite C_n_0. cbn [Nat.sub pow]. rewrite Nat.add_0_r. ring.
  - cbn [bz]. rewrite (IH i), (IH (S i)).
    destruct m as [|m].
    + cbn [sum_f_R0]. rewrite (bernstein_last 0), (bernstein_first 0).
      rewrite !Nat.add_0_r, Nat.add_1_r. ring.
    + rewrite (tech5 (fun j => bernstein (S (S m)) t j * _) (S m)).
      rewrite (decomp_sum (fun j => bernstein (S (S m)) t j * _) (S m)) by lia.
      cbn [Init.Nat.pred].
      rewrite (sum_eq (fun j => bernstein (S (S m)) t (S j) * f (i + S j)%nat)
                 (fun j => (1 - t) * (bernstein (S m) t (S j) * f (i + S j)%nat)
                           + t * (bernstein (S m) t j * f (S i + j)%nat)) m).
      2:{ intros j Hj. rewrite bernstein_step by lia.
          replace (S i + j)%nat with (i + S j)%nat by lia. ring. }
      rewrite sum_plus.
      assert (SC : forall c g N, sum_f_R0 (fun j => c * g j) N = c * sum_f_R0 g N).
      { intros c g N. rewrite (scal_sum g N c). apply sum_eq; intros; ring. }
      rewrite !SC.
      rewrite (decomp_sum (fun j => bernstein (S m) t j * f (i + j)%nat) (S m)) by lia.
      cbn [Init.Nat.pred].
      rewrite (tech5 (fun j => bernstein (S m) t j * f (S i + j)%nat) m).
      rewrite (bernstein_first (S m)), (bernstein_last (S m)).
      replace (S i + S m)%nat with (i + S (S m))%nat by lia. ring.
Qed.

(** * From points to scalars *)
(** An affine-linear functional of a point. *)
Definition lin (a b c : R) (v : vec) : R := a * vx v + b * vy v + c * vz v.

Lemma lin_lerp a b c t p q : lin a b c (lerp3 t p q) = (1 - t) * lin a b c p + t * lin a b c q.
Proof. unfold lin, lerp3; cbn. ring. Qed.
Lemma lin_pt3 a b c p : lin a b c (pt3 p) = lin a b c p.
Proof. reflexivity. Qed.

Definition fl (a b c : R) (pts : list vec) (i : nat) : R := lin a b c (nth i pts (point 0 0 0)).

Lemma new_work_length t w l : length (new_work t w l) = l.
Proof. unfold new_work. now rewrite map_length, seq_length. Qed.
Lemma new_work_nth t w l i : (i < l)%nat ->
  nth i (new_work t w l) (point 0 0 0)
  = lerp3 t (nth i w (point 0 0 0)) (nth (S i) w (point 0 0 0)).
Proof.
  intros H. unfold new_work.
  rewrite (nth_indep _ _ (lerp3 t (nth 0 w (point 0 0 0)) (nth 1 w (point 0 0 0))))
    by (now rewrite map_length, seq_length).
  rewrite (map_nth (fun i => lerp3 t (nth i w (point 0 0 0)) (nth (S i) w (point 0 0 0))) (seq 0 l) 0%nat).
  rewrite seq_nth by assumption. reflexivity.
Qed.

Lemma casteljau_lin a b c t : forall level w,
  length w = S level ->
  length (casteljau t level w) = 1%nat /\
  fl a b c (casteljau t level w) 0 = bz t (fl a b c w) level 0.
Proof.
  induction level as [|l IH]; intros w Hw; cbn [casteljau].
  - auto.
  - destruct (IH (new_work t w (S l)) (new_work_length _ _ _)) as [L E].
    split; [exact L|]. rewrite E.
    assert (G : forall m i, (i + m <= l)%nat ->
       bz t (fl a b c (new_work t w (S l))) m i = bz t (fl a b c w) (S m) i).
    { induction m as [|m IHm]; intros i Hi.
      - cbn [bz]. unfold fl at 1. rewrite new_work_nth by lia. apply lin_lerp.
      - transitivity ((1 - t) * bz t (fl a b c (new_work t w (S l))) m i
                      + t * bz t (fl a b c (new_work t w (S l))) m (S i)); [reflexivity|].
        rewrite (IHm i), (IHm (S i)) by lia. reflexivity. }
    apply (G l 0%nat). lia.
Qed.

Lemma nth_map_pt3 i l : nth i (map pt3 l) (point 0 0 0) = pt3 (nth i l (point 0 0 0)).
Proof. exact (map_nth pt3 l (point 0 0 0) i). Qed.

Lemma fl_map_pt3 a b c l i : fl a b c (map pt3 l) i = fl a b c l i.
Proof. unfold fl. rewrite nth_map_pt3. reflexivity. Qed.

(** The value of a Bezier curve, every functional of it at once. *)
Lemma bezier_value pts t : pts <> [] ->
  exists q, bezier_point pts t = Val q /\ vw q = 1 /\
    forall a b c, lin a b c q = bz (clamp01 t) (fl a b c pts) (length pts - 1) 0.
Proof.
  intros H. destruct pts as [|p [|p2 r]]; [congruence| |].
  - exists (pt3 p). split; [reflexivity|]. split; [reflexivity|]. intros; reflexivity.
  - set (pts := p :: p2 :: r).
    destruct (casteljau_lin 0 0 0 (clamp01 t) (length (map pt3 pts) - 1) (map pt3 pts)) as [L _].
    { rewrite map_length. cbn. lia. }
    destruct (casteljau (clamp01 t) (length (map pt3 pts) - 1) (map pt3 pts)) as [|q rest] eqn:E;
      [discriminate L|].
    exists (pt3 q). split; [|split; [reflexivity|]].
    + change (match casteljau (clamp01 t) (length (map pt3 pts) - 1) (map pt3 pts) with
              | w :: _ => Val (pt3 w) | [] => Index_Error end = Val (pt3 q)).
      now rewrite E.
    + intros a b c.
      destruct (casteljau_lin a b c (clamp01 t) (length (map pt3 pts) - 1) (map pt3 pts)) as [_ V].
      { rewrite map_length. cbn. lia. }
      rewrite E in V. unfold fl at 1 in V. cbn [nth] in V. rewrite lin_pt3, V.
      rewrite map_length. apply bz_ext. intros; apply fl_map_pt3.
Qed.

Lemma lin_x v : lin 1 0 0 v = vx v. Proof. unfold lin. ring. Qed.
Lemma lin_y v : lin 0 1 0 v = vy v. Proof. unfold lin. ring. Qed.
Lemma lin_z v : lin 0 0 1 v = vz v. Proof. unfold lin. ring. Qed.

Lemma same_place_lin p q : (forall a b c, lin a b c p = lin a b c q) -> same_place p q.
Proof.
  intros H. unfold same_place. rewrite <- (lin_x p), <- (lin_y p), <- (lin_z p), <- (lin_x q), <- (lin_y q), <- (lin_z q).
  auto.
Qed.

Lemma bezier_first p r t : t <= 0 ->
  bezier_point (p :: r) t = Val (point (vx p) (vy p) (vz p)).
Proof.
  intros Ht. destruct (bezier_value (p :: r) t ltac:(congruence)) as (q & E & W & L).
  rewrite E. f_equal. rewrite (clamp01_low t Ht) in L.
  assert (S0 : same_place q p).
  { apply same_place_lin. intros a b c. rewrite L, bz_0. reflexivity. }
  destruct S0 as (X & Y & Z). destruct q; cbn in *; subst. reflexivity.
Qed.

Lemma bezier_last r p t : 1 <= t ->
  bezier_point (r ++ [p]) t = Val (point (vx p) (vy p) (vz p)).
Proof.
  intros Ht. destruct (bezier_value (r ++ [p]) t) as (q & E & W & L).
  { destruct r; discriminate. }
  rewrite E. f_equal. rewrite (clamp01_high t Ht) in L.
  assert (S0 : same_place q p).
  { apply same_place_lin. intros a b c. rewrite L, bz_1. unfold fl.
    rewrite app_length. cbn [length].
    replace (0 + (length r + 1 - 1))%nat with (length r) by lia.
    rewrite nth_middle. reflexivity. }
  destruct S0 as (X & Y & Z). destruct q; cbn in *; subst. reflexivity.
Qed.

Lemma bezier_hull pts t : pts <> [] ->
  exists q, bezier_point pts t = Val q /\ in_hull pts q.
Proof.
  intros H. destruct (bezier_value pts t H) as (q & E & _ & L).
  exists q. split; [exact E|]. intros a b c d Hd.
  change (lin a b c q <= d). rewrite L. apply bz_le; [apply clamp01_in|].
  intros j Hj. unfold fl. apply Hd. apply nth_In. destruct pts; [congruence|]. cbn in *. lia.
Qed.

Lemma weighted_sum f w pts : forall i,
  pts <> [] ->
  weighted f w i pts = sum_f_R0 (fun j => w (i + j)%nat * f (nth j pts (point 0 0 0))) (length pts - 1).
Proof.
  induction pts as [|p r IH]; intros i H; [congruence|].
  cbn [weighted]. destruct r as [|p2 r].
  - cbn. rewrite Nat.add_0_r. ring.
  - rewrite (IH (S i)) by discriminate.
    replace (length (p :: p2 :: r) - 1)%nat with (S (length (p2 :: r) - 1)) by (cbn; lia).
    rewrite (decomp_sum (fun j => w (i + j)%nat * f (nth j (p :: p2 :: r) (point 0 0 0)))) by lia.
    cbn [Init.Nat.pred]. rewrite Nat.add_0_r. f_equal.
    apply sum_eq. intros j Hj. replace (S i + j)%nat with (i + S j)%nat by lia. reflexivity.
Qed.

Lemma bezier_combination pts t : pts <> [] -> 0 <= t <= 1 ->
  exists q, bezier_point pts t = Val q /\
            is_combination q (bernstein (length pts - 1) t) pts.
Proof.
  intros H Ht. destruct (bezier_value pts t H) as (q & E & _ & L).
  exists q. split; [exact E|]. rewrite (clamp01_id t Ht) in L.
  assert (G : forall a b c, lin a b c q = weighted (lin a b c) (bernstein (length pts - 1) t) 0 pts).
  { intros a b c. rewrite L, bz_bernstein, weighted_sum by assumption.
    apply sum_eq. intros; reflexivity. }
  assert (X : forall f w l i, (forall v, lin (fst (fst f)) (snd (fst f)) (snd f) v = snd w v) ->
     weighted (lin (fst (fst f)) (snd (fst f)) (snd f)) (fst w) i l = weighted (snd w) (fst w) i l).
  { intros [[a b] c] [w g] l. cbn. induction l as [|p l IH]; intros i Hf; cbn [weighted]; [reflexivity|].
    rewrite Hf, IH; auto. }
  unfold is_combination. rewrite <- (lin_x q), <- (lin_y q), <- (lin_z q), !G.
  repeat split.
  - apply (X (1, 0, 0) (bernstein (length pts - 1) t, vx)). apply lin_x.
  - apply (X (0, 1, 0) (bernstein (length pts - 1) t, vy)). apply lin_y.
  - apply (X (0, 0, 1) (bernstein (length pts - 1) t, vz)). apply lin_z.
Qed.

Lemma bernstein_total n t : total (bernstein n t) (S n) = 1.
Proof.
  assert (G : forall w m, total w (S m) = sum_f_R0 w m).
  { intros w m. induction m as [|m IH]; cbn [total sum_f_R0] in *; [ring|]. rewrite IH. reflexivity. }
  rewrite G.
  assert (E : bz t (fun _ => 1) n 0 = 1).
  { generalize 0%nat. induction n as [|n IH]; intros i; cbn [bz]; [reflexivity|]. rewrite !IH. ring. }
  rewrite bz_bernstein in E. rewrite <- E. apply sum_eq. intros; ring.
Qed.

Lemma bernstein_nonneg n t i : 0 <= t <= 1 -> 0 <= bernstein n t i.
Proof.
  intros Ht. unfold bernstein. apply Rmult_le_pos; [apply Rmult_le_pos|].
  - unfold C. apply Rmult_le_pos; [apply pos_INR|]. apply Rlt_le, Rinv_0_lt_compat.
    apply Rmult_lt_0_compat; apply INR_fact_lt_0.
  - apply pow_le; lra.
  - apply pow_le; lra.
Qed.

(** * The tangent *)
Lemma nth_map_seq {A} (f : nat -> A) n i d : (i < n)%nat -> nth i (map f (seq 0 n)) d = f i.
Proof.
  intros H. rewrite (nth_indep _ d (f 0%nat)) by (now rewrite map_length, seq_length).
  rewrite (map_nth f (seq 0 n) 0%nat). now rewrite seq_nth.
Qed.

Lemma bezier_tangent_value pts t : (2 <= length pts)%nat ->
  exists v, bezier_tangent pts t = Val v /\ vw v = 0 /\
    forall a b c, lin a b c v =
      INR (length pts - 1) * bz (clamp01 t) (delta (fl a b c pts)) (length pts - 2) 0.
Proof.
  intros H. unfold bezier_tangent. rewrite map_length.
  replace (Nat.ltb (length pts) 2) with false by (symmetry; apply Nat.ltb_ge; lia).
  match goal with |- context [bezier_point ?l t] => set (D := l) end.
  assert (LD : length D = (length pts - 1)%nat) by (unfold D; now rewrite map_length, seq_length).
  assert (ND : D <> []) by (intros E; rewrite E in LD; cbn in LD; lia).
  destruct (bezier_value D t ND) as (q & E & _ & L).
  rewrite E. cbn [obind].
  exists (mkv (vx q) (vy q) (vz q) 0). split; [reflexivity|]. split; [reflexivity|].
  intros a b c. change (lin a b c q = INR (length pts - 1) * bz (clamp01 t) (delta (fl a b c pts)) (length pts - 2) 0).
  rewrite L, LD. replace (length pts - 1 - 1)%nat with (length pts - 2)%nat by lia.
  transitivity (bz (clamp01 t) (fun i => INR (length pts - 1) * delta (fl a b c pts) i) (length pts - 2) 0).
  - apply bz_ext. intros j Hj. cbn [Nat.add]. unfold fl at 1. unfold D.
    rewrite nth_map_seq by lia. unfold delta, fl, lin. cbn. rewrite !nth_map_pt3. cbn. ring.
  - rewrite (bz_linear (clamp01 t) (delta (fl a b c pts)) (delta (fl a b c pts)) _
       (INR (length pts - 1)) 0 0 (length pts - 2)); [ring|]. intros; ring.
Qed.
