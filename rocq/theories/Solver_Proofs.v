From Coq Require Import String Reals List Bool Lra Psatz.
From Verif Require Import Dict Xform_Model Xform_Proofs Datum_Model Datum_Spec Datum_Proofs Constr_Model Constr_Spec Constr_Proofs Mate_Model Mate_Spec Mate_Proofs Solver_Model Solver_Spec.
Import ListNotations.
Open Scope R_scope.
Open Scope list_scope.

(** * Rotations of directions *)
Definition iso (r : mat3) : Prop := forall u v, dot (mvec r u) (mvec r v) = dot u v.
Definition rod (n : vec) (s c : R) : mat3 := let k := skew n in add3m (add3m eye3 (smul s k)) (smul (1 - c) (mmul k k)).

Lemma mvec_rod n s c u : dot n n = 1 -> mvec (rod n s c) u =
  mkv (c * vx u + s * (vy n * vz u - vz n * vy u) + (1 - c) * dot n u * vx n)
      (c * vy u + s * (vz n * vx u - vx n * vz u) + (1 - c) * dot n u * vy n)
      (c * vz u + s * (vx n * vy u - vy n * vx u) + (1 - c) * dot n u * vz n) 0.
Proof.
  intros N. unfold mvec. cbn [rod add3m smul mmul skew eye3 a00 a01 a02 a10 a11 a12 a20 a21 a22].
  apply mkv_eq; try reflexivity.
  - transitivity (vx u + s * (vy n * vz u - vz n * vy u) + (1 - c) * (dot n u * vx n - vx u * dot n n)); [unfold dot; ring|rewrite N; ring].
  - transitivity (vy u + s * (vz n * vx u - vx n * vz u) + (1 - c) * (dot n u * vy n - vy u * dot n n)); [unfold dot; ring|rewrite N; ring].
  - transitivity (vz u + s * (vx n * vy u - vy n * vx u) + (1 - c) * (dot n u * vz n - vz u * dot n n)); [unfold dot; ring|rewrite N; ring].
Qed.
Lemma rod_iso n s c : dot n n = 1 -> s * s + c * c = 1 -> iso (rod n s c).
Proof.
  intros N S u v. rewrite !mvec_rod by assumption.
  transitivity (c * c * dot u v + s * s * (dot n n * dot u v - dot n u * dot n v) + (2 * c * (1 - c) + (1 - c) * (1 - c) * dot n n) * (dot n u * dot n v)).
  - unfold dot at 1. cbn [vx vy vz]. unfold dot. ring.
  - rewrite N. replace (s * s) with (1 - c * c) by lra. ring.
Qed.
Lemma det_rod n s c : dot n n = 1 -> s * s + c * c = 1 -> det3 (rod n s c) = 1.
Proof.
  intros N S. transitivity ((1 - (1 - c) * dot n n) * (1 - (1 - c) * dot n n) + s * s * dot n n).
  - unfold det3. cbn [rod add3m smul mmul skew eye3 a00 a01 a02 a10 a11 a12 a20 a21 a22]. unfold dot. ring.
  - rewrite N. lra.
Qed.
Lemma eye_iso : iso eye3. Proof. intros u v. unfold dot, mvec, eye3. cbn. ring. Qed.
Lemma det_eye : det3 eye3 = 1. Proof. unfold det3, eye3. cbn. ring. Qed.
Lemma mvec_eye u : mvec eye3 u = mkv (vx u) (vy u) (vz u) 0.
Proof. unfold mvec, eye3. cbn. apply mkv_eq; ring. Qed.
Definition flip3 (p : vec) : mat3 := add3m (smul 2 (outer p p)) (smul (-1) eye3).
Lemma mvec_flip p u : mvec (flip3 p) u = mkv (2 * dot p u * vx p - vx u) (2 * dot p u * vy p - vy u) (2 * dot p u * vz p - vz u) 0.
Proof. unfold mvec, flip3, add3m, smul, outer, eye3, dot. cbn. apply mkv_eq; ring. Qed.
Lemma flip_iso p : dot p p = 1 -> iso (flip3 p).
Proof.
  intros N u v. rewrite !mvec_flip. transitivity (4 * (dot p p - 1) * dot p u * dot p v + dot u v); [unfold dot; cbn [vx vy vz]; ring|]. rewrite N. ring.
Qed.
Lemma det_flip p : dot p p = 1 -> det3 (flip3 p) = 1.
Proof. intros N. transitivity (2 * dot p p - 1); [unfold det3, flip3, add3m, smul, outer, eye3, dot; cbn; ring|lra]. Qed.

Lemma sq3_zero a b c : a * a + b * b + c * c = 0 -> a = 0 /\ b = 0 /\ c = 0.
Proof. intros H. pose proof (Rle_0_sqr a). pose proof (Rle_0_sqr b). pose proof (Rle_0_sqr c). unfold Rsqr in *. repeat split; apply Rsqr_0_uniq; unfold Rsqr; lra. Qed.
(** * Unit vectors *)
Lemma mag_sq v : mag v * mag v = dot v v. Proof. rewrite mag2. reflexivity. Qed.
Lemma mag1_dot v : mag v = 1 -> dot v v = 1. Proof. intros H. rewrite <- mag_sq, H. ring. Qed.
Lemma dot_mag1 v : dot v v = 1 -> mag v = 1. Proof. intros H. rewrite mag_dot, H. apply sqrt_1. Qed.
Lemma dot_normed v : mag v <> 0 -> dot (normed v) (normed v) = 1.
Proof. intros H. pose proof (mag_sq v) as E. unfold normed, vdiv, dot in *. cbn [vx vy vz]. transitivity ((vx v * vx v + vy v * vy v + vz v * vz v) / (mag v * mag v)); [field; exact H|]. rewrite <- E. field. exact H. Qed.
Lemma mag_normed v : mag v <> 0 -> mag (normed v) = 1. Proof. intros H. apply dot_mag1, dot_normed, H. Qed.
Lemma normed_normed v : mag v = 1 -> normed v = mkv (vx v) (vy v) (vz v) 0.
Proof. intros H. unfold normed, vdiv. rewrite H. apply mkv_eq; field. Qed.
Lemma normed_along v : mag v <> 0 -> vw v = 0 -> unit_along v (normed v).
Proof.
  intros H W. split; [apply mag_normed, H|]. exists (/ mag v). split; [apply Rinv_0_lt_compat, mag_pos, H|].
  unfold normed, vdiv, scale4. rewrite W. apply mkv_eq; unfold Rdiv; try ring.
Qed.
Lemma unit_along_unique v e : mag v <> 0 -> vw v = 0 -> unit_along v e -> e = normed v.
Proof.
  intros H W [M (k & K & ->)]. rewrite mag_scale4 in M by lra. unfold normed, vdiv, scale4. rewrite W.
  assert (k = / mag v) as -> by (field_simplify_eq; [lra|exact H]). apply mkv_eq; unfold Rdiv; ring.
Qed.
Lemma half_turn_ok v : dot v v = 1 -> dot (half_turn_axis v) (half_turn_axis v) = 1 /\ dot (half_turn_axis v) v = 0.
Proof.
  intros N. unfold half_turn_axis.
  assert (G : forall w, dot w v = 0 -> 0 < dot w w -> dot (normed w) (normed w) = 1 /\ dot (normed w) v = 0).
  { intros w O P. assert (mag w <> 0) by (intros Z; rewrite <- mag_sq, Z in P; lra). split; [apply dot_normed; assumption|].
    unfold normed, vdiv, dot in *. cbn [vx vy vz]. transitivity ((vx w * vx v + vy w * vy v + vz w * vz v) / mag w); [field; assumption|]. rewrite O. unfold Rdiv. ring. }
  destruct (Rltb _ _) eqn:B; apply G; unfold cross, e_x, e_y, dot in *; cbn [vx vy vz]; try ring.
  - apply Rltb_true in B. assert (vx v * vx v < 81 / 100) by (destruct (Rcase_abs (vx v)) as [L|L]; [rewrite Rabs_left in B by exact L|rewrite Rabs_right in B by exact L]; nra). nra.
  - apply Rltb_false in B. assert (81 / 100 <= vx v * vx v) by (destruct (Rcase_abs (vx v)) as [L|L]; [rewrite Rabs_left in B by exact L|rewrite Rabs_right in B by exact L]; nra). nra.
Qed.
Lemma cross_self v w : dot (cross v w) v = 0 /\ dot (cross v w) w = 0.
Proof. split; unfold cross, dot; cbn [vx vy vz]; ring. Qed.

(** * The rotation from one unit vector to another *)
Section Between.
  Variables v1 v2 : vec.
  Hypothesis N1 : dot v1 v1 = 1.
  Hypothesis N2 : dot v2 v2 = 1.
  Lemma between_rod : mag (cross v1 v2) <> 0 ->
    let n := vdiv (cross v1 v2) (mag (cross v1 v2)) in
    dot n n = 1 /\ mag (cross v1 v2) * mag (cross v1 v2) + dot v1 v2 * dot v1 v2 = 1 /\ mvec (rod n (mag (cross v1 v2)) (dot v1 v2)) v1 = mkv (vx v2) (vy v2) (vz v2) 0.
  Proof.
    intros S n. set (s := mag (cross v1 v2)) in *.
    assert (E : s * s = 1 - dot v1 v2 * dot v1 v2) by (unfold s; rewrite mag_sq, cross_lagrange, N1, N2; ring).
    assert (NN : dot n n = 1) by (apply dot_normed; exact S).
    split; [exact NN|]. split; [lra|].
    rewrite mvec_rod by exact NN.
    assert (Z : dot n v1 = 0) by (unfold n, vdiv, cross, dot; cbn [vx vy vz]; field; exact S).
    rewrite Z. unfold n, vdiv, cross. cbn [vx vy vz].
    assert (L : forall a b c, (a - dot v1 v2 * b) / s * s = c -> dot v1 v2 * b + s * ((a - dot v1 v2 * b) / s) = dot v1 v2 * b + c) by (intros; nra).
    apply mkv_eq; try reflexivity.
    - transitivity (dot v1 v2 * vx v1 + (vx v2 * dot v1 v1 - vx v1 * dot v1 v2)); [unfold dot; field; exact S|rewrite N1; ring].
    - transitivity (dot v1 v2 * vy v1 + (vy v2 * dot v1 v1 - vy v1 * dot v1 v2)); [unfold dot; field; exact S|rewrite N1; ring].
    - transitivity (dot v1 v2 * vz v1 + (vz v2 * dot v1 v1 - vz v1 * dot v1 v2)); [unfold dot; field; exact S|rewrite N1; ring].
  Qed.
End Between.
Lemma normed_unit v : dot v v = 1 -> normed v = mkv (vx v) (vy v) (vz v) 0.
Proof. intros H. apply normed_normed, dot_mag1, H. Qed.
Lemma dot_w0 u v : dot (mkv (vx u) (vy u) (vz u) 0) v = dot u v. Proof. reflexivity. Qed.
Lemma dot_range v1 v2 : dot v1 v1 = 1 -> dot v2 v2 = 1 -> -1 <= dot v1 v2 <= 1.
Proof. intros A B. pose proof (cross_lagrange v1 v2) as E. rewrite A, B in E. assert (0 <= dot (cross v1 v2) (cross v1 v2)) by (unfold dot; nra). split; nra. Qed.
Lemma dist_unit u v : dot u u = 1 -> dot v v = 1 -> dist u v = sqrt (2 - 2 * dot u v).
Proof. intros A B. unfold dist. rewrite mag_dot. f_equal. transitivity (dot u u + dot v v - 2 * dot u v); [unfold dot, sub; cbn [vx vy vz]; ring|lra]. Qed.

Lemma between_ok v1 v2 : vw v1 = 0 -> vw v2 = 0 -> dot v1 v1 = 1 -> dot v2 v2 = 1 ->
  let r := rotation_between v1 v2 in
  iso r /\ det3 r = 1 /\ dist (mvec r v1) v2 <= 2 / 10000000000 /\ (tenth10 <= mag (cross v1 v2) \/ mag (cross v1 v2) = 0 -> mvec r v1 = v2).
Proof.
  intros W1 W2 N1 N2. unfold rotation_between. rewrite !normed_unit by assumption.
  replace (mkv (vx v1) (vy v1) (vz v1) 0) with v1 by (destruct v1; cbn in *; subst; reflexivity).
  replace (mkv (vx v2) (vy v2) (vz v2) 0) with v2 by (destruct v2; cbn in *; subst; reflexivity).
  cbv zeta. set (s := mag (cross v1 v2)). set (c := dot v1 v2).
  pose proof (mag_nn (cross v1 v2)) as S0. fold s in S0.
  assert (E : s * s = 1 - c * c) by (unfold s, c; rewrite mag_sq, cross_lagrange, N1, N2; ring).
  pose proof (dot_range v1 v2 N1 N2) as Rg. fold c in Rg.
  assert (close : forall w, dot w w = 1 -> dot w v2 = Rabs c -> s < tenth10 -> dist w v2 <= 2 / 10000000000).
  { intros w Nw D L. rewrite dist_unit by assumption. rewrite D. unfold tenth10 in L.
    replace (2 / 10000000000) with (sqrt (2 / 10000000000 * (2 / 10000000000))) by (apply sqrt_square; lra).
    apply sqrt_le_1_alt.
    assert (s * s <= 1 / 10000000000 * (1 / 10000000000)) by (apply Rmult_le_compat; lra).
    unfold Rabs. destruct (Rcase_abs c); nra. }
  destruct (Rltb s tenth10) eqn:B.
  - apply Rltb_true in B. destruct (Rltb 0 c) eqn:C.
    + apply Rltb_true in C. split; [apply eye_iso|]. split; [apply det_eye|].
      rewrite mvec_eye. replace (mkv (vx v1) (vy v1) (vz v1) 0) with v1 by (destruct v1; cbn in *; subst; reflexivity).
      split; [apply close; [exact N1|unfold c; rewrite Rabs_right; [reflexivity|fold c; lra]|exact B]|].
      intros [H | H]; [lra|]. fold s in H. rewrite H in E. assert (c = 1) by nra.
      assert (dot (sub v1 v2) (sub v1 v2) = 0) as Z by (transitivity (dot v1 v1 + dot v2 v2 - 2 * dot v1 v2); [unfold dot, sub; cbn [vx vy vz]; ring|fold c; lra]).
      unfold dot, sub in Z. cbn [vx vy vz] in Z. apply sq3_zero in Z. destruct Z as (Zx & Zy & Zz). destruct v1, v2; cbn in *; subst. apply mkv_eq; lra.
    + apply Rltb_false in C. destruct (half_turn_ok v1 N1) as [P O]. change (add3m _ _) with (flip3 (half_turn_axis v1)).
      split; [apply flip_iso, P|]. split; [apply det_flip, P|].
      assert (I : mvec (flip3 (half_turn_axis v1)) v1 = mkv (- vx v1) (- vy v1) (- vz v1) 0) by (rewrite mvec_flip, O; apply mkv_eq; ring).
      rewrite I. split.
      * apply close; [rewrite <- N1; unfold dot; cbn [vx vy vz]; ring| |exact B].
        transitivity (- dot v1 v2); [unfold dot; cbn [vx vy vz]; ring|]. fold c. unfold Rabs. destruct (Rcase_abs c); lra.
      * intros [H | H]; [lra|]. fold s in H. rewrite H in E. assert (c = -1) by nra.
        assert (dot (add v1 v2) (add v1 v2) = 0) as Z by (transitivity (dot v1 v1 + dot v2 v2 + 2 * dot v1 v2); [unfold dot, add; cbn [vx vy vz]; ring|fold c; lra]).
        unfold dot, add in Z. cbn [vx vy vz] in Z. apply sq3_zero in Z. destruct Z as (Zx & Zy & Zz). destruct v1, v2; cbn in *; subst. apply mkv_eq; lra.
  - apply Rltb_false in B. assert (S : s <> 0) by (unfold tenth10 in B; lra).
    destruct (between_rod v1 v2 N1 N2 S) as (NN & SC & I). fold s c in NN, SC, I.
    change (add3m _ _) with (rod (vdiv (cross v1 v2) s) s c). cbv zeta in I.
    split; [apply rod_iso; assumption|]. split; [apply det_rod; assumption|]. rewrite I.
    replace (mkv (vx v2) (vy v2) (vz v2) 0) with v2 by (destruct v2; cbn in *; subst; reflexivity).
    split; [|reflexivity]. rewrite dist_unit, N2 by assumption. replace (2 - 2 * 1) with 0 by ring. rewrite sqrt_0. lra.
Qed.

Lemma w0 v : vw v = 0 -> mkv (vx v) (vy v) (vz v) 0 = v. Proof. destruct v. cbn. intros ->. reflexivity. Qed.
Lemma vw_normed v : vw (normed v) = 0. Proof. reflexivity. Qed.
Lemma vw_mvec r v : vw (mvec r v) = 0. Proof. reflexivity. Qed.
Lemma rodrigues_rod n a : dot n n = 1 -> vw n = 0 -> rodrigues n a = rod n (sin a) (cos a).
Proof. intros N W. unfold rodrigues, rod. rewrite normed_unit, w0 by assumption. reflexivity. Qed.
Lemma sc_one a : sin a * sin a + cos a * cos a = 1. Proof. pose proof (sin2_cos2 a). unfold Rsqr in *. lra. Qed.
Lemma parallel_eq v1 v2 : vw v1 = 0 -> vw v2 = 0 -> dot v1 v1 = 1 -> dot v2 v2 = 1 -> dot v1 v2 = 1 -> v1 = v2.
Proof.
  intros W1 W2 N1 N2 D. assert (dot (sub v1 v2) (sub v1 v2) = 0) as Z by (transitivity (dot v1 v1 + dot v2 v2 - 2 * dot v1 v2); [unfold dot, sub; cbn [vx vy vz]; ring|lra]).
  unfold dot, sub in Z. cbn [vx vy vz] in Z. apply sq3_zero in Z. destruct Z as (Zx & Zy & Zz). destruct v1, v2; cbn in *; subst. apply mkv_eq; lra.
Qed.
Lemma srotation_ok v1 v2 : vw v1 = 0 -> vw v2 = 0 -> dot v1 v1 = 1 -> dot v2 v2 = 1 ->
  let r := srotation v1 v2 in
  iso r /\ det3 r = 1 /\ 9999 / 10000 <= dot (mvec r v1) v2 /\
  (- (9999 / 10000) <= dot v1 v2 <= 9999 / 10000 \/ dot v1 v2 = 1 \/ dot v1 v2 = -1 -> mvec r v1 = v2).
Proof.
  intros W1 W2 N1 N2. unfold srotation. rewrite !normed_unit, !w0 by assumption. cbv zeta.
  pose proof (dot_range v1 v2 N1 N2) as Rg.
  destruct (Rltb (9999 / 10000) (dot v1 v2)) eqn:B.
  { apply Rltb_true in B. split; [apply eye_iso|]. split; [apply det_eye|]. rewrite mvec_eye, w0 by assumption. split; [lra|].
    intros [H | [H | H]]; [lra| |lra]. apply parallel_eq; assumption. }
  apply Rltb_false in B. destruct (Rltb (dot v1 v2) (- (9999 / 10000))) eqn:B2.
  { apply Rltb_true in B2. destruct (half_turn_ok v1 N1) as [P O]. rewrite rodrigues_rod, sin_PI, cos_PI by (reflexivity || assumption).
    split; [apply rod_iso; [exact P|ring]|]. split; [apply det_rod; [exact P|ring]|].
    assert (I : mvec (rod (half_turn_axis v1) 0 (-1)) v1 = mkv (- vx v1) (- vy v1) (- vz v1) 0) by (rewrite mvec_rod, O by exact P; apply mkv_eq; ring).
    rewrite I. split; [replace (dot (mkv _ _ _ _) v2) with (- dot v1 v2) by (unfold dot; cbn [vx vy vz]; ring); lra|].
    intros [H | [H | H]]; [lra|lra|]. apply parallel_eq; try reflexivity; try assumption; unfold dot in *; cbn [vx vy vz]; lra. }
  apply Rltb_false in B2.
  assert (E : mag (cross v1 v2) * mag (cross v1 v2) = 1 - dot v1 v2 * dot v1 v2) by (rewrite mag_sq, cross_lagrange, N1, N2; ring).
  assert (S : mag (cross v1 v2) <> 0) by (intros Z; rewrite Z in E; nra).
  destruct (between_rod v1 v2 N1 N2 S) as (NN & SC & I). cbv zeta in I.
  assert (C : clip1 (dot v1 v2) = dot v1 v2) by (unfold clip1; rewrite Rmax_right, Rmin_right by lra; reflexivity).
  rewrite C. change (normed (cross v1 v2)) with (vdiv (cross v1 v2) (mag (cross v1 v2))).
  rewrite rodrigues_rod by (reflexivity || exact NN). rewrite cos_acos, sin_acos by lra.
  replace (sqrt (1 - (dot v1 v2)²)) with (mag (cross v1 v2)).
  2:{ unfold Rsqr. rewrite <- E. symmetry. apply sqrt_square, mag_nn. }
  split; [apply rod_iso; assumption|]. split; [apply det_rod; assumption|]. rewrite I, w0 by assumption. split; [lra|reflexivity].
Qed.

(** * 4x4 matrices *)
Lemma build_dir r t u : vw u = 0 -> mulMV (build r t) u = mvec r u.
Proof. intros W. unfold mulMV, build, getrow, dot4, mvec. cbn. rewrite W. apply mkv_eq; ring. Qed.
Lemma build_point r t p : vw p = 1 -> mulMV (build r t) p = mkv (vx (mvec r p) + vx t) (vy (mvec r p) + vy t) (vz (mvec r p) + vz t) 1.
Proof. intros W. unfold mulMV, build, getrow, dot4, mvec. cbn. rewrite W. apply mkv_eq; ring. Qed.
Lemma triple_mvec r u v w : dot (cross (mvec r u) (mvec r v)) (mvec r w) = det3 r * dot (cross u v) w.
Proof. unfold dot, cross, mvec, det3. cbn [vx vy vz]. ring. Qed.
Lemma motion_build r t : iso r -> det3 r = 1 -> motion (build r t).
Proof.
  intros I D. split; [split|].
  - intros v. unfold mulMV, build, getrow, dot4. cbn. ring.
  - intros u v U V. rewrite !build_dir by assumption. apply I.
  - intros u v w U V W. rewrite !build_dir by assumption. rewrite triple_mvec, D. ring.
Qed.
Lemma rigid_w m v : rigid m -> vw (mulMV m v) = vw v. Proof. intros [H _]. apply H. Qed.
Lemma motion_mul a b : motion a -> motion b -> motion (mulMM a b).
Proof.
  intros [Ra Ha] [Rb Hb]. split; [apply rigid_mul; assumption|]. intros u v w U V W. rewrite !mulMV_mulMM.
  rewrite Ha by (rewrite rigid_w by assumption; assumption). apply Hb; assumption.
Qed.

(** * Datums *)
Lemma heading_ok d v : valid d -> heading d v -> vw v = 0 /\ epsilon <= mag v /\ vw (origin d) = 1.
Proof.
  intros V H. pose proof (own_vectors d V) as F. destruct (valid_cases d V) as [O _]. unfold heading in H. unfold own in F.
  destruct (datum_type d); try contradiction; rewrite H in F.
  - inversion F as [|? ? [W M]]; subst. auto.
  - destruct (direction d); inversion F as [|? ? [W M]]; subst; auto.
  - destruct (direction d); inversion F as [|? ? [W M]]; subst; auto.
Qed.
Lemma eps_pos : 0 < epsilon. Proof. unfold epsilon. lra. Qed.
Lemma flush_dir_heading d v : heading d v -> flush_dir d = v.
Proof. unfold heading, flush_dir. destruct (datum_type d); try contradiction; intros ->; reflexivity. Qed.
Lemma axis_dir_heading d v : clean d -> heading d v -> axis_dir d = v.
Proof. unfold heading, axis_dir, clean. destruct (datum_type d); try contradiction; intros C ->; [reflexivity| |]; destruct C as [-> _]; reflexivity. Qed.
Lemma datum_direction_heading d v : clean d -> heading d v -> epsilon <= mag v -> datum_direction d = normed v.
Proof.
  intros C H M. assert (unit_or_z v = normed v) as U. { unfold unit_or_z. rewrite (proj2 (Rltb_true _ _)); [reflexivity|]. unfold tenth10, epsilon in *. lra. }
  unfold heading, datum_direction, clean in *. destruct (datum_type d); try contradiction; rewrite H; try exact U. destruct C as [-> _]. exact U.
Qed.
Lemma vdiv_mvec r v k : k <> 0 -> mvec r (vdiv v k) = vdiv (mvec r v) k.
Proof. intros K. unfold mvec, vdiv. cbn [vx vy vz]. apply mkv_eq; try reflexivity; field; exact K. Qed.
Lemma mag_mvec r v : iso r -> mag (mvec r v) = mag v.
Proof. intros I. rewrite !mag_dot, I. reflexivity. Qed.
Lemma normed_mvec r v : iso r -> mag v <> 0 -> normed (mvec r v) = mvec r (normed v).
Proof. intros I M. unfold normed. rewrite mag_mvec, vdiv_mvec by assumption. reflexivity. Qed.
Lemma along_intro u v tol : mag u <> 0 -> vw u = 0 -> mag v <> 0 -> vw v = 0 -> dist (normed u) (normed v) <= tol -> along u v tol.
Proof. intros. exists (normed u), (normed v). split; [apply normed_along; assumption|]. split; [apply normed_along; assumption|assumption]. Qed.
Lemma opposed_intro u v tol : mag u <> 0 -> vw u = 0 -> mag v <> 0 -> vw v = 0 -> dist (normed u) (vneg (normed v)) <= tol -> opposed u v tol.
Proof.
  intros. exists (normed u), (normed v). split; [apply normed_along; assumption|]. split; [apply normed_along; assumption|].
  replace (scale4 (normed v) (-1)) with (vneg (normed v)); [assumption|]. unfold vneg, scale4. rewrite vw_normed. apply mkv_eq; ring.
Qed.
Lemma dot_vneg v : dot (vneg v) (vneg v) = dot v v. Proof. unfold dot, vneg. cbn [vx vy vz]. ring. Qed.

(** turning around an axis *)
Definition rotn (n : vec) (th : R) : mat3 := add3m (add3m (smul (cos th) eye3) (smul (sin th) (skew n))) (smul (1 - cos th) (outer n n)).
Lemma mvec_rotn n th u : mvec (rotn n th) u =
  mkv (cos th * vx u + sin th * (vy n * vz u - vz n * vy u) + (1 - cos th) * dot n u * vx n)
      (cos th * vy u + sin th * (vz n * vx u - vx n * vz u) + (1 - cos th) * dot n u * vy n)
      (cos th * vz u + sin th * (vx n * vy u - vy n * vx u) + (1 - cos th) * dot n u * vz n) 0.
Proof. unfold mvec, rotn, dot. cbn [add3m smul skew outer eye3 a00 a01 a02 a10 a11 a12 a20 a21 a22]. apply mkv_eq; ring. Qed.
Lemma rotn_iso n th : dot n n = 1 -> iso (rotn n th).
Proof. intros N u v. rewrite !mvec_rotn. rewrite <- !(mvec_rod n (sin th) (cos th)) by exact N. apply rod_iso; [exact N|apply sc_one]. Qed.
Lemma det_rotn n th : dot n n = 1 -> det3 (rotn n th) = 1.
Proof.
  intros N. transitivity ((cos th + (1 - cos th) * dot n n) * (cos th * cos th + sin th * sin th * dot n n)).
  - unfold det3, rotn, dot. cbn [add3m smul skew outer eye3 a00 a01 a02 a10 a11 a12 a20 a21 a22]. ring.
  - rewrite N. pose proof (sc_one th). lra.
Qed.
Lemma rotn_axis n th k : dot n n = 1 -> mvec (rotn n th) (vtimes k n) = vtimes k n.
Proof.
  intros N. rewrite mvec_rotn. replace (dot n (vtimes k n)) with k. 2:{ transitivity (k * dot n n); [rewrite N; ring|unfold dot, vtimes; cbn [vx vy vz]; ring]. }
  unfold vtimes. cbn [vx vy vz]. apply mkv_eq; ring.
Qed.
Definition about (n p : vec) (th : R) : matrix := mulMM (mulMM (build eye3 p) (build (rotn n th) (mkv 0 0 0 0))) (build eye3 (vneg p)).
Lemma about_motion n p th : dot n n = 1 -> motion (about n p th).
Proof. intros N. repeat apply motion_mul; apply motion_build; try apply eye_iso; try apply det_eye; [apply rotn_iso, N|apply det_rotn, N]. Qed.
Lemma about_dir n p th u : vw u = 0 -> mulMV (about n p th) u = mvec (rotn n th) u.
Proof.
  intros W. unfold about. rewrite !mulMV_mulMM. rewrite (build_dir eye3 (vneg p)) by exact W. rewrite mvec_eye, w0 by exact W.
  rewrite (build_dir (rotn n th)) by exact W. rewrite build_dir by reflexivity. rewrite mvec_eye, w0 by reflexivity. reflexivity.
Qed.
Lemma about_axis n p th k : dot n n = 1 -> mulMV (about n p th) (mkv (vx p + k * vx n) (vy p + k * vy n) (vz p + k * vz n) 1) = mkv (vx p + k * vx n) (vy p + k * vy n) (vz p + k * vz n) 1.
Proof.
  intros N. unfold about. rewrite !mulMV_mulMM. rewrite (build_point eye3 (vneg p)) by reflexivity. rewrite mvec_eye. cbn [vx vy vz vneg].
  rewrite (build_point (rotn n th)) by reflexivity. cbn [vx vy vz].
  set (q := mkv (vx p + k * vx n + - vx p) _ _ 1).
  assert (E : mvec (rotn n th) q = vtimes k n).
  { rewrite <- (rotn_axis n th k N). unfold q. unfold mvec, vtimes. cbn [vx vy vz]. apply mkv_eq; ring. }
  rewrite E. rewrite build_point by reflexivity. rewrite mvec_eye. unfold vtimes. cbn [vx vy vz]. apply mkv_eq; ring.
Qed.

(** * The transforms of face_mate.py *)
Lemma flush_ok p c np nc off rot flip : valid p -> valid c -> heading p np -> heading c nc ->
  let T := flush p c off rot flip in
  let e := normed np in
  motion T /\ mulMV T (origin c) = mkv (vx (origin p) + off * vx e) (vy (origin p) + off * vy e) (vz (origin p) + off * vz e) 1 /\
  (if flip then opposed (mulMV T nc) np (2 / 10000000000) else along (mulMV T nc) np (2 / 10000000000)) /\
  T = mulMM (if Reqb rot 0 then Matrix0 else about e (origin p) (rot * PI / 180)) (flush p c off 0 flip).
Proof.
  intros Vp Vc Hp Hc T e. destruct (heading_ok p np Vp Hp) as (Wp & Mp & Op). destruct (heading_ok c nc Vc Hc) as (Wc & Mc & Oc).
  pose proof eps_pos as E0. assert (Zp : mag np <> 0) by lra. assert (Zc : mag nc <> 0) by lra.
  assert (Ue : dot e e = 1) by (apply dot_normed, Zp).
  set (tgt := if flip then vneg e else e).
  assert (Ut : dot tgt tgt = 1) by (unfold tgt; destruct flip; [rewrite dot_vneg|]; exact Ue).
  destruct (between_ok (normed nc) tgt (vw_normed nc) ltac:(unfold tgt; destruct flip; reflexivity) (dot_normed nc Zc) Ut) as (I & D & Near & _).
  set (r := rotation_between (normed nc) tgt) in *.
  set (T0 := build r (if Reqb off 0 then vminus (origin p) (mvec r (origin c)) else vplus (vminus (origin p) (mvec r (origin c))) (vtimes off e))).
  assert (ET0 : flush p c off 0 flip = T0).
  { unfold flush. rewrite !(flush_dir_heading _ _ Hp), !(flush_dir_heading _ _ Hc). rewrite (reqb_yes 0 0 eq_refl). reflexivity. }
  assert (ET : T = if Reqb rot 0 then T0 else mulMM (about e (origin p) (rot * PI / 180)) T0).
  { unfold T, flush. rewrite !(flush_dir_heading _ _ Hp), !(flush_dir_heading _ _ Hc). fold e tgt r T0. destruct (Reqb rot 0) eqn:B; [reflexivity|].
    unfold rotation_about. rewrite (normed_unit e), (w0 e) by (exact Ue || reflexivity). reflexivity. }
  assert (M0 : motion T0) by (apply motion_build; assumption).
  assert (O0 : mulMV T0 (origin c) = mkv (vx (origin p) + off * vx e) (vy (origin p) + off * vy e) (vz (origin p) + off * vz e) 1).
  { unfold T0. rewrite build_point by exact Oc. destruct (Reqb off 0) eqn:B.
    - assert (off = 0) as -> by (unfold Reqb in B; destruct (Req_EM_T off 0); congruence). unfold vminus. cbn [vx vy vz]. apply mkv_eq; ring.
    - unfold vplus, vminus, vtimes. cbn [vx vy vz]. apply mkv_eq; ring. }
  assert (ED : mulMV T nc = mvec (if Reqb rot 0 then eye3 else rotn e (rot * PI / 180)) (mvec r nc)).
  { rewrite ET. destruct (Reqb rot 0).
    - unfold T0. rewrite build_dir, mvec_eye, w0 by (assumption || reflexivity). reflexivity.
    - rewrite mulMV_mulMM. unfold T0. rewrite build_dir by assumption. apply about_dir. reflexivity. }
  assert (Iq : iso (if Reqb rot 0 then eye3 else rotn e (rot * PI / 180))) by (destruct (Reqb rot 0); [apply eye_iso|apply rotn_iso, Ue]).
  assert (Fix : mvec (if Reqb rot 0 then eye3 else rotn e (rot * PI / 180)) tgt = tgt).
  { destruct (Reqb rot 0); [rewrite mvec_eye, w0 by (unfold tgt; destruct flip; reflexivity); reflexivity|].
    replace tgt with (vtimes (if flip then -1 else 1) e).
    - apply rotn_axis, Ue.
    - unfold tgt. destruct flip; unfold vtimes, vneg; [|rewrite <- (w0 e) at 4 by reflexivity]; apply mkv_eq; ring. }
  assert (Dist : dist (normed (mulMV T nc)) tgt <= 2 / 10000000000).
  { rewrite ED. rewrite normed_mvec by (rewrite ?mag_mvec by assumption; assumption). rewrite normed_mvec by assumption.
    rewrite <- Fix. unfold dist in *. clear ET0 ET O0. set (q := if Reqb rot 0 then eye3 else _) in *.
    replace (mag (sub (mvec q (mvec r (normed nc))) (mvec q tgt))) with (mag (mvec q (sub (mvec r (normed nc)) tgt))).
    - rewrite mag_mvec by exact Iq. exact Near.
    - unfold mag. f_equal. unfold mvec, sub. cbn [vx vy vz]. ring. }
  assert (Mn : mag (mulMV T nc) <> 0) by (rewrite ED, !mag_mvec by assumption; exact Zc).
  assert (Wn : vw (mulMV T nc) = 0) by (rewrite ED; reflexivity).
  split; [|split; [|split]].
  - rewrite ET. destruct (Reqb rot 0); [exact M0|apply motion_mul; [apply about_motion, Ue|exact M0]].
  - rewrite ET. destruct (Reqb rot 0); [exact O0|]. rewrite mulMV_mulMM, O0. apply about_axis, Ue.
  - unfold tgt in Dist. destruct flip; [apply opposed_intro|apply along_intro]; assumption.
  - rewrite ET, ET0. destruct (Reqb rot 0); [|reflexivity]. unfold T0, build, mulMM, Matrix0, ident_rows, getrow, getcol, rcol, rget, vget, dot4. cbn.
    f_equal. f_equal; apply mkv_eq; ring.
Qed.
Lemma concentric_ok p c np nc off : valid p -> valid c -> clean p -> clean c -> heading p np -> heading c nc ->
  let T := concentric p c off in
  let e := normed np in
  motion T /\ mulMV T (origin c) = mkv (vx (origin p) + off * vx e) (vy (origin p) + off * vy e) (vz (origin p) + off * vz e) 1 /\
  along (mulMV T nc) np (2 / 10000000000).
Proof.
  intros Vp Vc Cp Cc Hp Hc T e. destruct (heading_ok p np Vp Hp) as (Wp & Mp & Op). destruct (heading_ok c nc Vc Hc) as (Wc & Mc & Oc).
  pose proof eps_pos as E0. assert (Zp : mag np <> 0) by lra. assert (Zc : mag nc <> 0) by lra.
  destruct (between_ok (normed nc) e eq_refl eq_refl (dot_normed nc Zc) (dot_normed np Zp)) as (I & D & Near & _).
  unfold T, concentric. rewrite (axis_dir_heading p np), (axis_dir_heading c nc) by assumption. fold e. set (r := rotation_between (normed nc) e) in *.
  split; [apply motion_build; assumption|]. split.
  - rewrite build_point by exact Oc. unfold vplus, vminus, vtimes. cbn [vx vy vz]. apply mkv_eq; ring.
  - rewrite build_dir by exact Wc. apply along_intro; try assumption; try reflexivity; [rewrite mag_mvec; assumption|]. rewrite normed_mvec by assumption. exact Near.
Qed.
Lemma parallel_ok p c np nc off : valid p -> valid c -> heading p np -> heading c nc -> datum_type p <> AXIS -> datum_type c <> AXIS ->
  let T := parallel p c off in
  let e := normed np in
  motion T /\ mulMV T (origin c) = mkv (vx (origin c) + off * vx e) (vy (origin c) + off * vy e) (vz (origin c) + off * vz e) 1 /\
  along (mulMV T nc) np (2 / 10000000000).
Proof.
  intros Vp Vc Hp Hc Ap Ac T e. destruct (heading_ok p np Vp Hp) as (Wp & Mp & Op). destruct (heading_ok c nc Vc Hc) as (Wc & Mc & Oc).
  pose proof eps_pos as E0. assert (Zp : mag np <> 0) by lra. assert (Zc : mag nc <> 0) by lra.
  destruct (between_ok (normed nc) e eq_refl eq_refl (dot_normed nc Zc) (dot_normed np Zp)) as (I & D & Near & _).
  assert (Np : normal p = Some np) by (unfold heading in Hp; destruct (datum_type p); congruence || contradiction).
  assert (Nc : normal c = Some nc) by (unfold heading in Hc; destruct (datum_type c); congruence || contradiction).
  unfold T, parallel. rewrite Np, Nc. cbn [opt]. fold e. set (r := rotation_between (normed nc) e) in *.
  split; [apply motion_build; assumption|]. split.
  - rewrite build_point by exact Oc. unfold vplus, vminus, vtimes. cbn [vx vy vz]. apply mkv_eq; ring.
  - rewrite build_dir by exact Wc. apply along_intro; try assumption; try reflexivity; [rewrite mag_mvec; assumption|]. rewrite normed_mvec by assumption. exact Near.
Qed.
