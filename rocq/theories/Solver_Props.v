(** C226-C249: the mate solver and face mates. *)
From Coq Require Import String Ascii Reals List Bool Lra Psatz.
From Verif Require Import Dict Xform_Model Xform_Proofs Datum_Model Datum_Spec Datum_Proofs Constr_Model Constr_Spec Constr_Proofs Mate_Model Mate_Spec Mate_Proofs Solver_Model Solver_Spec Solver_Proofs Solver_Proofs2 Solver_Proofs3.
Import ListNotations.
Open Scope string_scope.
Open Scope R_scope.
Open Scope list_scope.

(** * Concrete datums, mates and registries *)
Definition plane (o n : vec) : datum := Datum PLANE o None (Some n) None None None.
Definition axis (o v : vec) : datum := Datum AXIS o (Some v) None None None None.
Definition mk (name : string) (t : mtype) (a b : string) (off ang : R) : mate :=
  Mate name t a "d" b "d" off ang [] [] None None 1 0 false None [].
(** part "A" has datum a, every other part has datum b *)
Definition two (a b : datum) : registry := fun s n => if String.eqb n "d" then Some (if String.eqb s "A" then a else b) else None.
Lemma plane_ok o n : vw o = 1 -> vw n = 0 -> epsilon <= mag n -> valid (plane o n) /\ clean (plane o n) /\ heading (plane o n) n.
Proof.
  intros O N M. split; [|split; [repeat split|reflexivity]]. exists (plane o n). unfold post_init, plane, zero_length. cbn [datum_type normal origin direction x_axis y_axis radius].
  rewrite as_dir_id, as_point_id by assumption. rewrite (proj2 (Rltb_false _ _)) by exact M. reflexivity.
Qed.
Lemma axis_ok o n : vw o = 1 -> vw n = 0 -> epsilon <= mag n -> valid (axis o n) /\ clean (axis o n) /\ heading (axis o n) n.
Proof.
  intros O N M. split; [|split; [repeat split|reflexivity]]. exists (axis o n). unfold post_init, axis, zero_length. cbn [datum_type normal origin direction x_axis y_axis radius].
  rewrite as_dir_id, as_point_id by assumption. rewrite (proj2 (Rltb_false _ _)) by exact M. reflexivity.
Qed.
Lemma mag_x k : mag (mkv k 0 0 0) = Rabs k. Proof. unfold mag. cbn [vx vy vz]. rewrite <- sqrt_Rsqr_abs. f_equal. unfold Rsqr. ring. Qed.
Lemma mag_z k : mag (mkv 0 0 k 0) = Rabs k. Proof. unfold mag. cbn [vx vy vz]. rewrite <- sqrt_Rsqr_abs. f_equal. unfold Rsqr. ring. Qed.
Lemma eps_lt1 : epsilon <= 1. Proof. unfold epsilon. lra. Qed.
Definition zup : datum := plane (mkv 0 0 0 1) (mkv 0 0 1 0).
Lemma zup_ok o : vw o = 1 -> valid (plane o (mkv 0 0 1 0)) /\ clean (plane o (mkv 0 0 1 0)) /\ heading (plane o (mkv 0 0 1 0)) (mkv 0 0 1 0).
Proof. intros O. apply plane_ok; [exact O|reflexivity|]. rewrite mag_z, Rabs_R1. apply eps_lt1. Qed.

(** * C226-C235: what the solved transform does *)
Section Solved.
  Variables (reg : registry) (m : mate) (a b : datum) (na nb : vec).
  Hypothesis Ra : reg (part_a m) (datum_a m) = Some a. Hypothesis Rb : reg (part_b m) (datum_b m) = Some b.
  Hypothesis Va : valid a. Hypothesis Vb : valid b. Hypothesis Ha : heading a na. Hypothesis Hb : heading b nb.
  Lemma run_eq T : solve_constraint m a b = Some T -> snd (solve_mate true reg [] m None "Z") = Solved T.
  Proof. intros E. rewrite new_solver. unfold compute. rewrite Ra, Rb, E. reflexivity. Qed.

  Theorem c226_face_to_face : mate_type m = MCOINCIDENT \/ mate_type m = MRIGID ->
    exists T, snd (solve_mate true reg [] m None "Z") = Solved T /\
      motion T /\ mulMV T (origin b) = origin a /\ opposed (mulMV T nb) na (2 / 10000000000).
  Proof.
    intros Ht. destruct (flush_ok a b na nb 0 0 true Va Vb Ha Hb) as (M & O & D & _). exists (flush a b 0 0 true).
    split; [apply run_eq; unfold solve_constraint; destruct Ht as [-> | ->]; reflexivity|]. split; [exact M|]. split; [|exact D].
    rewrite O. destruct (heading_ok a na Va Ha) as (_ & _ & W). transitivity (as_point (origin a)); [unfold as_point; apply mkv_eq; ring|apply as_point_id, W].
  Qed.
Print Assumptions c226_face_to_face.
  Hypothesis Ca : clean a. Hypothesis Cb : clean b.
  Theorem c227_concentric : mate_type m = MCONCENTRIC ->
    exists T, snd (solve_mate true reg [] m None "Z") = Solved T /\
      motion T /\ mulMV T (origin b) = origin a /\ along (mulMV T nb) na (2 / 10000000000).
  Proof.
    intros Ht. destruct (concentric_ok a b na nb 0 Va Vb Ca Cb Ha Hb) as (M & O & D). exists (concentric a b 0).
    split; [apply run_eq; unfold solve_constraint; rewrite Ht; reflexivity|]. split; [exact M|]. split; [|exact D].
    rewrite O. destruct (heading_ok a na Va Ha) as (_ & _ & W). transitivity (as_point (origin a)); [unfold as_point; apply mkv_eq; ring|apply as_point_id, W].
  Qed.
Print Assumptions c227_concentric.
  Theorem c228_revolute : mate_type m = MREVOLUTE ->
    exists T, snd (solve_mate true reg [] m None "Z") = Solved T /\ motion T /\ mulMV T (origin b) = origin a /\
      9999 / 10000 * (mag nb * mag na) <= dot (mulMV T nb) na /\
      (Rabs (dot nb na) <= 9999 / 10000 * (mag nb * mag na) \/ Rabs (dot nb na) = mag nb * mag na -> same_way (mulMV T nb) na).
  Proof. intros Ht. exists (s_concentric a b). split; [apply run_eq; unfold solve_constraint; rewrite Ht; reflexivity|]. apply (revolute_ok a b na nb); assumption. Qed.
Print Assumptions c228_revolute.
  Theorem c228_parallel : mate_type m = MPARALLEL ->
    exists T, snd (solve_mate true reg [] m None "Z") = Solved T /\ motion T /\ mulMV T (mkv 0 0 0 1) = mkv 0 0 0 1 /\
      9999 / 10000 * (mag nb * mag na) <= dot (mulMV T nb) na /\
      (Rabs (dot nb na) <= 9999 / 10000 * (mag nb * mag na) \/ Rabs (dot nb na) = mag nb * mag na -> same_way (mulMV T nb) na).
  Proof. intros Ht. exists (s_parallel a b). split; [apply run_eq; unfold solve_constraint; rewrite Ht; reflexivity|]. apply (sparallel_ok a b na nb); assumption. Qed.
Print Assumptions c228_parallel.
  Theorem c230_perpendicular : mate_type m = MPERPENDICULAR ->
    exists T, snd (solve_mate true reg [] m None "Z") = Solved T /\ motion T /\ mulMV T (mkv 0 0 0 1) = mkv 0 0 0 1 /\ dot (mulMV T nb) na = 0.
  Proof. intros Ht. exists (s_perpendicular a b). split; [apply run_eq; unfold solve_constraint; rewrite Ht; reflexivity|]. apply (perpendicular_ok a b na nb); assumption. Qed.
Print Assumptions c230_perpendicular.
  Theorem c231_distance : mate_type m = MDISTANCE -> forall e, unit_along na e ->
    exists T, snd (solve_mate true reg [] m None "Z") = Solved T /\ motion T /\
      forall p, vw p = 1 -> mulMV T p = mkv (vx p + (vx (origin a) + m_offset m * vx e)) (vy p + (vy (origin a) + m_offset m * vy e)) (vz p + (vz (origin a) + m_offset m * vz e)) 1.
  Proof.
    intros Ht e E. destruct (heading_ok a na Va Ha) as (W & M & _). apply unit_along_unique in E; [|pose proof eps_pos; lra|exact W]. subst e.
    exists (s_distance a b (m_offset m)). split; [apply run_eq; unfold solve_constraint; rewrite Ht; reflexivity|]. apply (distance_ok a b na nb); assumption.
  Qed.
Print Assumptions c231_distance.
  Theorem c233_angle : mate_type m = MANGLE -> forall e, unit_along na e ->
    exists T, snd (solve_mate true reg [] m None "Z") = Solved T /\ motion T /\ mulMV T (mkv 0 0 0 1) = mkv 0 0 0 1 /\ mulMV T na = na /\
      forall u, vw u = 0 -> dot u na = 0 -> turned e u (m_angle m) (mulMV T u).
  Proof.
    intros Ht e E. destruct (heading_ok a na Va Ha) as (W & M & _). apply unit_along_unique in E; [|pose proof eps_pos; lra|exact W]. subst e.
    exists (s_angle a b (m_angle m)). split; [apply run_eq; unfold solve_constraint; rewrite Ht; reflexivity|]. apply (angle_ok a b na nb); assumption.
  Qed.
Print Assumptions c233_angle.
End Solved.
(** Two faces, one of them tilted and displaced: the hypotheses of C226-C233 hold. *)
Definition tilted : datum := plane (mkv 1 2 3 1) (mkv 3 4 0 0).
Lemma tilted_ok : valid tilted /\ clean tilted /\ heading tilted (mkv 3 4 0 0).
Proof. apply plane_ok; try reflexivity. unfold mag. cbn [vx vy vz]. replace (3 * 3 + 4 * 4 + 0 * 0) with (5 * 5) by ring. rewrite sqrt_square by lra. unfold epsilon. lra. Qed.
Example c226_nonvacuous : exists T, snd (solve_mate true (two zup tilted) [] (mk "m" MCOINCIDENT "A" "B" 0 0) None "Z") = Solved T /\
  motion T /\ mulMV T (mkv 1 2 3 1) = mkv 0 0 0 1 /\ opposed (mulMV T (mkv 3 4 0 0)) (mkv 0 0 1 0) (2 / 10000000000).
Proof.
  destruct (zup_ok (mkv 0 0 0 1) eq_refl) as (V1 & C1 & H1). destruct tilted_ok as (V2 & C2 & H2).
  exact (c226_face_to_face (two zup tilted) (mk "m" MCOINCIDENT "A" "B" 0 0) zup tilted _ _ eq_refl eq_refl V1 V2 H1 H2 (or_introl eq_refl)).
Qed.
Example c227_nonvacuous : exists T, snd (solve_mate true (two zup tilted) [] (mk "m" MCONCENTRIC "A" "B" 0 0) None "Z") = Solved T /\
  motion T /\ mulMV T (mkv 1 2 3 1) = mkv 0 0 0 1 /\ along (mulMV T (mkv 3 4 0 0)) (mkv 0 0 1 0) (2 / 10000000000).
Proof.
  destruct (zup_ok (mkv 0 0 0 1) eq_refl) as (V1 & C1 & H1). destruct tilted_ok as (V2 & C2 & H2).
  exact (c227_concentric (two zup tilted) (mk "m" MCONCENTRIC "A" "B" 0 0) zup tilted _ _ eq_refl eq_refl V1 V2 H1 H2 C1 C2 eq_refl).
Qed.
Example c228_nonvacuous : exists T, snd (solve_mate true (two zup tilted) [] (mk "m" MREVOLUTE "A" "B" 0 0) None "Z") = Solved T /\
  motion T /\ mulMV T (mkv 1 2 3 1) = mkv 0 0 0 1 /\ same_way (mulMV T (mkv 3 4 0 0)) (mkv 0 0 1 0).
Proof.
  destruct (zup_ok (mkv 0 0 0 1) eq_refl) as (V1 & C1 & H1). destruct tilted_ok as (V2 & C2 & H2).
  destruct (c228_revolute (two zup tilted) (mk "m" MREVOLUTE "A" "B" 0 0) zup tilted _ _ eq_refl eq_refl V1 V2 H1 H2 C1 C2 eq_refl) as (T & E & M & O & _ & S).
  exists T. split; [exact E|]. split; [exact M|]. split; [exact O|]. apply S. left. replace (dot _ _) with 0 by (unfold dot; cbn [vx vy vz]; ring). rewrite Rabs_R0.
  pose proof (mag_nn (mkv 3 4 0 0)). pose proof (mag_nn (mkv 0 0 1 0)). nra.
Qed.
Example c230_nonvacuous : exists T, snd (solve_mate true (two zup zup) [] (mk "m" MPERPENDICULAR "A" "B" 0 0) None "Z") = Solved T /\ dot (mulMV T (mkv 0 0 1 0)) (mkv 0 0 1 0) = 0.
Proof.
  destruct (zup_ok (mkv 0 0 0 1) eq_refl) as (V1 & C1 & H1).
  destruct (c230_perpendicular (two zup zup) (mk "m" MPERPENDICULAR "A" "B" 0 0) zup zup _ _ eq_refl eq_refl V1 V1 H1 H1 C1 C1 eq_refl) as (T & E & _ & _ & D). exists T. auto.
Qed.

(** C229: "the directions of a PARALLEL mate are aligned to within the solver's angle tolerance" *)
Lemma cos_small x : 0 <= x <= 1 -> 1 - x * x / 2 <= cos x.
Proof.
  intros [L U]. replace (cos x) with (cos (2 * (x / 2))) by (f_equal; field). rewrite cos_2a_sin. 
  destruct (Req_dec x 0) as [-> |N]. { replace (0 / 2) with 0 by field. rewrite sin_0. lra. }
  assert (sin (x / 2) < x / 2) by (apply sin_lt_x; lra). assert (0 <= sin (x / 2)) by (apply sin_ge_0; pose proof PI2_1; unfold PI2 in *; lra). nra.
Qed.
Theorem c229_angle_tolerance_refuted : exists reg m a b na nb T,
  reg (part_a m) (datum_a m) = Some a /\ reg (part_b m) (datum_b m) = Some b /\ valid a /\ valid b /\ clean a /\ clean b /\ heading a na /\ heading b nb /\ mate_type m = MPARALLEL /\
  snd (solve_mate true reg [] m None "Z") = Solved T /\ forall t, angle (mulMV T nb) na t -> 1 / 10 < t.
Proof.
  pose (nb := mkv 1 0 100 0). pose (b := plane (mkv 0 0 0 1) nb).
  assert (Mb : 10000499 / 100000 <= mag nb). { unfold mag, nb. cbn [vx vy vz]. rewrite <- (sqrt_square (10000499 / 100000)) by lra. apply sqrt_le_1_alt. lra. }
  destruct (zup_ok (mkv 0 0 0 1) eq_refl) as (V1 & C1 & H1). destruct (plane_ok (mkv 0 0 0 1) nb eq_refl eq_refl ltac:(unfold epsilon; lra)) as (V2 & C2 & H2). fold b in V2, C2, H2.
  exists (two zup b), (mk "m" MPARALLEL "A" "B" 0 0), zup, b, (mkv 0 0 1 0), nb, (s_parallel zup b).
  repeat (split; [reflexivity || assumption|]).
  assert (E : s_parallel zup b = build eye3 (mkv 0 0 0 0)).
  { unfold s_parallel. rewrite (datum_direction_heading b nb C2 H2) by (unfold epsilon; lra). rewrite (datum_direction_heading zup _ C1 H1) by (rewrite mag_z, Rabs_R1; apply eps_lt1).
    assert (Nb : mag nb <> 0) by lra. assert (N1 : mag (mkv 0 0 1 0) <> 0) by (rewrite mag_z, Rabs_R1; lra).
    unfold srotation. rewrite (normed_unit (normed nb)), (normed_unit (normed (mkv 0 0 1 0))), !w0 by ((apply dot_normed; assumption) || reflexivity).
    rewrite (proj2 (Rltb_true _ _)); [reflexivity|].
    assert (D : dot (normed nb) (normed (mkv 0 0 1 0)) = 100 / mag nb). { unfold normed, vdiv. rewrite mag_z, Rabs_R1. unfold dot, nb. cbn [vx vy vz]. fold nb. field. exact Nb. }
    rewrite D. assert (mag nb <= 100006 / 1000). { unfold mag, nb. cbn [vx vy vz]. rewrite <- (sqrt_square (100006 / 1000)) by lra. apply sqrt_le_1_alt. lra. }
    apply (Rmult_lt_reg_r (mag nb)); [lra|]. unfold Rdiv at 2. rewrite Rmult_assoc, Rinv_l by exact Nb. lra. }
intros t A. rewrite E in A. rewrite build_dir, mvec_eye, w0 in A by reflexivity. destruct A as [[L U] D].
  destruct (Rle_lt_dec t (1 / 10)) as [Q|Q]; [exfalso|exact Q]. rewrite mag_z, Rabs_R1 in D. unfold dot in D. unfold nb in D at 1 2 3. cbn [vx vy vz] in D.
  pose proof PI_4. pose proof PI_RGT_0. assert (X : 0 <= t * PI / 180 <= 4 / 1000). { split; [apply Rmult_le_pos; [apply Rmult_le_pos|]; lra|]. assert (t * PI <= 1 / 10 * 4) by (apply Rmult_le_compat; lra). lra. }
  pose proof (cos_small (t * PI / 180) ltac:(lra)) as K. assert (t * PI / 180 * (t * PI / 180) <= 4 / 1000 * (4 / 1000)) by (apply Rmult_le_compat; lra).
  assert (1 - 8 / 1000000 <= cos (t * PI / 180)) by lra. assert (10000499 / 100000 * (1 - 8 / 1000000) <= mag nb * cos (t * PI / 180)) by (apply Rmult_le_compat; lra). lra.
Qed.
Print Assumptions c229_angle_tolerance_refuted.

(** C232: "a DISTANCE mate puts the second datum at the mate's offset from the first" *)
Theorem c232_distance_refuted : exists reg m a b na nb T,
  reg (part_a m) (datum_a m) = Some a /\ reg (part_b m) (datum_b m) = Some b /\ valid a /\ valid b /\ clean a /\ clean b /\ heading a na /\ heading b nb /\ mate_type m = MDISTANCE /\
  snd (solve_mate true reg [] m None "Z") = Solved T /\ ~ nearest (points a) (mulMV T (origin b)) (Rabs (m_offset m)).
Proof.
  pose (b := plane (mkv 0 0 5 1) (mkv 0 0 1 0)). destruct (zup_ok (mkv 0 0 0 1) eq_refl) as (V1 & C1 & H1). destruct (zup_ok (mkv 0 0 5 1) eq_refl) as (V2 & C2 & H2).
  pose (m := mk "m" MDISTANCE "A" "B" 2 0).
  destruct (c231_distance (two zup b) m zup b _ _ eq_refl eq_refl V1 V2 H1 H2 C1 C2 eq_refl (mkv 0 0 1 0)) as (T & E & M & P).
  { split; [rewrite mag_z, Rabs_R1; reflexivity|]. exists 1. split; [lra|]. symmetry. apply scale4_id. }
  exists (two zup b), m, zup, b, (mkv 0 0 1 0), (mkv 0 0 1 0), T. repeat (split; [reflexivity || assumption|]).
  intros [(q & (n & N & Q) & D) _]. injection N as <-. unfold plane_of in Q. cbn [vx vy vz origin zup plane] in Q.
  rewrite (P (origin b) eq_refl) in D. cbn [b plane origin vx vy vz m mk m_offset] in D. unfold dist in D.
  pose proof (mag2 (sub (mkv (0 + (vx (origin zup) + 2 * 0)) (0 + (vy (origin zup) + 2 * 0)) (5 + (vz (origin zup) + 2 * 1)) 1) q)) as S. rewrite D in S.
  rewrite Rabs_right in S by lra. unfold sub in S. cbn [vx vy vz zup plane origin] in S. assert (Qz : vz q = 0) by lra. rewrite Qz in S.
  pose proof (Rle_0_sqr (0 + (0 + 2 * 0) - vx q)). pose proof (Rle_0_sqr (0 + (0 + 2 * 0) - vy q)). unfold Rsqr in *. lra.
Qed.
Print Assumptions c232_distance_refuted.

(** C234: "an ANGLE mate puts the two directions at the mate's angle (in radians, as Mate.angle is documented, or in degrees)" *)
Theorem c234_angle_refuted : exists reg a b na nb,
  reg "A" "d" = Some a /\ reg "B" "d" = Some b /\ valid a /\ valid b /\ clean a /\ clean b /\ heading a na /\ heading b nb /\
  forall x, 0 < x < PI -> exists T, snd (solve_mate true reg [] (mk "m" MANGLE "A" "B" 0 x) None "Z") = Solved T /\ ~ angle (mulMV T nb) na (x * 180 / PI) /\ ~ angle (mulMV T nb) na x.
Proof.
  destruct (zup_ok (mkv 0 0 0 1) eq_refl) as (V1 & C1 & H1).
  exists (two zup zup), zup, zup, (mkv 0 0 1 0), (mkv 0 0 1 0). repeat (split; [reflexivity || assumption|]). intros x [X0 X1].
  destruct (c233_angle (two zup zup) (mk "m" MANGLE "A" "B" 0 x) zup zup _ _ eq_refl eq_refl V1 V1 H1 H1 C1 C1 eq_refl (mkv 0 0 1 0)) as (T & E & M & _ & F & _).
  { split; [rewrite mag_z, Rabs_R1; reflexivity|]. exists 1. split; [lra|]. symmetry. apply scale4_id. }
  exists T. split; [exact E|]. rewrite F. pose proof PI_RGT_0 as P.
  assert (K : forall y, 0 < y < PI -> cos y <> 1). { intros y [Y0 Y1] C. pose proof (cos_decreasing_1 0 y ltac:(lra) ltac:(lra) ltac:(lra) ltac:(lra) Y0). rewrite cos_0 in *. lra. }
  assert (A : forall t, angle (mkv 0 0 1 0) (mkv 0 0 1 0) t -> cos (t * PI / 180) = 1). { intros t [_ D]. rewrite mag_z, Rabs_R1 in D. unfold dot in D. cbn [vx vy vz] in D. lra. }
  split; intros B; apply A in B.
  - replace (x * 180 / PI * PI / 180) with x in B by (field; lra). exact (K x (conj X0 X1) B).
  - apply (K (x * PI / 180)); [|exact B]. pose proof PI_4. split; [apply Rmult_lt_0_compat; [apply Rmult_lt_0_compat|]; lra|]. assert (x * PI < 180 * PI) by (apply Rmult_lt_compat_r; lra). lra.
Qed.
Print Assumptions c234_angle_refuted.

(** C235: "a RIGID mate of two frames lines their z axes up" *)
Definition frame (o x y : vec) : datum := Datum FRAME o None None (Some x) (Some y) None.
Lemma frame_ok o x y : vw o = 1 -> vw x = 0 -> vw y = 0 -> epsilon <= mag x -> epsilon <= mag y -> valid (frame o x y) /\ clean (frame o x y).
Proof.
  intros O X Y Mx My. split; [|split; reflexivity]. exists (frame o x y). unfold post_init, frame, zero_length. cbn [datum_type normal origin direction x_axis y_axis radius].
  rewrite !as_dir_id, as_point_id by assumption. rewrite !(proj2 (Rltb_false _ _)) by assumption. reflexivity.
Qed.
Lemma mag_y k : mag (mkv 0 k 0 0) = Rabs k. Proof. unfold mag. cbn [vx vy vz]. rewrite <- sqrt_Rsqr_abs. f_equal. unfold Rsqr. ring. Qed.
Theorem c235_frames_refuted : exists reg m a b xa ya xb yb T,
  reg (part_a m) (datum_a m) = Some a /\ reg (part_b m) (datum_b m) = Some b /\ valid a /\ valid b /\ clean a /\ clean b /\ mate_type m = MRIGID /\
  a = frame (mkv 0 0 0 1) xa ya /\ b = frame (mkv 0 0 0 1) xb yb /\ mag xa = 1 /\ mag ya = 1 /\ dot xa ya = 0 /\ mag xb = 1 /\ mag yb = 1 /\ dot xb yb = 0 /\
  snd (solve_mate true reg [] m None "Z") = Solved T /\ dot (mulMV T (as_direction (cross xb yb))) (cross xa ya) = 0.
Proof.
  pose (a := frame (mkv 0 0 0 1) (mkv 1 0 0 0) (mkv 0 1 0 0)). pose (b := frame (mkv 0 0 0 1) (mkv 0 1 0 0) (mkv 0 0 1 0)).
  assert (M1 : mag (mkv 1 0 0 0) = 1) by (rewrite mag_x, Rabs_R1; reflexivity). assert (M2 : mag (mkv 0 1 0 0) = 1) by (rewrite mag_y, Rabs_R1; reflexivity). assert (M3 : mag (mkv 0 0 1 0) = 1) by (rewrite mag_z, Rabs_R1; reflexivity).
  pose proof eps_lt1. destruct (frame_ok (mkv 0 0 0 1) (mkv 1 0 0 0) (mkv 0 1 0 0)) as [Va Ca]; try reflexivity; try (rewrite ?M1, ?M2; assumption).
  destruct (frame_ok (mkv 0 0 0 1) (mkv 0 1 0 0) (mkv 0 0 1 0)) as [Vb Cb]; try reflexivity; try (rewrite ?M2, ?M3; assumption).
  exists (two a b), (mk "m" MRIGID "A" "B" 0 0), a, b, (mkv 1 0 0 0), (mkv 0 1 0 0), (mkv 0 1 0 0), (mkv 0 0 1 0), (flush a b 0 0 true).
  repeat (split; [reflexivity || assumption|]). repeat (split; [unfold dot; cbn [vx vy vz]; (ring || assumption)|]). split; [reflexivity|].
  (* both frames fall back to +Z: the transform is the half turn about the Y axis *)
  assert (E : rotation_between (normed (mkv 0 0 1 0)) (vneg (normed (mkv 0 0 1 0))) = flip3 (half_turn_axis (mkv 0 0 1 0))).
  { unfold rotation_between. assert (N : normed (mkv 0 0 1 0) = mkv 0 0 1 0) by (rewrite normed_unit; [reflexivity|unfold dot; cbn [vx vy vz]; ring]). rewrite !N.
    assert (N2 : normed (vneg (mkv 0 0 1 0)) = mkv 0 0 (-1) 0). { rewrite normed_unit; [unfold vneg; cbn [vx vy vz]; apply mkv_eq; ring|]. unfold dot, vneg. cbn [vx vy vz]. ring. }
    rewrite N2. rewrite (proj2 (Rltb_true _ _)). 2:{ replace (mag (cross (mkv 0 0 1 0) (mkv 0 0 (-1) 0))) with 0; [unfold tenth10; lra|]. symmetry. unfold mag, cross. cbn [vx vy vz]. replace (_ + _ + _) with 0 by ring. apply sqrt_0. }
    rewrite (proj2 (Rltb_false _ _)); [reflexivity|]. unfold dot. cbn [vx vy vz]. lra. }
  unfold flush, flush_dir, a, b, frame. cbn [datum_type normal direction origin opt]. unfold e_z. rewrite E, !(reqb_yes 0 0 eq_refl). rewrite build_dir by reflexivity.
  rewrite mvec_flip. unfold half_turn_axis. cbn [vx]. rewrite (proj2 (Rltb_true _ _)) by (rewrite Rabs_R0; lra).
  replace (cross (mkv 0 0 1 0) e_x) with (mkv 0 1 0 1) by (unfold cross, e_x; cbn [vx vy vz]; apply mkv_eq; ring).
  unfold dot, cross, as_direction, normed, vdiv. cbn [vx vy vz]. replace (mag (mkv 0 1 0 1)) with 1 by (symmetry; exact M2). field.
Qed.
Print Assumptions c235_frames_refuted.

(** * C236-C238: the mate axis *)
Theorem c236_axis_keeps_place : forall T s, motion T -> motion (apply_axis T s) /\ mulMV (apply_axis T s) (mkv 0 0 0 1) = mulMV T (mkv 0 0 0 1).
Proof. exact apply_axis_motion. Qed.
Print Assumptions c236_axis_keeps_place.
Theorem c236_axis_z : forall T s v, motion T -> named_axis s v -> vx v = 0 -> vy v = 0 -> mulMV (apply_axis T s) (mkv 0 0 1 0) = mulMV T v.
Proof.
  intros T s v M N X Y. unfold named_axis in N.
  repeat (destruct N as [N|N]; [injection N as <- <-; cbn [vx vy] in X, Y; try lra;
    match goal with |- mulMV (apply_axis T ?s) _ = _ => destruct (apply_axis_eq T s _ eq_refl M) as [H _] end; rewrite H by reflexivity; f_equal; unfold mvec; cbn; apply mkv_eq; ring|]). destruct N.
Qed.
Print Assumptions c236_axis_z.
Example c236_nonvacuous : motion (build eye3 (mkv 1 2 3 0)) /\ named_axis "-Z" (mkv 0 0 (-1) 0).
Proof. split; [apply motion_build; [apply eye_iso|apply det_eye]|]. unfold named_axis. cbn [In]. tauto. Qed.
(** "X", "Y", "-X" and "-Y" send the local Z axis to the opposite of the axis they name *)
Theorem c237_axis_xy_refuted : forall T s v, motion T -> named_axis s v -> vz v = 0 ->
  mulMV (apply_axis T s) (mkv 0 0 1 0) = mulMV T (scale4 v (-1)) /\ mulMV (apply_axis T s) (mkv 0 0 1 0) <> mulMV T v.
Proof.
  intros T s v M N Z.
  assert (E : mulMV (apply_axis T s) (mkv 0 0 1 0) = mulMV T (scale4 v (-1)) /\ vw v = 0 /\ dot v v = 1).
  { assert (K : forall r, dget String.eqb s axis_rotations = Some r -> mvec r (mkv 0 0 1 0) = scale4 v (-1) -> mulMV (apply_axis T s) (mkv 0 0 1 0) = mulMV T (scale4 v (-1))).
    { intros r Hr Q. destruct (apply_axis_eq T s r Hr M) as [H _]. rewrite H by reflexivity. rewrite Q. reflexivity. }
    unfold named_axis in N. repeat (destruct N as [N|N]; [injection N as <- <-; cbn [vz] in Z; try lra;
      (split; [eapply K; [reflexivity|unfold mvec, scale4; cbn [vx vy vz vw a00 a01 a02 a10 a11 a12 a20 a21 a22]; apply mkv_eq; ring]|split; [reflexivity|unfold dot; cbn [vx vy vz]; ring]])|]). destruct N. }
  destruct E as (E & W & U). split; [exact E|]. rewrite E, mulMV_scale. intros Q. destruct M as [[_ Mi] _]. pose proof (Mi v v W W) as D. rewrite U in D.
  assert (K : dot (mulMV T v) (mulMV T v) = - dot (mulMV T v) (mulMV T v)) by (rewrite <- Q at 1; unfold dot, scale4; cbn [vx vy vz]; ring). lra.
Qed.
Print Assumptions c237_axis_xy_refuted.
(** "the mate is satisfied whichever mate axis is asked for" *)
Theorem c238_axis_breaks_mate_refuted : exists reg m a b na nb T,
  reg (part_a m) (datum_a m) = Some a /\ reg (part_b m) (datum_b m) = Some b /\ valid a /\ valid b /\ clean a /\ clean b /\ heading a na /\ heading b nb /\ mate_type m = MCOINCIDENT /\
  snd (solve_mate true reg [] m None "-Z") = Solved T /\ mulMV T (origin b) <> origin a.
Proof.
  pose (b := plane (mkv 0 0 1 1) (mkv 0 0 1 0)). destruct (zup_ok (mkv 0 0 0 1) eq_refl) as (V1 & C1 & H1). destruct (zup_ok (mkv 0 0 1 1) eq_refl) as (V2 & C2 & H2).
  pose (m := mk "m" MCOINCIDENT "A" "B" 0 0). destruct (c226_face_to_face (two zup b) m zup b _ _ eq_refl eq_refl V1 V2 H1 H2 (or_introl eq_refl)) as (T & E & M & O & _).
  exists (two zup b), m, zup, b, (mkv 0 0 1 0), (mkv 0 0 1 0), (apply_axis T "-Z"). repeat (split; [reflexivity || assumption|]). split.
  { rewrite new_solver in E |- *. unfold compute in E |- *. cbn [two m mk part_a datum_a part_b datum_b String.eqb Ascii.eqb Bool.eqb solve_constraint mate_type] in E |- *. injection E as <-. reflexivity. }
  intros Q. destruct (apply_axis_eq T "-Z" _ eq_refl M) as [Hd Ho]. destruct M as [[Mw Mi] _].
  assert (L : forall T' p, vw p = 1 -> mulMV T' p = mkv (vx (mulMV T' (as_direction p)) + vx (mulMV T' (mkv 0 0 0 1))) (vy (mulMV T' (as_direction p)) + vy (mulMV T' (mkv 0 0 0 1))) (vz (mulMV T' (as_direction p)) + vz (mulMV T' (mkv 0 0 0 1))) (vw (mulMV T' (as_direction p)) + vw (mulMV T' (mkv 0 0 0 1)))).
  { intros T' p W. unfold mulMV, dot4, as_direction. cbn [vx vy vz vw]. rewrite W. apply mkv_eq; ring. }
  rewrite (L (apply_axis T "-Z") (origin b) eq_refl) in Q. rewrite (L T (origin b) eq_refl) in O. rewrite Ho, Hd in Q by reflexivity. change (as_direction (origin b)) with (mkv 0 0 1 0) in *.
  assert (K : mvec (Mat3 1 0 0 0 (-1) 0 0 0 (-1)) (mkv 0 0 1 0) = scale4 (mkv 0 0 1 0) (-1)) by (unfold mvec, scale4; cbn [vx vy vz vw a00 a01 a02 a10 a11 a12 a20 a21 a22]; apply mkv_eq; ring).
  rewrite K, mulMV_scale in Q. pose proof (Mi (mkv 0 0 1 0) (mkv 0 0 1 0) eq_refl eq_refl) as D. unfold dot in D at 2. cbn [vx vy vz] in D.
  set (q := mulMV T (mkv 0 0 1 0)) in *. set (t := mulMV T (mkv 0 0 0 1)) in *. clear Hd Ho L E Mw Mi K. clearbody q t. unfold zup, plane, scale4 in Q, O. cbn [origin vx vy vz vw] in Q, O. injection Q as Q1 Q2 Q3 _. injection O as O1 O2 O3 _.
  assert (vx q = 0) as X by lra. assert (vy q = 0) as Y by lra. assert (vz q = 0) as Z by lra. unfold dot in D. rewrite X, Y, Z in D. lra.
Qed.
Print Assumptions c238_axis_breaks_mate_refuted.

(** * C239-C241: the cache *)
Theorem c239_cache_transparent : forall reg l, consistent l ->
  answers reg [] l = flat_map (fun r => match r with Solve m p ax => [snd (solve_mate true reg [] m p ax)] | Invalidate _ => [] end) l.
Proof.
  intros reg l C. rewrite (answers_fresh reg l [] l (fun x H => H) C) by (intros ? ? [=]).
  induction l as [|r l IH]; [reflexivity|]. clear IH C. generalize (r :: l). clear. induction l as [|r l IH]; [reflexivity|]. cbn [flat_map]. rewrite IH. destruct r; [|reflexivity]. cbn [fresh]. rewrite new_solver. reflexivity.
Qed.
Print Assumptions c239_cache_transparent.
Theorem c239_invalidate : forall uc reg k n m p ax, n = None \/ n = Some (m_name m) ->
  snd (solve_mate uc reg (invalidate n k) m p ax) = snd (solve_mate true reg [] m p ax).
Proof. intros. rewrite new_solver. apply invalidate_fresh. assumption. Qed.
Print Assumptions c239_invalidate.
Theorem c239_no_cache : forall reg k m p ax, solve_mate false reg k m p ax = (k, snd (solve_mate true reg [] m p ax)).
Proof. intros. rewrite new_solver. unfold solve_mate. destruct (compute reg m p ax); reflexivity. Qed.
Print Assumptions c239_no_cache.
Theorem c239_failures_not_kept : forall uc reg k m p ax, snd (solve_mate uc reg k m p ax) = Failed -> fst (solve_mate uc reg k m p ax) = k.
Proof.
  intros uc reg k m p ax. unfold solve_mate. destruct (if uc then dget String.eqb (cache_key m ax) k else None) as [o|] eqn:G; [reflexivity|].
  destruct (compute reg m p ax); [reflexivity|discriminate].
Qed.
Print Assumptions c239_failures_not_kept.
Definition moved (x : R) : matrix := build eye3 (mkv x 0 0 0).
Example c239_nonvacuous : consistent [Solve (mk "m" MDISTANCE "A" "B" 1 0) None "Z"; Invalidate (Some "x"); Solve (mk "m" MDISTANCE "A" "B" 1 0) (Some (moved 1)) "-X"].
Proof.
  split.
  - intros m p ax [H|[H|[H|[]]]]; [injection H as <- <- <-|discriminate H|injection H as <- <- <-]; eexists; unfold named_axis; cbn [In]; [right; right; left; reflexivity|right; right; right; left; reflexivity].
  - intros m p ax m' p' H H'. unfold asked in *. cbn [In] in H, H'.
    destruct H as [H|[H|[H|[]]]]; [|discriminate H|]; (destruct H' as [H'|[H'|[H'|[]]]]; [|discriminate H'|]); injection H as <- <- Ea; injection H' as <- <- Eb; subst; try discriminate; auto.
Qed.
Lemma dist_compute off p : compute (two zup zup) (mk "m" MDISTANCE "A" "B" off 0) p "Z" = Solved (match p with Some w => mulMM w (s_distance zup zup off) | None => s_distance zup zup off end).
Proof. reflexivity. Qed.
Lemma dist_at off : mulMV (s_distance zup zup off) (mkv 0 0 0 1) = mkv 0 0 off 1.
Proof.
  destruct (zup_ok (mkv 0 0 0 1) eq_refl) as (V & C & H). destruct (distance_ok zup zup _ _ V V C C H H off) as [_ D]. rewrite D by reflexivity.
  unfold zup, plane, normed, vdiv. rewrite mag_z, Rabs_R1. cbn [origin vx vy vz]. apply mkv_eq; field.
Qed.
(** "the answer to solve_mate is for the parent position given" *)
Theorem c240_parent_ignored_refuted : exists reg m p q T1 T2,
  answers reg [] [Solve m (Some p) "Z"; Solve m (Some q) "Z"] = [Solved T1; Solved T1] /\ snd (solve_mate true reg [] m (Some q) "Z") = Solved T2 /\ motion p /\ motion q /\ mulMV T1 (mkv 0 0 0 1) <> mulMV T2 (mkv 0 0 0 1).
Proof.
  assert (M : forall x, motion (moved x)) by (intros x; apply motion_build; [apply eye_iso|apply det_eye]).
  exists (two zup zup), (mk "m" MDISTANCE "A" "B" 1 0), (moved 0), (moved 5), (mulMM (moved 0) (s_distance zup zup 1)), (mulMM (moved 5) (s_distance zup zup 1)).
  split; [reflexivity|]. split; [reflexivity|]. split; [apply M|]. split; [apply M|].
  rewrite !mulMV_mulMM, dist_at. unfold moved. rewrite !build_point, mvec_eye by reflexivity. cbn [vx vy vz]. intros E. injection E as E. lra.
Qed.
Print Assumptions c240_parent_ignored_refuted.
(** "the answer to solve_mate is for the datums as they are registered now" *)
Theorem c241_stale_datum_refuted : exists reg reg' m T1 T2,
  let k := fst (solve_mate true reg [] m None "Z") in
  snd (solve_mate true reg [] m None "Z") = Solved T1 /\ snd (solve_mate true reg' k m None "Z") = Solved T1 /\ snd (solve_mate true reg' [] m None "Z") = Solved T2 /\
  (forall s n d, reg s n = Some d \/ reg' s n = Some d -> valid d) /\ mulMV T1 (mkv 0 0 0 1) <> mulMV T2 (mkv 0 0 0 1).
Proof.
  pose (z5 := plane (mkv 0 0 5 1) (mkv 0 0 1 0)). destruct (zup_ok (mkv 0 0 0 1) eq_refl) as (V & C & H). destruct (zup_ok (mkv 0 0 5 1) eq_refl) as (V5 & C5 & H5).
  exists (two zup zup), (two z5 zup), (mk "m" MDISTANCE "A" "B" 1 0), (s_distance zup zup 1), (s_distance z5 zup 1). split; [reflexivity|]. split; [reflexivity|]. split; [reflexivity|]. split.
  - intros s n d. unfold two. destruct (String.eqb n "d"); [|intros [? | ?]; discriminate]. destruct (String.eqb s "A"); intros [E | E]; injection E as <-; assumption.
  - rewrite dist_at. destruct (distance_ok z5 zup _ _ V5 V C5 C H5 H 1) as [_ D]. rewrite D by reflexivity. unfold z5, plane, normed, vdiv. rewrite mag_z, Rabs_R1. cbn [origin vx vy vz]. intros E. injection E as E. lra.
Qed.
Print Assumptions c241_stale_datum_refuted.

(** * C242-C244: several mates *)
Theorem c242_chain : forall reg start ms1 m ms2 base, linked start (ms1 ++ m :: ms2) ->
  NoDup (map m_name (ms1 ++ m :: ms2)) -> NoDup (map part_b (ms1 ++ m :: ms2)) ->
  Forall (fun x => snd (solve_mate true reg [] x None "Z") <> Failed) (ms1 ++ [m]) ->
  let worlds := solve_mate_chain reg (ms1 ++ m :: ms2) (Some base) in
  exists P T, match ms1 with [] => P = base | _ => dget String.eqb (part_a m) worlds = Some P end /\
    snd (solve_mate true reg [] m None "Z") = Solved T /\ dget String.eqb (part_b m) worlds = Some (mulMM P T).
Proof.
  intros reg start ms1 m ms2 base L N Nb F worlds.
  assert (F' : Forall (fun x => compute reg x None "Z" <> Failed) (ms1 ++ [m])) by (eapply Forall_impl; [|exact F]; intros x; cbv beta; rewrite new_solver; auto).
  destruct (place_linked reg start ms1 m ms2 base L F') as (P & T & A & B & D). exists P, T.
  assert (W : worlds = fold_left (fun d kv => dset String.eqb (fst kv) (snd kv) d) (place reg base (ms1 ++ m :: ms2)) []) by (apply chain_place; [exact N|intros ? ?; reflexivity]).
  rewrite W. pose proof (place_nodup reg _ base Nb) as Np. split; [|split; [rewrite new_solver; exact B|apply fold_dset_get; assumption]].
  destruct ms1; [exact A|apply fold_dset_get; assumption].
Qed.
Print Assumptions c242_chain.
Theorem c242_chain_stops : forall reg ms1 m ms2 base part, NoDup (map m_name (ms1 ++ m :: ms2)) ->
  Forall (fun x => snd (solve_mate true reg [] x None "Z") <> Failed) ms1 -> snd (solve_mate true reg [] m None "Z") = Failed ->
  (In part (keys (solve_mate_chain reg (ms1 ++ m :: ms2) base)) <-> In part (map part_b ms1)).
Proof.
  intros reg ms1 m ms2 base part N F E. assert (F' : Forall (fun x => compute reg x None "Z" <> Failed) ms1) by (eapply Forall_impl; [|exact F]; intros x; cbv beta; rewrite new_solver; auto). rewrite new_solver in E.
  unfold solve_mate_chain. rewrite chain_place by (exact N || (intros ? ?; reflexivity)). rewrite fold_dset_keys, place_stops by assumption. cbn. tauto.
Qed.
Print Assumptions c242_chain_stops.
Example c242_nonvacuous : let ms := [mk "p" MDISTANCE "A" "B" 1 0; mk "q" MDISTANCE "B" "C" 2 0] in
  linked "A" ms /\ NoDup (map m_name ms) /\ NoDup (map part_b ms) /\ Forall (fun x => snd (solve_mate true (two zup zup) [] x None "Z") <> Failed) ms.
Proof.
  cbn. repeat split; try reflexivity; repeat constructor; cbn; try tauto; try (intros [H|[]]; discriminate H); discriminate.
Qed.
(** "the mates may be given in any parent-before-child order" *)
Theorem c243_branches_refuted : exists reg m1 m2 T2 W2, part_a m1 = "A" /\ part_a m2 = "A" /\ m_name m1 <> m_name m2 /\ part_b m1 <> part_b m2 /\
  snd (solve_mate true reg [] m2 (Some Matrix0) "Z") = Solved T2 /\ dget String.eqb (part_b m2) (solve_mate_chain reg [m1; m2] (Some Matrix0)) = Some W2 /\
  mulMV W2 (mkv 0 0 0 1) <> mulMV T2 (mkv 0 0 0 1).
Proof.
  exists (two zup zup), (mk "p" MDISTANCE "A" "B" 1 0), (mk "q" MDISTANCE "A" "C" 1 0), (mulMM Matrix0 (s_distance zup zup 1)), (mulMM (mulMM Matrix0 (s_distance zup zup 1)) (s_distance zup zup 1)).
  repeat (split; [reflexivity || discriminate|]). rewrite !mulMV_mulMM, dist_at.
  assert (I : forall v, mulMV Matrix0 v = v) by (intros [x y z w]; unfold mulMV, Matrix0, ident_rows, getrow, dot4; cbn; apply mkv_eq; ring). rewrite !I.
  destruct (zup_ok (mkv 0 0 0 1) eq_refl) as (V & C & H). destruct (distance_ok zup zup _ _ V V C C H H 1) as [_ D]. rewrite D by reflexivity.
  unfold zup, plane, normed, vdiv. rewrite mag_z, Rabs_R1. cbn [origin vx vy vz]. intros E. injection E as E. lra.
Qed.
Print Assumptions c243_branches_refuted.
Theorem c244_solve_all : forall reg ms parents, NoDup (map m_name ms) -> forall m, In m ms ->
  dget String.eqb (m_name m) (snd (solve_all true reg [] ms parents [])) = Some (snd (solve_mate true reg [] m (dget String.eqb (part_a m) parents) "Z")).
Proof.
  intros reg ms parents N m I. rewrite new_solver, solve_all_get by (exact N || (intros ? ?; reflexivity)).
  assert (F : find (fun x => String.eqb (m_name m) (m_name x)) ms = Some m).
  { induction ms as [|x ms IH]; [destruct I|]. cbn [find]. inversion N as [|? ? Nn Nr]. subst. destruct I as [-> |I]; [rewrite String.eqb_refl; reflexivity|].
    destruct (String.eqb (m_name m) (m_name x)) eqn:E; [|apply IH; assumption]. apply String.eqb_eq in E. exfalso. apply Nn. rewrite <- E. apply in_map, I. }
  rewrite F. reflexivity.
Qed.
Print Assumptions c244_solve_all.
Theorem c244_no_others : forall reg ms parents n, NoDup (map m_name ms) -> ~ In n (map m_name ms) -> dget String.eqb n (snd (solve_all true reg [] ms parents [])) = None.
Proof.
  intros reg ms parents n N I. rewrite solve_all_get by (exact N || (intros ? ?; reflexivity)). destruct (find (fun m => String.eqb n (m_name m)) ms) as [m|] eqn:F; [|reflexivity].
  apply find_some in F as [J E]. apply String.eqb_eq in E. exfalso. apply I. rewrite E. apply in_map, J.
Qed.
Print Assumptions c244_no_others.

(** * C245, C246 *)
Theorem c245_motions_pass : forall T tol, motion T -> 0 < tol -> validate_transform T tol = (true, true, true).
Proof. exact validate_motion. Qed.
Print Assumptions c245_motions_pass.
Theorem c245_passing_is_nearly_motion : forall T tol rg ot, validate_transform T tol = (true, rg, ot) ->
  (forall u v, vw u = 0 -> vw v = 0 -> Rabs (dot (mulMV T u) (mulMV T v) - dot u v) <= 3 / 1000000 * (mag u * mag v)) /\
  (forall u v w, vw u = 0 -> vw v = 0 -> vw w = 0 -> Rabs (dot (cross (mulMV T u) (mulMV T v)) (mulMV T w) - dot (cross u v) w) <= tol * Rabs (dot (cross u v) w)).
Proof. exact validate_sound. Qed.
Print Assumptions c245_passing_is_nearly_motion.
Theorem c245_solutions_pass : forall reg m parent ax T tol, (forall s n d, reg s n = Some d -> valid d /\ clean d /\ exists v, heading d v) -> (forall w, parent = Some w -> motion w) -> 0 < tol ->
  snd (solve_mate true reg [] m parent ax) = Solved T -> validate_transform T tol = (true, true, true).
Proof.
  intros reg m parent ax T tol V P Ht E. rewrite new_solver in E. apply validate_motion; [|exact Ht].
  apply (compute_motion reg m parent ax T); [intros s n d R; apply (V s n d R)|exact P|intros d n [s R]; apply (V s n d R)|intros d (s & n & R); apply (V s n d R)|exact E].
Qed.
Print Assumptions c245_solutions_pass.
Example c245_mirror_rejected : fst (fst (validate_transform (build (Mat3 1 0 0 0 1 0 0 0 (-1)) (mkv 0 0 0 0)) (1 / 1000000))) = false.
Proof.
  destruct (validate_transform _ _) as [[v rg] ot] eqn:E. cbn [fst]. destruct v; [exfalso|reflexivity]. destruct (validate_sound _ _ _ _ E) as [_ H].
  specialize (H e_x e_y e_z eq_refl eq_refl eq_refl). rewrite !build_dir in H by reflexivity. rewrite triple_mvec in H. unfold det3, dot, cross, e_x, e_y, e_z in H. cbn [vx vy vz a00 a01 a02 a10 a11 a12 a20 a21 a22] in H.
  replace (Rabs (_ - _)) with 2 in H by (symmetry; rewrite Rabs_left; lra). replace (Rabs _) with 1 in H by (symmetry; rewrite Rabs_right; lra). lra.
Qed.
Theorem c246_solvable : forall reg m p ax, (exists T, snd (solve_mate true reg [] m p ax) = Solved T) <->
  (exists a, reg (part_a m) (datum_a m) = Some a) /\ (exists b, reg (part_b m) (datum_b m) = Some b) /\ solvable (mate_type m).
Proof.
  intros reg m p ax. rewrite new_solver. unfold compute, solvable. destruct (reg (part_a m) (datum_a m)) as [a|]; [|split; [intros [? [=]]|intros [[? [=]] _]]].
  destruct (reg (part_b m) (datum_b m)) as [b|]; [|split; [intros [? [=]]|intros [_ [[? [=]] _]]]].
  unfold solve_constraint. cbn [In]. destruct (mate_type m); split; try (intros [? [=]]); try (intros (_ & _ & X); intuition discriminate); try (intros _; eexists; reflexivity); (split; [eexists; reflexivity|split; [eexists; reflexivity|tauto]]).
Qed.
Print Assumptions c246_solvable.

(** * C247-C249: face mates *)
Theorem c247_flush : forall p c np nc off rot flip e, valid p -> valid c -> heading p np -> heading c nc -> unit_along np e ->
  let T := flush p c off rot flip in
  motion T /\ mulMV T (origin c) = mkv (vx (origin p) + off * vx e) (vy (origin p) + off * vy e) (vz (origin p) + off * vz e) 1 /\
  (if flip then opposed (mulMV T nc) np (2 / 10000000000) else along (mulMV T nc) np (2 / 10000000000)) /\
  forall u, vw u = 0 -> dot (mulMV (flush p c off 0 flip) u) e = 0 -> turned e (mulMV (flush p c off 0 flip) u) rot (mulMV T u).
Proof.
  intros p c np nc off rot flip e Vp Vc Hp Hc E T. destruct (heading_ok p np Vp Hp) as (W & M & _). assert (Z : mag np <> 0) by (pose proof eps_pos; lra). apply unit_along_unique in E; [|exact Z|exact W]. subst e.
  destruct (flush_ok p c np nc off rot flip Vp Vc Hp Hc) as (Mo & O & D & X). destruct (flush_ok p c np nc off 0 flip Vp Vc Hp Hc) as (Mo0 & _). cbv zeta in *. fold T in Mo, O, D, X.
  split; [exact Mo|]. split; [exact O|]. split; [exact D|]. intros u U Q. rewrite X, mulMV_mulMM. set (v := mulMV (flush p c off 0 flip) u) in *.
  assert (Wv : vw v = 0) by (unfold v; rewrite rigid_w by apply Mo0; exact U). destruct (Reqb rot 0) eqn:B.
  - assert (rot = 0) as -> by (unfold Reqb in B; destruct (Req_EM_T rot 0); congruence). unfold turned. replace (0 * PI / 180) with 0 by field. rewrite cos_0, sin_0.
    assert (I : mulMV Matrix0 v = v) by (destruct v as [x y z w]; unfold mulMV, Matrix0, ident_rows, getrow, dot4; cbn; apply mkv_eq; ring). rewrite I. repeat split; ring.
  - rewrite about_dir by exact Wv. rewrite mvec_rotn. assert (Q' : dot (normed np) v = 0) by (rewrite <- Q; unfold dot; ring). rewrite Q'. unfold turned. cbn [vx vy vz]. repeat split; ring.
Qed.
Print Assumptions c247_flush.
Theorem c248_concentric : forall p c np nc off e, valid p -> valid c -> clean p -> clean c -> heading p np -> heading c nc -> unit_along np e ->
  let T := concentric p c off in
  motion T /\ mulMV T (origin c) = mkv (vx (origin p) + off * vx e) (vy (origin p) + off * vy e) (vz (origin p) + off * vz e) 1 /\ along (mulMV T nc) np (2 / 10000000000).
Proof.
  intros p c np nc off e Vp Vc Cp Cc Hp Hc E. destruct (heading_ok p np Vp Hp) as (W & M & _). apply unit_along_unique in E; [|pose proof eps_pos; lra|exact W]. subst e. apply concentric_ok; assumption.
Qed.
Print Assumptions c248_concentric.
Theorem c248_parallel : forall p c np nc off e, valid p -> valid c -> heading p np -> heading c nc -> datum_type p <> AXIS -> datum_type c <> AXIS -> unit_along np e ->
  let T := parallel p c off in
  motion T /\ mulMV T (origin c) = mkv (vx (origin c) + off * vx e) (vy (origin c) + off * vy e) (vz (origin c) + off * vz e) 1 /\ along (mulMV T nc) np (2 / 10000000000).
Proof.
  intros p c np nc off e Vp Vc Hp Hc Ap Ac E. destruct (heading_ok p np Vp Hp) as (W & M & _). apply unit_along_unique in E; [|pose proof eps_pos; lra|exact W]. subst e. apply parallel_ok; assumption.
Qed.
Print Assumptions c248_parallel.
Example c247_nonvacuous : valid zup /\ valid tilted /\ clean tilted /\ heading zup (mkv 0 0 1 0) /\ heading tilted (mkv 3 4 0 0) /\ unit_along (mkv 0 0 1 0) (mkv 0 0 1 0).
Proof.
  destruct (zup_ok (mkv 0 0 0 1) eq_refl) as (V1 & C1 & H1). destruct tilted_ok as (V2 & C2 & H2). repeat (split; [assumption|]).
  split; [rewrite mag_z, Rabs_R1; reflexivity|]. exists 1. split; [lra|]. symmetry. apply scale4_id.
Qed.
(** "compute_transform returns the transform of the mate" *)
Theorem c249_compute_transform_refuted : forall reg m parent,
  (forall T, face_compute reg m parent <> FTransform T) /\
  (reg (source_or (fm_parent_source m) (fm_parent m)) (fm_parent_datum m) <> None -> reg (source_or (fm_child_source m) (fm_child m)) (fm_child_datum m) <> None -> face_compute reg m parent = FAttributeError).
Proof.
  intros reg m parent. unfold face_compute. destruct (reg _ (fm_parent_datum m)); [|split; [discriminate|congruence]]. destruct (reg _ (fm_child_datum m)); [|split; [discriminate|congruence]].
  change aligned_member with (@None mtype). split; [discriminate|reflexivity].
Qed.
Print Assumptions c249_compute_transform_refuted.
