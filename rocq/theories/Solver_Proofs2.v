From Coq Require Import String Ascii Reals List Bool Lra Psatz.
From Verif Require Import Dict Xform_Model Xform_Proofs Datum_Model Datum_Spec Datum_Proofs Constr_Model Constr_Spec Constr_Proofs Mate_Model Mate_Spec Mate_Proofs Solver_Model Solver_Spec Solver_Proofs.
Import ListNotations.
Open Scope R_scope.
Open Scope list_scope.

Section Two.
  Variables (a b : datum) (na nb : vec).
  Hypothesis Va : valid a. Hypothesis Vb : valid b. Hypothesis Ca : clean a. Hypothesis Cb : clean b.
  Hypothesis Ha : heading a na. Hypothesis Hb : heading b nb.
  Lemma facts : mag na <> 0 /\ mag nb <> 0 /\ vw na = 0 /\ vw nb = 0 /\ vw (origin a) = 1 /\ vw (origin b) = 1 /\ datum_direction a = normed na /\ datum_direction b = normed nb.
  Proof.
    destruct (heading_ok a na Va Ha) as (? & ? & ?), (heading_ok b nb Vb Hb) as (? & ? & ?). pose proof eps_pos.
    repeat split; try assumption; try lra; apply datum_direction_heading; assumption.
  Qed.
  Lemma dot_normed_dot u v : mag u <> 0 -> mag v <> 0 -> dot u v = mag u * mag v * dot (normed u) (normed v).
  Proof. intros A B. unfold normed, vdiv, dot. cbn [vx vy vz]. field. split; assumption. Qed.
  (** how well two directions are aligned by the solver's own rotation *)
  Lemma own_rotation : let r := srotation (normed nb) (normed na) in
    iso r /\ det3 r = 1 /\ 9999 / 10000 * (mag nb * mag na) <= dot (mvec r nb) na /\
    (Rabs (dot nb na) <= 9999 / 10000 * (mag nb * mag na) \/ Rabs (dot nb na) = mag nb * mag na -> same_way (mvec r nb) na).
  Proof.
    destruct facts as (Za & Zb & Wa & Wb & _).
    destruct (srotation_ok (normed nb) (normed na) eq_refl eq_refl (dot_normed nb Zb) (dot_normed na Za)) as (I & D & C & X).
    pose proof (mag_pos nb Zb). pose proof (mag_pos na Za). assert (0 < mag nb * mag na) by (apply Rmult_lt_0_compat; assumption).
    set (r := srotation (normed nb) (normed na)) in *. cbv zeta. split; [exact I|]. split; [exact D|].
    pose proof (normed_mvec r nb I Zb) as E. pose proof (mag_mvec r nb I) as Mm. split.
    - rewrite (dot_normed_dot (mvec r nb) na) by (rewrite ?Mm; assumption). rewrite E, Mm. rewrite Rmult_comm. apply Rmult_le_compat_l; lra.
    - intros H2. assert (Y : mvec r (normed nb) = normed na).
      { apply X. rewrite (dot_normed_dot nb na) in H2 by assumption. rewrite Rabs_mult, (Rabs_right (mag nb * mag na)) in H2 by lra.
        assert (A : Rabs (dot (normed nb) (normed na)) <= 9999 / 10000 \/ Rabs (dot (normed nb) (normed na)) = 1).
        { destruct H2 as [H2|H2]; [left|right]; apply (Rmult_le_reg_l (mag nb * mag na)) || apply (Rmult_eq_reg_l (mag nb * mag na)); lra. }
        unfold Rabs in A. destruct (Rcase_abs (dot (normed nb) (normed na))); lra. }
      exists (mag nb / mag na). split; [apply Rdiv_lt_0_compat; assumption|].
      rewrite Y in E. unfold normed, vdiv in E. rewrite Mm in E. injection E as Ex Ey Ez.
      assert (forall x y, x / mag nb = y / mag na -> x = y * (mag nb / mag na)) as K.
      { intros x y Q. transitivity (x / mag nb * mag nb); [field; exact Zb|]. rewrite Q. field. exact Za. }
      unfold scale4. rewrite Wa. unfold mvec. cbn [vx vy vz vw] in *. apply mkv_eq; [apply K; assumption|apply K; assumption|apply K; assumption|ring].
  Qed.
  Lemma revolute_ok : let T := s_concentric a b in
    motion T /\ mulMV T (origin b) = origin a /\ 9999 / 10000 * (mag nb * mag na) <= dot (mulMV T nb) na /\
    (Rabs (dot nb na) <= 9999 / 10000 * (mag nb * mag na) \/ Rabs (dot nb na) = mag nb * mag na -> same_way (mulMV T nb) na).
  Proof.
    destruct facts as (Za & Zb & Wa & Wb & Oa & Ob & Da & Db). destruct own_rotation as (I & D & C & X). cbv zeta.
    unfold s_concentric. rewrite Da, Db. set (r := srotation _ _) in *. split; [apply motion_build; assumption|].
    rewrite !(build_dir _ _ nb) by exact Wb. split; [|split; assumption].
    rewrite build_point by exact Ob. unfold vminus. cbn [vx vy vz]. transitivity (as_point (origin a)); [unfold as_point; apply mkv_eq; ring|apply as_point_id, Oa].
  Qed.
  Lemma sparallel_ok : let T := s_parallel a b in
    motion T /\ mulMV T (mkv 0 0 0 1) = mkv 0 0 0 1 /\ 9999 / 10000 * (mag nb * mag na) <= dot (mulMV T nb) na /\
    (Rabs (dot nb na) <= 9999 / 10000 * (mag nb * mag na) \/ Rabs (dot nb na) = mag nb * mag na -> same_way (mulMV T nb) na).
  Proof.
    destruct facts as (Za & Zb & Wa & Wb & Oa & Ob & Da & Db). destruct own_rotation as (I & D & C & X). cbv zeta.
    unfold s_parallel. rewrite Da, Db. set (r := srotation _ _) in *. split; [apply motion_build; assumption|].
    rewrite !(build_dir _ _ nb) by exact Wb. split; [|split; assumption].
    rewrite build_point by reflexivity. unfold mvec. cbn [vx vy vz]. apply mkv_eq; ring.
  Qed.
  Lemma perpendicular_ok : let T := s_perpendicular a b in motion T /\ mulMV T (mkv 0 0 0 1) = mkv 0 0 0 1 /\ dot (mulMV T nb) na = 0.
  Proof.
    destruct facts as (Za & Zb & Wa & Wb & Oa & Ob & Da & Db). cbv zeta. unfold s_perpendicular. rewrite Da, Db.
    pose proof (dot_normed na Za) as Ua. pose proof (dot_normed nb Zb) as Ub.
    set (da := normed na) in *. set (db := normed nb) in *.
    assert (P : dot (s_perp da db) (s_perp da db) = 1 /\ dot (s_perp da db) da = 0 /\ vw (s_perp da db) = 0 /\ - (9999 / 10000) <= dot db (s_perp da db) <= 9999 / 10000).
    { unfold s_perp. destruct (Rltb (mag (cross db da)) tenth10) eqn:B.
      - apply Rltb_true in B. destruct (half_turn_ok da Ua) as [P O]. fold (half_turn_axis da). split; [exact P|]. split; [exact O|]. split; [reflexivity|].
        set (p := half_turn_axis da) in *.
        (* db = (da.db) da + (cross part): |db . p| <= |cross db da| *)
        assert (E : dot (cross db da) (cross p da) = dot db p) by (transitivity (dot db p * dot da da - dot db da * dot p da); [unfold dot, cross; cbn [vx vy vz]; ring|rewrite Ua, O; ring]).
        pose proof (cauchy (cross db da) (cross p da)) as K. rewrite E in K.
        assert (mag (cross p da) = 1) as M1. { apply dot_mag1. rewrite cross_lagrange, P, Ua, O. ring. }
        rewrite M1 in K. unfold tenth10 in B. unfold Rabs in K. destruct (Rcase_abs (dot db p)); lra.
      - apply Rltb_false in B. assert (S : mag (cross db da) <> 0) by (unfold tenth10 in B; lra).
        change (vdiv (cross db da) (mag (cross db da))) with (normed (cross db da)). split; [apply dot_normed, S|].
        assert (forall w, dot (cross db da) w = 0 -> dot (normed (cross db da)) w = 0) as K.
        { intros w Q. unfold normed, vdiv. unfold dot at 1. cbn [vx vy vz]. transitivity (dot (cross db da) w / mag (cross db da)); [unfold dot; field; exact S|]. rewrite Q. unfold Rdiv. ring. }
        destruct (cross_self db da) as [K1 K2]. split; [apply K, K2|]. split; [reflexivity|].
        replace (dot db (normed (cross db da))) with 0; [lra|]. symmetry. transitivity (dot (normed (cross db da)) db); [unfold dot; ring|]. apply K, K1. }
    destruct P as (Up & Op & Wp & Rp). destruct (srotation_ok db (s_perp da db) eq_refl Wp Ub Up) as (I & D & _ & X).
    specialize (X (or_introl Rp)). set (r := srotation db (s_perp da db)) in *.
    split; [apply motion_build; assumption|]. split; [rewrite build_point by reflexivity; unfold mvec; cbn [vx vy vz]; apply mkv_eq; ring|].
    rewrite build_dir by exact Wb. rewrite (dot_normed_dot (mvec r nb) na) by (rewrite ?mag_mvec by assumption; assumption).
    rewrite normed_mvec by assumption. fold db da. rewrite X, Op. ring.
  Qed.
  Lemma distance_ok off : let T := s_distance a b off in
    motion T /\ forall p, vw p = 1 -> mulMV T p = mkv (vx p + (vx (origin a) + off * vx (normed na))) (vy p + (vy (origin a) + off * vy (normed na))) (vz p + (vz (origin a) + off * vz (normed na))) 1.
  Proof.
    destruct facts as (Za & Zb & Wa & Wb & Oa & Ob & Da & Db). cbv zeta. unfold s_distance. rewrite Da.
    split; [apply motion_build; [apply eye_iso|apply det_eye]|]. intros p Wp. rewrite build_point, mvec_eye by exact Wp. unfold vplus, vtimes. cbn [vx vy vz]. apply mkv_eq; ring.
  Qed.
  Lemma angle_ok deg : let T := s_angle a b deg in
    motion T /\ mulMV T (mkv 0 0 0 1) = mkv 0 0 0 1 /\ mulMV T na = na /\ forall u, vw u = 0 -> dot u na = 0 -> turned (normed na) u deg (mulMV T u).
  Proof.
    destruct facts as (Za & Zb & Wa & Wb & Oa & Ob & Da & Db). cbv zeta. unfold s_angle. rewrite Da.
    pose proof (dot_normed na Za) as U. rewrite rodrigues_rod by (exact U || reflexivity). pose proof (sc_one (deg * PI / 180)) as SC.
    split; [apply motion_build; [apply rod_iso; assumption|apply det_rod; assumption]|].
    split; [rewrite build_point by reflexivity; unfold mvec; cbn [vx vy vz]; apply mkv_eq; ring|]. split.
    - rewrite build_dir by exact Wa. rewrite mvec_rod by exact U. 
      assert (dot (normed na) na = mag na) as Q. { unfold normed, vdiv. unfold dot. cbn [vx vy vz]. transitivity (dot na na / mag na); [unfold dot; field; exact Za|]. rewrite <- mag_sq. field. exact Za. }
      rewrite Q. unfold normed, vdiv. cbn [vx vy vz]. transitivity (mkv (vx na) (vy na) (vz na) 0); [apply mkv_eq; try reflexivity; field; exact Za|apply w0, Wa].
    - intros u Wu O. rewrite build_dir by exact Wu. rewrite mvec_rod by exact U.
      assert (dot (normed na) u = 0) as Q. { unfold normed, vdiv. unfold dot. cbn [vx vy vz]. transitivity (dot u na / mag na); [unfold dot; field; exact Za|]. rewrite O. unfold Rdiv. ring. }
      rewrite Q. unfold turned. cbn [vx vy vz]. split; [|split]; ring.
  Qed.
End Two.

(** * The axis remapping *)
Lemma mulMV_set_rot3 T r v : mulMV (set_rot3 T r) v =
  mkv (a00 r * vx v + a01 r * vy v + a02 r * vz v + vw (getrow T 0) * vw v) (a10 r * vx v + a11 r * vy v + a12 r * vz v + vw (getrow T 1) * vw v)
      (a20 r * vx v + a21 r * vy v + a22 r * vz v + vw (getrow T 2) * vw v) (dot4 (getrow T 3) v).
Proof. reflexivity. Qed.
Lemma apply_axis_eq T axis r : dget String.eqb axis axis_rotations = Some r -> motion T ->
  (forall u, vw u = 0 -> mulMV (apply_axis T axis) u = mulMV T (mvec r u)) /\ mulMV (apply_axis T axis) (mkv 0 0 0 1) = mulMV T (mkv 0 0 0 1).
Proof.
  intros E [[Mw _] _]. unfold apply_axis. rewrite E. split.
  - intros u W. rewrite mulMV_set_rot3. unfold mulMV.
    assert (B : dot4 (getrow T 3) u = dot4 (getrow T 3) (mvec r u)) by (pose proof (Mw u) as B1; pose proof (Mw (mvec r u)) as B2; cbn [vw mulMV] in B1, B2; rewrite B1, B2, W; reflexivity).
    rewrite B. unfold mmul, rot3, mvec, dot4. cbn [vx vy vz vw a00 a01 a02 a10 a11 a12 a20 a21 a22]. rewrite W.
    set (g0 := getrow T 0). set (g1 := getrow T 1). set (g2 := getrow T 2). set (g3 := getrow T 3). apply mkv_eq; ring.
  - rewrite mulMV_set_rot3. unfold mulMV, dot4. cbn [vx vy vz vw]. set (g0 := getrow T 0). set (g1 := getrow T 1). set (g2 := getrow T 2). set (g3 := getrow T 3). apply mkv_eq; ring.
Qed.
Lemma axis_table axis r : dget String.eqb axis axis_rotations = Some r -> iso r /\ det3 r = 1.
Proof.
  unfold axis_rotations. cbn [dget].
  repeat (destruct (String.eqb axis _); [intros [= <-]; split; [intros u v; unfold dot, mvec; cbn; ring|unfold det3; cbn; ring]|]). discriminate.
Qed.
Lemma apply_axis_motion T axis : motion T -> motion (apply_axis T axis) /\ mulMV (apply_axis T axis) (mkv 0 0 0 1) = mulMV T (mkv 0 0 0 1).
Proof.
  intros M. destruct (dget String.eqb axis axis_rotations) as [r|] eqn:E.
  - destruct (apply_axis_eq T axis r E M) as [Hd Ho]. destruct (axis_table axis r E) as [I D]. split; [|exact Ho].
    destruct M as [[Mw Mi] Mh]. split; [split|].
    + intros v. transitivity (dot4 (getrow T 3) (mkv 0 0 0 (vw v)) + dot4 (getrow T 3) (mkv (vx v) (vy v) (vz v) 0)).
      { unfold apply_axis. rewrite E. unfold mulMV, set_rot3, dot4. cbn [getrow trans mm rget row0 row1 row2 row3 vx vy vz vw]. ring. }
      pose proof (Mw (mkv 0 0 0 (vw v))) as A1. pose proof (Mw (mkv (vx v) (vy v) (vz v) 0)) as A2. cbn [vw mulMV] in A1, A2. rewrite A1, A2. ring.
    + intros u v U V. rewrite !Hd by assumption. rewrite Mi by reflexivity. apply I.
    + intros u v w U V W. rewrite !Hd by assumption. rewrite Mh by reflexivity. rewrite triple_mvec, D. ring.
  - unfold apply_axis. rewrite E. split; [exact M|reflexivity].
Qed.
