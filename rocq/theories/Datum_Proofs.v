From Coq Require Import Reals String List Bool Lra Psatz.
From Verif Require Import Xform_Model Xform_Proofs Datum_Model Datum_Spec.
Import ListNotations.
Open Scope R_scope.

Lemma mulMV_scale m v k : mulMV m (scale4 v k) = scale4 (mulMV m v) k.
Proof. unfold mulMV, scale4. apply mkv_eq; unfold dot4; cbn [vx vy vz vw]; ring. Qed.
Lemma mag_dot v : mag v = sqrt (dot v v). Proof. reflexivity. Qed.
Lemma mag_scale4 v k : 0 <= k -> mag (scale4 v k) = k * mag v.
Proof.
  intros H. rewrite !mag_dot. replace (dot (scale4 v k) (scale4 v k)) with ((k * k) * dot v v) by (unfold dot, scale4; cbn; ring).
  rewrite sqrt_mult_alt by nra. rewrite sqrt_square by exact H. reflexivity.
Qed.
Lemma mag_as_direction v : mag (as_direction v) = mag v. Proof. reflexivity. Qed.
Lemma mag_nonneg v : 0 <= mag v. Proof. apply sqrt_pos. Qed.
Lemma scale4_id v : scale4 v 1 = v. Proof. destruct v. unfold scale4. cbn. apply mkv_eq; ring. Qed.
Lemma scale4_scale4 v a b : scale4 (scale4 v a) b = scale4 v (a * b). Proof. unfold scale4. cbn. apply mkv_eq; ring. Qed.
Lemma as_dir_id v : vw v = 0 -> as_direction v = v. Proof. destruct v. cbn. intros ->. reflexivity. Qed.
Lemma as_point_id v : vw v = 1 -> as_point v = v. Proof. destruct v. cbn. intros ->. reflexivity. Qed.

Definition tv (m : matrix) (v : vec) : vec := as_direction (transform_vector m v).
Section Rigid.
  Variable m : matrix.
  Hypothesis R : rigid m.
  Lemma rigid_mag v : vw v = 0 -> mag (mulMV m v) = mag v.
  Proof. intros W. rewrite !mag_dot. destruct R as [_ D]. rewrite D by exact W. reflexivity. Qed.
  Lemma tv_eq v : vw v = 0 -> tv m v = scale4 (mulMV m v) (if Rltb epsilon (mag v) then 1 / mag v else 1).
  Proof.
    intros W. unfold tv, transform_vector. rewrite rigid_mag by exact W. destruct R as [Rw _]. specialize (Rw v). rewrite W in Rw.
    destruct (Rltb epsilon (mag v)); [|rewrite scale4_id; apply as_dir_id, Rw].
    unfold as_direction, scale3, scale4. cbn [vx vy vz vw]. rewrite Rw. apply mkv_eq; ring.
  Qed.
  Lemma tv_w v : vw (tv m v) = 0. Proof. reflexivity. Qed.
  Lemma tv_mag v : vw v = 0 -> mag (tv m v) = if Rltb epsilon (mag v) then 1 else mag v.
  Proof.
    intros W. rewrite tv_eq by exact W. pose proof eps_pos as E. destruct (Rltb epsilon (mag v)) eqn:L.
    - apply Rltb_true in L. rewrite mag_scale4, rigid_mag by (auto; apply Rlt_le, Rdiv_lt_0_compat; lra). field. lra.
    - rewrite mag_scale4 by lra. rewrite rigid_mag by exact W. ring.
  Qed.
  Lemma tv_long v : vw v = 0 -> zero_length v = false -> zero_length (tv m v) = false.
  Proof.
    unfold zero_length. intros W Z. apply Rltb_false in Z. apply Rltb_false. rewrite tv_mag by exact W. destruct (Rltb epsilon (mag v)); auto. unfold epsilon. lra.
  Qed.
  Lemma tv_same_way v : vw v = 0 -> same_way (tv m v) (mulMV m v).
  Proof.
    intros W. rewrite tv_eq by exact W. eexists. split; [|reflexivity]. pose proof eps_pos as E. destruct (Rltb epsilon (mag v)) eqn:L; [|lra].
    apply Rltb_true in L. apply Rdiv_lt_0_compat; lra.
  Qed.
  Lemma rigid_point o : vw o = 1 -> as_point (mulMV m o) = mulMV m o.
  Proof. intros W. apply as_point_id. destruct R as [Rw _]. rewrite Rw. exact W. Qed.
End Rigid.
Lemma rigid_mul a b : rigid a -> rigid b -> rigid (mulMM a b).
Proof.
  intros [A1 A2] [B1 B2]. split; intros; rewrite !mulMV_mulMM; [rewrite A1; apply B1|]. rewrite A2 by (rewrite B1; auto). apply B2; auto.
Qed.
Lemma tv_compose a b v : rigid a -> rigid b -> vw v = 0 -> tv a (tv b v) = tv (mulMM a b) v.
Proof.
  intros A B W. rewrite (tv_eq _ (rigid_mul a b A B)), mulMV_mulMM by exact W. rewrite (tv_eq a A) by apply tv_w. rewrite (tv_mag b B) by exact W.
  rewrite (tv_eq b B) by exact W. rewrite mulMV_scale, scale4_scale4. f_equal. destruct (Rltb epsilon (mag v)) eqn:L; [|rewrite L; ring].
  replace (Rltb epsilon 1) with true by (symmetry; apply Rltb_true; unfold epsilon; lra). field. apply Rltb_true in L. pose proof eps_pos. lra.
Qed.

Ltac inv_some := repeat match goal with
  | H : None = Some _ |- _ => discriminate H
  | H : Some _ = Some _ |- _ => injection H as H; subst
  | H : (if ?b then _ else _) = Some _ |- _ => destruct b eqn:?
  | H : match ?o with Some _ => _ | None => _ end = Some _ |- _ => destruct o eqn:?
  end.
(** what a constructed datum looks like *)
Lemma valid_cases d : valid d -> vw (origin d) = 1 /\
  match datum_type d with
  | POINT => True
  | AXIS => exists v, direction d = Some v /\ vw v = 0 /\ zero_length v = false
  | PLANE => exists v, normal d = Some v /\ vw v = 0 /\ zero_length v = false
  | CIRCLE => exists v r, normal d = Some v /\ vw v = 0 /\ zero_length v = false /\ radius d = Some r /\ 0 < r
  | FRAME => exists v w, x_axis d = Some v /\ y_axis d = Some w /\ vw v = 0 /\ vw w = 0 /\ zero_length v = false /\ zero_length w = false
  end.
Proof.
  intros [raw E]. unfold post_init in E. destruct (datum_type raw) eqn:T; inv_some; cbn; (split; [reflexivity|]); auto.
  - eexists. split; [reflexivity|]. split; auto.
  - eexists. split; [reflexivity|]. split; auto.
  - do 2 eexists. split; [reflexivity|]. split; [reflexivity|]. split; [reflexivity|]. split; [reflexivity|]. split; auto.
  - do 2 eexists. split; [reflexivity|]. split; [reflexivity|]. split; auto. split; [reflexivity|]. apply Rleb_false. assumption.
Qed.
Lemma own_vectors d : valid d -> Forall (fun v => vw v = 0 /\ epsilon <= mag v) (own d).
Proof.
  intros V. apply valid_cases in V as [_ V]. unfold own, zero_length in *. destruct (datum_type d); [constructor|..].
  - destruct V as (v & -> & W & Z). apply Rltb_false in Z. repeat (apply Forall_cons || apply Forall_nil); auto.
  - destruct V as (v & -> & W & Z). apply Rltb_false in Z. destruct (direction d); repeat (apply Forall_cons || apply Forall_nil); auto.
  - destruct V as (v & w & -> & -> & W & W' & Z & Z'). apply Rltb_false in Z, Z'. destruct (direction d), (normal d); repeat (apply Forall_cons || apply Forall_nil); auto.
  - destruct V as (v & r & -> & W & Z & _). apply Rltb_false in Z. destruct (direction d); repeat (apply Forall_cons || apply Forall_nil); auto.
Qed.

(** the transformed datum *)
Definition image (m : matrix) (d : datum) : datum :=
  let other := option_map (transform_vector m) in
  let mine := option_map (tv m) in
  match datum_type d with
  | POINT => Datum POINT (mulMV m (origin d)) (other (direction d)) (other (normal d)) (other (x_axis d)) (other (y_axis d)) (radius d)
  | AXIS => Datum AXIS (mulMV m (origin d)) (mine (direction d)) (other (normal d)) (other (x_axis d)) (other (y_axis d)) (radius d)
  | PLANE => Datum PLANE (mulMV m (origin d)) (other (direction d)) (mine (normal d)) (other (x_axis d)) (other (y_axis d)) (radius d)
  | CIRCLE => Datum CIRCLE (mulMV m (origin d)) (other (direction d)) (mine (normal d)) (other (x_axis d)) (other (y_axis d)) (radius d)
  | FRAME => Datum FRAME (mulMV m (origin d)) (other (direction d)) (other (normal d)) (mine (x_axis d)) (mine (y_axis d)) (radius d)
  end.
Lemma transform_image m d : rigid m -> valid d -> transform m d = Some (image m d).
Proof.
  intros R V. apply valid_cases in V as [W V]. unfold transform, post_init, image. cbn [datum_type origin direction normal x_axis y_axis radius].
  rewrite (rigid_point m R) by exact W. destruct (datum_type d); auto.
  - destruct V as (v & -> & Wv & Z). cbn [option_map]. fold (tv m v). rewrite (tv_long m R) by auto. reflexivity.
  - destruct V as (v & -> & Wv & Z). cbn [option_map]. fold (tv m v). rewrite (tv_long m R) by auto. reflexivity.
  - destruct V as (v & w & -> & -> & Wv & Ww & Z & Z'). cbn [option_map]. fold (tv m v) (tv m w). rewrite !(tv_long m R) by auto. reflexivity.
  - destruct V as (v & r & -> & Wv & Z & -> & P). cbn [option_map]. fold (tv m v). rewrite (tv_long m R) by auto. apply Rleb_false in P. rewrite P. reflexivity.
Qed.
Lemma transform_valid m d d' : transform m d = Some d' -> valid d'.
Proof. intros E. eexists. exact E. Qed.
Lemma own_image m d : valid d -> own (image m d) = map (tv m) (own d).
Proof.
  intros V. apply valid_cases in V as [_ V]. unfold own, image. destruct (datum_type d); cbn [datum_type direction normal x_axis y_axis]; auto.
  - destruct V as (v & -> & _). reflexivity.
  - destruct V as (v & -> & _). cbn. destruct (direction d); reflexivity.
  - destruct V as (v & w & -> & -> & _). cbn. destruct (direction d), (normal d); reflexivity.
  - destruct V as (v & r & -> & _). cbn. destruct (direction d); reflexivity.
Qed.
Lemma image_compose a b d : rigid a -> rigid b -> valid d -> clean d -> image a (image b d) = image (mulMM a b) d.
Proof.
  intros A B V C. apply valid_cases in V as [W V]. unfold image, clean in *. destruct (datum_type d) eqn:T; cbn [datum_type origin direction normal x_axis y_axis radius]; rewrite mulMV_mulMM.
  - destruct C as (-> & -> & -> & ->). reflexivity.
  - destruct C as (-> & -> & ->). destruct V as (v & -> & Wv & _). cbn [option_map]. rewrite tv_compose by auto. reflexivity.
  - destruct C as (-> & -> & ->). destruct V as (v & -> & Wv & _). cbn [option_map]. rewrite tv_compose by auto. reflexivity.
  - destruct C as (-> & ->). destruct V as (v & w & -> & -> & Wv & Ww & _). cbn [option_map]. rewrite !tv_compose by auto. reflexivity.
  - destruct C as (-> & -> & ->). destruct V as (v & r & -> & Wv & _). cbn [option_map]. rewrite tv_compose by auto. reflexivity.
Qed.

(** translations and rotations are rigid *)
Lemma translation_rigid t b : rigid (Translation t b).
Proof.
  split.
  - intros v. destruct b; unfold mulMV, Translation, dot4; cbn; ring.
  - intros u v Hu Hv. destruct b; unfold mulMV, Translation, dot4, dot; cbn; rewrite Hu, Hv; ring.
Qed.
Lemma rotation_rigid u a b r : mag u = 1 -> Rotation u a b = Ok r -> rigid r.
Proof.
  intros Hu E. split.
  - intros v. apply rotation_form in E. subst. apply rot_w.
  - intros p q Wp Wq.
    assert (I : forall x y, vw x = vw y -> dot (sub (mulMV r x) (mulMV r y)) (sub (mulMV r x) (mulMV r y)) = dot (sub x y) (sub x y)).
    { intros x y W. pose proof (rotation_isometry u a b r x y Hu E W) as D. unfold dist in D. rewrite !mag_dot in D. apply sqrt_inj in D; auto; unfold dot; nra. }
    assert (Z : mulMV r (mkv 0 0 0 0) = mkv 0 0 0 0) by (unfold mulMV, dot4; cbn [vx vy vz vw]; apply mkv_eq; ring).
    assert (I0 : forall x, vw x = 0 -> dot (mulMV r x) (mulMV r x) = dot x x).
    { intros x W. specialize (I x (mkv 0 0 0 0) W). rewrite Z in I. unfold dot, sub in *. cbn [vx vy vz] in *. rewrite !Rminus_0_r in I. exact I. }
    pose proof (I p q ltac:(congruence)) as Ipq. pose proof (I0 p Wp) as Ip. pose proof (I0 q Wq) as Iq.
    assert (X : forall x y, dot (sub x y) (sub x y) = dot x x + dot y y - 2 * dot x y) by (intros; unfold dot, sub; cbn; ring).
    rewrite !X in Ipq. lra.
Qed.
Lemma identity_rigid : rigid Matrix0.
Proof. split; intros; rewrite !mulMV_id; auto. Qed.

(** frames *)
Lemma unit_dot v : 0 < mag v -> dot (unit v) (unit v) = 1.
Proof.
  intros P. unfold unit. assert (S : mag v * mag v = dot v v) by (rewrite mag_dot; apply sqrt_sqrt; unfold dot; nra).
  replace (dot (scale3 v (1 / mag v)) (scale3 v (1 / mag v))) with (dot v v * (1 / mag v) * (1 / mag v)) by (unfold dot, scale3; cbn; ring). rewrite <- S. field. lra.
Qed.
Lemma columns_rigid x y z o : vw o = 1 -> dot x x = 1 -> dot y y = 1 -> dot z z = 1 -> dot x y = 0 -> dot x z = 0 -> dot y z = 0 -> rigid (columns x y z o).
Proof.
  intros Wo Xx Yy Zz Xy Xz Yz. split.
  - intros v. unfold mulMV, columns, dot4; cbn. ring.
  - intros u v Hu Hv. unfold mulMV, columns, dot4; cbn [getrow trans mm rget row0 row1 row2 row3 vx vy vz vw]. unfold dot at 1; cbn [vx vy vz vw]. rewrite Hu, Hv.
    transitivity (vx u * vx v * dot x x + vy u * vy v * dot y y + vz u * vz v * dot z z + (vx u * vy v + vy u * vx v) * dot x y + (vx u * vz v + vz u * vx v) * dot x z + (vy u * vz v + vz u * vy v) * dot y z).
    + unfold dot. ring.
    + rewrite Xx, Yy, Zz, Xy, Xz, Yz. unfold dot. ring.
Qed.
Lemma columns_origin x y z o : vw o = 1 -> mulMV (columns x y z o) (mkv 0 0 0 1) = o.
Proof. intros W. destruct o; cbn in W; subst. unfold mulMV, columns, dot4; cbn. apply mkv_eq; ring. Qed.
Lemma columns_z x y z o : mulMV (columns x y z o) (mkv 0 0 1 0) = as_direction z.
Proof. unfold mulMV, columns, dot4; cbn. unfold as_direction. apply mkv_eq; ring. Qed.
Lemma cross_lagrange a b : dot (cross a b) (cross a b) = dot a a * dot b b - dot a b * dot a b.
Proof. unfold dot, cross; cbn. ring. Qed.
Lemma frame_on_ok n o : vw o = 1 -> 0 < mag n -> rigid (frame_on n o) /\ mulMV (frame_on n o) (mkv 0 0 0 1) = o /\ mulMV (frame_on n o) (mkv 0 0 1 0) = as_direction (unit n) /\
  cross (getcol (frame_on n o) 0) (getcol (frame_on n o) 1) = as_point (getcol (frame_on n o) 2).
Proof.
  intros W P. unfold frame_on. pose proof (unit_dot n P) as Zz. set (z := unit n) in *.
  set (ref := if Rltb (Rabs (vx z)) (9 / 10) then mkv 1 0 0 0 else mkv 0 1 0 0).
  assert (Pc : 0 < dot (cross z ref) (cross z ref)).
  { rewrite cross_lagrange, Zz. unfold ref. unfold dot in Zz. destruct (Rltb (Rabs (vx z)) (9 / 10)) eqn:L.
    - apply Rltb_true in L. replace (dot (mkv 1 0 0 0) (mkv 1 0 0 0)) with 1 by (unfold dot; cbn; ring). replace (dot z (mkv 1 0 0 0)) with (vx z) by (unfold dot; cbn; ring). assert (vx z * vx z < 1); [|lra]. unfold Rabs in L. destruct (Rcase_abs (vx z)); nra.
    - apply Rltb_false in L. replace (dot (mkv 0 1 0 0) (mkv 0 1 0 0)) with 1 by (unfold dot; cbn; ring). replace (dot z (mkv 0 1 0 0)) with (vy z) by (unfold dot; cbn; ring). assert (81 / 100 <= vx z * vx z); [|pose proof (Rle_0_sqr (vz z)) as Q; unfold Rsqr in Q; lra]. unfold Rabs in L. destruct (Rcase_abs (vx z)); nra. }
  assert (Pm : 0 < mag (cross z ref)) by (rewrite mag_dot; apply sqrt_lt_R0; exact Pc).
  pose proof (unit_dot (cross z ref) Pm) as Xx. set (x := unit (cross z ref)) in *.
  assert (Xz : dot x z = 0) by (unfold x, unit, scale3, dot, cross; cbn; ring).
  assert (Yy : dot (cross z x) (cross z x) = 1).
  { rewrite cross_lagrange, Zz, Xx. replace (dot z x) with 0; [ring|]. rewrite <- Xz. unfold dot. ring. }
  split; [|split; [apply columns_origin, W|split; [apply columns_z|]]].
  - apply columns_rigid; auto; unfold dot, cross; cbn; ring.
  - assert (C : cross x (cross z x) = as_point z).
    { assert (Q : cross x (cross z x) = mkv (vx z * dot x x - vx x * dot x z) (vy z * dot x x - vy x * dot x z) (vz z * dot x x - vz x * dot x z) 1) by (unfold cross, dot; cbn; apply mkv_eq; ring).
      rewrite Q, Xx, Xz. unfold as_point. apply mkv_eq; ring. }
    unfold columns, getcol, rcol. cbn [trans mm row0 row1 row2 row3 vget vx vy vz vw]. unfold cross at 1. cbn [vx vy vz]. unfold as_point in *. cbn [vx vy vz]. rewrite <- C. reflexivity.
Qed.
