From Coq Require Import Reals List Bool Lra Lia Psatz.
From Verif Require Import Xform_Model Xform_Proofs Fig_Model Isect_Proofs4 ASurf_Model ASurf_Spec.
Import ListNotations.
Open Scope R_scope.

Lemma mag_sq a : mag a * mag a = dot a a.
Proof. unfold mag, dot. apply sqrt_sqrt. nra. Qed.
Lemma mag_nonneg a : 0 <= mag a. Proof. apply sqrt_pos. Qed.
Lemma over_dot a b m : m <> 0 -> dot (over a m) b = dot a b / m.
Proof. intros M. unfold over, vect, dot. cbn [vx vy vz]. field. exact M. Qed.
Lemma over_unit a : 0 < mag a -> unit_vec (over a (mag a)).
Proof.
  intros M. split; [|reflexivity]. rewrite over_dot by lra. assert (dot a (over a (mag a)) = dot a a / mag a) as ->.
  { unfold over, vect, dot. cbn [vx vy vz]. field. lra. }
  rewrite <- mag_sq. field. lra.
Qed.
Lemma mag_pos a : 0 < dot a a -> 0 < mag a.
Proof. intros H. pose proof (mag_sq a). pose proof (mag_nonneg a). nra. Qed.
Lemma direction_ok a d : direction a = Ok d -> unit_vec d /\ epsilon <= mag a /\ d = over a (mag a).
Proof.
  unfold direction. destruct (Rltb (mag a) epsilon) eqn:E; [discriminate|]. apply Rltb_false in E. intros K. injection K as <-.
  split; [|auto]. apply over_unit. unfold epsilon in E. lra.
Qed.
Lemma direction_err a : direction a = ValueError <-> mag a < epsilon.
Proof. unfold direction. destruct (Rltb (mag a) epsilon) eqn:E; [apply Rltb_true in E; tauto|apply Rltb_false in E]. split; [discriminate|lra]. Qed.
Lemma direction_total a : direction a = ValueError \/ exists d, direction a = Ok d.
Proof. unfold direction. destruct (Rltb _ _); eauto. Qed.
Lemma reference_frame a : unit_vec a -> frame a (reference a).
Proof.
  intros [U W]. unfold reference. cbv zeta. set (r := if Rltb (Rabs (vz a)) (9/10) then vect (vy a) (- vx a) 0 else vect 0 (vz a) (- vy a)).
  assert (P : 0 < dot r r /\ dot a r = 0).
  { unfold dot in U. unfold r. destruct (Rltb (Rabs (vz a)) (9/10)) eqn:E; unfold dot, vect; cbn [vx vy vz].
    - apply Rltb_true in E. split; [|ring]. assert (vz a * vz a <= 81/100). { pose proof (Rabs_pos (vz a)). rewrite <- (Rabs_pos_eq (vz a * vz a)) by nra. rewrite Rabs_mult. nra. } nra.
    - apply Rltb_false in E. split; [|ring]. assert (81/100 <= vz a * vz a). { rewrite <- (Rabs_pos_eq (vz a * vz a)) by nra. rewrite Rabs_mult. nra. } nra. }
  clearbody r. destruct P as [P Q]. pose proof (mag_pos r P) as M. split; [split; assumption|]. split; [apply over_unit, M|].
  transitivity (dot a r / mag r); [unfold over, vect, dot; cbn [vx vy vz]; field; lra|rewrite Q; field; lra].
Qed.
Lemma cross_frame a b : frame a b -> unit_vec (cross0 a b) /\ dot a (cross0 a b) = 0 /\ dot b (cross0 a b) = 0.
Proof.
  intros ([A _] & [B _] & C). split; [split; [|reflexivity]|].
  - assert (dot (cross0 a b) (cross0 a b) = dot a a * dot b b - dot a b * dot a b) as -> by (unfold dot, cross0, vect; cbn [vx vy vz]; ring).
    rewrite A, B, C. ring.
  - split; unfold dot, cross0, vect; cbn [vx vy vz]; ring.
Qed.
(** around: a unit vector perpendicular to the axis *)
Lemma around_frame a b u : frame a b -> frame a (around a b u).
Proof.
  intros F. pose proof (cross_frame a b F) as ([C1 _] & C2 & C3). destruct F as (A & [B _] & AB). split; [exact A|].
  pose proof (sin2_cos2 u) as T. unfold Rsqr in T. split; [split; [|reflexivity]|].
  - transitivity (cos u * cos u * dot b b + sin u * sin u * dot (cross0 a b) (cross0 a b) + 2 * cos u * sin u * dot b (cross0 a b)).
    { unfold around. cbv zeta. set (c := cross0 a b). unfold dot, vect. cbn [vx vy vz]. ring. }
    rewrite B, C1, C3. lra.
  - transitivity (cos u * dot a b + sin u * dot a (cross0 a b)).
    { unfold around. cbv zeta. set (c := cross0 a b). unfold dot, vect. cbn [vx vy vz]. ring. }
    rewrite AB, C2. ring.
Qed.
(** every unit vector perpendicular to the axis is one of them *)
Lemma angle_of x y : x * x + y * y = 1 -> exists u, x = cos u /\ y = sin u.
Proof.
  intros H. assert (X : -1 <= x <= 1) by nra. destruct (Rle_dec 0 y) as [Y|Y].
  - exists (acos x). split; [symmetry; apply cos_acos, X|]. rewrite sin_acos by exact X. symmetry. apply sqrt_lem_1; unfold Rsqr; nra.
  - exists (- acos x). rewrite cos_neg, sin_neg. split; [symmetry; apply cos_acos, X|]. rewrite sin_acos by exact X.
    assert (sqrt (1 - Rsqr x) = - y); [|lra]. apply sqrt_lem_1; unfold Rsqr; nra.
Qed.
Lemma in_plane a b w : frame a b -> dot w a = 0 ->
  vx w = dot w b * vx b + dot w (cross0 a b) * vx (cross0 a b) /\ vy w = dot w b * vy b + dot w (cross0 a b) * vy (cross0 a b) /\
  vz w = dot w b * vz b + dot w (cross0 a b) * vz (cross0 a b).
Proof.
  intros F W. pose proof (cross_frame a b F) as ([C1 _] & C2 & C3). destruct F as ([A _] & [B _] & AB). set (c := cross0 a b) in *.
  set (r := vect (vx w - (dot w b * vx b + dot w c * vx c)) (vy w - (dot w b * vy b + dot w c * vy c)) (vz w - (dot w b * vz b + dot w c * vz c))).
  assert (G : forall s t e, dot (vect (vx w - (s * vx b + t * vx c)) (vy w - (s * vy b + t * vy c)) (vz w - (s * vz b + t * vz c))) e = dot w e - s * dot b e - t * dot c e).
  { intros s t e. unfold dot, vect. cbn [vx vy vz]. ring. }
  assert (CA : forall x y, dot x y = dot y x) by (intros x y; unfold dot; ring).
  assert (RA : dot r a = 0) by (unfold r; rewrite G, (CA b a), (CA c a), W, AB, C2; ring).
  assert (RB : dot r b = 0) by (unfold r; rewrite G, (CA c b), B, C3; ring).
  assert (RC : dot r c = 0) by (unfold r; rewrite G, C1, C3; ring).
  (* a, b, c is an orthonormal basis: the determinant is 1 *)
  assert (D : dot a (cross0 b c) = 1).
  { unfold c. transitivity (dot a a * dot b b - dot a b * dot a b); [unfold dot, cross0, vect; cbn [vx vy vz]; ring|rewrite A, B, AB; ring]. }
  assert (Z : forall k, vx k = 0 /\ vy k = 0 /\ vz k = 0 <-> dot k a = 0 /\ dot k b = 0 /\ dot k c = 0).
  { intros k. split; [intros (X & Y & Z); unfold dot; rewrite X, Y, Z; repeat split; ring|]. intros (X & Y & Z).
    assert (HX : vx k * dot a (cross0 b c) = dot k a * vx (cross0 b c) + dot k b * vx (cross0 c a) + dot k c * vx (cross0 a b)) by (generalize c; intros e; unfold dot, cross0, vect; cbn [vx vy vz]; ring).
    assert (HY : vy k * dot a (cross0 b c) = dot k a * vy (cross0 b c) + dot k b * vy (cross0 c a) + dot k c * vy (cross0 a b)) by (generalize c; intros e; unfold dot, cross0, vect; cbn [vx vy vz]; ring).
    assert (HZ : vz k * dot a (cross0 b c) = dot k a * vz (cross0 b c) + dot k b * vz (cross0 c a) + dot k c * vz (cross0 a b)) by (generalize c; intros e; unfold dot, cross0, vect; cbn [vx vy vz]; ring).
    rewrite D, X, Y, Z in HX, HY, HZ. repeat split; lra. }
  destruct (proj2 (Z r) (conj RA (conj RB RC))) as (X & Y & Z'). unfold r, vect in X, Y, Z'. cbn [vx vy vz] in X, Y, Z'. repeat split; lra.
Qed.
Lemma around_all a b w : frame a b -> unit_vec w -> dot w a = 0 -> exists u, w = around a b u.
Proof.
  intros F [U W] P. destruct (in_plane a b w F P) as (X & Y & Z). pose proof (cross_frame a b F) as ([C1 _] & C2 & C3). destruct F as (_ & [B _] & AB).
  destruct (angle_of (dot w b) (dot w (cross0 a b))) as (u & E1 & E2).
  { transitivity (dot w w); [|exact U]. set (c := cross0 a b) in *. set (s := dot w b) in *. set (t := dot w c) in *. clearbody s t.
    transitivity (s * s * dot b b + t * t * dot c c + 2 * s * t * dot b c); [rewrite B, C1, C3; ring|]. unfold dot. rewrite X, Y, Z. ring. }
  exists u. unfold around. cbv zeta. rewrite <- E1, <- E2. destruct w as [wx wy wz ww]. cbn [vx vy vz vw] in *. unfold vect. subst ww. f_equal; lra.
Qed.
