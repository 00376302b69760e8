(** Property theorems about yapcad.xform and the matrix-based figure operations.
    Reals stand for floats; [res] values other than [Ok] are Python exceptions. *)
From Coq Require Import Reals.
From Verif Require Import Xform_Model Xform_Proofs.
Open Scope R_scope.

(** C38: [get (a.mul b) i j] is the usual row-by-column sum, whatever the
    transpose flags. *)
Theorem c38_mul_is_matrix_product : forall a b i j, (i <= 3)%nat -> (j <= 3)%nat ->
  exists a0 a1 a2 a3 b0 b1 b2 b3,
    get a i 0 = Ok a0 /\ get a i 1 = Ok a1 /\ get a i 2 = Ok a2 /\ get a i 3 = Ok a3 /\
    get b 0 j = Ok b0 /\ get b 1 j = Ok b1 /\ get b 2 j = Ok b2 /\ get b 3 j = Ok b3 /\
    get (mulMM a b) i j = Ok (a0 * b0 + a1 * b1 + a2 * b2 + a3 * b3).
Proof.
  intros a b i j Hi Hj. exists (entry a i 0), (entry a i 1), (entry a i 2), (entry a i 3),
    (entry b 0 j), (entry b 1 j), (entry b 2 j), (entry b 3 j).
  repeat split; try (apply get_entry; auto with arith). exact (mulMM_entry a b i j Hi Hj).
Qed.
Print Assumptions c38_mul_is_matrix_product.

Theorem c38_mul_assoc : forall a b c, mulMM (mulMM a b) c = mulMM a (mulMM b c).
Proof. exact mulMM_assoc. Qed.
Print Assumptions c38_mul_assoc.

(** Applying a product is applying the factors in turn (right factor first). *)
Theorem c38_mul_apply : forall a b v, mulMV (mulMM a b) v = mulMV a (mulMV b v).
Proof. exact mulMV_mulMM. Qed.
Print Assumptions c38_mul_apply.

Theorem c38_identity_apply : forall v, mulMV Matrix0 v = v.
Proof. exact mulMV_id. Qed.
Print Assumptions c38_identity_apply.

Theorem c38_translation_inverse : forall d,
  mulMM (Translation d true) (Translation d false) = Matrix0 /\
  mulMM (Translation d false) (Translation d true) = Matrix0.
Proof. exact translation_inv. Qed.
Print Assumptions c38_translation_inverse.

(** Scale(...,inverse=True) undoes Scale(...) whenever it does not raise, and it
    raises ZeroDivisionError exactly when a used factor is 0. *)
Theorem c38_scale_inverse : forall x y z s si,
  Scale x y z false = Ok s -> Scale x y z true = Ok si ->
  mulMM si s = Matrix0 /\ mulMM s si = Matrix0.
Proof. exact scale_inv. Qed.
Print Assumptions c38_scale_inverse.
Theorem c38_scale_inverse_defined : forall x y z,
  (exists si, Scale x y z true = Ok si) <->
  match y, z with Some y, Some z => x <> 0 /\ y <> 0 /\ z <> 0 | _, _ => x <> 0 end.
Proof. exact scale_inv_defined. Qed.
Print Assumptions c38_scale_inverse_defined.

(** For a unit axis, inverse rotation undoes rotation (any angle, also outside
    [0,360)), and distances are preserved. *)
Theorem c38_rotation_total : forall u a b, mag u = 1 -> exists r, Rotation u a b = Ok r.
Proof. exact rotation_ok. Qed.
Print Assumptions c38_rotation_total.
Theorem c38_rotation_inverse : forall u a r ri,
  mag u = 1 -> Rotation u a false = Ok r -> Rotation u a true = Ok ri ->
  mulMM ri r = Matrix0 /\ mulMM r ri = Matrix0.
Proof. exact rotation_inverse. Qed.
Print Assumptions c38_rotation_inverse.
Theorem c38_rotation_isometry : forall u a b r p q,
  mag u = 1 -> Rotation u a b = Ok r -> vw p = vw q ->
  dist (mulMV r p) (mulMV r q) = dist p q.
Proof. exact rotation_isometry. Qed.
Print Assumptions c38_rotation_isometry.
Theorem c38_rotation_quarter_turn : forall r,
  Rotation (mkv 0 0 1 1) 90 false = Ok r -> mulMV r (point 1 0 0) = point 0 1 0.
Proof. exact rotation_z_quarter. Qed.
Print Assumptions c38_rotation_quarter_turn.

(** The advertised "arbitrary axis" does not work: every non-unit axis raises
    AttributeError instead of being normalised. *)
Theorem c49_rotation_any_axis_refuted :
  exists axis a, mag axis <> 0 /\ Rotation axis a false = AttributeError.
Proof. exact rotation_nonunit_refuted. Qed.
Print Assumptions c49_rotation_any_axis_refuted.
Theorem c38_rotation_nonunit_always_raises : forall u a b,
  epsilon <= mag u -> epsilon <= Rabs (mag u - 1) -> Rotation u a b = AttributeError.
Proof. exact rotation_nonunit_raises. Qed.
Print Assumptions c38_rotation_nonunit_always_raises.

(** Example: a unit axis exists that is not a coordinate axis. *)
Example c38_unit_axis_example : mag (mkv (3/5) 0 (4/5) 1) = 1.
Proof.
  unfold mag; simpl. replace (3 / 5 * (3 / 5) + 0 * 0 + 4 / 5 * (4 / 5)) with 1 by field. apply sqrt_1.
Qed.

(** get/set/setrow/setcol behave as a 4x4 store, also through the transpose flag. *)
Theorem c38_set_then_get : forall m i j x m',
  (i <= 3)%nat -> (j <= 3)%nat -> set m i j x = Ok m' ->
  forall k l, (k <= 3)%nat -> (l <= 3)%nat ->
  get m' k l = if (Nat.eqb k i && Nat.eqb l j)%bool then Ok x else get m k l.
Proof. exact set_get. Qed.
Print Assumptions c38_set_then_get.
Theorem c38_setrow_getrow : forall m i v k, (i <= 3)%nat -> (k <= 3)%nat ->
  getrow (setrow m i v) k = if Nat.eqb k i then v else getrow m k.
Proof. exact setrow_getrow. Qed.
Print Assumptions c38_setrow_getrow.
Theorem c38_setcol_getcol : forall m i v k, (i <= 3)%nat -> (k <= 3)%nat ->
  getcol (setcol m i v) k = if Nat.eqb k i then v else getcol m k.
Proof. exact setcol_getcol. Qed.
Print Assumptions c38_setcol_getcol.

(** C40: rotation about a centre. *)
Theorem c40_rotate_isometry : forall p q ang cent axis p' q',
  mag axis = 1 -> vw p = 1 -> vw q = 1 ->
  rotate_pt p ang cent axis = Ok p' -> rotate_pt q ang cent axis = Ok q' ->
  dist p' q' = dist p q.
Proof. exact rotate_isometry. Qed.
Print Assumptions c40_rotate_isometry.
Theorem c40_rotate_center_fixed : forall ang cent axis,
  mag axis = 1 -> vw cent = 1 -> dist cent (point 0 0 0) >= epsilon ->
  rotate_pt cent ang cent axis = Ok cent.
Proof. exact rotate_center_fixed. Qed.
Print Assumptions c40_rotate_center_fixed.
(** a centre closer than epsilon to the origin is treated as the origin *)
Theorem c40_rotate_center_near : forall ang cent axis c',
  mag axis = 1 -> vw cent = 1 ->
  rotate_pt cent ang cent axis = Ok c' -> dist c' cent < 2 * epsilon.
Proof. exact rotate_center_near. Qed.
Print Assumptions c40_rotate_center_near.
Theorem c40_rotate_axis_fixed : forall ang axis k,
  mag axis = 1 -> rotate_pt (scale3 axis k) ang (point 0 0 0) axis = Ok (scale3 axis k).
Proof. exact rotate_axis_fixed. Qed.
Print Assumptions c40_rotate_axis_fixed.

(** Scaling about the origin multiplies; about any other centre the code
    computes s(p+c)-c instead of s(p-c)+c, so the centre moves. *)
Theorem c40_scale_origin : forall p s,
  vclose (point s s s) (point 1 1 1) = false ->
  scale_pt p s None None (point 0 0 0) = Ok (mkv (s * vx p) (s * vy p) (s * vz p) (vw p)).
Proof. exact scale_pt_origin. Qed.
Print Assumptions c40_scale_origin.
Theorem c50_scale_center_fixed_refuted :
  exists c s, scale_pt c s None None c = Ok (mkv (3 * vx c) (3 * vy c) (3 * vz c) 1)
           /\ mkv (3 * vx c) (3 * vy c) (3 * vz c) 1 <> c /\ vw c = 1.
Proof. exact scale_center_not_fixed. Qed.
Print Assumptions c50_scale_center_fixed_refuted.
Theorem c40_scale_center_formula : forall p s c,
  vclose (point s s s) (point 1 1 1) = false ->
  vclose c (point 0 0 0) = false -> vw p = 1 ->
  scale_pt p s None None c =
    Ok (mkv (s * (vx p + vx c) - vx c) (s * (vy p + vy c) - vy c) (s * (vz p + vz c) - vz c) 1).
Proof. exact scale_pt_center. Qed.
Print Assumptions c40_scale_center_formula.
(** scale(x, sx, sy) without sz ignores sy. *)
Theorem c40_scale_two_factors_ignored : forall p sx sy,
  sy <> 0 -> vclose (point sx sy 0) (point 1 1 1) = false ->
  scale_pt p sx (Some sy) None (point 0 0 0) = Ok (mkv (sx * vx p) (sx * vy p) (sx * vz p) (vw p)).
Proof. exact scale_two_factors_ignored. Qed.
Print Assumptions c40_scale_two_factors_ignored.

Theorem c40_mirror_involutive : forall x p, mirror_pt (mirror_pt x p) p = x.
Proof. exact mirror_involutive. Qed.
Print Assumptions c40_mirror_involutive.
Theorem c40_mirror_isometry : forall x y p, dist (mirror_pt x p) (mirror_pt y p) = dist x y.
Proof. exact mirror_isometry. Qed.
Print Assumptions c40_mirror_isometry.
(** it fixes exactly the points of its plane *)
Theorem c40_mirror_fixed : forall x p,
  mirror_pt x p = x <-> (match p with XZ => vy x | YZ => vx x | XY => vz x end) = 0.
Proof. exact mirror_fixed. Qed.
Print Assumptions c40_mirror_fixed.
(** positive angles turn x towards y about z *)
Theorem c40_rotate_sense : forall ang, close ang 0 = false ->
  rotate_pt (point 1 0 0) ang (point 0 0 0) (point 0 0 1) = Ok (point (cos (ang * pi2 / 360)) (sin (ang * pi2 / 360)) 0).
Proof. exact rotate_sense. Qed.
Print Assumptions c40_rotate_sense.
(** the cross product, on which normals and orthonormal bases rest *)
Theorem c40_cross : forall a b,
  dot (cross a b) a = 0 /\ dot (cross a b) b = 0 /\
  dot (cross a b) (cross a b) = dot a a * dot b b - dot a b * dot a b.
Proof. intros a b. destruct (cross_orthogonal a b). auto using cross_size. Qed.
Print Assumptions c40_cross.
Theorem c40_cross_right_handed :
  cross (point 1 0 0) (point 0 1 0) = point 0 0 1 /\ cross (point 0 1 0) (point 0 0 1) = point 1 0 0 /\
  cross (point 0 0 1) (point 1 0 0) = point 0 1 0.
Proof. exact cross_right. Qed.
Print Assumptions c40_cross_right_handed.
Theorem c40_translate_isometry : forall x y d, dist (translate_pt x d) (translate_pt y d) = dist x y.
Proof. exact translate_isometry. Qed.
Print Assumptions c40_translate_isometry.
Theorem c40_translate_is_matrix : forall x d, vw x = 1 -> translate_pt x d = mulMV (Translation d false) x.
Proof. exact translate_matrix. Qed.
Print Assumptions c40_translate_is_matrix.
Theorem c40_translate_back : forall x d, vw x = 1 -> translate_pt (translate_pt x d) (scale3 d (-1)) = x.
Proof. exact translate_back. Qed.
Print Assumptions c40_translate_back.
