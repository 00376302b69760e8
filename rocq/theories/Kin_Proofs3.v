(** transform.py and joint.py over the reals; witnesses. *)
From Coq Require Import Reals Lra List String Bool Nsatz Permutation Lia.
From Verif Require Import Dict Xform_Model Xform_Proofs Kin_Model Kin_Spec Kin_Proofs Kin_Proofs2.
Import ListNotations.
Open Scope R_scope.

Lemma t_mul_rows a b : mkmat (t_mul a b) false = mulMM (mkmat a false) (mkmat b false).
Proof. reflexivity. Qed.
Lemma t_mul_assoc a b c : t_mul (t_mul a b) c = t_mul a (t_mul b c).
Proof. unfold t_mul at 1 3. rewrite !t_mul_rows, mulMM_assoc. reflexivity. Qed.
Ltac mx := cbv [t_point t_vector t_mul mulMM mulMV dot4 getrow getcol mm trans rget rcol vget row0 row1 row2 row3 vx vy vz vw
   t_inverse t_identity ident_rows t_translation t_rot_x t_rot_y t_rot_z rot_rows rodrigues].
Ltac rws := repeat match goal with r : rows |- _ => destruct r as [[? ? ? ?] [? ? ? ?] [? ? ? ?] [? ? ? ?]] end.
Lemma f_equal4' (a b c d a' b' c' d' : vec) : a = a' -> b = b' -> c = c' -> d = d' ->
  mkrows a b c d = mkrows a' b' c' d'.
Proof. intros; subst; reflexivity. Qed.
Lemma t_mul_id_l a : t_mul t_identity a = a.
Proof. rws. mx. apply f_equal4'; apply mkv_eq; ring. Qed.
Lemma t_mul_id_r a : t_mul a t_identity = a.
Proof. rws. mx. apply f_equal4'; apply mkv_eq; ring. Qed.

Lemma t_point_mul a b p : row3 b = mkv 0 0 0 1 -> t_point (t_mul a b) p = t_point a (t_point b p).
Proof.
  rws. destruct p as [[x y] z]. simpl. intros E. injection E as -> -> -> ->.
  mx. f_equal; [f_equal|]; ring.
Qed.
Lemma t_vector_mul a b p : row3 b = mkv 0 0 0 1 -> t_vector (t_mul a b) p = t_vector a (t_vector b p).
Proof.
  rws. destruct p as [[x y] z]. simpl. intros E. injection E as -> -> -> ->.
  mx. f_equal; [f_equal|]; ring.
Qed.
Lemma t_point_id p : t_point t_identity p = p.
Proof. destruct p as [[x y] z]. mx. f_equal; [f_equal|]; ring. Qed.

Lemma cols_orth a b c d e f g h i :
  a*a+b*b+c*c = 1 -> d*d+e*e+f*f = 1 -> g*g+h*h+i*i = 1 ->
  a*d+b*e+c*f = 0 -> a*g+b*h+c*i = 0 -> d*g+e*h+f*i = 0 ->
  a*a+d*d+g*g = 1 /\ b*b+e*e+h*h = 1 /\ c*c+f*f+i*i = 1 /\
  a*b+d*e+g*h = 0 /\ a*c+d*f+g*i = 0 /\ b*c+e*f+h*i = 0.
Proof.
  intros H1 H2 H3 H4 H5 H6.
  set (D := a*(e*i-f*h) - b*(d*i-f*g) + c*(d*h-e*g)).
  assert (HD : D * D = 1).
  { unfold D. replace (1) with ((a*a+b*b+c*c)*((d*d+e*e+f*f)*(g*g+h*h+i*i) - (d*g+e*h+f*i)*(d*g+e*h+f*i))
      - (a*d+b*e+c*f)*((a*d+b*e+c*f)*(g*g+h*h+i*i) - (d*g+e*h+f*i)*(a*g+b*h+c*i))
      + (a*g+b*h+c*i)*((a*d+b*e+c*f)*(d*g+e*h+f*i) - (d*d+e*e+f*f)*(a*g+b*h+c*i)))
      by (rewrite H1,H2,H3,H4,H5,H6; ring). ring. }
  assert (HD0 : D <> 0) by (intros E; rewrite E in HD; lra).
  assert (K : forall x, D * x = 0 -> x = 0).
  { intros x Hx. apply Rmult_integral in Hx. tauto. }
  (* (R^T R - I)_jk : D * e_j = adj(R) (R R^T R - R) *)
  assert (L : forall x y z, (* column (x,y,z) of R: R^T-completeness *)
     D * (a*x+d*y+g*z) = (e*i-f*h)*((a*a+b*b+c*c)*x + (a*d+b*e+c*f)*y + (a*g+b*h+c*i)*z)
        + (c*h-b*i)*((a*d+b*e+c*f)*x + (d*d+e*e+f*f)*y + (d*g+e*h+f*i)*z)
        + (b*f-c*e)*((a*g+b*h+c*i)*x + (d*g+e*h+f*i)*y + (g*g+h*h+i*i)*z)) by (intros; unfold D; ring).
  assert (L2 : forall x y z,
     D * (b*x+e*y+h*z) = (f*g-d*i)*((a*a+b*b+c*c)*x + (a*d+b*e+c*f)*y + (a*g+b*h+c*i)*z)
        + (a*i-c*g)*((a*d+b*e+c*f)*x + (d*d+e*e+f*f)*y + (d*g+e*h+f*i)*z)
        + (c*d-a*f)*((a*g+b*h+c*i)*x + (d*g+e*h+f*i)*y + (g*g+h*h+i*i)*z)) by (intros; unfold D; ring).
  assert (L3 : forall x y z,
     D * (c*x+f*y+i*z) = (d*h-e*g)*((a*a+b*b+c*c)*x + (a*d+b*e+c*f)*y + (a*g+b*h+c*i)*z)
        + (b*g-a*h)*((a*d+b*e+c*f)*x + (d*d+e*e+f*f)*y + (d*g+e*h+f*i)*z)
        + (a*e-b*d)*((a*g+b*h+c*i)*x + (d*g+e*h+f*i)*y + (g*g+h*h+i*i)*z)) by (intros; unfold D; ring).
  assert (M1 : forall x y z, D * (a*x+d*y+g*z) = (e*i-f*h)*x + (c*h-b*i)*y + (b*f-c*e)*z)
    by (intros; rewrite L, H1,H2,H3,H4,H5,H6; ring).
  assert (M2 : forall x y z, D * (b*x+e*y+h*z) = (f*g-d*i)*x + (a*i-c*g)*y + (c*d-a*f)*z)
    by (intros; rewrite L2, H1,H2,H3,H4,H5,H6; ring).
  assert (M3 : forall x y z, D * (c*x+f*y+i*z) = (d*h-e*g)*x + (b*g-a*h)*y + (a*e-b*d)*z)
    by (intros; rewrite L3, H1,H2,H3,H4,H5,H6; ring).
  repeat split; apply Rminus_diag_uniq; apply K; rewrite Rmult_minus_distr_l.
  - rewrite (M1 a d g). unfold D. ring.
  - rewrite (M2 b e h). unfold D. ring.
  - rewrite (M3 c f i). unfold D. ring.
  - rewrite (M1 b e h). ring.
  - rewrite (M1 c f i). ring.
  - rewrite (M2 c f i). ring.
Qed.

Lemma comb_dot a b c d e f g h i u0 u1 u2 v0 v1 v2 :
  a*a+b*b+c*c = 1 -> d*d+e*e+f*f = 1 -> g*g+h*h+i*i = 1 ->
  a*d+b*e+c*f = 0 -> a*g+b*h+c*i = 0 -> d*g+e*h+f*i = 0 ->
  (u0*a+u1*d+u2*g)*(v0*a+v1*d+v2*g) + (u0*b+u1*e+u2*h)*(v0*b+v1*e+v2*h) + (u0*c+u1*f+u2*i)*(v0*c+v1*f+v2*i)
  = u0*v0 + u1*v1 + u2*v2.
Proof.
  intros H1 H2 H3 H4 H5 H6.
  replace (_ + _ + _) with (u0*v0*(a*a+b*b+c*c) + u1*v1*(d*d+e*e+f*f) + u2*v2*(g*g+h*h+i*i)
    + (u0*v1+u1*v0)*(a*d+b*e+c*f) + (u0*v2+u2*v0)*(a*g+b*h+c*i) + (u1*v2+u2*v1)*(d*g+e*h+f*i)) by ring.
  rewrite H1,H2,H3,H4,H5,H6. ring.
Qed.
Lemma rigid_mul a b : rigid a -> rigid b -> rigid (t_mul a b).
Proof.
  rws. unfold rigid, dot3. simpl. intros (A1 & A2 & A3 & A4 & A5 & A6 & A7) (B1 & B2 & B3 & B4 & B5 & B6 & B7).
  injection A7 as -> -> -> ->. injection B7 as -> -> -> ->.
  unfold dot4; simpl. rewrite !Rmult_0_r, !Rplus_0_r.
  repeat split; try (apply mkv_eq; ring); rewrite comb_dot by assumption; assumption.
Qed.
Lemma rigid_cols m : rigid m ->
  let r i j := vget (rget m i) j in
  forall j k, (j < 3)%nat -> (k < 3)%nat ->
    r 0%nat j * r 0%nat k + r 1%nat j * r 1%nat k + r 2%nat j * r 2%nat k = if Nat.eqb j k then 1 else 0.
Proof.
  rws. unfold rigid, dot3. simpl. intros (A1 & A2 & A3 & A4 & A5 & A6 & A7).
  destruct (cols_orth _ _ _ _ _ _ _ _ _ A1 A2 A3 A4 A5 A6) as (B1 & B2 & B3 & B4 & B5 & B6).
  intros j k Hj Hk.
  destruct j as [|[|[|j]]]; try lia; destruct k as [|[|[|k]]]; try lia; simpl; lra.
Qed.
Lemma rows_eq' (a b c d a' b' c' d' : vec) : a = a' -> b = b' -> c = c' -> d = d' ->
  mkrows a b c d = mkrows a' b' c' d'.
Proof. intros; subst; reflexivity. Qed.
Lemma inverse_r m : rigid m -> t_mul m (t_inverse m) = t_identity.
Proof.
  rws. unfold rigid, dot3. simpl. intros (A1 & A2 & A3 & A4 & A5 & A6 & A7).
  injection A7 as -> -> -> ->.
  mx. apply rows_eq'; apply mkv_eq; try lra.
  - replace (_ + _ + _ + _) with (vw * (1 - (vx*vx+vy*vy+vz*vz)) - vw0 * (vx*vx0+vy*vy0+vz*vz0) - vw1*(vx*vx1+vy*vy1+vz*vz1)) by ring.
    rewrite A1, A4, A5. ring.
  - replace (_ + _ + _ + _) with (vw0 * (1 - (vx0*vx0+vy0*vy0+vz0*vz0)) - vw * (vx*vx0+vy*vy0+vz*vz0) - vw1*(vx0*vx1+vy0*vy1+vz0*vz1)) by ring.
    rewrite A2, A4, A6. ring.
  - replace (_ + _ + _ + _) with (vw1 * (1 - (vx1*vx1+vy1*vy1+vz1*vz1)) - vw * (vx*vx1+vy*vy1+vz*vz1) - vw0*(vx0*vx1+vy0*vy1+vz0*vz1)) by ring.
    rewrite A3, A5, A6. ring.
Qed.
Lemma inverse_l m : rigid m -> t_mul (t_inverse m) m = t_identity.
Proof.
  rws. unfold rigid, dot3. simpl. intros (A1 & A2 & A3 & A4 & A5 & A6 & A7).
  injection A7 as -> -> -> ->.
  destruct (cols_orth _ _ _ _ _ _ _ _ _ A1 A2 A3 A4 A5 A6) as (B1 & B2 & B3 & B4 & B5 & B6).
  mx. apply rows_eq'; apply mkv_eq; lra.
Qed.
Lemma inverse_rigid m : rigid m -> rigid (t_inverse m).
Proof.
  rws. unfold rigid, dot3. simpl. intros (A1 & A2 & A3 & A4 & A5 & A6 & A7).
  destruct (cols_orth _ _ _ _ _ _ _ _ _ A1 A2 A3 A4 A5 A6) as (B1 & B2 & B3 & B4 & B5 & B6).
  repeat split; lra.
Qed.
Lemma inverse_point m p : rigid m -> t_point (t_inverse m) (t_point m p) = p /\ t_point m (t_point (t_inverse m) p) = p.
Proof.
  intros H. split; rewrite <- t_point_mul.
  - rewrite inverse_l, t_point_id by auto. reflexivity.
  - apply H.
  - rewrite inverse_r, t_point_id by auto. reflexivity.
  - apply inverse_rigid. exact H.
Qed.
Lemma rigid_dist m p q : rigid m -> dist3 (t_point m p) (t_point m q) = dist3 p q.
Proof.
  rws. destruct p as [[x y] z], q as [[x' y'] z']. unfold rigid, dot3. simpl. intros (A1 & A2 & A3 & A4 & A5 & A6 & A7).
  destruct (cols_orth _ _ _ _ _ _ _ _ _ A1 A2 A3 A4 A5 A6) as (B1 & B2 & B3 & B4 & B5 & B6).
  unfold dot4; simpl. f_equal.
  transitivity ((x-x')*(x-x')*(vx*vx+vx0*vx0+vx1*vx1) + (y-y')*(y-y')*(vy*vy+vy0*vy0+vy1*vy1) + (z-z')*(z-z')*(vz*vz+vz0*vz0+vz1*vz1)
    + 2*(x-x')*(y-y')*(vx*vy+vx0*vy0+vx1*vy1) + 2*(x-x')*(z-z')*(vx*vz+vx0*vz0+vx1*vz1) + 2*(y-y')*(z-z')*(vy*vz+vy0*vz0+vy1*vz1)); [ring|].
  rewrite B1,B2,B3,B4,B5,B6. ring.
Qed.

Lemma rigid_identity : rigid t_identity.
Proof. unfold rigid, dot3, t_identity, ident_rows. simpl. repeat split; lra. Qed.
Lemma rigid_translation x y z : rigid (t_translation x y z).
Proof. unfold rigid, dot3, t_translation. simpl. repeat split; lra. Qed.
Lemma sc1 a : sin a * sin a + cos a * cos a = 1.
Proof. exact (sin2_cos2 a). Qed.
Lemma rigid_rot_x a : rigid (t_rot_x a).
Proof. pose proof (sc1 (radians a)). unfold rigid, dot3, t_rot_x. simpl. repeat split; lra. Qed.
Lemma rigid_rot_y a : rigid (t_rot_y a).
Proof. pose proof (sc1 (radians a)). unfold rigid, dot3, t_rot_y. simpl. repeat split; lra. Qed.
Lemma rigid_rot_z a : rigid (t_rot_z a).
Proof. pose proof (sc1 (radians a)). unfold rigid, dot3, t_rot_z. simpl. repeat split; lra. Qed.
Lemma rigid_euler a b c : rigid (t_euler a b c).
Proof. apply rigid_mul; [apply rigid_mul|]; auto using rigid_rot_x, rigid_rot_y, rigid_rot_z. Qed.
Lemma rigid_rpy x y z a b c : rigid (t_position_rpy x y z a b c).
Proof. apply rigid_mul; auto using rigid_translation, rigid_euler. Qed.

Lemma rodrigues_rot x y z c s : x*x+y*y+z*z = 1 ->
  rodrigues x y z c s = rot_rows (mkv x y z 1) c s.
Proof.
  intros H. unfold rodrigues, rot_rows. simpl. apply rows_eq'; apply mkv_eq; try ring.
  - replace (x * x) with (1 - y*y - z*z) by lra. ring.
  - replace (y * y) with (1 - x*x - z*z) by lra. ring.
  - replace (z * z) with (1 - y*y - x*x) by lra. ring.
Qed.
Lemma norm3_pos x y z : 0 < norm3 (x, y, z) -> (x / norm3 (x,y,z)) * (x / norm3 (x,y,z)) +
  (y / norm3 (x,y,z)) * (y / norm3 (x,y,z)) + (z / norm3 (x,y,z)) * (z / norm3 (x,y,z)) = 1.
Proof.
  intros H. set (n := norm3 (x,y,z)) in *.
  assert (N : n * n = x*x+y*y+z*z).
  { unfold n, norm3. apply sqrt_sqrt. nra. }
  replace (x / n * (x / n) + y / n * (y / n) + z / n * (z / n)) with ((x*x+y*y+z*z) / (n*n)) by (field; lra).
  rewrite <- N. field. lra.
Qed.
Lemma tiny_pos : 0 < tiny. Proof. unfold tiny. lra. Qed.
Lemma axis_angle_form ax a : t_axis_angle ax a = t_identity \/
  (tiny <= norm3 ax /\ exists u, vx u * vx u + vy u * vy u + vz u * vz u = 1 /\
     u = (let '(x,y,z) := ax in mkv (x / norm3 ax) (y / norm3 ax) (z / norm3 ax) 1) /\
     t_axis_angle ax a = rot_rows u (cos (radians a)) (sin (radians a))).
Proof.
  unfold t_axis_angle. destruct (Rltb (norm3 ax) tiny) eqn:E; [left; reflexivity|]. right.
  apply Rltb_false in E. split; auto. destruct ax as [[x y] z].
  pose proof (norm3_pos x y z) as N. pose proof tiny_pos.
  eexists. split; [|split; [reflexivity|]].
  - simpl vx; simpl vy; simpl vz. apply N. lra.
  - apply rodrigues_rot. apply N. lra.
Qed.
Lemma rigid_rot_rows u c s : vx u * vx u + vy u * vy u + vz u * vz u = 1 -> s * s + c * c = 1 -> rigid (rot_rows u c s).
Proof.
  destruct u as [x y z w]. simpl. intros H E. unfold rigid, dot3, rot_rows. simpl.
  assert (X : x * x = 1 - y*y - z*z) by lra. assert (S : s * s = 1 - c*c) by lra.
  repeat split; nsatz.
Qed.
Lemma rigid_axis_angle ax a : rigid (t_axis_angle ax a).
Proof.
  destruct (axis_angle_form ax a) as [->|(_ & u & Hu & _ & ->)]; [apply rigid_identity|].
  apply rigid_rot_rows; auto. apply sc1.
Qed.
Lemma rigid_joint j : rigid (j_base j) -> rigid (joint_transform j).
Proof.
  intros H. unfold joint_transform. destruct (j_type j); auto.
  - apply rigid_mul; auto using rigid_axis_angle.
  - destruct (j_axis j) as [[x y] z]. destruct (Rltb tiny _); apply rigid_mul; auto using rigid_translation.
  - apply rigid_mul; auto using rigid_axis_angle.
Qed.
Lemma rot_rows_add u c1 s1 c2 s2 : vx u * vx u + vy u * vy u + vz u * vz u = 1 ->
  t_mul (rot_rows u c1 s1) (rot_rows u c2 s2) = rot_rows u (c1*c2 - s1*s2) (s1*c2 + c1*s2).
Proof.
  destruct u as [x y z w]. simpl. intros H.
  assert (X : x * x = 1 - y*y - z*z) by lra.
  mx. apply rows_eq'; apply mkv_eq; try ring; nsatz.
Qed.
Lemma axis_angle_add ax a b : t_mul (t_axis_angle ax a) (t_axis_angle ax b) = t_axis_angle ax (a + b).
Proof.
  unfold t_axis_angle. destruct (Rltb (norm3 ax) tiny) eqn:E; [apply t_mul_id_l|].
  apply Rltb_false in E. destruct ax as [[x y] z]. pose proof tiny_pos.
  pose proof (norm3_pos x y z ltac:(lra)) as N. rewrite !rodrigues_rot by exact N.
  rewrite rot_rows_add by exact N.
  replace (radians (a + b)) with (radians a + radians b) by (unfold radians; field).
  rewrite cos_plus, sin_plus. reflexivity.
Qed.
Lemma axis_angle_zero ax : t_axis_angle ax 0 = t_identity.
Proof.
  unfold t_axis_angle. destruct (Rltb _ _); auto. destruct ax as [[x y] z].
  replace (radians 0) with 0 by (unfold radians; field). rewrite cos_0, sin_0.
  unfold rodrigues, t_identity, ident_rows. apply rows_eq'; apply mkv_eq; ring.
Qed.
Lemma axis_angle_axis ax a : t_point (t_axis_angle ax a) ax = ax.
Proof.
  unfold t_axis_angle. destruct (Rltb (norm3 ax) tiny) eqn:E; [apply t_point_id|].
  apply Rltb_false in E. destruct ax as [[x y] z]. pose proof tiny_pos.
  set (n := norm3 (x,y,z)) in *. mx.
  f_equal; [f_equal|]; field; lra.
Qed.
(** from_axis_angle about a coordinate axis is the elementary rotation *)
Lemma axis_angle_z a : t_axis_angle (0,0,1) a = t_rot_z a.
Proof.
  unfold t_axis_angle, norm3. replace (0*0+0*0+1*1) with 1 by ring. rewrite sqrt_1.
  replace (Rltb 1 tiny) with false by (symmetry; apply Rltb_false; unfold tiny; lra).
  unfold rodrigues, t_rot_z. apply rows_eq'; apply mkv_eq; field.
Qed.
Lemma axis_angle_x a : t_axis_angle (1,0,0) a = t_rot_x a.
Proof.
  unfold t_axis_angle, norm3. replace (1*1+0*0+0*0) with 1 by ring. rewrite sqrt_1.
  replace (Rltb 1 tiny) with false by (symmetry; apply Rltb_false; unfold tiny; lra).
  unfold rodrigues, t_rot_x. apply rows_eq'; apply mkv_eq; field.
Qed.
Lemma axis_angle_y a : t_axis_angle (0,1,0) a = t_rot_y a.
Proof.
  unfold t_axis_angle, norm3. replace (0*0+1*1+0*0) with 1 by ring. rewrite sqrt_1.
  replace (Rltb 1 tiny) with false by (symmetry; apply Rltb_false; unfold tiny; lra).
  unfold rodrigues, t_rot_y. apply rows_eq'; apply mkv_eq; field.
Qed.
(** a prismatic joint moves the part by |value| along the axis *)
Lemma prismatic_dist j p : j_type j = PRISMATIC -> rigid (j_base j) -> tiny < norm3 (j_axis j) ->
  dist3 (t_point (joint_transform j) p) (t_point (j_base j) p) = Rabs (j_value j).
Proof.
  intros Hty Hr Hn. unfold joint_transform. rewrite Hty. destruct (j_axis j) as [[x y] z].
  replace (Rltb tiny (norm3 (x,y,z))) with true by (symmetry; apply Rltb_true; exact Hn).
  rewrite t_point_mul by reflexivity. rewrite rigid_dist by exact Hr.
  pose proof tiny_pos. pose proof (norm3_pos x y z ltac:(lra)) as N. set (n := norm3 (x,y,z)) in *.
  destruct p as [[px py] pz]. mx. cbv [dist3]. rewrite <- sqrt_Rsqr_abs. f_equal.
  set (v := j_value j).
  transitivity (v * v * (x / n * (x / n) + y / n * (y / n) + z / n * (z / n))); [ring|]. rewrite N. unfold Rsqr. ring.
Qed.

(** joints *)
Lemma clamp_range j v : j_min j <= j_max j -> j_min j <= clamp_value j v <= j_max j.
Proof.
  intros H. unfold clamp_value, pymax, pymin.
  destruct (Rltb v (j_max j)) eqn:E1; [apply Rltb_true in E1|apply Rltb_false in E1];
  match goal with |- context [Rltb ?a ?b] => destruct (Rltb a b) eqn:E2; [apply Rltb_true in E2|apply Rltb_false in E2] end; lra.
Qed.
Lemma clamp_id j v : j_min j <= v <= j_max j -> clamp_value j v = v.
Proof.
  intros H. unfold clamp_value, pymax, pymin.
  destruct (Rltb v (j_max j)) eqn:E1; [apply Rltb_true in E1|apply Rltb_false in E1];
  match goal with |- context [Rltb ?a ?b] => destruct (Rltb a b) eqn:E2; [apply Rltb_true in E2|apply Rltb_false in E2] end; lra.
Qed.
Lemma clamp_nearest j v x : j_min j <= x <= j_max j -> Rabs (clamp_value j v - v) <= Rabs (x - v).
Proof.
  intros H. unfold clamp_value, pymax, pymin.
  destruct (Rltb v (j_max j)) eqn:E1; [apply Rltb_true in E1|apply Rltb_false in E1];
  match goal with |- context [Rltb ?a ?b] => destruct (Rltb a b) eqn:E2; [apply Rltb_true in E2|apply Rltb_false in E2] end;
  unfold Rabs; repeat destruct Rcase_abs; lra.
Qed.
Lemma jtype_rt t : jtype_of (jtype_value t) = KOk t.
Proof. destruct t; reflexivity. Qed.
Lemma joint_rt j : joint_from_dict (joint_to_dict j) = KOk j.
Proof.
  unfold joint_from_dict, joint_to_dict. simpl. rewrite jtype_rt. simpl. destruct j; reflexivity.
Qed.
Lemma transform_rt m : t_from_dict (t_to_dict m) = KOk m.
Proof. reflexivity. Qed.
Lemma real_round_trips : round_trips real_kin.
Proof. split; [exact transform_rt|exact joint_rt]. Qed.

Lemma joint_value_after c n v cl c' : reachable (K:=real_kin) c -> set_joint_value c n v cl = KOk c' ->
  exists p, get_part c n = Some p /\
    get_joint_value c' n = KOk (if cl then clamp_value (p_joint p) v else v) /\
    (forall m, m <> n -> get_joint_value c' m = get_joint_value c m).
Proof.
  intros H E. destruct (set_joint_frame c n v cl c' H E) as (p & p' & Hp & Hp' & J & _ & _ & _ & Hm).
  exists p. split; auto. split.
  - unfold get_joint_value. rewrite Hp', J. reflexivity.
  - intros m Hne. specialize (Hm m Hne). unfold get_joint_value.
    destruct (get_part c m), (get_part c' m); try contradiction; auto. destruct Hm as (_&_&_&Hm&_). rewrite Hm. reflexivity.
Qed.

(** world transforms of rigid mechanisms are rigid *)
Lemma product_rigid l : Forall rigid l -> rigid (product (K:=real_kin) l).
Proof.
  unfold product. intros H. assert (G : forall m, rigid m -> rigid (fold_left t_mul l m)).
  { induction H; intros m Hm; simpl; auto. apply IHForall. apply rigid_mul; auto. }
  apply G. apply rigid_identity.
Qed.
Lemma path_rigid c n f l : all_rigid c -> path c n f l -> Forall rigid l.
Proof.
  intros HR. induction 1 as [f p Hp|n f p q l Hn Hp Hq Hl IH].
  - unfold frame_factor. destruct (String.eqb f ORIGIN); auto. destruct (dget String.eqb f (p_frames p)) eqn:E; auto.
    apply (dget_in String.eqb seq_spec) in E. constructor; auto. eapply (proj2 (HR _ _ Hp)); eauto.
  - destruct (HR _ _ Hp) as [A B]. repeat rewrite Forall_app. split; auto. split.
    + constructor; auto. apply rigid_joint. exact A.
    + unfold frame_factor. destruct (String.eqb f ORIGIN); auto. destruct (dget String.eqb f (p_frames p)) eqn:E; auto.
      apply (dget_in String.eqb seq_spec) in E. constructor; eauto.
Qed.
Lemma world_rigid c n f c' w : history c -> all_rigid c -> get_world_transform c n f = KOk (c', w) -> rigid w.
Proof.
  intros H HR E. destruct (get_part c n) as [p|] eqn:Hp; [|rewrite query_unknown in E by auto; discriminate].
  destruct (query_fresh c n f H (ex_intro _ p Hp)) as (c1 & w1 & l & E1 & P & W). rewrite E in E1. injection E1 as -> ->.
  subst. apply product_rigid. eapply path_rigid; eauto.
Qed.
Lemma relative_ok c a b fa fb c' t : history c -> all_rigid c -> get_relative_transform c a b fa fb = KOk (c', t) ->
  exists c1 c2 wa wb, get_world_transform c a fa = KOk (c1, wa) /\ get_world_transform c b fb = KOk (c2, wb) /\ t_mul wa t = wb.
Proof.
  intros H HR E. unfold get_relative_transform in E.
  destruct (get_world_transform c a fa) as [[c1 wa]| |] eqn:Ea; try discriminate. simpl in E.
  destruct (get_world_transform c1 b fb) as [[c2 wb]| |] eqn:Eb; try discriminate. simpl in E. injection E as <- <-.
  assert (H1 : history c1).
  { eapply (h_op _ c (OQuery a fa)); [exact H|exact I|]. unfold apply_op. rewrite Ea. reflexivity. }
  assert (Sm := query_keeps c a fa c1 wa (history_reachable _ H) Ea).
  destruct (get_part c1 b) as [pb|] eqn:Hpb; [|rewrite query_unknown in Eb by auto; discriminate].
  destruct (query_fresh c1 b fb H1 (ex_intro _ pb Hpb)) as (c3 & w3 & l & E3 & P3 & W3). rewrite Eb in E3. injection E3 as <- <-.
  assert (P : path c b fb l).
  { clear - P3 Sm. induction P3 as [f p Hp|n f p q l Hn Hp Hq Hl IH].
    - specialize (Sm DATUM). rewrite Hp in Sm. destruct (get_part c DATUM) as [p0|] eqn:E; [|contradiction].
      rewrite (ff_same p p0) by (symmetry; apply Sm). constructor. exact E.
    - specialize (Sm n). rewrite Hp in Sm. destruct (get_part c n) as [p0|] eqn:E; [|contradiction].
      destruct Sm as (A1 & A2 & A3 & A4 & A5 & A6). rewrite (ff_same p p0) by (symmetry; exact A5). rewrite <- A4.
      eapply path_part with (q:=q); [exact Hn|exact E|congruence|rewrite A3; exact IH]. }
  destruct (path_part_exists _ _ _ _ P) as [pb0 Hpb0].
  destruct (query_fresh c b fb H (ex_intro _ pb0 Hpb0)) as (c4 & w4 & l4 & E4 & P4 & W4).
  rewrite (path_fun _ _ _ _ P4 _ P) in W4. exists c1, c4, wa, wb. split; auto. split; [rewrite E4, W4, W3; reflexivity|].
  rewrite <- t_mul_assoc, inverse_r; [apply t_mul_id_l|]. exact (world_rigid c a fa c1 wa H HR Ea).
Qed.

(** Euler angles: to_euler_xyz does not invert from_euler_xyz *)
Lemma euler_entry a b c : vz (row0 (t_euler a b c)) = sin (radians b).
Proof. unfold t_euler, t_mul, mulMM, dot4. simpl. ring. Qed.
Lemma sin_atan_nz x : x <> 0 -> sin (atan x) <> 0.
Proof.
  intros Hx E. destruct (atan_bound x) as [L H].
  assert (T : tan (atan x) = x) by apply tan_atan. unfold tan in T. rewrite E in T.
  apply Hx. rewrite <- T. unfold Rdiv. ring.
Qed.
Lemma radians_degrees x : radians (degrees x) = x.
Proof. unfold radians, degrees. field. apply PI_neq0. Qed.
Lemma atan2_pos y x : 0 < x -> atan2 y x = atan (y / x).
Proof. intros H. unfold atan2. replace (Rltb 0 x) with true by (symmetry; apply Rltb_true; exact H). reflexivity. Qed.
Lemma euler_wrong : exists rx ry rz, let m := t_euler rx ry rz in
  let '(a, b, c) := t_to_euler m in t_euler a b c <> m.
Proof.
  exists 45, 0, 45. cbv zeta.
  set (k := cos (radians 45)).
  assert (R45 : radians 45 = PI / 4) by (unfold radians; field).
  assert (Hk : k = sin (radians 45)). { unfold k. rewrite R45. rewrite cos_PI4, sin_PI4. reflexivity. }
  assert (Hk2 : k * k = 1/2). { pose proof (sc1 (radians 45)). rewrite <- Hk in H. fold k in H. lra. }
  assert (R0 : radians 0 = 0) by (unfold radians; field).
  assert (M : t_euler 45 0 45 = mkrows (mkv k (-k) 0 0) (mkv (k*k) (k*k) (-k) 0) (mkv (k*k) (k*k) k 0) (mkv 0 0 0 1)).
  { unfold t_euler, t_mul, mulMM, dot4, t_rot_x, t_rot_y, t_rot_z. simpl. rewrite R0, cos_0, sin_0, <- Hk. fold k.
    apply rows_eq'; apply mkv_eq; ring. }
  destruct (t_to_euler (t_euler 45 0 45)) as [[a b] c] eqn:E.
  intros Eq. apply (f_equal (fun m => vz (row0 m))) in Eq. rewrite euler_entry in Eq. rewrite M in Eq. simpl in Eq.
  rewrite M in E. unfold t_to_euler in E. simpl in E.
  assert (Sy : 0 < k*k + k*k*(k*k)) by (rewrite Hk2; lra).
  set (sy := sqrt (k*k + k*k*(k*k))) in *.
  assert (Hsy : 1/1000000 < sy).
  { unfold sy. rewrite Hk2. apply Rlt_le_trans with (sqrt (1/2*(1/2))).
    - rewrite sqrt_square by lra. lra.
    - apply sqrt_le_1_alt. lra. }
  replace (Rltb (1/1000000) sy) with true in E by (symmetry; apply Rltb_true; exact Hsy).
  injection E as _ Eb _. rewrite <- Eb in Eq. rewrite radians_degrees, atan2_pos in Eq by lra.
  revert Eq. apply sin_atan_nz. rewrite Hk2. apply Rmult_integral_contrapositive_currified; [lra|apply Rinv_neq_0_compat; lra].
Qed.
