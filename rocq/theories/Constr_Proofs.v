From Coq Require Import Reals String List Bool Lra Psatz.
From Verif Require Import Xform_Model Xform_Proofs Datum_Model Constr_Model Constr_Spec.
Import ListNotations.
Open Scope R_scope.

Lemma mag_nn v : 0 <= mag v. Proof. apply sqrt_pos. Qed.
Lemma mag2 v : mag v * mag v = vx v * vx v + vy v * vy v + vz v * vz v.
Proof. unfold mag. apply sqrt_sqrt. nra. Qed.
Lemma reqb_no a b : a <> b -> Reqb a b = false.
Proof. intros H. unfold Reqb. destruct (Req_EM_T a b); congruence. Qed.
Lemma reqb_yes a b : a = b -> Reqb a b = true.
Proof. intros H. unfold Reqb. destruct (Req_EM_T a b); congruence. Qed.
Lemma nunit_some v : mag v <> 0 -> nunit v = Some (mkv (vx v / mag v) (vy v / mag v) (vz v / mag v) 0).
Proof. intros H. unfold nunit. rewrite reqb_no by exact H. reflexivity. Qed.
Lemma nunit_none v : mag v = 0 -> nunit v = None.
Proof. intros H. unfold nunit. rewrite reqb_yes by exact H. reflexivity. Qed.
Lemma ndot_units u v : mag u <> 0 -> mag v <> 0 -> ndot (nunit u) (nunit v) = Some (dot u v / (mag u * mag v)).
Proof. intros A B. rewrite !nunit_some by auto. cbn [ndot]. f_equal. unfold dot. cbn [vx vy vz]. field. auto. Qed.
Lemma cauchy u v : Rabs (dot u v) <= mag u * mag v.
Proof.
  apply Rsqr_incr_0_var; [|apply Rmult_le_pos; apply mag_nn]. rewrite <- Rsqr_abs. unfold Rsqr.
  replace (mag u * mag v * (mag u * mag v)) with ((mag u * mag u) * (mag v * mag v)) by ring. rewrite !mag2. unfold dot.
  assert (0 <= (vx u * vy v - vy u * vx v) * (vx u * vy v - vy u * vx v)) by apply Rle_0_sqr.
  assert (0 <= (vy u * vz v - vz u * vy v) * (vy u * vz v - vz u * vy v)) by apply Rle_0_sqr.
  assert (0 <= (vz u * vx v - vx u * vz v) * (vz u * vx v - vx u * vz v)) by apply Rle_0_sqr. nra.
Qed.
Lemma mag_pos v : mag v <> 0 -> 0 < mag v.
Proof. intros H. pose proof (mag_nn v). lra. Qed.
Lemma cosine_range u v : mag u <> 0 -> mag v <> 0 -> -1 <= dot u v / (mag u * mag v) <= 1.
Proof.
  intros A B. apply mag_pos in A. apply mag_pos in B. assert (P : 0 < mag u * mag v) by (apply Rmult_lt_0_compat; auto).
  pose proof (cauchy u v) as C. assert (D : - (mag u * mag v) <= dot u v <= mag u * mag v) by (unfold Rabs in C; destruct (Rcase_abs (dot u v)); lra).
  split.
  - apply (Rmult_le_reg_r (mag u * mag v)); [exact P|]. unfold Rdiv. rewrite Rmult_assoc, Rinv_l by lra. lra.
  - apply (Rmult_le_reg_r (mag u * mag v)); [exact P|]. unfold Rdiv. rewrite Rmult_assoc, Rinv_l by lra. lra.
Qed.
Lemma PI_pos : 0 < PI. Proof. exact PI_RGT_0. Qed.
Lemma deg_rad r : degrees r * PI / 180 = r.
Proof. unfold degrees. pose proof PI_pos. field. lra. Qed.
Lemma rad_deg t : degrees (t * PI / 180) = t.
Proof. unfold degrees. pose proof PI_pos. field. lra. Qed.
Lemma deg_le a b : a <= b <-> degrees a <= degrees b.
Proof.
  unfold degrees. pose proof PI_pos. assert (I : 0 < / PI) by (apply Rinv_0_lt_compat; auto). unfold Rdiv. split; intros L.
  - apply Rmult_le_compat_r; lra.
  - apply (Rmult_le_reg_r (180 * / PI)); [nra|]. nra.
Qed.
Lemma deg0 : degrees 0 = 0. Proof. unfold degrees. lra. Qed.
Lemma deg_pi : degrees PI = 180. Proof. unfold degrees. pose proof PI_pos. field. lra. Qed.
Lemma deg_minus a b : degrees (a - b) = degrees a - degrees b. Proof. unfold degrees, Rdiv. ring. Qed.
Lemma deg_half : degrees (PI / 2) = 90. Proof. unfold degrees. pose proof PI_pos. field. lra. Qed.

(** the computed angle *)
Definition ang (u v : vec) : R := degrees (acos (dot u v / (mag u * mag v))).
Lemma ang_angle u v : mag u <> 0 -> mag v <> 0 -> angle u v (ang u v).
Proof.
  intros A B. pose proof (cosine_range u v A B) as C. unfold ang. split.
  - pose proof (acos_bound (dot u v / (mag u * mag v))) as [L U]. rewrite <- deg0 at 1. rewrite <- deg_pi. split; apply (proj1 (deg_le _ _)); lra.
  - rewrite deg_rad, cos_acos by exact C. field. auto.
Qed.
Lemma angle_unique u v t : mag u <> 0 -> mag v <> 0 -> angle u v t -> t = ang u v.
Proof.
  intros A B [[L U] E]. unfold ang. rewrite E. replace (mag u * mag v * cos (t * PI / 180) / (mag u * mag v)) with (cos (t * PI / 180)) by (field; auto).
  rewrite acos_cos; [symmetry; apply rad_deg|]. pose proof PI_pos. split; nra.
Qed.
Lemma angle_iff u v t : mag u <> 0 -> mag v <> 0 -> (angle u v t <-> t = ang u v).
Proof. intros A B. split; [apply angle_unique; auto|intros ->; apply ang_angle; auto]. Qed.
Lemma ang_range u v : mag u <> 0 -> mag v <> 0 -> 0 <= ang u v <= 180.
Proof. intros A B. apply (ang_angle u v A B). Qed.

Lemma pmin1_in x : x <= 1 -> pmin1 (Some x) = x.
Proof. intros L. cbn. unfold Rltb. destruct (Rlt_dec x 1); lra. Qed.
Lemma pclamp_in x : -1 <= x <= 1 -> pclamp (Some x) = x.
Proof. intros [L U]. unfold pclamp. unfold Rltb. destruct (Rlt_dec (-1) x) as [Q|Q]; [apply pmin1_in; lra|]. rewrite pmin1_in by lra. lra. Qed.
Lemma full_angle u v : mag u <> 0 -> mag v <> 0 -> degrees (acos (pclamp (ndot (nunit u) (nunit v)))) = ang u v.
Proof. intros A B. rewrite ndot_units by auto. rewrite pclamp_in by (apply cosine_range; auto). reflexivity. Qed.
Lemma abs_in x : -1 <= x <= 1 -> Rabs x <= 1. Proof. intros [L U]. unfold Rabs. destruct (Rcase_abs x); lra. Qed.
Lemma line_angle_eq u v : mag u <> 0 -> mag v <> 0 -> degrees (acos (pmin1 (nabs (ndot (nunit u) (nunit v))))) = Rmin (ang u v) (180 - ang u v).
Proof.
  intros A B. rewrite ndot_units by auto. pose proof (cosine_range u v A B) as C. cbn [nabs option_map]. rewrite pmin1_in by (apply abs_in; exact C).
  unfold ang. set (x := dot u v / (mag u * mag v)) in *. unfold Rabs. destruct (Rcase_abs x) as [N|P].
  - rewrite acos_opp. rewrite deg_minus, deg_pi. rewrite Rmin_right; [reflexivity|].
    assert (PI / 2 <= acos x). { rewrite <- acos_0. destruct (Rle_lt_dec (acos 0) (acos x)); auto. exfalso.
      assert (cos (acos 0) < cos (acos x)). { apply cos_decreasing_1; try lra; try apply acos_bound. } rewrite !cos_acos in H by lra. lra. }
    pose proof (proj1 (deg_le _ _) H). rewrite deg_half in H0. lra.
  - rewrite Rmin_left; [reflexivity|].
    assert (acos x <= PI / 2). { rewrite <- acos_0. destruct (Rle_lt_dec (acos x) (acos 0)); auto. exfalso.
      assert (cos (acos x) < cos (acos 0)). { apply cos_decreasing_1; try lra; try apply acos_bound. } rewrite !cos_acos in H by lra. lra. }
    pose proof (proj1 (deg_le _ _) H). rewrite deg_half in H0. lra.
Qed.
Lemma perp_angle_eq u v : mag u <> 0 -> mag v <> 0 -> degrees (asin (pmin1 (nabs (ndot (nunit u) (nunit v))))) = Rabs (90 - ang u v).
Proof.
  intros A B. assert (E : forall x, -1 <= x <= 1 -> asin x = PI / 2 - acos x) by (intros x Q; rewrite acos_asin by exact Q; lra).
  assert (Q : -1 <= pmin1 (nabs (ndot (nunit u) (nunit v))) <= 1).
  { rewrite ndot_units by auto. pose proof (cosine_range u v A B) as C. cbn [nabs option_map]. pose proof (abs_in _ C). pose proof (Rabs_pos (dot u v / (mag u * mag v))). rewrite pmin1_in by lra. lra. }
  rewrite (E _ Q), deg_minus, deg_half, line_angle_eq by auto. pose proof (ang_range u v A B). unfold Rmin, Rabs.
  destruct (Rle_dec (ang u v) (180 - ang u v)); destruct (Rcase_abs (90 - ang u v)); lra.
Qed.
