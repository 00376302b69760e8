From Coq Require Import Reals List Bool Lra Lia Psatz.
From Verif Require Import Xform_Model Xform_Proofs Fig_Model Fig_Proofs Fig_Proofs2 Isect_Model Isect_Spec.
From Verif Require Kin_Model Path_Proofs.
Import ListNotations.
Open Scope R_scope.

(** ** polar angles *)
Lemma atan2_polar x y r : 0 < r -> x * x + y * y = r * r ->
  x = r * cos (Kin_Model.atan2 y x) /\ y = r * sin (Kin_Model.atan2 y x).
Proof.
  intros Hr E. unfold Kin_Model.atan2.
  assert (S : forall x, x <> 0 -> x * x + y * y = r * r -> sqrt (1 + (y / x)²) = r / Rabs x).
  { clear x E. intros x N E. assert (P : 0 < Rabs x) by (apply Rabs_pos_lt; exact N).
    apply sqrt_lem_1; [pose proof (Rle_0_sqr (y / x)); lra| |].
    - apply Rlt_le, Rdiv_lt_0_compat; assumption.
    - unfold Rsqr. replace (r / Rabs x * (r / Rabs x)) with ((r * r) / (Rabs x * Rabs x)) by (field; lra).
      rewrite <- E. replace (Rabs x * Rabs x) with (x * x) by (unfold Rabs; destruct (Rcase_abs x); ring). field. exact N. }
  destruct (Rltb 0 x) eqn:E1; [apply Rltb_true in E1|apply Rltb_false in E1].
  - rewrite cos_atan, sin_atan, S by (auto; lra). rewrite Rabs_right by lra. split; field; lra.
  - destruct (Rltb x 0) eqn:E2; [apply Rltb_true in E2|apply Rltb_false in E2].
    + pose proof (S x ltac:(lra) E) as Q. rewrite Rabs_left in Q by lra.
      assert (D : r / - x <> 0) by (apply Rgt_not_eq, Rdiv_lt_0_compat; lra).
      destruct (Rleb 0 y).
      * rewrite neg_cos, neg_sin, cos_atan, sin_atan, Q. split; field; lra.
      * assert (T : forall z, cos (z - PI) = - cos z /\ sin (z - PI) = - sin z).
        { intros z. rewrite cos_minus, sin_minus, cos_PI, sin_PI. split; ring. }
        destruct (T (atan (y / x))) as [-> ->]. rewrite cos_atan, sin_atan, Q. split; field; lra.
    + assert (x = 0) by lra. subst x. replace (0 * 0 + y * y) with (y * y) in E by ring.
      destruct (Rltb 0 y) eqn:E3; [apply Rltb_true in E3|apply Rltb_false in E3].
      * rewrite cos_PI2, sin_PI2. split; [ring|]. nra.
      * destruct (Rltb y 0) eqn:E4; [apply Rltb_true in E4|apply Rltb_false in E4].
        -- rewrite cos_neg, sin_neg, cos_PI2, sin_PI2. split; [ring|nra].
        -- assert (y = 0) by lra. subst y. nra.
Qed.
Lemma pi2_pos : 0 < pi2. Proof. unfold pi2. pose proof PI_RGT_0. lra. Qed.
Lemma deg_mod p : deg_of p = pymod (Kin_Model.atan2 (vy p) (vx p) * 360 / pi2) 360.
Proof.
  unfold deg_of, pymod. pose proof pi2_pos. set (a := Kin_Model.atan2 _ _).
  replace (a * 360 / pi2 / 360) with (a / pi2) by (field; lra). field. lra.
Qed.
Lemma deg_range p : 0 <= deg_of p < 360.
Proof. rewrite deg_mod. apply pymod_range. lra. Qed.
Lemma deg_polar p r : 0 < r -> vx p * vx p + vy p * vy p = r * r ->
  vx p = r * cos (deg_of p * pi2 / 360) /\ vy p = r * sin (deg_of p * pi2 / 360).
Proof.
  intros Hr E. rewrite deg_mod. destruct (cos_sin_pymod (Kin_Model.atan2 (vy p) (vx p) * 360 / pi2)) as [-> ->].
  pose proof pi2_pos. replace (Kin_Model.atan2 (vy p) (vx p) * 360 / pi2 * pi2 / 360) with (Kin_Model.atan2 (vy p) (vx p)) by (field; lra).
  apply atan2_polar; assumption.
Qed.
Lemma deg_inj s t : 0 <= s < 360 -> 0 <= t < 360 -> cos (s * pi2 / 360) = cos (t * pi2 / 360) ->
  sin (s * pi2 / 360) = sin (t * pi2 / 360) -> s = t.
Proof.
  intros A B C D. pose proof pi2_pos as P.
  assert (E : s * pi2 / 360 = t * pi2 / 360).
  { apply Path_Proofs.turn_unique; auto; fold pi2; split; try nra. }
  apply (Rmult_eq_reg_r (pi2 / 360)); [lra|]. lra.
Qed.
Lemma deg_unique p r s : 0 < r -> 0 <= s < 360 -> vx p = r * cos (s * pi2 / 360) -> vy p = r * sin (s * pi2 / 360) -> deg_of p = s.
Proof.
  intros Hr Hs E1 E2. assert (Q : vx p * vx p + vy p * vy p = r * r).
  { rewrite E1, E2. pose proof (sin2_cos2 (s * pi2 / 360)) as K. unfold Rsqr in K. nra. }
  destruct (deg_polar p r Hr Q) as [F1 F2].
  apply deg_inj; [apply deg_range|exact Hs| |]; apply (Rmult_eq_reg_l r); lra.
Qed.
(** for any angle: the degree of the direction is the angle reduced *)
Lemma deg_of_angle p r s : 0 < r -> vx p = r * cos (s * pi2 / 360) -> vy p = r * sin (s * pi2 / 360) -> deg_of p = pymod s 360.
Proof.
  intros Hr E1 E2. apply (deg_unique p r); [exact Hr|apply pymod_range; lra| |]; destruct (cos_sin_pymod s) as [K1 K2].
  - rewrite K1. exact E1.
  - rewrite K2. exact E2.
Qed.

(** ** arcs *)
Definition spot (c : arc) (g : R) : vec :=
  add (a_c c) (scale3 (mkv (cos (g * pi2 / 360)) (sin (g * pi2 / 360)) 0 1) (a_r c)).
Lemma spot_degrees c g : spot c g = at_degrees c g.
Proof.
  unfold spot, at_degrees, add, scale3. cbn [vx vy vz].
  replace (g * pi2 / 360) with (g * PI / 180) by (unfold pi2; field). apply mkv_eq; ring.
Qed.
Lemma spot_mod c g : spot c (pymod g 360) = spot c g.
Proof. unfold spot. destruct (cos_sin_pymod g) as [-> ->]. reflexivity. Qed.
Lemma samplearc_spot c u :
  samplearc c u = spot c ((snd (arc_range c) - fst (arc_range c)) * (if a_rev c then 1 - u else u) + fst (arc_range c)).
Proof.
  unfold samplearc, arc_angle. destruct (arc_range c) as [s e]. cbn [fst snd]. apply spot_mod.
Qed.
Lemma sub_spot c g : sub (spot c g) (a_c c) = mkv (a_r c * cos (g * pi2 / 360)) (a_r c * sin (g * pi2 / 360)) 0 1.
Proof. unfold spot, sub, add, scale3. cbn [vx vy vz]. apply mkv_eq; ring. Qed.
Lemma deg_spot c g : 0 < a_r c -> deg_of (sub (spot c g) (a_c c)) = pymod g 360.
Proof. intros H. rewrite sub_spot. apply (deg_of_angle _ (a_r c)); auto. Qed.
Lemma circle_spot c p : 0 < a_r c -> on_circle c p -> vw p = 1 -> p = spot c (deg_of (sub p (a_c c))).
Proof.
  intros Hr [E Z] W.
  assert (Q : vx (sub p (a_c c)) * vx (sub p (a_c c)) + vy (sub p (a_c c)) * vy (sub p (a_c c)) = a_r c * a_r c).
  { rewrite <- E. rewrite dist_sq, sqrt_sqrt; [|apply Rplus_le_le_0_compat; [apply Rplus_le_le_0_compat|]; apply Rle_0_sqr].
    unfold sub. cbn [vx vy]. unfold sq. rewrite Z. ring. }
  destruct (deg_polar _ _ Hr Q) as [E1 E2]. unfold spot, add, scale3. cbn [vx vy vz].
  set (g := deg_of _) in *. clearbody g. unfold sub in E1, E2. cbn [vx vy] in E1, E2.
  destruct p as [x y z w]. cbn [vx vy vz vw] in *. subst w. apply mkv_eq; lra.
Qed.
Lemma spot_circle c g : 0 <= a_r c -> on_circle c (spot c g).
Proof.
  intros Hr. split; [|unfold spot, add, scale3; cbn [vx vy vz]; ring].
  unfold dist. rewrite sub_spot. unfold mag. cbn [vx vy vz].
  pose proof (sin2_cos2 (g * pi2 / 360)) as K. unfold Rsqr in K.
  replace (_ + _) with (a_r c * a_r c).
  - apply sqrt_square. exact Hr.
  - set (C := cos _) in *. set (S := sin _) in *. transitivity (a_r c * a_r c * (S * S + C * C)); [rewrite K; ring|ring].
Qed.

(** ** sample, unsample, segment *)
Lemma close_false s e : close s e = false -> s <> e.
Proof. unfold close. intros H. apply Rltb_false in H. intros ->. rewrite Rminus_eq_0, Rabs_R0 in H. unfold epsilon in H. lra. Qed.
Lemma unsample_some c p : 0 <= a_r c -> on_circle c p -> close (fst (arc_range c)) (snd (arc_range c)) = false ->
  exists k, unsamplearc c p = Some k.
Proof.
  intros Hr [E _] N. unfold unsamplearc. destruct (arc_range c) as [s e]. cbn [fst snd] in N. rewrite N.
  fold (dist p (a_c c)). rewrite E, Rminus_eq_0, Rabs_R0. rewrite (proj2 (Rltb_false _ _)) by (unfold epsilon; lra). eexists; reflexivity.
Qed.
Lemma sample_unsample c p u : 0 < a_r c -> on_circle c p -> vw p = 1 -> unsamplearc c p = Some u -> samplearc c u = p.
Proof.
  intros Hr Hc W H. rewrite samplearc_spot. unfold unsamplearc in H. destruct (arc_range c) as [s e]. cbn [fst snd].
  destruct (close s e) eqn:N; [discriminate|]. apply close_false in N. destruct (Rltb epsilon _); [discriminate|].
  rewrite (circle_spot c p Hr Hc W) at 1.
  set (g := deg_of _) in *. set (g' := if Rltb 360 e && Rleb g (e - 360) then g + 360 else g) in H.
  assert (G : spot c g' = spot c g).
  { unfold g'. destruct (_ && _); [|reflexivity]. rewrite <- (spot_mod c (g + 360)), <- (spot_mod c g). f_equal.
    unfold pymod. replace ((g + 360) / 360) with (g / 360 + 1) by field.
    assert (I : Int_part (g / 360 + 1) = (Int_part (g / 360) + 1)%Z).
    { unfold Int_part. assert (U : up (g / 360 + 1) = (up (g / 360) + 1)%Z); [|rewrite U; lia].
      symmetry. apply tech_up; rewrite plus_IZR; pose proof (archimed (g / 360)); lra. }
    rewrite I, plus_IZR. ring. }
  rewrite <- G. f_equal. clearbody g'. injection H as <-. destruct (a_rev c); field; lra.
Qed.
Lemma pymod_plus g : 0 <= g < 360 -> pymod (g + 360) 360 = g.
Proof.
  intros H. unfold pymod. assert (I : Int_part ((g + 360) / 360) = 1%Z).
  { unfold Int_part. assert (U : up ((g + 360) / 360) = 2%Z); [|rewrite U; reflexivity].
    symmetry. apply tech_up; lra. }
  rewrite I. ring.
Qed.
(** the angular range of an arc is positive, at most a turn *)
Definition ranged (c : arc) : Prop :=
  0 <= fst (arc_range c) < 360 /\ fst (arc_range c) < snd (arc_range c) <= fst (arc_range c) + 360.
Lemma plain_ranged c : plain_arc c -> ranged c /\ snd (arc_range c) < fst (arc_range c) + 360.
Proof.
  intros (A & B & N & F). unfold ranged, arc_range.
  destruct (Reqb (a_start c) 0) eqn:E1; [apply Reqb_true in E1|apply Reqb_false in E1].
  - cbn [negb andb fst snd]. assert (a_end c <> 360) by (intros K; apply F; split; assumption). split; [split|]; lra.
  - destruct (Reqb (a_end c) 360) eqn:E2; [apply Reqb_true in E2|apply Reqb_false in E2]; cbn [negb andb fst snd].
    + split; [split|]; lra.
    + rewrite !pymod_id by lra. destruct (Rltb (a_end c) (a_start c)) eqn:E3; [apply Rltb_true in E3|apply Rltb_false in E3]; (split; [split|]; lra).
Qed.
Lemma circle_ranged c : iscircle c = true -> ranged c.
Proof.
  unfold iscircle, ranged, arc_range. intros H. apply andb_true_iff in H as [H1 H2]. rewrite H1. cbn [negb andb fst snd].
  apply Reqb_true in H1. apply Reqb_true in H2. lra.
Qed.
Lemma close_range c : epsilon <= snd (arc_range c) - fst (arc_range c) -> close (fst (arc_range c)) (snd (arc_range c)) = false.
Proof. intros H. unfold close. apply Rltb_false. rewrite Rabs_minus_sym. rewrite Rabs_right; [lra|unfold epsilon in *; lra]. Qed.
(** unsample inverts sample, except for the end at exactly 360 degrees *)
Lemma unsample_sample c u : 0 < a_r c -> ranged c -> epsilon <= snd (arc_range c) - fst (arc_range c) ->
  0 <= (if a_rev c then 1 - u else u) <= 1 ->
  snd (arc_range c) < fst (arc_range c) + 360 ->
  (snd (arc_range c) <= 360 -> (snd (arc_range c) - fst (arc_range c)) * (if a_rev c then 1 - u else u) + fst (arc_range c) < 360) ->
  unsamplearc c (samplearc c u) = Some u.
Proof.
  intros Hr [R1 R2] L U T1 T2. pose proof (close_range c L) as N.
  rewrite samplearc_spot. set (v := if a_rev c then 1 - u else u) in *.
  set (g := (snd (arc_range c) - fst (arc_range c)) * v + fst (arc_range c)) in *.
  pose proof (proj1 (spot_circle c g (Rlt_le _ _ Hr))) as D.
  unfold unsamplearc. rewrite deg_spot by exact Hr. fold (dist (spot c g) (a_c c)). rewrite D, Rminus_eq_0, Rabs_R0.
  destruct (arc_range c) as [s e]. cbn [fst snd] in *. rewrite N. rewrite (proj2 (Rltb_false epsilon 0)) by (unfold epsilon; lra).
  assert (G : s <= g <= e) by (unfold g; clear - U R2; nra).
  assert (A : (if Rltb 360 e && Rleb (pymod g 360) (e - 360) then pymod g 360 + 360 else pymod g 360) = g).
  { destruct (Rlt_dec g 360) as [Q|Q].
    - rewrite pymod_id by lra. rewrite (proj2 (Rleb_false g (e - 360))), andb_false_r by lra. reflexivity.
    - assert (E3 : 360 < e) by (destruct (Rlt_dec 360 e); [assumption|exfalso; lra]).
      replace (pymod g 360) with (g - 360) by (symmetry; replace g with (g - 360 + 360) at 1 by ring; apply pymod_plus; lra).
      rewrite (proj2 (Rltb_true 360 e)), (proj2 (Rleb_true (g - 360) (e - 360))) by lra. cbn [andb]. ring. }
  rewrite A. f_equal. unfold g, v. destruct (a_rev c); field; lra.
Qed.
