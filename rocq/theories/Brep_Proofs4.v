(** The curves drawn for edges. *)
From Coq Require Import String Reals List Bool ZArith Lia Lra.
From Verif Require Kin_Model.
From Verif Require Import Dict Xform_Model Fig_Model Xform_Proofs Isect_Proofs ASurf_Model Brep_Model Brep_Spec.
Import ListNotations.
Open Scope R_scope.
Open Scope list_scope.

Lemma vec_same a b : vx a = vx b -> vy a = vy b -> vz a = vz b -> vw a = vw b -> a = b.
Proof. destruct a, b; cbn; congruence. Qed.
Lemma sq_pos x y z : 0 <= sq x y z.
Proof. unfold sq. pose proof (Rle_0_sqr x). pose proof (Rle_0_sqr y). pose proof (Rle_0_sqr z). unfold Rsqr in *. lra. Qed.
Definition at_angle (c : vec) (r a : R) : vec := point (vx c + r * cos (a * pi2 / 360)) (vy c + r * sin (a * pi2 / 360)) (vz c).
Lemma sample_at c u : samplearc c u = at_angle (a_c c) (a_r c) (arc_angle c u).
Proof. unfold samplearc, at_angle. apply vec_same; cbn; ring. Qed.
Lemma at_angle_mod c r a : at_angle c r (pymod a 360) = at_angle c r a.
Proof. unfold at_angle. destruct (cos_sin_pymod a) as [-> ->]. reflexivity. Qed.
Lemma at_angle_turn c r a : at_angle c r (a + 360) = at_angle c r a.
Proof.
  unfold at_angle. replace ((a + 360) * pi2 / 360) with (a * pi2 / 360 + 2 * INR 1 * PI) by (unfold pi2; cbn; field).
  rewrite cos_period, sin_period. reflexivity.
Qed.
Definition deg_at (c p : vec) : R := Kin_Model.atan2 (vy p - vy c) (vx p - vx c) * 180 / PI.
Lemma deg_at_ok c p r : vz p = vz c -> is_point p -> 0 < r -> dist c p = r -> at_angle c r (deg_at c p) = p.
Proof.
  intros Z W Hr D. pose proof PI_RGT_0 as P.
  assert (E : (vx p - vx c) * (vx p - vx c) + (vy p - vy c) * (vy p - vy c) = r * r).
  { rewrite <- D, dist_sq. rewrite sqrt_sqrt by apply sq_pos. unfold sq. rewrite Z. ring. }
  destruct (atan2_polar _ _ _ Hr E) as [A B]. unfold at_angle, deg_at.
  replace (Kin_Model.atan2 (vy p - vy c) (vx p - vx c) * 180 / PI * pi2 / 360) with (Kin_Model.atan2 (vy p - vy c) (vx p - vx c)) by (unfold pi2; field; lra).
  rewrite <- A, <- B. apply vec_same; cbn; try lra. symmetry. exact W.
Qed.
Lemma sample_ends c : a_rev c = false -> samplearc c 0 = at_angle (a_c c) (a_r c) (a_start c) /\ samplearc c 1 = at_angle (a_c c) (a_r c) (a_end c).
Proof.
  intros V. rewrite !sample_at. unfold arc_angle. rewrite V. destruct (arc_range c) as [s e] eqn:Q.
  replace ((e - s) * 0 + s) with s by ring. replace ((e - s) * 1 + s) with e by ring. rewrite !at_angle_mod.
  unfold arc_range in Q. destruct (negb (Reqb (a_start c) 0) && negb (Reqb (a_end c) 360)).
  - injection Q as <- <-. rewrite at_angle_mod. split; auto. destruct (Rltb _ _); [rewrite at_angle_turn|]; apply at_angle_mod.
  - injection Q as <- <-. auto.
Qed.
Lemma dist_z0 a b : vz a = vz b -> dist a b * dist a b = (vx a - vx b) * (vx a - vx b) + (vy a - vy b) * (vy a - vy b).
Proof. intros Z. rewrite dist_sq, sqrt_sqrt by apply sq_pos. unfold sq. rewrite Z. ring. Qed.
Lemma at_angle_dist c r a : 0 <= r -> dist c (at_angle c r a) = r.
Proof.
  intros Hr. rewrite dist_sq. unfold sq, at_angle, point. cbn [vx vy vz].
  match goal with |- sqrt ?e = _ => replace e with (Rsqr r) end; [apply sqrt_Rsqr, Hr|].
  pose proof (sin2_cos2 (a * pi2 / 360)) as T. unfold Rsqr in *. 
  transitivity (r * r * (sin (a * pi2 / 360) * sin (a * pi2 / 360) + cos (a * pi2 / 360) * cos (a * pi2 / 360))); [rewrite T; ring|ring].
Qed.
(** Arcs given by their centre. *)
Lemma centre_arc_goes c o p q : is_point c -> is_point p -> is_point q -> vz p = vz c -> vz q = vz c -> 0 < dist c p -> dist c q = dist c p ->
  goes (draw (ArcCenter c o) p q) p q.
Proof.
  intros Wc Wp Wq Zp Zq Hr D. cbn [draw]. unfold arc_through, goes. match goal with |- samplearc ?x _ = _ /\ _ => destruct (sample_ends x eq_refl) as [A B] end.
  rewrite A, B. cbn [a_c a_r a_start a_end]. split; [apply (deg_at_ok (as_point c) p (dist c p))|apply (deg_at_ok (as_point c) q (dist c p))]; auto.
Qed.
Lemma centre_arc_sweep c o p q : is_point c -> is_point p -> is_point q -> vz p = vz c -> vz q = vz c -> 0 < dist c p -> dist c q = dist c p -> vy p <> vy c ->
  exists a s t, draw (ArcCenter c o) p q = DArc a /\ 0 <= t < 360 /\
    (forall u, 0 <= u <= 1 -> samplearc a u = at_angle c (dist c p) (s + t * u)) /\ at_angle c (dist c p) s = p /\ at_angle c (dist c p) (s + t) = q.
Proof.
  intros Wc Wp Wq Zp Zq Hr D Ny. pose proof PI_RGT_0 as P. cbn [draw]. unfold arc_through. fold (deg_at c p) (deg_at c q).
  assert (E1 : (vx p - vx c) * (vx p - vx c) + (vy p - vy c) * (vy p - vy c) = dist c p * dist c p) by (rewrite dist_z0 by auto; ring).
  assert (Ns : deg_at c p <> 0).
  { unfold deg_at. intros Z0. destruct (atan2_polar _ _ _ Hr E1) as [_ B]. assert (T : Kin_Model.atan2 (vy p - vy c) (vx p - vx c) = 0).
    { apply (Rmult_eq_reg_r (180 / PI)); [|apply Rgt_not_eq, Rdiv_lt_0_compat; lra]. rewrite Rmult_0_l. rewrite <- Z0. field. lra. }
    rewrite T, sin_0 in B. lra. }
  assert (Ne : deg_at c q <> 360).
  { unfold deg_at. assert (T : Kin_Model.atan2 (vy q - vy c) (vx q - vx c) <= PI).
    { unfold Kin_Model.atan2. set (y := vy q - vy c). set (x := vx q - vx c). pose proof (atan_bound (y / x)). 
      destruct (Rltb 0 x) eqn:X1; [lra|]. destruct (Rltb x 0) eqn:X2.
      - destruct (Rleb 0 y) eqn:X3; [|lra]. apply Rltb_true in X2. apply Rleb_true in X3.
        assert (y / x <= 0). { unfold Rdiv. pose proof (Rinv_lt_0_compat x X2). nra. }
        assert (atan (y / x) <= 0); [|lra]. destruct (Rle_lt_or_eq_dec _ _ H0) as [L|L]; [|rewrite L, atan_0; lra]. pose proof (atan_increasing _ _ L). rewrite atan_0 in *. lra.
      - destruct (Rltb 0 y); [lra|]. destruct (Rltb y 0); lra. }
    intros Q. assert (Kin_Model.atan2 (vy q - vy c) (vx q - vx c) = 2 * PI); [|lra].
    apply (Rmult_eq_reg_r (180 / PI)); [|apply Rgt_not_eq, Rdiv_lt_0_compat; lra]. transitivity 360; [rewrite <- Q; field; lra|field; lra]. }
  set (a := mkarc (as_point c) (dist c p) (deg_at c p) (deg_at c q) false).
  pose (s := pymod (deg_at c p) 360). pose (e := pymod (deg_at c q) 360). pose (t := (if Rltb e s then e + 360 else e) - s).
  assert (AR : arc_range a = (s, s + t)).
  { unfold arc_range, a. cbn [a_start a_end]. unfold Reqb. destruct (Req_EM_T (deg_at c p) 0); [contradiction|]. destruct (Req_EM_T (deg_at c q) 360); [contradiction|].
    cbn [negb andb]. fold s e. f_equal. unfold t. ring. }
  pose proof (pymod_range (deg_at c p) 360 ltac:(lra)) as Rs. pose proof (pymod_range (deg_at c q) 360 ltac:(lra)) as Re. fold s in Rs. fold e in Re.
  assert (Ps : at_angle c (dist c p) s = p) by (unfold s; rewrite at_angle_mod; apply deg_at_ok; auto).
  assert (Pe : at_angle c (dist c p) (s + t) = q).
  { unfold t. replace (s + ((if Rltb e s then e + 360 else e) - s)) with (if Rltb e s then e + 360 else e) by ring.
    destruct (Rltb e s); [rewrite at_angle_turn|]; unfold e; rewrite at_angle_mod; apply deg_at_ok; auto. }
  exists a, s, t. split; [reflexivity|]. split; [unfold t; destruct (Rltb e s) eqn:Q; [apply Rltb_true in Q|apply Rltb_false in Q]; lra|].
  split; auto. intros u _. rewrite sample_at. unfold arc_angle. rewrite AR. cbn [a_rev a_c a_r a]. rewrite at_angle_mod. unfold at_angle. cbn [as_point point vx vy vz].
  replace ((s + t - s) * u + s) with (s + t * u) by ring. reflexivity.
Qed.
(** Arcs given by a bulge. *)
Lemma bulge_misses b p q : vz p = vz q -> epsilon <= Rabs b -> epsilon <= dist p q -> epsilon <= Rabs b * dist p q / 2 ->
  exists a, draw (ArcBulge b) p q = DArc a /\ 0 < a_r a /\ dist (a_c a) p * dist (a_c a) p = a_r a * a_r a - dist p q * dist p q / 4 * (1 - 2 * (b * b)).
Proof.
  intros Z Hb Hd Hh. assert (Ep : 0 < epsilon) by (unfold epsilon; lra). cbn [draw].
  assert (PL : sqrt ((vx q - vx p) * (vx q - vx p) + (vy q - vy p) * (vy q - vy p)) = dist p q).
  { rewrite dist_sq. f_equal. unfold sq. rewrite Z. ring. }
  rewrite PL, !(proj2 (Rltb_false _ _)) by auto.
  set (L := dist p q) in *. 
  assert (AH : Rabs (b * L / 2) = Rabs b * L / 2).
  { unfold Rdiv. rewrite !Rabs_mult, (Rabs_right L), (Rabs_right (/ 2)) by lra. reflexivity. }
  rewrite AH, (proj2 (Rltb_false _ _)) by auto. set (h := Rabs b * L / 2) in *. assert (Hp : 0 < h) by lra.
  eexists. split; [reflexivity|]. cbn [a_r a_c]. split; [apply Rdiv_lt_0_compat; nra|].
  set (r := (L * L / 4 + h * h) / (2 * h)).
  assert (R2 : 2 * h * r = L * L / 4 + h * h) by (unfold r; field; lra).
  assert (L2 : (vx q - vx p) * (vx q - vx p) + (vy q - vy p) * (vy q - vy p) = L * L).
  { unfold L. rewrite dist_z0 by auto. ring. }
  assert (H2 : h * h = b * b * (L * L) / 4).
  { unfold h. replace (Rabs b * L / 2 * (Rabs b * L / 2)) with (Rabs b * Rabs b * (L * L) / 4) by field. rewrite <- Rabs_mult, Rabs_right; [reflexivity|].
    apply Rle_ge, Rle_0_sqr. }
  set (dx := vx q - vx p) in *. set (dy := vy q - vy p) in *.
  (* the centre is the middle of the chord moved by [k] across it *)
  assert (K : exists k, k * k = (r - 2 * h) * (r - 2 * h) /\
    as_point (if Rltb 0 b then sub (add (midpoint p q) (scale3 (point (- dy / L) (dx / L) 0) (b * L / 2))) (scale3 (point (- dy / L) (dx / L) 0) (r - h))
              else add (add (midpoint p q) (scale3 (point (- dy / L) (dx / L) 0) (b * L / 2))) (scale3 (point (- dy / L) (dx / L) 0) (r - h))) =
    point ((vx p + vx q) / 2 + k * (- dy / L)) ((vy p + vy q) / 2 + k * (dx / L)) ((vz p + vz q) / 2)).
  { destruct (Rltb 0 b) eqn:B.
    - apply Rltb_true in B. assert (Eh : b * L / 2 = h) by (unfold h; rewrite Rabs_right by lra; reflexivity). exists (h - (r - h)). split; [ring|].
      rewrite Eh. apply vec_same; cbn; try ring. 
    - apply Rltb_false in B. assert (Eh : b * L / 2 = - h) by (unfold h; rewrite Rabs_left1 by lra; field). exists (- h + (r - h)). split; [ring|].
      rewrite Eh. apply vec_same; cbn; try ring. }
  destruct K as (k & K2 & ->). rewrite dist_z0 by (cbn; rewrite Z; field). cbn [vx vy point].
  replace (((vx p + vx q) / 2 + k * (- dy / L) - vx p) * ((vx p + vx q) / 2 + k * (- dy / L) - vx p) + ((vy p + vy q) / 2 + k * (dx / L) - vy p) * ((vy p + vy q) / 2 + k * (dx / L) - vy p))
    with ((dx * dx + dy * dy) / 4 + k * k * ((dx * dx + dy * dy) / (L * L))) by (unfold dx, dy; field; lra).
  rewrite L2. replace (L * L / (L * L)) with 1 by (field; lra). rewrite K2.
  replace ((r - 2 * h) * (r - 2 * h)) with (r * r - 2 * (2 * h * r) + 4 * (h * h)) by ring. rewrite R2, H2. field.
Qed.
Lemma bulge_goes_iff b p q : is_point p -> is_point q -> vz p = vz q -> epsilon <= Rabs b -> epsilon <= dist p q -> epsilon <= Rabs b * dist p q / 2 ->
  goes (draw (ArcBulge b) p q) p q -> 2 * (b * b) = 1.
Proof.
  intros Wp Wq Z Hb Hd Hh G. destruct (bulge_misses b p q Z Hb Hd Hh) as (a & E & Ra & D). rewrite E in G. destruct G as [G _].
  assert (Dp : dist (a_c a) p = a_r a) by (rewrite <- G, sample_at; apply at_angle_dist; lra). rewrite Dp in D.
  assert (0 < dist p q) by (unfold epsilon in *; lra). assert (X : dist p q * dist p q / 4 * (1 - 2 * (b * b)) = 0) by lra.
  apply Rmult_integral in X as [X|X]; [exfalso; nra|lra].
Qed.
