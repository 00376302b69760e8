From Coq Require Import Reals List Bool Lra Lia Psatz.
From Verif Require Import Xform_Model Xform_Proofs Fig_Model Isect_Proofs4 ASurf_Model ASurf_Spec ASurf_Proofs ASurf_Proofs2 ASurf_Proofs4.
Import ListNotations.
Open Scope R_scope.

(** ** reloading *)
Lemma unit_mag a : unit_vec a -> mag a = 1.
Proof. intros [U _]. pose proof (mag_sq a). pose proof (mag_nonneg a). nra. Qed.
Lemma over_1 a : vw a = 0 -> over a 1 = a.
Proof. intros W. destruct a as [x y z w]. cbn [vw] in W. subst w. unfold over, vect. cbn [vx vy vz]. f_equal; field. Qed.
Lemma direction_unit a : unit_vec a -> direction a = Ok a.
Proof.
  intros U. unfold direction. rewrite (unit_mag a U). rewrite (proj2 (Rltb_false 1 epsilon)) by (unfold epsilon; lra). f_equal. apply over_1, U.
Qed.
Lemma as_point_id p : vw p = 1 -> as_point p = p.
Proof. destruct p as [x y z w]. cbn [vw]. intros ->. reflexivity. Qed.
Lemma as_point_w p : vw (as_point p) = 1. Proof. reflexivity. Qed.
Lemma constructed_sound s : constructed s -> sound_surface s.
Proof.
  intros [(o & n & ur & vr & E)|[(c & r & ur & vr & E)|[(o & a & r & ur & vr & E)|[(q & a & h & ur & vr & E)|(c & a & R0 & r & ur & vr & E)]]]].
  - unfold plane_surface in E. destruct (direction n) as [d| | | | |] eqn:D; try discriminate. apply direction_ok in D as (U & _). injection E as <-. cbn. split; [reflexivity|]. split; [apply reference_frame, U|reflexivity].
  - unfold sphere_surface in E. destruct (Rleb r 0) eqn:D; try discriminate. apply Rleb_false in D. injection E as <-. cbn. split; [reflexivity|lra].
  - unfold cylinder_surface in E. destruct (direction a) as [d| | | | |] eqn:D; try discriminate. apply direction_ok in D as (U & _). cbn [bind] in E. destruct (Rleb r 0) eqn:F; try discriminate. apply Rleb_false in F. injection E as <-. cbn. split; [reflexivity|]. split; [apply reference_frame, U|lra].
  - unfold cone_surface in E. destruct (direction a) as [d| | | | |] eqn:D; try discriminate. apply direction_ok in D as (U & _). cbn [bind] in E. destruct (Rleb h 0 || Rleb (PI / 2) h) eqn:F; try discriminate. apply orb_false_elim in F as [F G]. apply Rleb_false in F, G. injection E as <-. cbn. split; [reflexivity|]. split; [apply reference_frame, U|lra].
  - unfold torus_surface in E. destruct (direction a) as [d| | | | |] eqn:D; try discriminate. apply direction_ok in D as (U & _). cbn [bind] in E. destruct (Rleb R0 0 || Rleb r 0) eqn:F; try discriminate. apply orb_false_elim in F as [F G]. destruct (Rleb R0 r) eqn:K; try discriminate. apply Rleb_false in F, G, K. injection E as <-. cbn. split; [reflexivity|]. split; [apply reference_frame, U|lra].
Qed.
Lemma constructed_reload s : constructed s -> reload s = Ok s.
Proof.
  intros [(o & n & ur & vr & E)|[(c & r & ur & vr & E)|[(o & a & r & ur & vr & E)|[(q & a & h & ur & vr & E)|(c & a & R0 & r & ur & vr & E)]]]].
  - unfold plane_surface in E. destruct (direction n) as [d| | | | |] eqn:D; try discriminate. apply direction_ok in D as (U & _). injection E as <-. cbn [reload]. unfold plane_surface. rewrite (direction_unit d U). reflexivity.
  - unfold sphere_surface in E. destruct (Rleb r 0) eqn:D; try discriminate. injection E as <-. cbn [reload]. unfold sphere_surface. rewrite D. reflexivity.
  - unfold cylinder_surface in E. destruct (direction a) as [d| | | | |] eqn:D; try discriminate. apply direction_ok in D as (U & _). cbn [bind] in E. destruct (Rleb r 0) eqn:F; try discriminate. injection E as <-. cbn [reload]. unfold cylinder_surface. rewrite (direction_unit d U). cbn [bind]. rewrite F. reflexivity.
  - unfold cone_surface in E. destruct (direction a) as [d| | | | |] eqn:D; try discriminate. apply direction_ok in D as (U & _). cbn [bind] in E. destruct (Rleb h 0 || Rleb (PI / 2) h) eqn:F; try discriminate. injection E as <-. cbn [reload]. unfold cone_surface. rewrite (direction_unit d U). cbn [bind]. rewrite F. reflexivity.
  - unfold torus_surface in E. destruct (direction a) as [d| | | | |] eqn:D; try discriminate. apply direction_ok in D as (U & _). cbn [bind] in E. destruct (Rleb R0 0 || Rleb r 0) eqn:F; try discriminate. destruct (Rleb R0 r) eqn:K; try discriminate. injection E as <-. cbn [reload]. unfold torus_surface. rewrite (direction_unit d U). cbn [bind]. rewrite F, K. reflexivity.
Qed.
Lemma firstn_all' {A} n (l : list A) : length l = n -> firstn n l = l.
Proof. intros <-. apply firstn_all. Qed.
Lemma map_id_on {A} (f : A -> A) l : (forall x, In x l -> f x = x) -> map f l = l.
Proof. intros H. rewrite <- (map_id l) at 2. apply map_ext_in. exact H. Qed.
Lemma bspline_reload cps uk vk p q ws n_u n_v ur vr : (2 <= n_u)%nat -> (2 <= n_v)%nat -> grid_ok n_u n_v cps -> grid_ok n_u n_v ws ->
  length uk = (n_u + p + 1)%nat -> length vk = (n_v + q + 1)%nat ->
  reload (BSpline cps uk vk p q ws n_u n_v ur vr) = Ok (BSpline (map (map as_point) cps) uk vk p q ws n_u n_v ur vr).
Proof.
  intros NU NV GC GW LU LV. cbn [reload]. unfold bspline_surface. cbv zeta. assert (LC : length cps = n_v) by apply GC.
  assert (H : length (hd [] cps) = n_u). { destruct cps as [|r cps]; [cbn in LC; lia|]. destruct GC as [_ F]. inversion F; subst. reflexivity. }
  rewrite LC, H. rewrite (proj2 (Nat.ltb_ge n_v 2)), (proj2 (Nat.ltb_ge n_u 2)) by lia. assert (RC : rect n_u cps = true) by (apply rect_ok, GC). rewrite RC. cbn [orb negb]. rewrite LU, LV, !Nat.eqb_refl. cbn [negb].
  assert (LW : length ws = n_v) by apply GW. rewrite LW, Nat.ltb_irrefl. cbn [orb]. rewrite (firstn_all' n_v ws LW).
  assert (X : existsb (fun r : list R => Nat.ltb (length r) n_u) ws = false).
  { destruct (existsb (fun r : list R => Nat.ltb (length r) n_u) ws) eqn:E; [|reflexivity]. exfalso. apply existsb_exists in E as (r & R & K). destruct GW as [_ F]. rewrite Forall_forall in F. rewrite (F r R) in K. apply Nat.ltb_lt in K. lia. }
  rewrite X. f_equal. f_equal. apply map_id_on. intros r R. destruct GW as [_ F]. rewrite Forall_forall in F. apply firstn_all', F, R.
Qed.

(** ** similarities *)
Section Sim.
Context (k : R) (e1 e2 e3 t : vec) (f : vec -> vec).
Hypothesis (ON : orthonormal e1 e2 e3).
Hypothesis (FE : forall p, f p = let l := lin k e1 e2 e3 p in point (vx t + vx l) (vy t + vy l) (vz t + vz l)).
Lemma lin_dot a b : dot (lin k e1 e2 e3 a) (lin k e1 e2 e3 b) = k * k * dot a b.
Proof.
  destruct ON as (A1 & A2 & A3 & B1 & B2 & B3).
  transitivity (k * k * (vx a * vx b * dot e1 e1 + vy a * vy b * dot e2 e2 + vz a * vz b * dot e3 e3 + (vx a * vy b + vy a * vx b) * dot e1 e2 + (vx a * vz b + vz a * vx b) * dot e1 e3 + (vy a * vz b + vz a * vy b) * dot e2 e3)).
  - unfold lin. unb. ring.
  - rewrite A1, A2, A3, B1, B2, B3. unfold dot. ring.
Qed.
Lemma sim_sub p q e : dot (sub (f p) (f q)) e = dot (lin k e1 e2 e3 (sub p q)) e.
Proof. rewrite !FE. cbv zeta. unfold lin. unb. ring. Qed.
Lemma sim_sub2 p q : dot (sub (f p) (f q)) (sub (f p) (f q)) = k * k * dot (sub p q) (sub p q).
Proof.
  rewrite sim_sub. assert (C : forall x y, dot x y = dot y x) by (intros; unfold dot; ring). rewrite C, sim_sub. apply lin_dot.
Qed.
Lemma sim_dist p q : 0 < k -> dist (f p) (f q) = k * dist p q.
Proof.
  intros K. destruct (dist_inv p q) as [D N]. apply dist_val; [nra|]. rewrite sim_sub2, D. ring.
Qed.
Lemma sim_w p : vw (f p) = 1. Proof. rewrite FE. reflexivity. Qed.
Lemma sim_point p : transform_point f p = f p.
Proof. unfold transform_point. apply as_point_id, sim_w. Qed.
(** directions *)
Lemma sim_vec v : unit_vec v -> epsilon < k -> transform_vector f v = lin 1 e1 e2 e3 v /\ unit_vec (lin 1 e1 e2 e3 v).
Proof.
  intros U K. assert (KP : 0 < k) by (unfold epsilon in K; lra).
  assert (U1 : unit_vec (lin 1 e1 e2 e3 v)).
  { split; [|reflexivity]. transitivity (dot (lin k e1 e2 e3 v) (lin k e1 e2 e3 v) / (k * k)); [unfold lin; unb; field; lra|]. rewrite lin_dot. destruct U as [U _]. rewrite U. field. lra. }
  split; [|exact U1]. unfold transform_vector. cbv zeta.
  set (r := vect (vx (f (as_point v)) - vx (f (point 0 0 0))) (vy (f (as_point v)) - vy (f (point 0 0 0))) (vz (f (as_point v)) - vz (f (point 0 0 0)))).
  assert (R : r = lin k e1 e2 e3 v).
  { unfold r. rewrite !FE. cbv zeta. unfold lin, vect. unb. f_equal; ring. }
  assert (M : mag r = k).
  { pose proof (mag_sq r) as Q. pose proof (mag_nonneg r). rewrite R in Q at 3. rewrite R, lin_dot in Q. destruct U as [U _]. rewrite U in Q. rewrite <- R in Q. nra. }
  rewrite M. rewrite (proj2 (Rltb_true epsilon k)) by exact K. rewrite R. unfold over, lin, vect. cbn [vx vy vz]. f_equal; field; lra.
Qed.
Lemma lin1_dot v p q : 0 < k -> dot (sub (f p) (f q)) (lin 1 e1 e2 e3 v) = k * dot (sub p q) v.
Proof.
  intros K. rewrite sim_sub. transitivity (dot (lin k e1 e2 e3 (sub p q)) (lin k e1 e2 e3 v) / k); [unfold lin; generalize (sub p q); intros w; unb; field; lra|]. rewrite lin_dot. field. lra.
Qed.
(** every point is an image *)
Lemma expand w : vx w = dot w e1 * vx e1 + dot w e2 * vx e2 + dot w e3 * vx e3 /\ vy w = dot w e1 * vy e1 + dot w e2 * vy e2 + dot w e3 * vy e3 /\ vz w = dot w e1 * vz e1 + dot w e2 * vz e2 + dot w e3 * vz e3.
Proof.
  destruct ON as (A1 & A2 & A3 & B1 & B2 & B3). set (a := vect (vx e1) (vy e1) (vz e1)). set (b := vect (vx e2) (vy e2) (vz e2)).
  assert (F : frame a b) by (split; [split; [exact A1|reflexivity]|split; [split; [exact A2|reflexivity]|exact B1]]).
  set (c := cross0 a b). assert (C3 : dot e3 a = 0) by (rewrite <- B2; unfold a; unb; ring).
  destruct (in_plane a b e3 F C3) as (X3 & Y3 & Z3). fold c in X3, Y3, Z3. assert (E0 : dot e3 b = 0) by (rewrite <- B3; unfold b; unb; ring). rewrite E0 in X3, Y3, Z3.
  pose proof (cross_frame a b F) as ([CC _] & CA & CB). fold c in CC, CA, CB. set (s := dot e3 c) in *.
  assert (S2 : s * s = 1). { transitivity (dot e3 e3); [|exact A3]. transitivity (s * s * dot c c); [rewrite CC; ring|]. clearbody s. unfold dot. rewrite X3, Y3, Z3. ring. }
  set (w' := vect (vx w - dot w e1 * vx e1) (vy w - dot w e1 * vy e1) (vz w - dot w e1 * vz e1)).
  assert (W0 : dot w' a = 0). { transitivity (dot w e1 - dot w e1 * dot e1 e1); [unfold w', a; unb; ring|rewrite A1; ring]. }
  destruct (in_plane a b w' F W0) as (X & Y & Z). fold c in X, Y, Z.
  assert (D2 : dot w' b = dot w e2). { transitivity (dot w e2 - dot w e1 * dot e1 e2); [unfold w', b; unb; ring|rewrite B1; ring]. }
  assert (D3 : dot w' c = s * dot w e3).
  { assert (Q : dot w' e3 = dot w e3) by (transitivity (dot w e3 - dot w e1 * dot e1 e3); [unfold w'; unb; ring|rewrite B2; ring]).
    assert (Q2 : dot w' e3 = s * dot w' c) by (clearbody s w' c; unfold dot; rewrite X3, Y3, Z3; ring). rewrite <- Q, Q2. transitivity (s * s * dot w' c); [rewrite S2; ring|ring]. }
  rewrite D2, D3 in X, Y, Z. assert (V : forall x y, y = s * x -> s * dot w e3 * x = dot w e3 * y) by (intros x y ->; ring).
  unfold w', b, vect in X, Y, Z. cbn [vx vy vz] in X, Y, Z. rewrite (V (vx c) (vx e3)) in X by (rewrite X3; clearbody s c; lra). rewrite (V (vy c) (vy e3)) in Y by (rewrite Y3; clearbody s c; lra). rewrite (V (vz c) (vz e3)) in Z by (rewrite Z3; clearbody s c; lra).
  repeat split; lra.
Qed.
Lemma sim_onto q : 0 < k -> vw q = 1 -> exists p, vw p = 1 /\ f p = q.
Proof.
  intros K W. destruct (expand (vect (vx q - vx t) (vy q - vy t) (vz q - vz t))) as (X & Y & Z). set (w := vect (vx q - vx t) (vy q - vy t) (vz q - vz t)) in *.
  exists (point (dot w e1 / k) (dot w e2 / k) (dot w e3 / k)). split; [reflexivity|]. rewrite FE. cbv zeta. unfold lin, vect, point. cbn [vx vy vz]. generalize dependent (dot w e1). intros d1. generalize (dot w e2). intros d2. generalize (dot w e3). intros d3 X Y Z.
  unfold w, vect in X, Y, Z. cbn [vx vy vz] in X, Y, Z. refine (vec_eta _ _ _ _ _ _ _ W).
  - transitivity (vx t + (d1 * vx e1 + d2 * vx e2 + d3 * vx e3)); [lra|field; lra].
  - transitivity (vy t + (d1 * vy e1 + d2 * vy e2 + d3 * vy e3)); [lra|field; lra].
  - transitivity (vz t + (d1 * vz e1 + d2 * vz e2 + d3 * vz e3)); [lra|field; lra].
Qed.
End Sim.

(** what the transformed surface is, once stored and read back *)
Definition resized (k : R) (f : vec -> vec) (s : asurf) : res asurf := reload (scale_radii k (transform_surface f s)).
Lemma mul_pos_iff k x y : 0 < k -> (k * x = k * y <-> x = y).
Proof. intros K. split; [intros H; nra|intros ->; reflexivity]. Qed.
Lemma mul_zero_iff k x : 0 < k -> (k * x = 0 <-> x = 0).
Proof. intros K. split; [intros H; destruct (Rmult_integral _ _ H); lra|intros ->; ring]. Qed.
Lemma rleb_scale k r : 0 < k -> Rleb (r * k) 0 = Rleb r 0.
Proof.
  intros K. destruct (Rleb r 0) eqn:E; [apply Rleb_true in E; apply Rleb_true; nra|apply Rleb_false in E; apply Rleb_false; nra].
Qed.
Lemma direct_lin k e1 e2 e3 t f v : orthonormal e1 e2 e3 ->
  (forall p, f p = let l := lin k e1 e2 e3 p in point (vx t + vx l) (vy t + vy l) (vz t + vz l)) -> unit_vec v -> epsilon < k ->
  direction (transform_vector f v) = Ok (lin 1 e1 e2 e3 v).
Proof. intros ON FE U K. destruct (sim_vec k e1 e2 e3 t f ON FE v U K) as [-> U']. apply direction_unit, U'. Qed.
Lemma resized_set k f s : similarity k f -> epsilon < k -> sound_surface s ->
  exists s', resized k f s = Ok s' /\ sound_surface s' /\ forall p, vw p = 1 -> (on_surface s' (f p) <-> on_surface s p).
Proof.
  intros (e1 & e2 & e3 & t & ON & FE) K. assert (KP : 0 < k) by (unfold epsilon in K; lra).
  pose proof (direct_lin k e1 e2 e3 t f) as DL. pose proof (lin1_dot k e1 e2 e3 t f ON FE) as LD. pose proof (sim_dist k e1 e2 e3 t f ON FE) as SD.
  pose proof (sim_point k e1 e2 e3 t f FE) as SP. pose proof (sim_vec k e1 e2 e3 t f ON FE) as SV. pose proof (sim_w k e1 e2 e3 t f FE) as SW.
  unfold resized. destruct s as [o n ua va ur vr|c r ur vr|o a ref r ur vr|q a ref h ur vr|c a ref R0 r ur vr| |]; cbn [sound_surface]; try contradiction; intros S; cbn [transform_surface scale_radii reload].
  - destruct S as (W & F & _). pose proof (proj1 F) as U. unfold plane_surface. rewrite (DL n ON FE U K). cbn [bind]. eexists. split; [reflexivity|]. split.
    + cbn [sound_surface]. split; [reflexivity|]. split; [apply reference_frame, (SV n U K)|reflexivity].
    + intros p WP. unfold on_surface. rewrite as_point_id by (rewrite SP; apply SW). rewrite SP, LD, mul_zero_iff, SW, WP by exact KP. tauto.
  - destruct S as (W & P). unfold sphere_surface. rewrite (proj2 (Rleb_false (r * k) 0)) by nra. eexists. split; [reflexivity|]. split; [cbn; split; [reflexivity|nra]|].
    intros p WP. unfold on_surface. rewrite as_point_id by (rewrite SP; apply SW). rewrite SP, SD, SW, WP by exact KP. rewrite (Rmult_comm r k), mul_pos_iff by exact KP. tauto.
  - destruct S as (W & F & P). pose proof (proj1 F) as U. unfold cylinder_surface. rewrite (DL a ON FE U K). cbn [bind]. rewrite (proj2 (Rleb_false (r * k) 0)) by nra. eexists. split; [reflexivity|]. split.
    { cbn. split; [reflexivity|]. split; [apply reference_frame, (SV a U K)|nra]. }
    intros p WP. unfold on_surface. rewrite as_point_id by (rewrite SP; apply SW). rewrite SP, SW, WP.
    assert (FT : forall h, add (f o) (scale3 (lin 1 e1 e2 e3 a) (k * h)) = f (add o (scale3 a h))).
    { intros h. rewrite !FE. cbv zeta. unfold lin, vect, add, scale3, point. cbn [vx vy vz]. f_equal; ring. }
    split; intros (_ & h & H1 & H2); (split; [reflexivity|]).
    + exists (h / k). cbv zeta in *. replace h with (k * (h / k)) in H1, H2 by (field; lra). rewrite FT in H1, H2. rewrite LD, mul_zero_iff in H1 by exact KP. rewrite SD, (Rmult_comm r k), mul_pos_iff in H2 by exact KP. auto.
    + exists (k * h). cbv zeta in *. rewrite FT. rewrite LD, mul_zero_iff by exact KP. rewrite SD, (Rmult_comm r k), mul_pos_iff by exact KP. auto.
  - destruct S as (W & F & P). pose proof (proj1 F) as U. unfold cone_surface. rewrite (DL a ON FE U K). cbn [bind]. rewrite (proj2 (Rleb_false h 0)), (proj2 (Rleb_false (PI / 2) h)) by lra. cbn [orb]. eexists. split; [reflexivity|]. split.
    { cbn. split; [reflexivity|]. split; [apply reference_frame, (SV a U K)|lra]. }
    intros p WP. unfold on_surface. rewrite as_point_id by (rewrite SP; apply SW). rewrite SP, SW, WP, LD, SD by exact KP. rewrite <- Rmult_assoc, (Rmult_comm (cos h) k), Rmult_assoc, mul_pos_iff by exact KP. tauto.
  - destruct S as (W & F & P). pose proof (proj1 F) as U. unfold torus_surface. rewrite (DL a ON FE U K). cbn [bind]. rewrite (proj2 (Rleb_false (R0 * k) 0)), (proj2 (Rleb_false (r * k) 0)), (proj2 (Rleb_false (R0 * k) (r * k))) by nra. cbn [orb]. eexists. split; [reflexivity|]. split.
    { cbn. split; [reflexivity|]. split; [apply reference_frame, (SV a U K)|split; nra]. }
    intros p WP. unfold on_surface. rewrite as_point_id by (rewrite SP; apply SW). rewrite SP, SW, WP.
    assert (CR : forall q, vw q = 1 -> (dot (sub (f p) (f q)) (cross (lin 1 e1 e2 e3 a) (sub (f q) (f c))) = 0 <-> dot (sub p q) (cross a (sub q c)) = 0)).
    { intros q _. (* the triple product is multiplied by k^2 det, det^2 = 1 *)
      set (det := dot e1 (cross e2 e3)). assert (D2 : det * det = 1).
      { destruct ON as (A1 & A2 & A3 & B1 & B2 & B3). transitivity (dot e1 e1 * (dot e2 e2 * dot e3 e3 - dot e2 e3 * dot e2 e3) - dot e1 e2 * (dot e1 e2 * dot e3 e3 - dot e2 e3 * dot e1 e3) + dot e1 e3 * (dot e1 e2 * dot e2 e3 - dot e2 e2 * dot e1 e3)); [unfold det; unb; ring|rewrite A1, A2, A3, B1, B2, B3; ring]. }
      assert (E : dot (sub (f p) (f q)) (cross (lin 1 e1 e2 e3 a) (sub (f q) (f c))) = k * (k * (det * dot (sub p q) (cross a (sub q c))))).
      { rewrite !FE. cbv zeta. unfold det, lin. unb. ring. }
      rewrite E, !mul_zero_iff by exact KP. split; [intros H; destruct (Rmult_integral _ _ H); [nra|assumption]|intros ->; ring]. }
    split.
    + intros (_ & q' & Q1 & Q2 & Q3 & Q4 & Q5). destruct (sim_onto k e1 e2 e3 t f ON FE q' KP Q1) as (q & WQ & <-). split; [reflexivity|]. exists q. rewrite SD, (Rmult_comm R0 k), mul_pos_iff in Q2 by exact KP. rewrite LD, mul_zero_iff in Q3 by exact KP.
      rewrite SD, (Rmult_comm r k), mul_pos_iff in Q4 by exact KP. apply (CR q WQ) in Q5. auto.
    + intros (_ & q & Q1 & Q2 & Q3 & Q4 & Q5). split; [reflexivity|]. exists (f q). rewrite SW. split; [reflexivity|]. rewrite SD, (Rmult_comm R0 k), mul_pos_iff by exact KP. split; [exact Q2|]. rewrite LD, mul_zero_iff by exact KP. split; [exact Q3|].
      rewrite SD, (Rmult_comm r k), mul_pos_iff by exact KP. split; [exact Q4|]. apply (CR q Q1), Q5.
Qed.
Lemma scale_radii_1 s : scale_radii 1 s = s.
Proof. destruct s; cbn [scale_radii]; rewrite ?Rmult_1_r; reflexivity. Qed.

(** ** in memory: translations of everything, rigid motions of planes and splines *)
Definition affine (f : vec -> vec) : Prop := exists e1 e2 e3 t, forall p, f p = let l := lin 1 e1 e2 e3 p in point (vx t + vx l) (vy t + vy l) (vz t + vz l).
Lemma bspline_affine cps uk vk p q w n_u n_v u v f : affine f -> grid_ok n_u n_v cps -> (0 < n_u)%nat -> (0 < n_v)%nat ->
  evaluate_bspline (map (map (transform_point f)) cps) uk vk p q w n_u n_v u v = f (evaluate_bspline cps uk vk p q w n_u n_v u v).
Proof.
  intros (e1 & e2 & e3 & t & FE) G NU NV. pose proof (sim_point 1 e1 e2 e3 t f FE) as SP. set (cps' := map (map (transform_point f)) cps).
  assert (AT : forall j i, (j < n_v)%nat -> (i < n_u)%nat -> at2 (point 0 0 0) cps' j i = f (at2 (point 0 0 0) cps j i)).
  { intros j i J I. unfold cps'. rewrite (at2_map _ _ (point 0 0 0) n_u n_v) by assumption. apply SP. }
  (* the accumulators *)
  set (rel := fun a b => vw b = vw a /\ vx b = vw a * vx t + vx (lin 1 e1 e2 e3 a) /\ vy b = vw a * vy t + vy (lin 1 e1 e2 e3 a) /\ vz b = vw a * vz t + vz (lin 1 e1 e2 e3 a)).
  assert (IN : forall nv j, (j < n_v)%nat -> forall is a b, (forall i, In i is -> (i < n_u)%nat) -> rel a b -> rel (inner cps w uk p u nv j is a) (inner cps' w uk p u nv j is b)).
  { intros nv j J is. unfold inner. induction is as [|i is IH]; intros a b L R; [exact R|]. cbn [fold_left]. apply IH; [intros x X; apply L; right; exact X|]. cbv zeta.
    destruct (Reqb (basis uk p i u) 0); [exact R|]. unfold term. cbv zeta. rewrite AT by (try exact J; apply L; left; reflexivity). rewrite FE. cbv zeta. generalize (at2 (point 0 0 0) cps j i). intros c. generalize (basis uk p i u * nv * at2 0 w j i). intros s.
    destruct R as (R1 & R2 & R3 & R4). unfold rel, lin, vect, point in *. cbn [vx vy vz vw] in *. rewrite R1, R2, R3, R4. repeat split; ring. }
  assert (OUT : forall js a b, (forall j, In j js -> (j < n_v)%nat) -> rel a b -> rel (outer cps w uk vk p q n_u u v js a) (outer cps' w uk vk p q n_u u v js b)).
  { intros js. unfold outer. induction js as [|j js IH]; intros a b L R; [exact R|]. cbn [fold_left]. apply IH; [intros x X; apply L; right; exact X|]. cbv zeta.
    destruct (Reqb (basis vk q j v) 0); [exact R|]. apply IN; [apply L; left; reflexivity|intros i I; apply in_seq in I; lia|exact R]. }
  unfold evaluate_bspline. cbv zeta. specialize (OUT (seq 0 n_v) (mkv 0 0 0 0) (mkv 0 0 0 0)).
  assert (R : rel (outer cps w uk vk p q n_u u v (seq 0 n_v) (mkv 0 0 0 0)) (outer cps' w uk vk p q n_u u v (seq 0 n_v) (mkv 0 0 0 0))).
  { apply OUT; [intros j J; apply in_seq in J; lia|]. unfold rel, lin, vect. cbn [vx vy vz vw]. repeat split; ring. }
  destruct R as (R1 & R2 & R3 & R4). generalize dependent (outer cps w uk vk p q n_u u v (seq 0 n_v) (mkv 0 0 0 0)). intros a. generalize (outer cps' w uk vk p q n_u u v (seq 0 n_v) (mkv 0 0 0 0)). intros b _ R1 R2 R3 R4. rewrite R1. destruct (Rltb (vw a) tiny) eqn:E.
  - rewrite AT by assumption. rewrite FE at 1. rewrite (FE (as_point _)). unfold as_point, lin, vect, point. cbn [vx vy vz]. reflexivity.
  - apply Rltb_false in E. rewrite R2, R3, R4, FE. cbv zeta. unfold lin, vect, point. cbn [vx vy vz]. f_equal; field; lra.
Qed.
Lemma plane_rigid o n ua va ur vr f u v : similarity 1 f -> sound_surface (Plane o n ua va ur vr) ->
  evaluate_surface (transform_surface f (Plane o n ua va ur vr)) u v = Ok (f (pt_at (Plane o n ua va ur vr) u v)).
Proof.
  intros (e1 & e2 & e3 & t & ON & FE) (W & F & ->). assert (K : epsilon < 1) by (unfold epsilon; lra). pose proof (cross_frame n ua F) as (C & _). destruct F as (U1 & U2 & _).
  cbn [transform_surface evaluate_surface]. rewrite (sim_point 1 e1 e2 e3 t f FE). destruct (sim_vec 1 e1 e2 e3 t f ON FE ua U2 K) as [-> _]. destruct (sim_vec 1 e1 e2 e3 t f ON FE (cross0 n ua) C K) as [-> _].
  unfold pt_at. cbn [evaluate_surface]. generalize (cross0 n ua). intros e. rewrite !FE. cbv zeta. unfold lin, vect, point. cbn [vx vy vz]. f_equal. f_equal; ring.
Qed.
(** translations *)
Definition shift (d p : vec) : vec := point (vx p + vx d) (vy p + vy d) (vz p + vz d).
Lemma shift_sim d : similarity 1 (shift d).
Proof.
  exists (vect 1 0 0), (vect 0 1 0), (vect 0 0 1), d. split; [unfold orthonormal; unb; repeat split; ring|]. intros p. unfold shift, lin, vect, point. cbn [vx vy vz]. f_equal; ring.
Qed.
Lemma shift_point d p : transform_point (shift d) p = shift d p. Proof. reflexivity. Qed.
Lemma shift_vec d v : unit_vec v -> transform_vector (shift d) v = v.
Proof.
  intros U. unfold transform_vector. cbv zeta. assert (R : vect (vx (shift d (as_point v)) - vx (shift d (point 0 0 0))) (vy (shift d (as_point v)) - vy (shift d (point 0 0 0))) (vz (shift d (as_point v)) - vz (shift d (point 0 0 0))) = v).
  { destruct v as [x y z w]. destruct U as [_ W]. cbn [vw] in W. subst w. unfold shift, vect. unb. f_equal; ring. }
  rewrite R, (unit_mag v U). rewrite (proj2 (Rltb_true epsilon 1)) by (unfold epsilon; lra). apply over_1, U.
Qed.
Lemma shift_eval d s u v : sound_surface s -> evaluate_surface (transform_surface (shift d) s) u v = Ok (shift d (pt_at s u v)) /\ surface_normal (transform_surface (shift d) s) u v = surface_normal s u v.
Proof.
  destruct s as [o n ua va ur vr|c r ur vr|o a ref r ur vr|q a ref h ur vr|c a ref R0 r ur vr| |]; cbn [sound_surface]; try contradiction; intros S.
  - split; [apply (plane_rigid o n ua va ur vr); [apply shift_sim|exact S]|]. destruct S as (_ & F & _). cbn [transform_surface surface_normal]. rewrite shift_vec by apply F. reflexivity.
  - split; [|reflexivity]. cbn [transform_surface]. unfold pt_at. cbn [evaluate_surface]. unfold transform_point, shift, as_point, point. cbn [vx vy vz]. f_equal. f_equal; ring.
  - destruct S as (_ & F & _). cbn [transform_surface]. rewrite shift_vec by apply F. split; [|reflexivity]. unfold pt_at. cbn [evaluate_surface]. unfold transform_point, shift, as_point, point. cbn [vx vy vz]. f_equal. f_equal; ring.
  - destruct S as (_ & F & _). cbn [transform_surface]. rewrite shift_vec by apply F. split; [|reflexivity]. unfold pt_at. cbn [evaluate_surface]. unfold transform_point, shift, as_point, point. cbn [vx vy vz]. f_equal. f_equal; ring.
  - destruct S as (_ & F & _). cbn [transform_surface]. rewrite shift_vec by apply F. split; [|reflexivity]. unfold pt_at. cbn [evaluate_surface]. unfold transform_point, shift, as_point, point. cbn [vx vy vz]. f_equal. f_equal; ring.
Qed.
