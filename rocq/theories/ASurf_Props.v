(** Property theorems about yapcad.analytic_surfaces and about what
    yapcad.native_brep does to surfaces when solids are moved, scaled, stored and
    read back.  Reals stand for floats. *)
From Coq Require Import Reals List Bool ZArith Lra Lia Psatz.
From Verif Require Import Xform_Model Xform_Proofs Fig_Model Isect_Proofs3 Isect_Proofs4 ASurf_Model ASurf_Spec
  ASurf_Proofs ASurf_Proofs2 ASurf_Proofs3 ASurf_Proofs4 ASurf_Proofs5.
Import ListNotations.
Open Scope R_scope.

(** ** C297 the constructors and the points *)
Theorem c297_plane : forall o n ur vr,
  (plane_surface o n ur vr = ValueError <-> mag n < epsilon) /\
  (epsilon <= mag n -> exists ua va, plane_surface o n ur vr = Ok (Plane (as_point o) (over n (mag n)) ua va ur vr) /\
     frame (over n (mag n)) ua /\ frame (over n (mag n)) va /\ dot ua va = 0).
Proof.
  intros o n ur vr. unfold plane_surface. split.
  - rewrite <- direction_err. destruct (direction n); cbn [bind]; split; congruence.
  - intros M. assert (D : direction n = Ok (over n (mag n))) by (unfold direction; rewrite (proj2 (Rltb_false _ _)) by exact M; reflexivity).
    pose proof (direction_ok _ _ D) as (U & _). rewrite D. cbn [bind]. do 2 eexists. split; [reflexivity|]. pose proof (reference_frame _ U) as F. pose proof (cross_frame _ _ F) as (C1 & C2 & C3).
    split; [exact F|]. split; [split; [exact U|split; [exact C1|exact C2]]|exact C3].
Qed.
Print Assumptions c297_plane.
Theorem c297_sphere : forall c r ur vr,
  (sphere_surface c r ur vr = ValueError <-> r <= 0) /\ (0 < r -> sphere_surface c r ur vr = Ok (Sphere (as_point c) r ur vr)).
Proof.
  intros c r ur vr. unfold sphere_surface. destruct (Rleb r 0) eqn:E; [apply Rleb_true in E|apply Rleb_false in E]; (split; [split|]); (congruence || lra || reflexivity || discriminate).
Qed.
Print Assumptions c297_sphere.
Theorem c297_cylinder : forall o a r ur vr,
  (cylinder_surface o a r ur vr = ValueError <-> mag a < epsilon \/ r <= 0) /\
  (epsilon <= mag a -> 0 < r -> exists ref, cylinder_surface o a r ur vr = Ok (Cylinder (as_point o) (over a (mag a)) ref r ur vr) /\ frame (over a (mag a)) ref).
Proof.
  intros o a r ur vr. unfold cylinder_surface, direction. destruct (Rltb (mag a) epsilon) eqn:E; [apply Rltb_true in E|apply Rltb_false in E]; cbn [bind].
  - split; [tauto|lra].
  - assert (U : unit_vec (over a (mag a))) by (apply over_unit; unfold epsilon in E; lra).
    destruct (Rleb r 0) eqn:F; [apply Rleb_true in F|apply Rleb_false in F]; (split; [split|]); try (discriminate || lra || (intros [?|?]; lra) || tauto).
    intros _ _. eexists. split; [reflexivity|apply reference_frame, U].
Qed.
Print Assumptions c297_cylinder.
Theorem c297_cone : forall p a h ur vr,
  (cone_surface p a h ur vr = ValueError <-> mag a < epsilon \/ h <= 0 \/ PI / 2 <= h) /\
  (epsilon <= mag a -> 0 < h < PI / 2 -> exists ref, cone_surface p a h ur vr = Ok (Cone (as_point p) (over a (mag a)) ref h ur vr) /\ frame (over a (mag a)) ref).
Proof.
  intros p a h ur vr. unfold cone_surface, direction. destruct (Rltb (mag a) epsilon) eqn:E; [apply Rltb_true in E|apply Rltb_false in E]; cbn [bind].
  - split; [tauto|lra].
  - assert (U : unit_vec (over a (mag a))) by (apply over_unit; unfold epsilon in E; lra).
    destruct (Rleb h 0) eqn:F; [apply Rleb_true in F|apply Rleb_false in F; destruct (Rleb (PI / 2) h) eqn:G; [apply Rleb_true in G|apply Rleb_false in G]]; cbn [orb]; (split; [split|]); try (discriminate || lra || (intros [?|[?|?]]; lra) || tauto).
    intros _ _. eexists. split; [reflexivity|apply reference_frame, U].
Qed.
Print Assumptions c297_cone.
Theorem c297_torus : forall c a R0 r ur vr,
  (torus_surface c a R0 r ur vr = ValueError <-> mag a < epsilon \/ r <= 0 \/ R0 <= r) /\
  (epsilon <= mag a -> 0 < r < R0 -> exists ref, torus_surface c a R0 r ur vr = Ok (Torus (as_point c) (over a (mag a)) ref R0 r ur vr) /\ frame (over a (mag a)) ref).
Proof.
  intros c a R0 r ur vr. unfold torus_surface, direction. destruct (Rltb (mag a) epsilon) eqn:E; [apply Rltb_true in E|apply Rltb_false in E]; cbn [bind].
  - split; [tauto|lra].
  - assert (U : unit_vec (over a (mag a))) by (apply over_unit; unfold epsilon in E; lra).
    destruct (Rleb R0 0) eqn:F; [apply Rleb_true in F|apply Rleb_false in F]; (destruct (Rleb r 0) eqn:G; [apply Rleb_true in G|apply Rleb_false in G]); cbn [orb].
    + split; [split; [lra|tauto]|lra].
    + split; [split; [lra|tauto]|lra].
    + split; [split; [lra|tauto]|lra].
    + destruct (Rleb R0 r) eqn:K; [apply Rleb_true in K|apply Rleb_false in K].
      * split; [split; [lra|tauto]|lra].
      * split; [split; [discriminate|intros [?|[?|?]]; lra]|]. intros _ _. eexists. split; [reflexivity|apply reference_frame, U].
Qed.
Print Assumptions c297_torus.
(** Every evaluated point is on the surface, and every point of the surface is evaluated somewhere. *)
Theorem c297_on : forall s u v, constructed s -> in_domain s v -> exists p, evaluate_surface s u v = Ok p /\ on_surface s p.
Proof. intros s u v C D. exists (pt_at s u v). exact (eval_on s u v (constructed_sound s C) D). Qed.
Print Assumptions c297_on.
Theorem c297_onto : forall s p, constructed s -> on_surface s p -> exists u v, in_domain s v /\ evaluate_surface s u v = Ok p.
Proof. intros s p C. exact (on_eval s p (constructed_sound s C)). Qed.
Print Assumptions c297_onto.
Definition xv : vec := vect 1 0 0.
Definition yv : vec := vect 0 1 0.
Definition zv : vec := vect 0 0 1.
Definition O : vec := point 0 0 0.
Lemma mag_z : mag zv = 1.
Proof. apply unit_mag. split; [unfold zv; unb; ring|reflexivity]. Qed.
Lemma over_z : over zv 1 = zv. Proof. apply over_1. reflexivity. Qed.
Lemma direction_z : direction zv = Ok zv.
Proof. apply direction_unit. split; [unfold zv; unb; ring|reflexivity]. Qed.
Lemma reference_z : reference zv = yv.
Proof.
  unfold reference. cbv zeta. unfold zv, vect. cbn [vx vy vz]. rewrite (proj2 (Rltb_false (Rabs 1) (9 / 10))) by (rewrite Rabs_R1; lra).
  assert (M : mag (mkv 0 1 (- 0) 0) = 1) by (unfold mag; cbn [vx vy vz]; replace (0 * 0 + 1 * 1 + - 0 * - 0) with 1 by ring; apply sqrt_1). rewrite M. unfold over, yv, vect. cbn [vx vy vz]. f_equal; field.
Qed.
Definition pipe ur vr : asurf := Cylinder O zv yv 1 ur vr.
Lemma pipe_made ur vr : cylinder_surface O zv 1 ur vr = Ok (pipe ur vr).
Proof. unfold cylinder_surface. rewrite direction_z. cbn [bind]. rewrite (proj2 (Rleb_false 1 0)) by lra. rewrite reference_z. reflexivity. Qed.
Lemma pipe_constructed ur vr : constructed (pipe ur vr).
Proof. do 2 right. left. exists O, zv, 1, ur, vr. apply pipe_made. Qed.
Example c297_nonvacuous : constructed (pipe (0, 1) (0, 1)) /\ exists p, evaluate_surface (pipe (0, 1) (0, 1)) 0 2 = Ok p /\ p = point 0 1 2.
Proof.
  split; [apply pipe_constructed|]. eexists. split; [reflexivity|]. unfold around, pipe, O, zv, yv, cross0, vect, point. cbv zeta. cbn [vx vy vz]. rewrite cos_0, sin_0. f_equal; ring.
Qed.

(** ** C298 normals *)
(** The normal is a unit vector, perpendicular to both parameter directions. *)
Theorem c298_perpendicular : forall s u v, constructed s -> exists n tu tv,
  surface_normal s u v = Ok n /\ tangents s u v tu tv /\ unit_vec n /\ dot n tu = 0 /\ dot n tv = 0.
Proof.
  intros s u v C. apply constructed_sound in C. destruct (normal_facts s u v C) as (n & N & U & A & B & _). exists n, (t_u s u v), (t_v s u v).
  split; [exact N|]. split; [apply tang, C|]. auto.
Qed.
Print Assumptions c298_perpendicular.
(** On planes, cylinders, tori, and spheres off the poles it has the direction of
    tangent_u x tangent_v, so it agrees with the triangles of the tessellation. *)
Definition not_cone (s : asurf) (v : R) : Prop :=
  match s with Cone _ _ _ _ _ _ => False | Sphere _ _ _ _ => 0 < cos v | _ => True end.
Theorem c298_right_handed : forall s u v, constructed s -> not_cone s v -> exists n tu tv k,
  surface_normal s u v = Ok n /\ tangents s u v tu tv /\ 0 < k /\ cross0 tu tv = vect (k * vx n) (k * vy n) (k * vz n).
Proof.
  intros s u v C NC. apply constructed_sound in C. destruct (normal_facts s u v C) as (n & N & _ & _ & _ & X). exists n, (t_u s u v), (t_v s u v), (jac s u v).
  split; [exact N|]. split; [apply tang, C|]. split; [|exact X].
  destruct s as [o n' ua va ur vr|c r ur vr|o a ref r ur vr|q a ref h ur vr|c a ref R0 r ur vr| |]; cbn [jac not_cone sound_surface] in *; try contradiction; try lra.
  - apply Rmult_lt_0_compat; [nra|exact NC].
  - destruct C as (_ & _ & P). pose proof (COS_bound v). apply Rmult_lt_0_compat; [lra|]. assert (- r <= r * cos v) by nra. lra.
Qed.
Print Assumptions c298_right_handed.
(** It points away from the centre of a sphere and from the axis of a cylinder. *)
Theorem c298_sphere_outward : forall c r ur vr s u v, sphere_surface c r ur vr = Ok s -> exists n p,
  surface_normal s u v = Ok n /\ evaluate_surface s u v = Ok p /\ p = add c (scale3 n r).
Proof.
  intros c r ur vr s u v E. unfold sphere_surface in E. destruct (Rleb r 0); [discriminate|]. injection E as <-. do 2 eexists. split; [reflexivity|]. split; [reflexivity|].
  unfold add, scale3, vect, as_point, point. cbn [vx vy vz]. f_equal; ring.
Qed.
Print Assumptions c298_sphere_outward.
Theorem c298_cylinder_outward : forall o a r ur vr s u v, cylinder_surface o a r ur vr = Ok s -> exists n p,
  surface_normal s u v = Ok n /\ evaluate_surface s u v = Ok p /\ p = add (add o (scale3 (over a (mag a)) v)) (scale3 n r).
Proof.
  intros o a r ur vr s u v E. unfold cylinder_surface, direction in E. destruct (Rltb (mag a) epsilon); [discriminate|]. cbn [bind] in E. destruct (Rleb r 0); [discriminate|]. injection E as <-. do 2 eexists. split; [reflexivity|]. split; [reflexivity|].
  set (b := over a (mag a)). set (d := around b (reference b) u). unfold add, scale3, as_point, point. cbn [vx vy vz]. f_equal; ring.
Qed.
Print Assumptions c298_cylinder_outward.
Example c298_nonvacuous : constructed (pipe (0, 1) (0, 1)) /\ not_cone (pipe (0, 1) (0, 1)) 0.
Proof. split; [apply pipe_constructed|exact I]. Qed.

(** ** C299 (refuted) the cone's normal points inward *)
(** The documented outward normal points towards the axis everywhere, and against
    tangent_u x tangent_v. *)
Theorem c299_inward_refuted : forall q a h ur vr s u v, cone_surface q a h ur vr = Ok s -> 0 < v -> exists n p tu tv,
  surface_normal s u v = Ok n /\ evaluate_surface s u v = Ok p /\ tangents s u v tu tv /\
  (let foot := add q (scale3 (over a (mag a)) (v * cos h)) in dot (sub p foot) (over a (mag a)) = 0 /\ dot n (sub p foot) < 0) /\
  (exists k, k < 0 /\ cross0 tu tv = vect (k * vx n) (k * vy n) (k * vz n)).
Proof.
  intros q a h ur vr s u v E V. assert (C : constructed s) by (do 3 right; left; eauto 7). apply constructed_sound in C.
  destruct (normal_facts s u v C) as (n & N & _ & _ & _ & X). exists n, (pt_at s u v), (t_u s u v), (t_v s u v). split; [exact N|]. split; [apply (eval_on s u v C)|split; [apply tang, C|]].
  { unfold cone_surface, direction in E. destruct (Rltb (mag a) epsilon); [discriminate|]. cbn [bind] in E. destruct (Rleb h 0 || Rleb (PI / 2) h); [discriminate|]. injection E as <-. cbn. lra. }
  unfold cone_surface, direction in E. destruct (Rltb (mag a) epsilon); [discriminate|]. cbn [bind] in E. destruct (Rleb h 0 || Rleb (PI / 2) h); [discriminate|]. injection E as <-.
  cbn [sound_surface] in C. destruct C as (_ & F & H). assert (S1 : 0 < sin h) by (apply sin_gt_0; pose proof PI_RGT_0; lra). assert (C1 : 0 < cos h) by (apply cos_gt_0; lra).
  split; [|exists (- (v * sin h)); split; [nra|exact X]].
  cbn [surface_normal] in N. apply ok_inj in N. subst n. unfold pt_at. cbn [evaluate_surface]. cbv zeta. pose proof (around_frame _ _ u F) as ([A _] & [U _] & Z). set (d := around (over a (mag a)) (reference (over a (mag a))) u) in *. clearbody d. set (b := over a (mag a)) in *. clearbody b. clear X F.
  split.
  - transitivity (v * (cos h * dot b b + sin h * dot b d) - v * cos h * dot b b); [unb; ring|rewrite A, Z; ring].
  - apply (Rle_lt_trans _ (v * sin h * (sin h * dot b d - cos h * dot d d))); [right; unb; ring|]. rewrite Z, U. assert (0 < v * sin h * cos h) by (repeat apply Rmult_lt_0_compat; assumption). lra.
Qed.
Print Assumptions c299_inward_refuted.
Example c299_nonvacuous : exists s, cone_surface O zv (PI / 4) (0, 1) (0, 1) = Ok s.
Proof.
  destruct (c297_cone O zv (PI / 4) (0, 1) (0, 1)) as [_ K]. pose proof PI_RGT_0. destruct K as (ref & E & _); [rewrite mag_z; unfold epsilon; lra|lra|eauto].
Qed.

(** ** C300 tessellation *)
(** Vertex j (nu+1) + i is the surface at the i-th of nu+1 equally spaced u and the
    j-th of nv+1 equally spaced v; so is the normal. *)
Theorem c300_vertices : forall s nu nv m, tessellate s nu nv = Ok m ->
  length (m_verts m) = ((nu + 1) * (nv + 1))%nat /\ length (m_norms m) = ((nu + 1) * (nv + 1))%nat /\
  forall i j, (i <= nu)%nat -> (j <= nv)%nat -> exists p n,
    let (ur, vr) := ranges s in
    let u := fst ur + (snd ur - fst ur) * INR i / INR nu in
    let v := fst vr + (snd vr - fst vr) * INR j / INR nv in
    evaluate_surface s u v = Ok p /\ surface_normal s u v = Ok n /\
    nth_error (m_verts m) (j * (nu + 1) + i) = Some p /\ nth_error (m_norms m) (j * (nu + 1) + i) = Some n.
Proof.
  intros s nu nv m E. unfold tessellate in E. destruct nu as [|nu]; [discriminate|]. destruct nv as [|nv]; [discriminate|]. set (N := Datatypes.S nu) in *. set (M := Datatypes.S nv) in *.
  destruct (ranges s) as [ur vr] eqn:RR. cbv zeta in E. set (fv := fun ij => evaluate_surface s (grid_at ur N (fst ij)) (grid_at vr M (snd ij))) in E. set (fn := fun ij => surface_normal s (grid_at ur N (fst ij)) (grid_at vr M (snd ij))) in E.
  destruct (all (map fv (grid N M))) as [vs| | | | |] eqn:EV; try discriminate. cbn [bind] in E. destruct (all (map fn (grid N M))) as [ns| | | | |] eqn:EN; try discriminate. cbn [bind] in E. injection E as <-. cbn [m_verts m_norms].
  apply all_nth in EV as [L1 K1]. apply all_nth in EN as [L2 K2]. rewrite map_length, grid_len in L1, L2. split; [exact L1|]. split; [exact L2|]. intros i j I J.
  pose proof (grid_at_nth N M i j I J) as G. destruct (K1 (j * (N + 1) + i)%nat (fv (i, j))) as (p & P1 & P2); [rewrite nth_error_map, G; reflexivity|].
  destruct (K2 (j * (N + 1) + i)%nat (fn (i, j))) as (n & N1 & N2); [rewrite nth_error_map, G; reflexivity|]. exists p, n. auto.
Qed.
Print Assumptions c300_vertices.
(** 2 nu nv triangles over existing vertices; no directed edge occurs twice; the
    edges that do not occur in both directions are those of the reported boundary,
    in the order in which it is listed. *)
Theorem c300_triangles : forall s nu nv m, tessellate s nu nv = Ok m ->
  length (m_tris m) = (2 * nu * nv)%nat /\
  (forall a b c, In (a, b, c) (m_tris m) -> (a < length (m_verts m) /\ b < length (m_verts m) /\ c < length (m_verts m))%nat) /\
  NoDup (flat_map sides (m_tris m)) /\
  (forall a b, In (a, b) (round (m_rim m)) <-> In (a, b) (flat_map sides (m_tris m)) /\ ~ In (b, a) (flat_map sides (m_tris m))).
Proof.
  intros s nu nv m E. pose proof (c300_vertices s nu nv m E) as [L _]. rewrite L. unfold tessellate in E. destruct nu as [|nu]; [discriminate|]. destruct nv as [|nv]; [discriminate|].
  destruct (ranges s) as [ur vr]. cbv zeta in E. destruct (all _) as [vs| | | | |] in E; try discriminate. cbn [bind] in E. destruct (all _) as [ns| | | | |] in E; try discriminate. cbn [bind] in E. injection E as <-. cbn [m_tris m_rim m_verts].
  split; [apply tiles_len|]. split; [apply tiles_in|]. split; [apply sides_nodup|]. intros a b. apply rim_iff; lia.
Qed.
Print Assumptions c300_triangles.
Theorem c300_succeeds : forall s nu nv, constructed s ->
  ((0 < nu)%nat -> (0 < nv)%nat -> exists m, tessellate s nu nv = Ok m) /\ (nu = 0%nat \/ nv = 0%nat -> tessellate s nu nv = ZeroDivisionError).
Proof.
  intros s nu nv C. apply constructed_sound in C. split.
  - intros NU NV. unfold tessellate. destruct nu as [|nu]; [lia|]. destruct nv as [|nv]; [lia|]. destruct (ranges s) as [ur vr]. cbv zeta.
    match goal with |- context [bind (all ?x) (fun vs => bind (all ?y) _)] => destruct (all_ok x) as (vs & ->); [|cbn [bind]; destruct (all_ok y) as (ns & ->); [|cbn [bind]; eauto]] end.
    + intros x X. apply in_map_iff in X as ([i j] & <- & _). destruct s; cbn [sound_surface] in C; try contradiction; cbn [evaluate_surface]; eauto.
    + intros x X. apply in_map_iff in X as ([i j] & <- & _). destruct s; cbn [sound_surface] in C; try contradiction; cbn [surface_normal]; eauto.
  - intros [-> | ->]; [reflexivity|destruct nu; reflexivity].
Qed.
Print Assumptions c300_succeeds.
Example c300_nonvacuous : exists m, tessellate (pipe (0, 2 * PI) (0, 1)) 8 2 = Ok m /\ length (m_tris m) = 32%nat.
Proof.
  destruct (c300_succeeds (pipe (0, 2 * PI) (0, 1)) 8 2 (pipe_constructed _ _)) as [K _]. destruct K as (m & E); [lia|lia|]. exists m. split; [exact E|]. apply (c300_triangles _ _ _ _ E).
Qed.

(** ** C301 spline surfaces *)
(** Every point is in every half-space that contains all control points, i.e. in
    their convex hull: for ordered knots and positive weights. *)
Theorem c301_hull : forall cps uk vk p q w ur vr s u v d c, bspline_surface cps uk vk p q w ur vr = Ok s -> sorted uk -> sorted vk ->
  (match w with Some w => positive w | None => True end) -> all_points cps (fun x => dot x d <= c) ->
  exists x, evaluate_surface s u v = Ok x /\ vw x = 1 /\ dot x d <= c.
Proof.
  intros cps uk vk p q w ur vr s u v d c E SU SV PW AC. destruct (bspline_data _ _ _ _ _ _ _ _ _ E) as (ws & n_u & n_v & u_r & v_r & -> & NU & NV & GC & GW & LU & LV & _ & PS).
  eexists. split; [reflexivity|]. split; [unfold evaluate_bspline; cbv zeta; destruct (Rltb _ _); reflexivity|].
  apply hull; try assumption; try lia; [apply grid_map, GC|destruct w as [w|]; auto|].
  apply Forall_forall. intros r R. apply in_map_iff in R as (r' & <- & R). unfold all_points in AC. rewrite Forall_forall in AC. specialize (AC r' R). rewrite Forall_forall in AC. apply Forall_forall. intros x X. apply in_map_iff in X as (y & <- & Y). exact (AC y Y).
Qed.
Print Assumptions c301_hull.
(** With clamped knots the surface starts at the first control point. *)
Theorem c301_start : forall cps uk vk p q w ur vr s, bspline_surface cps uk vk p q w ur vr = Ok s -> clamped_start uk p -> clamped_start vk q ->
  (match w with Some w => 1 / 1000000000000 <= at2 0 w 0 0 | None => True end) ->
  evaluate_surface s (nth 0 uk 0) (nth 0 vk 0) = Ok (as_point (at2 (point 0 0 0) cps 0 0)).
Proof.
  intros cps uk vk p q w ur vr s E CU CV W. destruct (bspline_data _ _ _ _ _ _ _ _ _ E) as (ws & n_u & n_v & u_r & v_r & -> & NU & NV & GC & GW & LU & LV & WS & _).
  cbn [evaluate_surface]. f_equal. rewrite eval_start; try assumption; try lia.
  - rewrite (at2_map as_point _ (point 0 0 0) n_u n_v) by (assumption || lia). reflexivity.
  - destruct w as [w|]; rewrite WS by lia; [exact W|lra].
Qed.
Print Assumptions c301_start.
(** Wrong shapes and knot counts are rejected. *)
Theorem c301_rejects : forall cps uk vk p q w ur vr,
  (length cps < 2)%nat \/ (length (hd [] cps) < 2)%nat \/ ~ Forall (fun r => length r = length (hd [] cps)) cps \/
  length uk <> (length (hd [] cps) + p + 1)%nat \/ length vk <> (length cps + q + 1)%nat ->
  bspline_surface cps uk vk p q w ur vr = ValueError.
Proof.
  intros cps uk vk p q w ur vr H. unfold bspline_surface. cbv zeta. destruct (Nat.ltb (length cps) 2 || Nat.ltb (length (hd [] cps)) 2 || negb (rect (length (hd [] cps)) cps)) eqn:E1; [reflexivity|].
  apply orb_false_elim in E1 as [E1 E2]. apply orb_false_elim in E1 as [E1 E3]. apply Nat.ltb_ge in E1, E3. apply negb_false_iff, rect_ok in E2.
  destruct (Nat.eqb (length uk) (length (hd [] cps) + p + 1)) eqn:E4; [cbn [negb]|reflexivity]. apply Nat.eqb_eq in E4.
  destruct (Nat.eqb (length vk) (length cps + q + 1)) eqn:E5; [cbn [negb]|reflexivity]. apply Nat.eqb_eq in E5. exfalso. destruct H as [H|[H|[H|[H|H]]]]; (lia || contradiction).
Qed.
Print Assumptions c301_rejects.
(** a bilinear patch *)
Definition corners : list (list vec) := [[point 0 0 0; point 1 0 0]; [point 0 1 0; point 1 1 3]].
Definition ramp : list R := [0; 0; 1; 1].
Definition patch : asurf := BSpline corners ramp ramp 1 1 [[1; 1]; [1; 1]] 2 2 (0, 1) (0, 1).
Lemma patch_made : bspline_surface corners ramp ramp 1 1 None None None = Ok patch.
Proof. reflexivity. Qed.
Lemma ramp_sorted : sorted ramp.
Proof. intros i j I J. unfold ramp in *. cbn [length] in J. destruct i as [|[|[|[|i]]]]; destruct j as [|[|[|[|j]]]]; cbn [nth]; try lia; lra. Qed.
Lemma ramp_start : clamped_start ramp 1.
Proof. unfold ramp. split; [cbn; lia|]. split; intros i I; cbn [length] in I; destruct i as [|[|[|[|i]]]]; cbn [nth]; try lia; lra. Qed.
Lemma ramp_end : clamped_end ramp 1 1.
Proof. unfold ramp. split; [cbn; lia|]. cbn [length Nat.sub]. split; intros i I; destruct i as [|[|[|[|i]]]]; cbn [nth]; try lia; lra. Qed.
Example c301_nonvacuous : bspline_surface corners ramp ramp 1 1 None None None = Ok patch /\ sorted ramp /\ clamped_start ramp 1 /\
  all_points corners (fun x => dot x zv <= 3).
Proof.
  split; [apply patch_made|]. split; [apply ramp_sorted|]. split; [apply ramp_start|]. unfold corners, all_points. repeat constructor; unfold dot, zv, vect, point; cbn [vx vy vz]; lra.
Qed.

(** ** C302 (refuted) the far edges of a clamped surface *)
(** At the last parameter of a clamped knot vector of degree at least one the
    surface jumps back to the first control point: all of the far edge is that one
    point, and the surface does not end at the last control point. *)
Theorem c302_edge_refuted : forall cps uk vk p q w ur vr s b v, bspline_surface cps uk vk p q w ur vr = Ok s -> (1 <= p)%nat -> clamped_end uk p b ->
  evaluate_surface s b v = Ok (as_point (at2 (point 0 0 0) cps 0 0)).
Proof.
  intros cps uk vk p q w ur vr s b v E P C. destruct (bspline_data _ _ _ _ _ _ _ _ _ E) as (ws & n_u & n_v & u_r & v_r & -> & NU & NV & GC & GW & LU & LV & _).
  cbn [evaluate_surface]. f_equal. rewrite eval_end by assumption. rewrite (at2_map as_point _ (point 0 0 0) n_u n_v) by (assumption || lia). reflexivity.
Qed.
Print Assumptions c302_edge_refuted.
Theorem c302_edge_v_refuted : forall cps uk vk p q w ur vr s b u, bspline_surface cps uk vk p q w ur vr = Ok s -> (1 <= q)%nat -> clamped_end vk q b ->
  evaluate_surface s u b = Ok (as_point (at2 (point 0 0 0) cps 0 0)).
Proof.
  intros cps uk vk p q w ur vr s b v E P C. destruct (bspline_data _ _ _ _ _ _ _ _ _ E) as (ws & n_u & n_v & u_r & v_r & -> & NU & NV & GC & GW & LU & LV & _).
  cbn [evaluate_surface]. f_equal. rewrite eval_end_v by assumption. rewrite (at2_map as_point _ (point 0 0 0) n_u n_v) by (assumption || lia). reflexivity.
Qed.
Print Assumptions c302_edge_v_refuted.
(** A bilinear patch ends, at (1,1), at its first corner (0,0,0) and not at its last
    (1,1,3); tessellated, its last vertex is that of its first. *)
Theorem c302_corner_refuted : evaluate_surface patch 1 1 = Ok (point 0 0 0) /\ at2 O corners 1 1 = point 1 1 3 /\ ranges patch = ((0, 1), (0, 1)).
Proof. split; [exact (c302_edge_refuted _ _ _ _ _ _ _ _ _ 1 1 patch_made (le_n 1) ramp_end)|]. split; reflexivity. Qed.
Print Assumptions c302_corner_refuted.

(** ** C303 moving, turning, mirroring and scaling *)
(** Translation: every point moves, every normal stays. *)
Theorem c303_translate : forall s d u v, constructed s -> exists p,
  evaluate_surface s u v = Ok p /\
  evaluate_surface (transform_surface (fun x => point (vx x + vx d) (vy x + vy d) (vz x + vz d)) s) u v = Ok (point (vx p + vx d) (vy p + vy d) (vz p + vz d)) /\
  surface_normal (transform_surface (fun x => point (vx x + vx d) (vy x + vy d) (vz x + vz d)) s) u v = surface_normal s u v.
Proof.
  intros s d u v C. apply constructed_sound in C. exists (pt_at s u v). split; [|exact (shift_eval d s u v C)].
  unfold pt_at. destruct s; cbn [sound_surface] in C; try contradiction; reflexivity.
Qed.
Print Assumptions c303_translate.
(** A solid's surfaces after a rotation, mirroring or uniform scaling (factor above
    epsilon), stored and read back: still sound, and the points of the new surface
    are exactly the images of the points of the old one. *)
Theorem c303_similarity : forall s k f, constructed s -> similarity k f -> epsilon < k ->
  exists s', reload (scale_radii k (transform_surface f s)) = Ok s' /\ sound_surface s' /\ forall p, vw p = 1 -> (on_surface s' (f p) <-> on_surface s p).
Proof. intros s k f C F K. exact (resized_set k f s F K (constructed_sound s C)). Qed.
Print Assumptions c303_similarity.
Theorem c303_rigid : forall s f, constructed s -> similarity 1 f ->
  exists s', reload (transform_surface f s) = Ok s' /\ sound_surface s' /\ forall p, vw p = 1 -> (on_surface s' (f p) <-> on_surface s p).
Proof.
  intros s f C F. destruct (resized_set 1 f s F ltac:(unfold epsilon; lra) (constructed_sound s C)) as (s' & E & K). exists s'. unfold resized in E. rewrite scale_radii_1 in E. auto.
Qed.
Print Assumptions c303_rigid.
(** Planes and spline surfaces carry their parametrization along. *)
Theorem c303_plane : forall o n ur vr s f u v, plane_surface o n ur vr = Ok s -> similarity 1 f -> exists p,
  evaluate_surface s u v = Ok p /\ evaluate_surface (transform_surface f s) u v = Ok (f p).
Proof.
  intros o n ur vr s f u v E F. assert (C : constructed s) by (left; eauto). apply constructed_sound in C. unfold plane_surface in E. destruct (direction n) as [d| | | | |]; try discriminate. cbn [bind] in E. injection E as <-.
  exists (pt_at (Plane (as_point o) d (reference d) (cross0 d (reference d)) ur vr) u v). split; [reflexivity|]. apply plane_rigid; assumption.
Qed.
Print Assumptions c303_plane.
Theorem c303_spline : forall cps uk vk p q w ur vr s k f u v, bspline_surface cps uk vk p q w ur vr = Ok s -> similarity k f -> exists s' x,
  reload (scale_radii k (transform_surface f s)) = Ok s' /\ evaluate_surface s u v = Ok x /\ evaluate_surface s' u v = Ok (f x).
Proof.
  intros cps uk vk p q w ur vr s k f u v E (e1 & e2 & e3 & t & ON & FE). destruct (bspline_data _ _ _ _ _ _ _ _ _ E) as (ws & n_u & n_v & u_r & v_r & -> & NU & NV & GC & GW & LU & LV & _).
  cbn [transform_surface scale_radii]. rewrite bspline_reload; try assumption; [|apply grid_map, grid_map, GC]. do 2 eexists. split; [reflexivity|]. split; [reflexivity|]. cbn [evaluate_surface]. f_equal.
  assert (AF : affine f). { exists (vect (k * vx e1) (k * vy e1) (k * vz e1)), (vect (k * vx e2) (k * vy e2) (k * vz e2)), (vect (k * vx e3) (k * vy e3) (k * vz e3)), t. intros x. rewrite FE. unfold lin, vect, point. cbn [vx vy vz]. f_equal; ring. }
  rewrite <- (bspline_affine (map (map as_point) cps)) by (try assumption; try lia; apply grid_map, GC). f_equal. rewrite !map_map. apply map_ext. intros r. rewrite !map_map. apply map_ext. intros x. reflexivity.
Qed.
Print Assumptions c303_spline.
(** a quarter turn about the x axis *)
Definition quarter (p : vec) : vec := point (vx p) (- vz p) (vy p).
Lemma quarter_rigid : similarity 1 quarter.
Proof.
  exists (vect 1 0 0), (vect 0 0 1), (vect 0 (-1) 0), O. split; [unfold orthonormal; unb; repeat split; ring|]. intros p. unfold quarter, lin, O, vect, point. cbn [vx vy vz]. f_equal; ring.
Qed.
Example c303_nonvacuous : constructed (pipe (0, 1) (0, 1)) /\ similarity 1 quarter /\ on_surface (pipe (0, 1) (0, 1)) (point 0 1 2) /\ bspline_surface corners ramp ramp 1 1 None None None = Ok patch.
Proof.
  split; [apply pipe_constructed|]. split; [apply quarter_rigid|]. split; [|reflexivity]. split; [reflexivity|]. exists 2. split; [unfold O, zv; unb; ring|]. apply dist_val; [lra|]. unfold O, zv. unb. ring.
Qed.

(** ** C304 (refuted) patches and graphs in memory *)
(** computing a direction *)
Lemma tv_is f v k x y z : vect (vx (f (as_point v)) - vx (f (point 0 0 0))) (vy (f (as_point v)) - vy (f (point 0 0 0))) (vz (f (as_point v)) - vz (f (point 0 0 0))) = vect (k * x) (k * y) (k * z) ->
  x * x + y * y + z * z = 1 -> epsilon < k -> transform_vector f v = vect x y z.
Proof.
  intros E U K. unfold transform_vector. cbv zeta. rewrite E. assert (KP : 0 < k) by (unfold epsilon in K; lra).
  assert (M : mag (vect (k * x) (k * y) (k * z)) = k). { unfold mag, vect. cbn [vx vy vz]. replace (k * x * (k * x) + k * y * (k * y) + k * z * (k * z)) with (k * k) by (transitivity (k * k * (x * x + y * y + z * z)); [rewrite U; ring|ring]). apply sqrt_square. lra. }
  rewrite M, (proj2 (Rltb_true epsilon k)) by exact K. unfold over, vect. cbn [vx vy vz]. f_equal; field; lra.
Qed.
(** transform_topology_graph leaves a cylinder's reference direction where it was:
    the unit cylinder about z, turned a quarter about x, evaluates at (0,0) to a
    point of its new axis, which is not on it. *)
Lemma quarter_axis : transform_vector quarter zv = vect 0 (-1) 0.
Proof. apply (tv_is quarter zv 1); [unfold quarter, zv; unb; f_equal; ring|ring|unfold epsilon; lra]. Qed.
Theorem c304_cylinder_refuted : let s := transform_surface quarter (pipe (0, 1) (0, 1)) in
  s = Cylinder O (vect 0 (-1) 0) yv 1 (0, 1) (0, 1) /\ (exists p, evaluate_surface s 0 0 = Ok p /\ ~ on_surface s p).
Proof.
  assert (E : transform_surface quarter (pipe (0, 1) (0, 1)) = Cylinder O (vect 0 (-1) 0) yv 1 (0, 1) (0, 1)).
  { unfold pipe. cbn [transform_surface]. rewrite quarter_axis. f_equal. unfold transform_point, quarter, O, as_point, point. cbn [vx vy vz]. f_equal; ring. }
  cbv zeta. split; [exact E|]. rewrite E. eexists. split; [reflexivity|]. intros (_ & h & H1 & H2). apply (f_equal (fun x => x * x)) in H2. rewrite <- (proj1 (dist_inv _ _)) in H2.
  unfold around, O, yv in H1, H2. cbv zeta in H1, H2. revert H1 H2. unb. rewrite cos_0, sin_0. intros H1 H2. nra.
Qed.
Print Assumptions c304_cylinder_refuted.
(** Read back, a turned plane has other in-plane axes: the rectangle [0,2] x [0,1]
    of the xy plane, turned a quarter about z, is the same rectangle as before. *)
Definition spin (p : vec) : vec := point (- vy p) (vx p) (vz p).
Definition sheet : asurf := Plane O zv yv (vect (-1) 0 0) (0, 2) (0, 1).
Definition in_patch (s : asurf) (p : vec) : Prop :=
  exists u v, fst (fst (ranges s)) <= u <= snd (fst (ranges s)) /\ fst (snd (ranges s)) <= v <= snd (snd (ranges s)) /\ evaluate_surface s u v = Ok p.
Lemma sheet_made : plane_surface O zv (0, 2) (0, 1) = Ok sheet.
Proof. unfold plane_surface. rewrite direction_z. cbn [bind]. rewrite reference_z. unfold sheet. f_equal. f_equal. unfold cross0, zv, yv, vect. cbn [vx vy vz]. f_equal; ring. Qed.
Theorem c304_patch_refuted : plane_surface O zv (0, 2) (0, 1) = Ok sheet /\ similarity 1 spin /\
  exists s', reload (transform_surface spin sheet) = Ok s' /\ in_patch sheet (point 0 2 0) /\ ~ in_patch s' (spin (point 0 2 0)).
Proof.
  split; [apply sheet_made|]. assert (SR : similarity 1 spin).
  { exists (vect 0 1 0), (vect (-1) 0 0), (vect 0 0 1), O. split; [unfold orthonormal; unb; repeat split; ring|]. intros p. unfold spin, lin, O, vect, point. cbn [vx vy vz]. f_equal; ring. }
  split; [exact SR|]. assert (A : transform_vector spin zv = zv) by (apply (tv_is spin zv 1); [unfold spin, zv; unb; f_equal; ring|ring|unfold epsilon; lra]).
  assert (OO : transform_point spin O = O) by (unfold transform_point, spin, O, as_point, point; cbn [vx vy vz]; f_equal; ring).
  exists sheet. split; [|split].
  - unfold sheet at 1. cbn [transform_surface reload]. rewrite A, OO. exact sheet_made.
  - exists 2, 0. cbn [ranges sheet fst snd]. split; [lra|]. split; [lra|]. unfold sheet. cbn [evaluate_surface]. unfold O, yv, vect, point. cbn [vx vy vz]. f_equal. f_equal; ring.
  - intros (u & v & HU & HV & E). cbn [ranges sheet fst snd] in HU, HV. unfold sheet in E. cbn [evaluate_surface] in E. unfold spin, O, yv, vect, point in E. cbn [vx vy vz] in E. injection E as E1 E2 E3. lra.
Qed.
Print Assumptions c304_patch_refuted.
(** Scaling changes radii but no parameter ranges: a unit cylinder of height 1
    scaled by 2 is still 1 high. *)
Theorem c304_scale_refuted : exists s', reload (scale_radii 2 (transform_surface (fun p => point (2 * vx p) (2 * vy p) (2 * vz p)) (pipe (0, 2 * PI) (0, 1)))) = Ok s' /\
  in_patch (pipe (0, 2 * PI) (0, 1)) (point 0 1 1) /\ ~ in_patch s' (point 0 2 2).
Proof.
  exists (Cylinder O zv yv 2 (0, 2 * PI) (0, 1)). set (f := fun p => point (2 * vx p) (2 * vy p) (2 * vz p)).
  assert (A : transform_vector f zv = zv) by (apply (tv_is f zv 2); [unfold f, zv; unb; f_equal; ring|ring|unfold epsilon; lra]).
  split; [|split].
  - unfold pipe. cbn [transform_surface scale_radii reload]. rewrite A. unfold cylinder_surface. rewrite direction_z. cbn [bind]. rewrite (proj2 (Rleb_false (1 * 2) 0)) by lra. rewrite reference_z. f_equal. f_equal; [|ring].
    unfold transform_point, f, O, as_point, point. cbn [vx vy vz]. f_equal; ring.
  - exists 0, 1. cbn [ranges pipe fst snd]. pose proof PI_RGT_0. split; [lra|]. split; [lra|]. unfold pipe. cbn [evaluate_surface]. unfold around, O, zv, yv, cross0, vect, point. cbv zeta. cbn [vx vy vz]. rewrite cos_0, sin_0. f_equal. f_equal; ring.
  - intros (u & v & HU & HV & E). cbn [ranges fst snd] in HU, HV. cbn [evaluate_surface] in E. unfold around, O, zv, yv, cross0, vect, point in E. cbv zeta in E. cbn [vx vy vz] in E. injection E as E1 E2 E3. lra.
Qed.
Print Assumptions c304_scale_refuted.

(** ** C305 storing surfaces *)
Theorem c305_reload : forall s, constructed s -> reload s = Ok s.
Proof. exact constructed_reload. Qed.
Print Assumptions c305_reload.
Theorem c305_spline : forall cps uk vk p q w ur vr s, bspline_surface cps uk vk p q w ur vr = Ok s -> reload s = Ok s.
Proof.
  intros cps uk vk p q w ur vr s E. destruct (bspline_data _ _ _ _ _ _ _ _ _ E) as (ws & n_u & n_v & u_r & v_r & -> & NU & NV & GC & GW & LU & LV & _).
  rewrite bspline_reload; try assumption; [|apply grid_map, GC]. f_equal. f_equal. rewrite map_map. apply map_ext. intros r. rewrite map_map. apply map_ext. reflexivity.
Qed.
Print Assumptions c305_spline.
Example c305_nonvacuous : constructed (pipe (0, 1) (0, 1)) /\ bspline_surface corners ramp ramp 1 1 None None None = Ok patch.
Proof. split; [apply pipe_constructed|reflexivity]. Qed.
