(** C177-C180: boxes, cylinders, cones and their resolution (geom3d_util.py). *)
From Coq Require Import Reals List Bool ZArith Lra Lia.
From Verif Require Import Xform_Model Xform_Proofs Fig_Model Fig_Proofs Fig_Proofs2 Solid_Model Solid_Spec Solid_Proofs Solid_Proofs2
  Solid_Proofs3 Solid_Proofs7 Prim_Model Prim_Spec Prim_Lab Prim_Proofs Prim_Proofs2 Prim_Proofs3 Prim_Proofs4 Prim_Proofs5 Prim_Proofs6.
Import ListNotations.
Open Scope R_scope.

(** C177: prism is the closed box of the requested size. *)
Lemma placed_center c : placed c (prism_center c).
Proof.
  unfold placed, prism_center. fold origin. destruct (vclose c origin) eqn:E.
  - right. split; [apply vclose_near; exact E|reflexivity].
  - left. split; [|reflexivity]. intros N. apply vclose_near in N. congruence.
Qed.
Theorem c177_prism l w h c : 0 < l -> 0 < w -> 0 < h ->
  exists x c', prism l w h c = Val x /\ placed c c' /\ issolid x = true /\
    (forall p, In p (flat_map verts x) <-> box_corner l w h c' p) /\
    solidbbox x = Val (Some (box_around l w h c')) /\
    (forall s, In s x -> well_shaded s) /\
    exists ts, triangles x ts /\ oriented ts /\ signed_volume ts = l * w * h.
Proof.
  intros Hl Hw Hh. exists (prism_surfs l w h (prism_center c)), (prism_center c).
  split; [apply prism_val|]. split; [apply placed_center|]. split; [apply prism_issolid|]. split; [|split; [|split]].
  - intros p. rewrite prism_verts. apply prism_corner; lra.
  - apply prism_bbox; lra.
  - intros s Hs. apply (prism_shaded l w h (prism_center c)); auto.
  - exists (map (at_pos (cpos l w h (prism_center c))) prism_ltris). split; [apply prism_triangles|]. split; [apply prism_oriented|apply prism_signed].
Qed.
Print Assumptions c177_prism.
Theorem c177_volume l w h c : 2 * epsilon < l -> 2 * epsilon < w -> 2 * epsilon < h ->
  exists x, prism l w h c = Val x /\ issolidclosed x = Val true /\ volumeof x = Val (l * w * h).
Proof.
  intros Hl Hw Hh. exists (prism_surfs l w h (prism_center c)). split; [apply prism_val|].
  pose proof (prism_volume l w h (prism_center c) Hl Hw Hh) as V. split; [|exact V].
  apply (volumeof_iff _ _ _ (prism_triangles l w h (prism_center c))) in V. apply V.
Qed.
Print Assumptions c177_volume.
Example c177_nonvacuous : 2 * epsilon < 10 /\ placed (point 1 2 3) (point 1 2 3).
Proof.
  split; [unfold epsilon; lra|]. left. split; [|reflexivity]. unfold near. apply Rle_not_lt.
  apply dist_ge; [unfold epsilon; lra|]. unfold point, epsilon; cbn [vx vy vz]. lra.
Qed.

(** C178: conic is the closed frustum, cylinder or cone. *)
Theorem c178_frustum r0 r1 h c a n ce mc : sectors a n -> vw c = 1 -> epsilon <= r0 -> epsilon <= r1 -> epsilon <= h ->
  epsilon <= 2 * r0 * sin (2 * PI / INR n) * h ->
  exists base side top ts, conic r0 r1 h c (Some a) ce mc = Val [base; side; top] /\ issolid [base; side; top] = true /\
    triangles [base; side; top] ts /\ oriented ts /\ signed_volume ts = frustum_volume n r0 r1 h /\
    (forall s p, In s [base; side; top] -> In p (verts s) -> p = c \/ p = above c h \/ on_circle c r0 p \/ on_circle (above c h) r1 p) /\
    (forall m, In m (norms base) -> m = mkv 0 0 (-1) 0) /\ (forall m, In m (norms top) -> m = mkv 0 0 1 0) /\
    faces_out c (verts side) (norms side) /\
    (2 * epsilon < h -> epsilon < r0 * sin (PI / INR n) -> epsilon < r1 * sin (PI / INR n) ->
       issolidclosed [base; side; top] = Val true /\ volumeof [base; side; top] = Val (frustum_volume n r0 r1 h)).
Proof. exact (conic_frustum r0 r1 h c a n ce mc). Qed.
Print Assumptions c178_frustum.
Theorem c178_cone r0 r1 h c a n ce mc : sectors a n -> vw c = 1 -> epsilon <= r0 -> 0 <= r1 < epsilon -> epsilon <= h ->
  epsilon <= 2 * r0 * sin (2 * PI / INR n) * h ->
  exists base side ts, conic r0 r1 h c (Some a) ce mc = Val [base; side] /\ issolid [base; side] = true /\
    triangles [base; side] ts /\ oriented ts /\ signed_volume ts = frustum_volume n r0 0 h /\
    (forall s p, In s [base; side] -> In p (verts s) -> p = c \/ p = above c h \/ on_circle c r0 p) /\
    (forall m, In m (norms base) -> m = mkv 0 0 (-1) 0) /\
    (exists vs ns, verts side = above c h :: vs /\ norms side = mkv 0 0 1 0 :: ns /\ faces_out c vs ns) /\
    (2 * epsilon < h -> epsilon < r0 * sin (PI / INR n) ->
       issolidclosed [base; side] = Val true /\ volumeof [base; side] = Val (frustum_volume n r0 0 h)).
Proof. exact (conic_cone r0 r1 h c a n ce mc). Qed.
Print Assumptions c178_cone.
(** Arguments outside the documented limits are rejected. *)
Theorem c178_rejects r0 r1 h c a ce mc : r0 < epsilon \/ r1 < 0 \/ h < epsilon \/ a < 1 \/ 45 < a ->
  conic r0 r1 h c (Some a) ce mc = Raise EValue.
Proof.
  intros H. unfold conic. cbn [obind].
  destruct (Rltb r0 epsilon) eqn:E1; [reflexivity|]. destruct (Rltb r1 0) eqn:E2; [reflexivity|]. destruct (Rltb h epsilon) eqn:E3; [reflexivity|].
  apply Rltb_false in E1, E2, E3.
  assert (R : resolution r0 (Some a) None None = Raise EValue).
  { unfold resolution. destruct H as [H|[H|[H|[H|H]]]]; try lra.
    - rewrite (Rltb_t a 1) by auto. reflexivity.
    - rewrite (Rltb_t 45 a), orb_true_r by auto. reflexivity. }
  unfold circleSurface. rewrite R. reflexivity.
Qed.
Print Assumptions c178_rejects.
(** Without an angular resolution, one of at most 10 degrees is chosen. *)
Theorem c178_default r0 r1 h c ce mc x : conic r0 r1 h c None ce mc = Val x ->
  exists a n, 1 <= a <= 10 /\ sectors a n /\ (36 <= n)%nat /\ conic r0 r1 h c (Some a) None None = Val x.
Proof.
  unfold conic at 1. intros H. apply obind_val in H as (a & Ha & H). apply angr_range in Ha.
  destruct (sectors_exist a ltac:(lra)) as [n Hn]. exists a, n. split; [exact Ha|]. split; [exact Hn|]. split; [|exact H].
  destruct Hn as [_ Hn]. assert (B : Rabs (INR n - 360 / a) <= 1 / 2) by (destruct Hn as [Hn|[Hn _]]; lra). apply Rabs_le_inv in B.
  assert (360 / 10 <= 360 / a). { apply Rmult_le_compat_l; [lra|]. apply Rinv_le_contravar; lra. }
  destruct (Nat.le_gt_cases 36 n) as [G|G]; [exact G|]. exfalso. assert (INR n <= INR 35) by (apply le_INR; lia).
  replace (INR 35) with 35 in H1 by (rewrite INR_IZR_INZ; reflexivity). lra.
Qed.
Print Assumptions c178_default.
Lemma sin_12 : sin (2 * PI / INR 12) = 1 / 2.
Proof. replace (2 * PI / INR 12) with (PI / 6) by (replace (INR 12) with 12 by (rewrite INR_IZR_INZ; reflexivity); field). apply sin_PI6. Qed.
Lemma sin_24 : 1 / 4 <= sin (PI / INR 12).
Proof.
  pose proof (sin_part_pos 12 ltac:(lia)) as P. pose proof (COS_bound (PI / INR 12)) as B.
  pose proof sin_12 as E. replace (2 * PI / INR 12) with (2 * (PI / INR 12)) in E by (unfold Rdiv; ring). rewrite sin_2a in E.
  set (s := sin (PI / INR 12)) in *. set (k := cos (PI / INR 12)) in *. nra.
Qed.
Lemma sectors_30 : sectors 30 12.
Proof.
  split; [lra|]. left. replace (INR 12) with 12 by (rewrite INR_IZR_INZ; reflexivity). replace (12 - 360 / 30) with 0 by field. rewrite Rabs_R0. lra.
Qed.
Example c178_nonvacuous : sectors 30 12 /\ epsilon <= 2 * 10 * sin (2 * PI / INR 12) * 20 /\
  2 * epsilon < 20 /\ epsilon < 10 * sin (PI / INR 12) /\ epsilon < 5 * sin (PI / INR 12) /\
  (exists x, conic 10 5 20 origin None None None = Val x).
Proof.
  split; [apply sectors_30|]. rewrite sin_12. pose proof sin_24 as S. unfold epsilon. do 4 (split; [lra|]).
  unfold conic. assert (A : exists a, adaptive_angr_from_radius (Rmax 10 (if Rleb epsilon 5 then 5 else 10)) None None = Val a /\ 1 <= a <= 10).
  { unfold adaptive_angr_from_radius. rewrite arc_segments_default.
    assert (P : 0 < Rmax 10 (if Rleb epsilon 5 then 5 else 10)) by (apply Rlt_le_trans with 10; [lra|apply Rmax_l]).
    rewrite Rleb_f by exact P. destruct (arc_segments_chord _ _ P (default_chord_pos _ P)) as (n & E & R & _). rewrite E. cbn [obind].
    eexists. split; [reflexivity|]. split; [apply Rmax_l|apply Rmax_lub; [lra|apply Rmin_l]]. }
  destruct A as (a & -> & Ha). cbn [obind]. destruct (sectors_exist a ltac:(lra)) as [n Hn].
  pose proof (sectors_range a n Hn) as Rn.
  (* 2 * 10 * sin (2 PI / n) * 20 >= epsilon, as sin x >= x - x^3/6 >= x/2 for x <= 1 *)
  assert (D : epsilon <= 2 * 10 * sin (2 * PI / INR n) * 20).
  { assert (N8 : 8 <= INR n <= 360).
    { split; [replace 8 with (INR 8) by (rewrite INR_IZR_INZ; reflexivity)|replace 360 with (INR 360) by (rewrite INR_IZR_INZ; reflexivity)]; apply le_INR; lia. }
    assert (U : sin (PI / 360) <= sin (2 * PI / INR n)).
    { pose proof PI_RGT_0. assert (0 < / INR n) by (apply Rinv_0_lt_compat; lra).
      assert (/ 360 <= / INR n) by (apply Rinv_le_contravar; lra). assert (/ INR n <= / 8) by (apply Rinv_le_contravar; lra).
      apply sin_incr_1; unfold Rdiv; nra. }
    assert (V : / 360 <= sin (PI / 360)).
    { pose proof PI_4 as P4. pose proof PI2_1 as P1. pose proof PI_RGT_0 as P0. destruct (pre_sin_bound (PI / 360) 0) as [B _]; [lra|lra|].
      unfold sin_approx in B. simpl in B. unfold sin_term in B. simpl in B. unfold Rdiv in *. 
      assert (C1 : 0 < PI * / 360 <= 4 * / 360) by lra. set (y := PI * / 360) in *. assert (Y : 2 * / 360 <= y) by (unfold y; lra). nra. }
    unfold epsilon. lra. }
  assert (He : epsilon <= 10) by (unfold epsilon; lra).
  destruct (conic_frustum_val 10 5 20 origin a n None None Hn eq_refl He ltac:(unfold epsilon; lra) ltac:(unfold epsilon; lra) D) as (ns & _ & E).
  unfold conic in E. cbn [obind] in E. eexists. exact E.
Qed.

(** C179: refuted - radii and heights well above epsilon are not enough. *)
Theorem c179_refuted :
  (exists r h, 100 * epsilon <= r /\ 100 * epsilon <= h /\ conic r r h origin (Some 30) None None = Raise EValue) /\
  (exists r h x, 100 * epsilon <= r /\ 100 * epsilon <= h /\ conic r 0 h origin (Some 30) None None = Val x /\ volumeof x = Raise EValue).
Proof.
  split.
  - exists (1 / 2000), (1 / 2000). split; [unfold epsilon; lra|]. split; [unfold epsilon; lra|].
    apply (conic_tiny_cylinder _ _ _ _ 12); auto using sectors_30; try (unfold epsilon; lra).
  - destruct (conic_tiny_cone (1 / 2000) (1 / 2000) origin 30 12 None None sectors_30 eq_refl) as (base & side & E & -> & F & S); try (unfold epsilon; lra).
    exists (1 / 2000), (1 / 2000). eexists. split; [unfold epsilon; lra|]. split; [unfold epsilon; lra|]. split; [exact E|].
    apply disc_open; auto; try lia. pose proof sin_24. unfold epsilon. lra.
Qed.
Print Assumptions c179_refuted.

(** C180: the adaptive number of segments. *)
Theorem c180_range r ce mc n : adaptive_arc_segments r ce mc = Val n -> (16 <= n <= 360)%Z.
Proof. exact (arc_segments_range r ce mc n). Qed.
Print Assumptions c180_range.
Theorem c180_chord r c : 0 < r -> 0 < c ->
  exists n, adaptive_arc_segments r None (Some c) = Val n /\ (n = 360%Z \/ 2 * r * sin (PI / IZR n) <= c).
Proof. intros Hr Hc. destruct (arc_segments_chord r c Hr Hc) as (n & E & _ & H). eauto. Qed.
Print Assumptions c180_chord.
Theorem c180_sagitta r e : 0 < r -> 0 < e ->
  exists n, adaptive_arc_segments r (Some e) None = Val n /\ (n = 360%Z \/ r * (1 - cos (PI / IZR n)) <= e).
Proof. intros Hr He. destruct (arc_segments_sagitta r e Hr He) as (n & E & _ & H). eauto. Qed.
Print Assumptions c180_sagitta.
(** With neither limit given every chord of at most 360 is at most 1 long. *)
Theorem c180_default r : exists n, adaptive_arc_segments r None None = Val n /\ (n = 360%Z \/ 2 * r * sin (PI / IZR n) <= 1).
Proof.
  rewrite arc_segments_default. destruct (Rleb r 0) eqn:E.
  - exists 36%Z. split; [reflexivity|]. right. unfold Rleb in E. destruct (Rle_dec r 0); [|discriminate].
    assert (0 < sin (PI / 36)). { replace 36 with (INR 36) by (rewrite INR_IZR_INZ; reflexivity). apply sin_part_pos. lia. } nra.
  - assert (P : 0 < r) by (unfold Rleb in E; destruct (Rle_dec r 0); [discriminate|lra]).
    destruct (arc_segments_chord r _ P (default_chord_pos r P)) as (n & En & _ & H). exists n. split; [exact En|].
    pose proof (default_chord_range r P). destruct H as [H|H]; [left; exact H|right; lra].
Qed.
Print Assumptions c180_default.
Theorem c180_angr r ce mc a : adaptive_angr_from_radius r ce mc = Val a -> 1 <= a <= 10.
Proof. exact (angr_range r ce mc a). Qed.
Print Assumptions c180_angr.
Example c180_nonvacuous : exists n, adaptive_arc_segments 50 None None = Val n /\ (16 <= n <= 360)%Z.
Proof. destruct (c180_default 50) as (n & E & _). exists n. split; [exact E|]. exact (c180_range _ _ _ _ E). Qed.
