(** Property theorems about yapcad.geom's figures.  Reals stand for floats. *)
From Coq Require Import Reals List Bool Lra.
From Verif Require Import Xform_Model Xform_Proofs Fig_Model Fig_Proofs Fig_Proofs2 Fig_Proofs3.
Import ListNotations.
Open Scope R_scope.

(** ** C41 bounding boxes contain their figures *)
(** [p] lies in the closed box with corners [fst bb] and [snd bb]. *)
Definition in_box (bb : vec * vec) (p : vec) : Prop :=
  (vx (fst bb) <= vx p <= vx (snd bb)) /\ (vy (fst bb) <= vy p <= vy (snd bb)) /\
  (vz (fst bb) <= vz p <= vz (snd bb)).
Theorem c41_isinsidebbox_decides : forall bb p, isinsidebbox bb p = true <-> in_box bb p.
Proof. exact isinsidebbox_spec. Qed.
Print Assumptions c41_isinsidebbox_decides.
Theorem c41_line : forall l u, 0 <= u <= 1 -> in_box (linebbox l) (sampleline l u).
Proof. intros l u H. apply isinsidebbox_spec, linebbox_sample; exact H. Qed.
Print Assumptions c41_line.
Theorem c41_poly_vertices : forall a bb p, polybbox a = Some bb -> In p a -> in_box bb p.
Proof. exact polybbox_contains. Qed.
Print Assumptions c41_poly_vertices.
Theorem c41_poly_samples : forall a u p bb,
  0 <= u <= 1 -> samplepoly a u = Ok (Some p) -> polybbox a = Some bb -> in_box bb p.
Proof. intros a u p bb H1 H2 H3. apply isinsidebbox_spec. exact (samplepoly_inbox a u p bb H1 H2 H3). Qed.
Print Assumptions c41_poly_samples.
(** ... and the box is the smallest: every face touches a vertex. *)
Theorem c41_poly_tight : forall p q rest bb, polybbox (p :: q :: rest) = Some bb ->
  let touches (f : vec -> R) (m : R) := exists v, In v (p :: q :: rest) /\ f v = m in
  touches vx (vx (fst bb)) /\ touches vx (vx (snd bb)) /\ touches vy (vy (fst bb)) /\
  touches vy (vy (snd bb)) /\ touches vz (vz (fst bb)) /\ touches vz (vz (snd bb)).
Proof. exact polybbox_tight. Qed.
Print Assumptions c41_poly_tight.
Theorem c41_circle : forall c u bb,
  0 <= a_r c -> a_start c = 0 -> a_end c = 360 -> arcbbox c = Some bb -> in_box bb (samplearc c u).
Proof.
  intros c u bb Hr H1 H2 H. apply isinsidebbox_spec. apply circle_bbox; auto.
  unfold iscircle. rewrite H1, H2. apply andb_true_iff. split; apply Reqb_true; reflexivity.
Qed.
Print Assumptions c41_circle.
Example c41_nonvacuous : exists bb,
  polybbox [point 0 0 0; point 2 1 0; point 1 3 0] = Some bb /\
  arcbbox (mkarc (point 1 1 0) 2 0 360 false) <> None.
Proof.
  eexists. split; [reflexivity|]. unfold arcbbox, iscircle; simpl.
  assert (Reqb 0 0 = true) as -> by (apply Reqb_true; reflexivity).
  assert (Reqb 360 360 = true) as -> by (apply Reqb_true; reflexivity). discriminate.
Qed.
(** C51: for a partial arc the box is computed from five samples and misses the
    top of the arc from 0 to 100 degrees. *)
Theorem c51_arcbbox_refuted :
  let c := mkarc (point 0 0 0) 1 0 100 false in
  exists bb, arcbbox c = Some bb /\ ~ in_box bb (samplearc c (9/10)).
Proof.
  destruct arcbbox_refuted as (bb & H1 & H2). exists bb. split; [exact H1|].
  intros H. apply isinsidebbox_spec in H. unfold arc100 in H2. rewrite H in H2. discriminate.
Qed.
Print Assumptions c51_arcbbox_refuted.

(** ** C42 sampling *)
Theorem c42_line_endpoints : forall p q, vw p = 1 -> vw q = 1 ->
  sampleline (p, q) 0 = p /\ sampleline (p, q) 1 = q /\ sampleline (p, q) (1/2) = linecenter (p, q).
Proof.
  intros p q Hp Hq. split; [exact (sampleline_0 p q Hp)|]. split; [exact (sampleline_1 p q Hq)|].
  exact (sampleline_half (p, q)).
Qed.
Print Assumptions c42_line_endpoints.
(** Sampling is by arc length. *)
Theorem c42_line_arclength : forall l u v,
  dist (sampleline l u) (sampleline l v) = Rabs (u - v) * linelength l.
Proof. exact sampleline_dist. Qed.
Print Assumptions c42_line_arclength.
Theorem c42_line_unsample : forall l u,
  linelength l <> 0 -> unsampleline l (sampleline l u) = Ok (Some u).
Proof. exact unsample_sample_line. Qed.
Print Assumptions c42_line_unsample.
Theorem c42_segment : forall l u1 u2 t,
  sampleline (segmentline l u1 u2) t = sampleline l (u1 + t * (u2 - u1)).
Proof. exact segment_sample. Qed.
Print Assumptions c42_segment.
(** A polyline sampled at u is the point at arc length u*length: some edge [l]
    is reached after the edges [pre], a fraction [t] along it. *)
Theorem c42_poly_arclength : forall a u o,
  0 <= u <= 1 -> samplepoly a u = Ok o ->
  let v := if poly_closed a then pymod u 1 else u in
  exists p pre l post t, o = Some p /\ lines_of a = pre ++ l :: post /\ 0 <= t <= 1 /\
     p = sampleline l t /\ v * polylength a = total_length pre + t * linelength l.
Proof. exact samplepoly_spec. Qed.
Print Assumptions c42_poly_arclength.
Theorem c42_poly_total : forall a u,
  (3 <= length a)%nat -> Forall (fun l => linelength l <> 0) (lines_of a) -> u <= 1 ->
  exists p, samplepoly a u = Ok (Some p).
Proof. exact samplepoly_total. Qed.
Print Assumptions c42_poly_total.
Theorem c42_poly_start : forall p q rest,
  (1 <= length rest)%nat -> linelength (p, q) <> 0 -> vw p = 1 ->
  samplepoly (p :: q :: rest) 0 = Ok (Some p).
Proof. exact samplepoly_start. Qed.
Print Assumptions c42_poly_start.
Theorem c42_poly_end : forall a p,
  (3 <= length a)%nat -> poly_closed a = false ->
  linelength (last (lines_of a) (point 0 0 0, point 0 0 0)) <> 0 -> vw (last a p) = 1 ->
  samplepoly a 1 = Ok (Some (last a p)).
Proof. exact samplepoly_end_open. Qed.
Print Assumptions c42_poly_end.
Theorem c42_poly_closed_wraps : forall a,
  poly_closed a = true -> samplepoly a 1 = samplepoly a 0.
Proof. exact samplepoly_closed_wraps. Qed.
Print Assumptions c42_poly_closed_wraps.
(** Arcs: every sample is at distance r from the centre and in its plane; a
    forward arc written with 0 <= start <= end < 360 runs from start to end. *)
Theorem c42_arc_radius : forall c u, 0 <= a_r c ->
  dist (samplearc c u) (a_c c) = a_r c /\ vz (samplearc c u) = vz (a_c c).
Proof. exact samplearc_radius. Qed.
Print Assumptions c42_arc_radius.
Theorem c42_arc_endpoints : forall c,
  a_rev c = false -> 0 <= a_start c -> a_start c <= a_end c -> a_end c < 360 ->
  let at_degrees x := mkv (vx (a_c c) + a_r c * cos (x * PI / 180)) (vy (a_c c) + a_r c * sin (x * PI / 180)) (vz (a_c c)) 1 in
  samplearc c 0 = at_degrees (a_start c) /\ samplearc c 1 = at_degrees (a_end c).
Proof.
  intros c H1 H2 H3 H4. destruct (samplearc_endpoints c H1 H2 H3 H4) as [-> ->].
  assert (E : forall x, x * pi2 / 360 = x * PI / 180) by (intros x; unfold pi2; field).
  cbv zeta. rewrite !E. unfold add, scale3; cbn [vx vy vz]. split; apply mkv_eq; ring.
Qed.
Print Assumptions c42_arc_endpoints.
Example c42_nonvacuous :
  linelength (point 0 0 0, point 3 4 0) = 5 /\
  Forall (fun l => linelength l <> 0) (lines_of [point 0 0 0; point 1 0 0; point 1 1 0]) /\
  poly_closed [point 0 0 0; point 1 0 0; point 0 1 0] = false.
Proof.
  assert (D1 : dist (point 0 0 0) (point 0 1 0) = 1) by (apply dist_pts; lra).
  split; [|split].
  - unfold linelength; simpl. apply dist_pts; lra.
  - repeat constructor; unfold linelength; simpl; rewrite (dist_pts _ _ _ _ _ _ 1); lra.
  - unfold poly_closed, lastv; simpl. rewrite D1. apply Rltb_f. unfold epsilon. lra.
Qed.

(** ** C43 line-line intersection *)
Theorem c43_sound : forall l1 l2 inside p,
  lineLineIntersectXY l1 l2 inside = Ok (Some p) ->
  exists t u, (inside = true -> 0 <= t <= 1 /\ 0 <= u <= 1) /\
    vx p = vx (sampleline l1 t) /\ vy p = vy (sampleline l1 t) /\
    vx p = vx (sampleline l2 u) /\ vy p = vy (sampleline l2 u).
Proof. exact intersect_sound. Qed.
Print Assumptions c43_sound.
(** Complete when the two directions are not nearly parallel: the squared cross
    product of the edge vectors is at least epsilon = 5e-6. *)
Theorem c43_complete_above_tolerance : forall l1 l2 z t u,
  vz (fst l1) = z -> vz (snd l1) = z -> vz (fst l2) = z -> vz (snd l2) = z ->
  epsilon <= Rsqr ((vx (fst l1) - vx (snd l1)) * (vy (fst l2) - vy (snd l2))
                   - (vy (fst l1) - vy (snd l1)) * (vx (fst l2) - vx (snd l2))) ->
  0 <= t <= 1 -> 0 <= u <= 1 ->
  vx (sampleline l1 t) = vx (sampleline l2 u) -> vy (sampleline l1 t) = vy (sampleline l2 u) ->
  exists p, lineLineIntersectXY l1 l2 true = Ok (Some p) /\
    vx p = vx (sampleline l1 t) /\ vy p = vy (sampleline l1 t).
Proof.
  intros l1 l2 z t u Z1 Z2 Z3 Z4 H. apply intersect_complete_cond; [|exact H].
  unfold ll_planar. rewrite Z1, Z2, Z3, Z4, Rminus_eq_0, Rabs_R0.
  rewrite Rltb_f by (pose proof eps_pos; lra). reflexivity.
Qed.
Print Assumptions c43_complete_above_tolerance.
Example c43_nonvacuous :
  let l1 := (point 0 0 0, point 2 2 0) in let l2 := (point 0 2 0, point 2 0 0) in
  epsilon <= Rsqr ((vx (fst l1) - vx (snd l1)) * (vy (fst l2) - vy (snd l2))
                   - (vy (fst l1) - vy (snd l1)) * (vx (fst l2) - vx (snd l2))) /\
  vx (sampleline l1 (1/2)) = vx (sampleline l2 (1/2)) /\ vy (sampleline l1 (1/2)) = vy (sampleline l2 (1/2)).
Proof. unfold epsilon, Rsqr, sampleline, add, scale3, point; simpl. repeat split; lra. Qed.
(** C52: two segments of length 1/25 crossing at right angles in their middle are
    reported as not meeting. *)
Theorem c52_intersection_complete_refuted : exists l1 l2,
  sampleline l1 (1/2) = point 0 0 0 /\ sampleline l2 (1/2) = point 0 0 0 /\
  linelength l1 = 1/25 /\ linelength l2 = 1/25 /\
  lineLineIntersectXY l1 l2 true = Ok None.
Proof. exists small1, small2. exact intersect_complete_refuted. Qed.
Print Assumptions c52_intersection_complete_refuted.

(** ** C44 point-in-figure *)
(** [a] is a convex combination of the three points (in the XY plane). *)
Definition in_triangle (a p1 p2 p3 : vec) : Prop :=
  exists m1 m2 m3, 0 <= m1 /\ 0 <= m2 /\ 0 <= m3 /\ m1 + m2 + m3 = 1 /\
    vx a = m1 * vx p1 + m2 * vx p2 + m3 * vx p3 /\ vy a = m1 * vy p1 + m2 * vy p2 + m3 * vy p3.
(** For a triangle whose doubled area is at least epsilon the test is exact. *)
Theorem c44_triangle_exact : forall a p1 p2 p3,
  epsilon <= Rabs ((vx p2 - vx p1) * (vy p3 - vy p1) - (vy p2 - vy p1) * (vx p3 - vx p1)) ->
  exists b, isInsideTriangleXY_raw a p1 p2 p3 = Ok b /\ (b = true <-> in_triangle a p1 p2 p3).
Proof.
  intros a p1 p2 p3 H.
  assert (H' : epsilon <= Rabs (bary_denom p1 p2 p3)).
  { replace (bary_denom p1 p2 p3) with ((vx p2 - vx p1) * (vy p3 - vy p1) - (vy p2 - vy p1) * (vx p3 - vx p1))
      by (unfold bary_denom; ring). exact H. }
  destruct (triangle_total a p1 p2 p3 H') as [b Hb]. exists b. split; [exact Hb|].
  exact (triangle_spec a p1 p2 p3 b H' Hb).
Qed.
Print Assumptions c44_triangle_exact.
(** A True answer for a polygon is always right: the point is in a triangle of vertices. *)
Theorem c44_convex_true_sound : forall poly a, isInsideConvexPolyXY a poly = Ok true ->
  exists p1 p2 p3, In p1 poly /\ In p2 poly /\ In p3 poly /\ in_triangle a p1 p2 p3.
Proof.
  intros poly a H. unfold isInsideConvexPolyXY in H.
  destruct (_ || _) in H; [discriminate|]. exact (convex_true_sound poly a H).
Qed.
Print Assumptions c44_convex_true_sound.
Example c44_nonvacuous :
  let p1 := point 0 0 0 in let p2 := point 1 0 0 in let p3 := point 0 1 0 in
  epsilon <= Rabs ((vx p2 - vx p1) * (vy p3 - vy p1) - (vy p2 - vy p1) * (vx p3 - vx p1)) /\
  in_triangle (point (1/4) (1/4) 0) p1 p2 p3.
Proof.
  cbv zeta. unfold point; cbn [vx vy]. split.
  - rewrite Rabs_right; unfold epsilon; lra.
  - exists (1/2), (1/4), (1/4). cbn [vx vy]. repeat split; lra.
Qed.
(** C53: a False answer can be wrong, both for the convex test and for the
    general even-odd test. *)
Theorem c53_convex_complete_refuted :
  let p := point (1/10) (1/2) 0 in
  isInsideConvexPolyXY p [point 0 0 0; point 1 0 0; point 1 1 0; point 0 1 0] = Ok false /\
  in_triangle p (point 0 0 0) (point 1 0 0) (point 0 1 0).
Proof. exact convex_refuted. Qed.
Print Assumptions c53_convex_complete_refuted.
Theorem c53_evenodd_refuted :
  isinside_closed_polyXY [point 0 0 0; point 1 0 0; point 1 1 0; point 0 1 0; point 0 0 0]
    (point (1/2) (1/2) 0) = Ok false.
Proof. exact evenodd_refuted. Qed.
Print Assumptions c53_evenodd_refuted.

(** ** C45 distance and closest point *)
(** inside=False, distance=True: the distance to the infinite line, exactly. *)
Theorem c45_line_distance : forall a b p z,
  vz a = z -> vz b = z -> vz p = z -> epsilon <= dist a b ->
  exists d, linePointXY (a, b) p false true false = Ok (LPNum d) /\
    (forall t, d <= dist p (sampleline (a, b) t)) /\ (exists t, d = dist p (sampleline (a, b) t)).
Proof. exact line_distance. Qed.
Print Assumptions c45_line_distance.
(** inside=False: the point returned is on the line, at parameter t, and no
    point of the line is closer; params=True reports |1-t| for it. *)
Theorem c45_line_closest_point : forall a b p z,
  vz a = z -> vz b = z -> vz p = z -> epsilon <= dist a b ->
  exists q t, linePointXY (a, b) p false false false = Ok (LPPoint q) /\ q = sampleline (a, b) t /\
    (forall t', dist p q <= dist p (sampleline (a, b) t')) /\
    (forall inside, linePointXY (a, b) p inside false true = Ok (LPNum (Rabs (1 - t)))).
Proof. exact line_foot. Qed.
Print Assumptions c45_line_closest_point.
(** inside=True, distance=True: a distance actually attained on the line and never
    more than the distance to any point of the segment. *)
Theorem c45_segment_distance : forall a b p z,
  vz a = z -> vz b = z -> vz p = z -> epsilon <= dist a b ->
  exists d, linePointXY (a, b) p true true false = Ok (LPNum d) /\
    (forall t, 0 <= t <= 1 -> d <= dist p (sampleline (a, b) t)) /\
    (exists t, d = dist p (sampleline (a, b) t)).
Proof. exact seg_distance. Qed.
Print Assumptions c45_segment_distance.
Example c45_nonvacuous : epsilon <= dist (point 0 0 0) (point 3 4 0).
Proof. rewrite (dist_pts _ _ _ _ _ _ 5) by lra. unfold epsilon; lra. Qed.
(** C54: params=True is documented as the sampling parameter of the closest
    point, but is 1 for the start point. *)
Theorem c54_params_refuted :
  linePointXY unit_x (point 0 0 0) true false true = Ok (LPNum 1) /\
  sampleline unit_x 1 <> point 0 0 0 /\ sampleline unit_x 0 = point 0 0 0.
Proof. exact line_params_refuted. Qed.
Print Assumptions c54_params_refuted.
(** C54: with inside=True the returned point need not be on the line. *)
Theorem c54_closest_point_refuted :
  let l := (point 0 0 0, point 2 0 0) in
  exists q, linePointXY l (point 1 (-1/1000) 0) true false false = Ok (LPPoint q) /\
    forall t, 400 * epsilon <= dist q (sampleline l t).
Proof. eexists. exact closest_point_refuted. Qed.
Print Assumptions c54_closest_point_refuted.

(** ** C48 reversal and translation *)
(** What sampling one element at [u] gives ([None]: not a point, line or arc). *)
Definition sample1 (g : geo) (u : R) : option vec :=
  match g with
  | GPoint p => Some p | GLine l => Some (sampleline l u) | GArc c => Some (samplearc c u) | _ => None
  end.
Definition reversible (g : geo) : Prop :=
  match g with GPoint _ => True | GLine _ => True | GArc c => a_rev c = false | _ => False end.
(** A list of points, lines and forward arcs: elements come in reverse order and
    each runs backwards. *)
Theorem c48_reverse_list : forall gs, Forall reversible gs ->
  exists rs, reverseGeomList gs = Ok rs /\ length rs = length gs /\
    forall i g, nth_error gs i = Some g ->
      exists r, nth_error rs (length gs - 1 - i) = Some r /\ forall u, sample1 r u = sample1 g (1 - u).
Proof.
  intros gs H. apply reverse_simple. apply forallb_forall. rewrite Forall_forall in H.
  intros g Hg. specialize (H g Hg). destruct g; simpl in *; try contradiction; auto. rewrite H. reflexivity.
Qed.
Print Assumptions c48_reverse_list.
Theorem c48_arc_flag_reverses : forall c u,
  samplearc (mkarc (a_c c) (a_r c) (a_start c) (a_end c) (negb (a_rev c))) u = samplearc c (1 - u).
Proof. exact samplearc_reverse. Qed.
Print Assumptions c48_arc_flag_reverses.
Theorem c48_line_reverse : forall p q u, sampleline (q, p) u = sampleline (p, q) (1 - u).
Proof. exact sampleline_reverse. Qed.
Print Assumptions c48_line_reverse.
(** Points, sampled points of lines and arcs, polyline corners, through nested lists ([moved], Fig_Proofs2). *)
Theorem c48_translate_moves : forall g d g', translate g d = Ok g' -> moved d g g'.
Proof. exact translate_moves. Qed.
Print Assumptions c48_translate_moves.
Theorem c48_translate_keeps_length : forall g d g', translate g d = Ok g' -> glength g' = glength g.
Proof. exact translate_length. Qed.
Print Assumptions c48_translate_keeps_length.
Theorem c48_arclength_nonneg : forall c, 0 <= a_r c -> 0 <= arclength c.
Proof. exact arclength_nonneg. Qed.
Print Assumptions c48_arclength_nonneg.
Example c48_nonvacuous :
  Forall reversible [GLine (point 0 0 0, point 1 0 0); GArc (mkarc (point 0 0 0) 1 0 90 false); GPoint (point 0 1 0)] /\
  exists g', translate (GList [GPoly [point 0 0 0; point 1 0 0; point 1 1 0]]) (point 1 2 3) = Ok g'.
Proof. split; [repeat constructor | eexists; reflexivity]. Qed.
(** C55: reversing a polyline gives None, and reversing an arc twice is not the identity. *)
Theorem c55_reverse_poly_refuted : forall a, reverseGeomList [GPoly a] = Ok [GNone].
Proof. exact reverse_poly_refuted. Qed.
Print Assumptions c55_reverse_poly_refuted.
Theorem c55_reverse_arc_twice_refuted :
  exists rs rs' c, reverseGeomList [GArc arc90] = Ok rs /\ reverseGeomList rs = Ok rs' /\ rs' = [GArc c] /\
    samplearc c 0 <> samplearc arc90 0.
Proof. exact reverse_arc_twice_refuted. Qed.
Print Assumptions c55_reverse_arc_twice_refuted.
