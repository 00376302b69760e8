(** Property theorems about yapcad.geom's arcs: intersections, parameters,
    segments and tangents.  Reals stand for floats. *)
From Coq Require Import Reals List Bool Lra Lia Psatz.
From Verif Require Import Xform_Model Xform_Proofs Fig_Model Fig_Proofs Fig_Proofs2 Isect_Model Isect_Spec
  Isect_Proofs Isect_Proofs2 Isect_Proofs3 Isect_Proofs4 Isect_Proofs5.
Import ListNotations.
Open Scope R_scope.

(** concrete figures *)
Definition circle (x y r : R) : arc := mkarc (point x y 0) r 0 360 false.
Lemma circle_is x y r : iscircle (circle x y r) = true.
Proof. apply circle_iff. split; reflexivity. Qed.
Definition flat (x0 y0 x1 y1 : R) : line := (point x0 y0 0, point x1 y1 0).
Lemma flat_level x0 y0 x1 y1 c L : vz (a_c c) = 0 -> 0 <= a_r c -> epsilon <= L ->
  (x0 - x1) * (x0 - x1) + (y0 - y1) * (y0 - y1) = L * L -> level 0 (flat x0 y0 x1 y1) c /\ linelength (flat x0 y0 x1 y1) = L.
Proof.
  intros Z Hr HL E. assert (EP : 0 < epsilon) by (unfold epsilon; lra).
  assert (K : linelength (flat x0 y0 x1 y1) = L).
  { apply sq_eq; [apply dist_nonneg|lra|]. unfold linelength, flat. cbn [fst snd]. rewrite dist2. unfold point. cbn [vx vy vz]. lra. }
  split; [|exact K]. unfold level. rewrite K. unfold flat, point. cbn [fst snd vz vw]. repeat split; auto.
Qed.
(** the two crossings, in the order of the line *)
Lemma two_roots z l c (inside : bool) h ta tb : level z l c -> line_distance_is l (a_c c) h ->
  epsilon <= (a_r c * a_r c - h * h) * (2 * linelength l) -> ta < tb ->
  on_circle c (sampleline l ta) -> on_circle c (sampleline l tb) ->
  (inside = true -> 0 <= ta <= 1 \/ 0 <= tb <= 1) ->
  lineArcIntersectXY l c inside =
    Ok (answer (filter (kept c inside) (if Reqb tb 1 then [sampleline l ta] else [sampleline l ta; sampleline l tb]))).
Proof.
  intros LV Hh Q O A B S. assert (EP : 0 < epsilon) by (unfold epsilon; lra). pose proof LV as (_ & _ & _ & LL & RR & _).
  unfold lineArcIntersectXY. rewrite (level_planar z l c LV). apply raw_answer.
  - destruct (roots_ok l c z LV inside) as (D & H1 & H2 & H3 & H4).
    pose proof (line_distance_unique _ _ _ _ (h_is l c z LV) Hh) as HE.
    match type of HE with ?e = h => set (h' := e) in * end.
    assert (HN : 0 <= h) by (destruct Hh as [_ [t ->]]; apply dist_nonneg).
    assert (HR : h <= a_r c). { apply sq_le; [exact RR|]. apply Rmult_le_reg_r with (2 * linelength l); [lra|]. lra. }
    destruct A as [A _], B as [B _]. rewrite dist_comm in A, B.
    remember (la_roots l c inside) as ro. destruct H4 as [F | F T | F T | ta' tb' F T O' A' B' U].
    + exfalso. destruct inside; [|specialize (H2 eq_refl); lra]. destruct (S eq_refl) as [K|K]; specialize (H3 _ K); lra.
    + exfalso. change (Rabs (a_r c * a_r c - h' * h') * (2 * linelength l) < epsilon) in T. rewrite HE in T. pose proof (Rle_abs (a_r c * a_r c - h * h)).
      assert ((a_r c * a_r c - h * h) * (2 * linelength l) <= Rabs (a_r c * a_r c - h * h) * (2 * linelength l)) by (apply Rmult_le_compat_r; lra). lra.
    + exfalso. change (epsilon <= (h' * h' - a_r c * a_r c) * (2 * linelength l)) in T. rewrite HE in T. lra.
    + assert (ta' = ta /\ tb' = tb) as [-> ->] by (destruct (U ta A) as [-> | ->], (U tb B) as [-> | ->]; split; lra). destruct (Reqb tb 1); reflexivity.
  - destruct (Reqb tb 1); discriminate.
  - destruct (Reqb tb 1); repeat constructor.
Qed.

(** ** C276 a line and an arc *)
(** Every reported point lies on the line and, unless the line is so nearly
    tangent that the one reported point is the closest point of the line, exactly
    on the circle of the arc. *)
Theorem c276_on_both : forall z l c inside ps p,
  level z l c -> lineArcIntersectXY l c inside = Ok (Some ps) -> In p ps ->
  on_line l p /\
  (on_circle c p \/ (ps = [p] /\ line_distance_is l (a_c c) (dist p (a_c c)) /\
     Rabs (Rsqr (a_r c) - Rsqr (dist p (a_c c))) * (2 * linelength l) < epsilon)).
Proof.
  intros z l c inside ps p LV E I. destruct (line_arc_sound z l c inside ps p LV E I) as (A & _ & _ & B). split; assumption.
Qed.
Print Assumptions c276_on_both.
(** Taken as a line and a circle: unless they are nearly tangent, every common
    point but the line's own end point is reported. *)
Theorem c276_circle_complete : forall z l c h p,
  level z l c -> line_distance_is l (a_c c) h -> epsilon <= (Rsqr (a_r c) - Rsqr h) * (2 * linelength l) ->
  on_line l p -> on_circle c p -> p <> snd l ->
  exists ps, lineArcIntersectXY l c false = Ok (Some ps) /\ In p ps.
Proof. intros z l c h p LV H Q O C N. apply (line_arc_complete z l c false h p); auto. Qed.
Print Assumptions c276_circle_complete.
(** Within segment and arc: every common point of the segment and the arc is
    reported, with the same two exceptions ... *)
Theorem c276_arc_complete : forall z l c h p,
  level z l c -> 0 < a_r c -> plain_arc c \/ iscircle c = true ->
  line_distance_is l (a_c c) h -> epsilon <= (Rsqr (a_r c) - Rsqr h) * (2 * linelength l) ->
  on_segment l p -> on_arc c p -> p <> snd l ->
  exists ps, lineArcIntersectXY l c true = Ok (Some ps) /\ In p ps.
Proof.
  intros z l c h p LV Hr PA H Q O OA N.
  assert (C : on_circle c p) by (destruct OA as (u & _ & ->); apply samplearc_radius; lra).
  assert (W : vw p = 1) by (destruct OA as (u & _ & ->); reflexivity).
  apply (line_arc_complete z l c true h p); auto. unfold kept. cbn [negb orb]. destruct PA as [PA|PA]; [|rewrite PA; reflexivity].
  apply orb_true_iff. right. apply keeps_iff; assumption.
Qed.
Print Assumptions c276_arc_complete.
(** ... and a reported point of the circle is on the arc. *)
Theorem c276_arc_only : forall z l c ps p,
  level z l c -> 0 < a_r c -> plain_arc c \/ iscircle c = true ->
  lineArcIntersectXY l c true = Ok (Some ps) -> In p ps -> on_circle c p -> on_arc c p.
Proof.
  intros z l c ps p LV Hr PA E I C. destruct (line_arc_sound z l c true ps p LV E I) as (_ & W & K & _).
  unfold kept in K. cbn [negb orb] in K. destruct PA as [PA|PA].
  - rewrite (plain_not_circle c PA) in K. apply keeps_iff; assumption.
  - apply circle_on_arc; assumption.
Qed.
Print Assumptions c276_arc_only.
(** False exactly when the line is more than epsilon outside the circle; one or two points otherwise
    (or the error of C278). *)
Theorem c276_outcome : forall z l c h,
  level z l c -> line_distance_is l (a_c c) h ->
  (lineArcIntersectXY l c false = Ok None <-> a_r c + epsilon < h) /\
  (lineArcIntersectXY l c false = ValueError <->
     h <= a_r c + epsilon /\ epsilon <= (Rsqr h - Rsqr (a_r c)) * (2 * linelength l)) /\
  (lineArcIntersectXY l c false = Ok None \/ lineArcIntersectXY l c false = ValueError \/
   exists ps, lineArcIntersectXY l c false = Ok (Some ps) /\ (1 <= length ps <= 2)%nat).
Proof. exact line_arc_outcome. Qed.
Print Assumptions c276_outcome.
(** params=True: the parameters of the points reported for the infinite line and
    the circle, in the same order; sampling with them gives the points back. *)
Theorem c276_params : forall z l c us vs,
  level z l c -> lineArcIntersectXY_params l c = Ok (Some (us, vs)) ->
  exists ps, lineArcIntersectXY l c false = Ok (Some ps) /\ length us = length ps /\ length vs = length ps /\
    (forall i p, nth_error ps i = Some p -> exists u, nth_error us i = Some (Some u) /\ sampleline l u = p) /\
    (forall i p, nth_error ps i = Some p -> 0 < a_r c -> on_circle c p ->
       epsilon <= snd (arc_range c) - fst (arc_range c) ->
       exists v, nth_error vs i = Some (Some v) /\ samplearc c v = p).
Proof.
  intros z l c us vs LV E. pose proof (params_points z l c _ LV E) as (ps & H1 & H2 & H3 & H4 & H5).
  exists ps. split; [exact H1|]. split; [exact H2|]. split; [exact H3|]. split; [exact H4|].
  intros i p Hp Hr C N. pose proof (line_arc_sound z l c false ps p LV H1 (nth_error_In _ _ Hp)) as (_ & W & _).
  destruct (unsample_some c p (Rlt_le _ _ Hr) C (close_range c N)) as [v V]. exists v. rewrite (H5 i p Hp), V. split; [reflexivity|].
  apply (sample_unsample c p v Hr C W V).
Qed.
Print Assumptions c276_params.
Definition cut := flat (-2) 0 2 0.
Lemma axis_h x0 x1 y r : x0 < x1 -> 0 <= y -> line_distance_is (flat x0 y x1 y) (a_c (circle 0 0 r)) y.
Proof.
  intros L Y.
  assert (S : forall t, sampleline (flat x0 y x1 y) t = point (x0 * (1 - t) + x1 * t) y 0).
  { intros t. unfold sampleline, flat, add, scale3, point. cbn [fst snd vx vy vz]. apply mkv_eq; ring. }
  split.
  - intros t. rewrite S. apply sq_le; [apply dist_nonneg|]. rewrite dist2. unfold circle, point. cbn [a_c vx vy vz].
    pose proof (Rle_0_sqr (x0 * (1 - t) + x1 * t)) as K. unfold Rsqr in K. lra.
  - exists (x0 / (x0 - x1)). rewrite S. apply sq_eq; [exact Y|apply dist_nonneg|]. rewrite dist2. unfold circle, point. cbn [a_c vx vy vz]. field. lra.
Qed.
Lemma dist_is p q r : 0 <= r -> (vx p - vx q) * (vx p - vx q) + (vy p - vy q) * (vy p - vy q) + (vz p - vz q) * (vz p - vz q) = r * r -> dist p q = r.
Proof. intros Hr E. apply sq_eq; [apply dist_nonneg|exact Hr|]. rewrite dist2. exact E. Qed.
Example c276_nonvacuous :
  level 0 cut (circle 0 0 1) /\ line_distance_is cut (a_c (circle 0 0 1)) 0 /\
  epsilon <= (Rsqr (a_r (circle 0 0 1)) - Rsqr 0) * (2 * linelength cut) /\
  on_segment cut (point 1 0 0) /\ on_circle (circle 0 0 1) (point 1 0 0) /\ point 1 0 0 <> snd cut /\
  plain_arc (mkarc (point 0 0 0) 1 270 90 false).
Proof.
  destruct (flat_level (-2) 0 2 0 (circle 0 0 1) 4) as [LV LL]; [reflexivity|cbn; lra|unfold epsilon; lra|lra|]. fold cut in LV, LL.
  split; [exact LV|]. split; [apply axis_h; lra|]. split; [rewrite LL; unfold epsilon, Rsqr; cbn; lra|].
  split; [exists (3/4); split; [lra|unfold cut, flat, sampleline, add, scale3, point; cbn [fst snd vx vy vz]; apply mkv_eq; lra]|].
  split; [split; [apply dist_is; cbn; lra|reflexivity]|]. split; [intros E; injection E; lra|].
  unfold plain_arc. cbn [a_start a_end]. repeat split; try lra.
Qed.
(** C277: "inside" only checks the distance of the segment: a segment from the
    centre of the unit circle to its rim is reported to meet it at the opposite
    point, which is not on the segment, and the rim point is not reported. *)
Theorem c277_segment_refuted :
  let l := flat 0 0 1 0 in let c := circle 0 0 1 in
  lineArcIntersectXY l c true = Ok (Some [point (-1) 0 0]) /\
  ~ on_segment l (point (-1) 0 0) /\ on_segment l (point 1 0 0) /\ on_circle c (point 1 0 0).
Proof.
  cbv zeta. destruct (flat_level 0 0 1 0 (circle 0 0 1) 1) as [LV LL]; [reflexivity|cbn; lra|unfold epsilon; lra|lra|].
  assert (S : forall t, sampleline (flat 0 0 1 0) t = point t 0 0).
  { intros t. unfold sampleline, flat, add, scale3, point. cbn [fst snd vx vy vz]. apply mkv_eq; ring. }
  assert (C : forall t, t * t = 1 -> on_circle (circle 0 0 1) (point t 0 0)) by (intros t T; split; [apply dist_is; cbn; lra|reflexivity]).
  split; [|split; [|split]].
  - rewrite (two_roots 0 _ _ true 0 (-1) 1 LV); try (rewrite ?S; first [apply C; lra|lra]).
    + rewrite (proj2 (Reqb_true 1 1)) by reflexivity. rewrite S. cbn [filter]. unfold kept. rewrite circle_is. reflexivity.
    + apply axis_h; lra.
    + rewrite LL. cbn [a_r circle]. unfold epsilon. lra.
  - intros (t & T & E). rewrite S in E. injection E. lra.
  - exists 1. split; [lra|]. rewrite S. reflexivity.
  - apply C. lra.
Qed.
Print Assumptions c277_segment_refuted.
(** C278: near tangency.  A line half an epsilon outside the unit circle makes
    the function raise an error, ... *)
Theorem c278_near_miss_refuted :
  let h := 1 + epsilon / 2 in
  line_distance_is (flat (-10) h 10 h) (a_c (circle 0 0 1)) h /\
  lineArcIntersectXY (flat (-10) h 10 h) (circle 0 0 1) false = ValueError.
Proof.
  intros h. assert (EP : 0 < epsilon) by (unfold epsilon; lra).
  destruct (flat_level (-10) h 10 h (circle 0 0 1) 20) as [LV LL]; [reflexivity|cbn; lra|unfold epsilon; lra|ring|].
  assert (A : line_distance_is (flat (-10) h 10 h) (a_c (circle 0 0 1)) h) by (apply axis_h; unfold h; lra).
  split; [exact A|]. apply (proj1 (proj2 (c276_outcome 0 _ _ h LV A))). rewrite LL. cbn [a_r circle]. unfold Rsqr, h, epsilon. split; lra.
Qed.
Print Assumptions c278_near_miss_refuted.
(** ... and a chord of the unit circle one hundredth inside the rim, given by a
    segment of length 1/10000, is reported to meet it in one point, a hundredth
    (2000 epsilon) away from the circle. *)
Theorem c278_short_line_refuted :
  let l := flat 0 (99/100) (1/10000) (99/100) in let c := circle 0 0 1 in
  exists p q, lineArcIntersectXY l c false = Ok (Some [p]) /\ dist p (a_c c) = 99/100 /\ a_r c - dist p (a_c c) = 2000 * epsilon /\
    on_line l q /\ on_circle c q.
Proof.
  intros l c. assert (EP : 0 < epsilon) by (unfold epsilon; lra).
  destruct (flat_level 0 (99/100) (1/10000) (99/100) c (1/10000)) as [LV LL]; [reflexivity|cbn; lra|unfold epsilon; lra|lra|]. fold l in LV, LL.
  assert (A : line_distance_is l (a_c c) (99/100)) by (apply axis_h; lra).
  destruct (line_arc_cases 0 l c false LV) as (h & D & H1 & H2 & H3 & H4 & H5).
  pose proof (line_distance_unique _ _ _ _ H1 A) as ->. rewrite H3 in H5 by reflexivity. rewrite LL in H5. change (a_r c) with 1 in *.
  destruct H5 as [[F _]|[(F & T & p & O & W & Dp & K)|[(F & T & K)|(F & T & _)]]]; try (exfalso; unfold epsilon in *; lra).
  exists p, (point (sqrt (1 - 99/100 * (99/100))) (99/100) 0). split; [exact K|]. split; [exact Dp|]. split; [rewrite Dp; unfold epsilon; lra|].
  split.
  - exists (10000 * sqrt (1 - 99/100 * (99/100))). unfold l, flat, sampleline, add, scale3, point. cbn [fst snd vx vy vz]. apply mkv_eq; lra.
  - split; [|reflexivity]. apply dist_is; [cbn; lra|]. unfold c, circle, point. cbn [a_c a_r vx vy vz]. rewrite !Rminus_0_r, sqrt_sqrt by lra. lra.
Qed.
Print Assumptions c278_short_line_refuted.

(** ** C279 parameters and segments of arcs *)
(** sampling at the unsampled parameter gives the point back, for every point of
    the circle ... *)
Theorem c279_sample_unsample : forall c p,
  0 < a_r c -> epsilon <= snd (arc_range c) - fst (arc_range c) -> on_circle c p -> vw p = 1 ->
  exists u, unsamplearc c p = Some u /\ samplearc c u = p.
Proof.
  intros c p Hr N C W. destruct (unsample_some c p (Rlt_le _ _ Hr) C (close_range c N)) as [u U]. exists u. split; [exact U|].
  apply (sample_unsample c p u Hr C W U).
Qed.
Print Assumptions c279_sample_unsample.
(** ... and unsampling gives the parameter back, for an arc (reversed or not)
    that does not end at 0 = 360 degrees. *)
Theorem c279_unsample_sample : forall c u,
  0 < a_r c -> plain_arc c -> a_end c <> 0 -> a_end c <> 360 ->
  epsilon <= snd (arc_range c) - fst (arc_range c) -> 0 <= u <= 1 -> unsamplearc c (samplearc c u) = Some u.
Proof.
  intros c u Hr PA N0 N1 N U. destruct (plain_ranged c PA) as [RG LT].
  assert (V : 0 <= (if a_rev c then 1 - u else u) <= 1) by (destruct (a_rev c); lra).
  apply unsample_sample; try assumption. intros L.
  assert (E : snd (arc_range c) <> 360).
  { destruct (plain_range c PA) as [_ ->]. pose proof PA as (A & B & _). destruct (Rltb _ _); lra. }
  destruct RG as [RG1 RG2]. set (v := if a_rev c then 1 - u else u) in *. clearbody v. nra.
Qed.
Print Assumptions c279_unsample_sample.
(** A point off the circle by more than epsilon has no parameter. *)
Theorem c279_off_circle : forall c p, epsilon < Rabs (dist p (a_c c) - a_r c) -> unsamplearc c p = None.
Proof.
  intros c p H. unfold unsamplearc. destruct (arc_range c) as [s e]. destruct (close s e); [reflexivity|].
  fold (dist p (a_c c)). rewrite (proj2 (Rltb_true _ _)) by exact H. reflexivity.
Qed.
Print Assumptions c279_off_circle.
(** The segment of an arc or circle from u1 to u2 (less than a full turn) runs
    from u1 to u2. *)
Theorem c279_segment : forall c u1 u2 t,
  plain_arc c \/ iscircle c = true -> 0 <= u1 -> u1 < u2 -> u2 <= 1 ->
  (iscircle c = true -> u2 - u1 < 1) ->
  samplearc (segmentarc c u1 u2) t = samplearc c (u1 + t * (u2 - u1)).
Proof.
  intros c u1 u2 t PA H0 H1 H2 F.
  assert (G : ranged c /\ (snd (arc_range c) - fst (arc_range c)) * (u2 - u1) < 360).
  { destruct PA as [PA|PA].
    - destruct (plain_ranged c PA) as [RG LT]. split; [exact RG|]. destruct RG as [_ RG]. nra.
    - split; [apply circle_ranged; exact PA|]. destruct (aa_range_circle c PA) as [_ ->]. cbn [fst snd]. specialize (F PA). lra. }
  apply segment_samples; [apply G|exact H1|apply G].
Qed.
Print Assumptions c279_segment.
(** The centre of an arc's midpoint function: half way along, or the centre of a circle. *)
Theorem c279_arccenter : forall c,
  (iscircle c = true -> arccenter c = a_c c) /\ (iscircle c = false -> arccenter c = samplearc c (1/2)).
Proof. intros c. unfold arccenter. split; intros ->; reflexivity. Qed.
Print Assumptions c279_arccenter.
Example c279_nonvacuous : let c := mkarc (point 1 2 0) 3 300 60 true in
  plain_arc c /\ epsilon <= snd (arc_range c) - fst (arc_range c) /\ on_circle c (samplearc c (1/3)).
Proof.
  intros c. assert (PA : plain_arc c) by (unfold plain_arc, c; cbn [a_start a_end]; repeat split; lra).
  split; [exact PA|]. split; [|apply samplearc_radius; cbn; lra]. destruct (plain_range c PA) as [-> ->]. unfold c. cbn [a_start a_end].
  rewrite (proj2 (Rltb_true 60 300)) by lra. unfold epsilon. lra.
Qed.
(** C280: the end point of an arc that ends at 360 degrees: its parameter is -1,
    and it is not "inside" the arc.  And the segment from 0 to 1 of a circle is empty. *)
Definition half := mkarc (point 0 0 0) 1 180 360 false.
Lemma half_range : arc_range half = (180, 360).
Proof. unfold arc_range, half. cbn [a_start a_end]. rewrite (proj2 (Reqb_true 360 360)) by reflexivity. rewrite andb_false_r. reflexivity. Qed.
Lemma half_end : samplearc half 1 = point 1 0 0.
Proof.
  rewrite samplearc_spot, half_range. unfold half. cbn [fst snd a_rev]. rewrite <- spot_mod. replace ((360 - 180) * 1 + 180) with 360 by ring. rewrite pymod_360.
  unfold spot, add, scale3, point. cbn [a_c a_r vx vy vz]. replace (0 * pi2 / 360) with 0 by field. rewrite cos_0, sin_0. apply mkv_eq; ring.
Qed.
Lemma deg_east : deg_of (sub (point 1 0 0) (point 0 0 0)) = 0.
Proof.
  apply (deg_unique _ 1); [lra|lra| |]; unfold sub, point; cbn [vx vy]; replace (0 * pi2 / 360) with 0 by field; rewrite ?cos_0, ?sin_0; ring.
Qed.
Theorem c280_unsample_end_refuted :
  samplearc half 1 = point 1 0 0 /\ unsamplearc half (samplearc half 1) = Some (-1) /\
  isinsidearcXY half (samplearc half 1) = false.
Proof.
  split; [exact half_end|]. rewrite half_end.
  assert (D : dist (point 1 0 0) (point 0 0 0) = 1) by (apply dist_is; cbn; lra). split.
  - unfold unsamplearc. rewrite half_range. unfold half. cbn [a_c a_r a_rev]. fold (dist (point 1 0 0) (point 0 0 0)). rewrite deg_east, D.
    unfold close. rewrite (proj2 (Rltb_false (Rabs (180 - 360)) epsilon)) by (rewrite Rabs_left; unfold epsilon; lra).
    rewrite Rminus_eq_0, Rabs_R0, (proj2 (Rltb_false epsilon 0)) by (unfold epsilon; lra).
    rewrite (proj2 (Rltb_false 360 360)) by lra. cbn [andb]. f_equal. field.
  - unfold isinsidearcXY, half. cbn [a_c a_r a_start a_end]. rewrite dist_comm, D, (proj2 (Rltb_false 1 1)) by lra.
    unfold iscircle. cbn [a_start a_end]. rewrite (proj2 (Reqb_false 180 0)) by lra. cbn [andb]. rewrite (pymod_id 180) by lra. rewrite pymod_360.
    rewrite (proj2 (Rltb_true 0 180)) by lra. rewrite deg_east. rewrite (proj2 (Rleb_true (0 + 360) 360)), (proj2 (Rleb_false 180 0)) by lra. reflexivity.
Qed.
Print Assumptions c280_unsample_end_refuted.
Theorem c280_whole_circle_refuted : forall x y r t,
  samplearc (segmentarc (circle x y r) 0 1) t = samplearc (circle x y r) 0 /\ arclength (segmentarc (circle x y r) 0 1) = 0.
Proof.
  intros x y r t. destruct (aa_range_circle _ (circle_is x y r)) as [_ AR].
  assert (S : segmentarc (circle x y r) 0 1 = mkarc (point x y 0) r 0 0 false).
  { unfold segmentarc, arc_angle. rewrite AR. cbn [circle a_rev a_c a_r]. replace ((360 - 0) * 0 + 0) with 0 by ring. replace ((360 - 0) * 1 + 0) with 360 by ring.
    rewrite pymod_360, pymod_id by lra. reflexivity. }
  rewrite S. split.
  - rewrite !samplearc_spot, AR. unfold arc_range. cbn [a_start a_end]. rewrite (proj2 (Reqb_true 0 0)) by reflexivity. cbn [negb andb fst snd a_rev circle].
    replace ((0 - 0) * t + 0) with 0 by ring. replace ((360 - 0) * 0 + 0) with 0 by ring. reflexivity.
  - unfold arclength, iscircle. cbn [a_start a_end a_r]. rewrite (proj2 (Reqb_false 0 360)), andb_false_r by lra. rewrite (pymod_id 0) by lra.
    rewrite (proj2 (Rltb_false 0 0)) by lra. unfold pi2. field.
Qed.
Print Assumptions c280_whole_circle_refuted.

(** ** C281 two arcs *)
Definition level2 (z : R) (c1 c2 : arc) : Prop :=
  vz (a_c c1) = z /\ vz (a_c c2) = z /\ 0 <= a_r c1 /\ 0 <= a_r c2 /\ epsilon <= dist (a_c c1) (a_c c2).
Lemma level2_planar z c1 c2 : level2 z c1 c2 -> isXYPlanar [a_c c1; a_c c2] = true.
Proof.
  intros (H1 & H2 & _). unfold isXYPlanar. cbn [forallb]. rewrite H1, H2, Rminus_eq_0, Rabs_R0, (proj2 (Rltb_false epsilon 0)) by (unfold epsilon; lra). reflexivity.
Qed.
Lemma raw_points c1 c2 : arcArc_raw c1 c2 false = aa_points c1 c2.
Proof. unfold arcArc_raw. destruct (aa_points c1 c2) as [[s|]| | | | |]; reflexivity. Qed.
Lemma aa_false z c1 c2 : level2 z c1 c2 -> arcArcIntersectXY c1 c2 false = aa_points c1 c2.
Proof. intros L. unfold arcArcIntersectXY. rewrite (level2_planar z c1 c2 L). apply raw_points. Qed.
(** Reported points of two circles lie on both, or the one reported point is
    within the tangency tolerance of both. *)
Theorem c281_on_both : forall z c1 c2 ps p,
  level2 z c1 c2 -> arcArcIntersectXY c1 c2 false = Ok (Some ps) -> In p ps ->
  (on_circle c1 p /\ on_circle c2 p) \/
  (ps = [p] /\ vz p = z /\ 2 * Rabs (Rsqr (a_r c1) - Rsqr (dist p (a_c c1))) < epsilon /\
     2 * Rabs (Rsqr (a_r c2) - Rsqr (dist p (a_c c2))) < epsilon).
Proof.
  intros z c1 c2 ps p L E I. rewrite (aa_false z c1 c2 L) in E. destruct L as (H1 & H2 & H3 & H4 & H5).
  exact (proj2 (aa_sound c1 c2 z H1 H2 H3 H4 H5 ps p E I)).
Qed.
Print Assumptions c281_on_both.
(** Every common point whose height k/d above the line of centres satisfies
    2 (k/d)^2 >= epsilon and is not exactly -1 is reported. *)
Theorem c281_complete : forall z c1 c2 p,
  level2 z c1 c2 -> on_circle c1 p -> on_circle c2 p -> vw p = 1 ->
  let d := dist (a_c c1) (a_c c2) in
  let k := (vx (a_c c2) - vx (a_c c1)) * (vy p - vy (a_c c1)) - (vy (a_c c2) - vy (a_c c1)) * (vx p - vx (a_c c1)) in
  epsilon * Rsqr d <= 2 * Rsqr k -> k <> - d ->
  exists ps, arcArcIntersectXY c1 c2 false = Ok (Some ps) /\ In p ps.
Proof.
  intros z c1 c2 p L C1 C2 W d k A B. rewrite (aa_false z c1 c2 L). destruct L as (H1 & H2 & H3 & H4 & H5).
  exact (aa_complete c1 c2 z H1 H2 H3 H4 H5 p C1 C2 W A B).
Qed.
Print Assumptions c281_complete.
(** Two circles give an answer, False exactly when one is outside or inside the other. *)
Theorem c281_outcome : forall z c1 c2, level2 z c1 c2 ->
  let d := dist (a_c c1) (a_c c2) in
  (arcArcIntersectXY c1 c2 false = Ok None /\ (a_r c1 + a_r c2 < d \/ d < Rabs (a_r c1 - a_r c2))) \/
  (exists ps, arcArcIntersectXY c1 c2 false = Ok (Some ps) /\ (1 <= length ps <= 2)%nat /\
     d <= a_r c1 + a_r c2 /\ Rabs (a_r c1 - a_r c2) <= d).
Proof.
  intros z c1 c2 L d. rewrite (aa_false z c1 c2 L). destruct L as (H1 & H2 & H3 & H4 & H5).
  pose proof (apart_iff c1 c2 H5) as AI. fold d in AI. destruct (aa_apart c1 c2) eqn:A.
  - left. split; [unfold aa_points; rewrite A; reflexivity|].
    destruct (Rlt_dec (a_r c1 + a_r c2) d) as [Q|Q]; [left; exact Q|right]. apply Rnot_le_lt. intros K. apply rabs_inv in K.
    assert (X : true = false) by (apply AI; lra). discriminate.
  - right. destruct (aa_total c1 c2 z H1 H2 H3 H5 A) as (ps & E & N). exists ps. split; [exact E|]. split; [exact N|].
    destruct (proj1 AI eq_refl) as (K1 & K2 & K3). split; [exact K1|]. apply Rabs_le. lra.
Qed.
Print Assumptions c281_outcome.
(** With inside=True exactly the reported points on both arcs remain, False when none does. *)
Theorem c281_arcs : forall z c1 c2 ps,
  level2 z c1 c2 -> 0 < a_r c1 -> 0 < a_r c2 -> fair_arc c1 -> fair_arc c2 ->
  arcArcIntersectXY c1 c2 false = Ok (Some ps) -> (forall p, In p ps -> on_circle c1 p /\ on_circle c2 p) ->
  (exists qs, arcArcIntersectXY c1 c2 true = Ok (Some qs) /\ qs <> [] /\
     forall p, In p qs <-> In p ps /\ on_arc c1 p /\ on_arc c2 p) \/
  (arcArcIntersectXY c1 c2 true = Ok None /\ forall p, In p ps -> ~ (on_arc c1 p /\ on_arc c2 p)).
Proof.
  intros z c1 c2 ps L P1 P2 F1 F2 E ON. rewrite (aa_false z c1 c2 L) in E. unfold arcArcIntersectXY. rewrite (level2_planar z c1 c2 L).
  unfold arcArc_raw. rewrite E. cbn [bind negb]. set (f := fun p => _ && _). pose proof L as (H1 & H2 & H3 & H4 & H5).
  assert (F : forall p, In p (filter f ps) <-> In p ps /\ on_arc c1 p /\ on_arc c2 p).
  { intros p. rewrite filter_In. split; intros [I K].
    - pose proof (aa_sound c1 c2 z H1 H2 H3 H4 H5 ps p E I) as [W _]. destruct (ON p I) as [O1 O2]. unfold f in K. apply andb_true_iff in K as [K1 K2].
      split; [exact I|]. split; [apply (within_iff c1 p F1 P1 O1 W), K1|apply (within_iff c2 p F2 P2 O2 W), K2].
    - pose proof (aa_sound c1 c2 z H1 H2 H3 H4 H5 ps p E I) as [W _]. destruct (ON p I) as [O1 O2]. destruct K as [K1 K2]. split; [exact I|].
      unfold f. apply andb_true_iff. split; [apply (within_iff c1 p F1 P1 O1 W), K1|apply (within_iff c2 p F2 P2 O2 W), K2]. }
  destruct (filter f ps) as [|q qs].
  - right. split; [reflexivity|]. intros p I K. apply (proj2 (F p)). auto.
  - left. exists (q :: qs). split; [reflexivity|]. split; [discriminate|exact F].
Qed.
Print Assumptions c281_arcs.
(** params=True: parameters of all the points of the circles; sampling gives the
    points back, and a point of the first arc has its parameter in [0,1]; so has
    a point of the second arc when that arc does not pass 360 degrees. *)
Theorem c281_params : forall z c1 c2 ps,
  level2 z c1 c2 -> 0 < a_r c1 -> 0 < a_r c2 -> fair_arc c1 -> fair_arc c2 ->
  arcArcIntersectXY c1 c2 false = Ok (Some ps) -> (forall p, In p ps -> on_circle c1 p /\ on_circle c2 p) ->
  exists us vs, arcArcIntersectXY_params c1 c2 = Ok (Some (us, vs)) /\ length us = length ps /\ length vs = length ps /\
    (forall i p, nth_error ps i = Some p -> exists u v, nth_error us i = Some u /\ nth_error vs i = Some v /\
       samplearc c1 u = p /\ samplearc c2 v = p /\ (on_arc c1 p -> 0 <= u <= 1) /\
       (on_arc c2 p -> a_start c2 <= a_end c2 -> 0 <= v <= 1)).
Proof.
  intros z c1 c2 ps L P1 P2 F1 F2 E ON. rewrite (aa_false z c1 c2 L) in E. unfold arcArcIntersectXY_params. rewrite (level2_planar z c1 c2 L).
  unfold arcArc_params_raw. rewrite E. cbn [bind]. pose proof L as (H1 & H2 & H3 & H4 & H5).
  set (lim := snd (aa_range c1)).
  assert (E2 : a_start c2 <= a_end c2 -> snd (aa_range c2) <= 360).
  { intros Q. destruct F2 as [F2|(F2 & _)]; [apply circle_iff in F2; destruct (aa_range_circle c2 F2) as [-> _]; cbn [snd]; lra|].
    rewrite (aa_range_plain c2 F2). destruct (plain_range c2 F2) as [_ ->]. rewrite (proj2 (Rltb_false _ _)) by lra. apply F2. }
  assert (W : Forall (fun p => vw p = 1 /\ on_circle c1 p /\ on_circle c2 p) ps).
  { apply Forall_forall. intros p I. split; [apply (aa_sound c1 c2 z H1 H2 H3 H4 H5 ps p E I)|apply ON; exact I]. }
  clear E ON. set (f := fun p : vec => _).
  assert (G : exists us, mapR f ps = Ok us /\ length us = length ps /\ forall i p, nth_error ps i = Some p -> exists u v, nth_error us i = Some (u, v) /\
       samplearc c1 u = p /\ samplearc c2 v = p /\ (on_arc c1 p -> 0 <= u <= 1) /\ (on_arc c2 p -> a_start c2 <= a_end c2 -> 0 <= v <= 1)).
  { induction W as [|p ps (W & O1 & O2) Wr (us & E & Len & IH)].
    - exists []. split; [reflexivity|]. split; [reflexivity|]. intros [|i] p; discriminate.
    - destruct (aa_param_ok c1 p lim F1 P1 O1 W) as (u & U1 & U2 & U3). destruct (aa_param_ok c2 p lim F2 P2 O2 W) as (v & V1 & V2 & V3).
      exists ((u, v) :: us). cbn [mapR]. unfold f at 1. rewrite U1. cbn [bind]. rewrite V1. cbn [bind]. rewrite E. cbn [bind]. split; [reflexivity|].
      split; [cbn; f_equal; exact Len|]. intros [|i] q Hq; cbn [nth_error] in *; [|apply IH; exact Hq]. injection Hq as <-. exists u, v.
      split; [reflexivity|]. split; [exact U2|]. split; [exact V2|]. split; [intros; apply U3; auto|]. intros; apply V3; auto. }
  destruct G as (us & -> & Len & G). cbn [bind]. exists (map fst us), (map snd us). split; [reflexivity|]. split; [rewrite map_length; exact Len|]. split; [rewrite map_length; exact Len|].
  intros i p Hp. destruct (G i p Hp) as (u & v & K & R). exists u, v. rewrite !nth_error_map, K. split; [reflexivity|]. split; [reflexivity|exact R].
Qed.
Print Assumptions c281_params.
(** circles of radius 5 and 4 whose centres are 3 apart meet at (3,4) and (3,-4) *)
Lemma five_four c2 : a_c c2 = point 3 0 0 -> a_r c2 = 4 ->
  level2 0 (circle 0 0 5) c2 /\ dist (a_c (circle 0 0 5)) (a_c c2) = 3 /\ (forall y, y * y = 16 -> on_circle (circle 0 0 5) (point 3 y 0) /\ on_circle c2 (point 3 y 0)).
Proof.
  intros E1 E2. assert (D : dist (a_c (circle 0 0 5)) (a_c c2) = 3) by (rewrite E1; apply dist_is; cbn; lra).
  split; [|split].
  - unfold level2. rewrite D, E1, E2. cbn. unfold epsilon. repeat split; lra.
  - exact D.
  - intros y Y. unfold on_circle. rewrite E1, E2. cbn [circle a_c a_r]. split; (split; [apply dist_is; cbn; lra|reflexivity]).
Qed.
Example c281_nonvacuous : let c1 := circle 0 0 5 in let c2 := circle 3 0 4 in let p := point 3 4 0 in
  level2 0 c1 c2 /\ on_circle c1 p /\ on_circle c2 p /\
  (let k := (vx (a_c c2) - vx (a_c c1)) * (vy p - vy (a_c c1)) - (vy (a_c c2) - vy (a_c c1)) * (vx p - vx (a_c c1)) in
   epsilon * Rsqr 3 <= 2 * Rsqr k /\ k <> -3) /\ fair_arc c1.
Proof.
  intros c1 c2 p. destruct (five_four c2) as (A & B & C); [reflexivity|reflexivity|]. split; [exact A|]. split; [apply C; lra|]. split; [apply C; lra|].
  split; [cbn; unfold epsilon, Rsqr; split; lra|]. left. split; reflexivity.
Qed.
(** C282: circles of radius 5/4 whose centres are 3/2 apart meet at (3/4,1) and
    (3/4,-1), one unit from the line of centres; only the first is reported. *)
Theorem c282_unit_chord_refuted :
  let c1 := circle 0 0 (5/4) in let c2 := circle (3/2) 0 (5/4) in
  arcArcIntersectXY c1 c2 false = Ok (Some [point (3/4) 1 0]) /\
  on_circle c1 (point (3/4) (-1) 0) /\ on_circle c2 (point (3/4) (-1) 0).
Proof.
  intros c1 c2. assert (D : dist (a_c c1) (a_c c2) = 3/2) by (apply dist_is; cbn; lra).
  assert (L : level2 0 c1 c2) by (unfold level2; rewrite D; cbn; unfold epsilon; repeat split; lra).
  assert (C : forall y, y * y = 1 -> on_circle c1 (point (3/4) y 0) /\ on_circle c2 (point (3/4) y 0)).
  { intros y Y. split; (split; [apply dist_is; cbn; lra|reflexivity]). }
  split; [|apply C; lra]. rewrite (aa_false 0 c1 c2 L). pose proof L as (H1 & H2 & H3 & H4 & H5).
  assert (NA : aa_apart c1 c2 = false) by (apply (apart_iff c1 c2 H5); rewrite D; cbn; lra).
  assert (S : forall t, sampleline (aa_line c1 c2) t = point (3/4) (- t) 0).
  { intros t. rewrite (l_at c1 c2 0 H1 H2 H5 t), D. unfold c1, c2, circle, point. cbn [a_c a_r vx vy vz]. apply mkv_eq; field. }
  destruct (aa_cases c1 c2 0 H1 H2 H3 H5 NA) as [[Q _]|(Q & t & T1 & T2 & ->)].
  - exfalso. rewrite D in Q. unfold c1, c2, circle in Q. cbn [a_r] in Q. rewrite Rabs_right in Q; unfold epsilon in Q; lra.
  - rewrite D in T2. unfold c1, c2, circle in T2. cbn [a_r] in T2. assert (t = 1) by nra. subst t. rewrite (proj2 (Reqb_true 1 1)) by reflexivity.
    rewrite S. do 3 f_equal. unfold point. apply mkv_eq; ring.
Qed.
Print Assumptions c282_unit_chord_refuted.
(** C282: with params=True an intersection that lies on the second arc, the arc
    from 280 to 100 degrees, gets a negative parameter on it. *)
Definition wrap := mkarc (point 3 0 0) 4 280 100 false.
Lemma wrap_plain : plain_arc wrap.
Proof. unfold plain_arc, wrap. cbn [a_start a_end]. repeat split; lra. Qed.
Lemma wrap_fair : fair_arc wrap.
Proof. right. split; [exact wrap_plain|]. unfold wrap. cbn [a_end]. lra. Qed.
Lemma deg_north : deg_of (sub (point 3 4 0) (point 3 0 0)) = 90.
Proof.
  apply (deg_unique _ 4); [lra|lra| |]; unfold sub, point; cbn [vx vy]; replace (90 * pi2 / 360) with (PI / 2) by (unfold pi2; field); rewrite ?cos_PI2, ?sin_PI2; ring.
Qed.
Theorem c282_params_refuted :
  on_arc (circle 0 0 5) (point 3 4 0) /\ on_arc wrap (point 3 4 0) /\
  exists us vs i v, arcArcIntersectXY_params (circle 0 0 5) wrap = Ok (Some (us, vs)) /\
    nth_error vs i = Some v /\ samplearc wrap v = point 3 4 0 /\ v = -(19/18).
Proof.
  destruct (five_four wrap eq_refl eq_refl) as (L & D & C). destruct (C 4 ltac:(lra)) as [O1 O2].
  assert (F1 : fair_arc (circle 0 0 5)) by (left; split; reflexivity).
  split; [apply circle_on_arc; [cbn; lra|apply circle_is|exact O1|reflexivity]|].
  assert (WR : aa_range wrap = (280, 460)).
  { rewrite (aa_range_plain wrap wrap_plain), (surjective_pairing (arc_range wrap)). destruct (plain_range wrap wrap_plain) as [-> ->]. unfold wrap. cbn [a_start a_end].
    rewrite (proj2 (Rltb_true 100 280)) by lra. f_equal. lra. }
  split.
  { apply (within_iff wrap _ wrap_fair); [cbn; lra|exact O2|reflexivity|]. rewrite WR. unfold wrap. cbn [a_c]. rewrite deg_north. unfold aa_within.
    rewrite (proj2 (Rltb_true 360 460)), (proj2 (Rleb_true 90 (460 - 360))) by lra. rewrite !orb_true_r. reflexivity. }
  destruct (c281_complete 0 (circle 0 0 5) wrap (point 3 4 0) L O1 O2 eq_refl) as (ps & E & I).
  { rewrite D. cbn. unfold epsilon, Rsqr. lra. } { rewrite D. cbn. lra. }
  assert (ON : forall p, In p ps -> on_circle (circle 0 0 5) p /\ on_circle wrap p).
  { intros p Ip. destruct (c281_on_both 0 _ _ ps p L E Ip) as [K|(K & _ & K1 & _)]; [exact K|]. rewrite K in I. destruct I as [->|[]]. split; assumption. }
  destruct (c281_params 0 _ wrap ps L ltac:(cbn; lra) ltac:(cbn; lra) F1 wrap_fair E ON) as (us & vs & P & _ & _ & _).
  exists us, vs. apply In_nth_error in I as [i Hi].
  unfold arcArcIntersectXY_params in P. rewrite (level2_planar 0 _ _ L) in P. rewrite (aa_false 0 _ _ L) in E. unfold arcArc_params_raw in P. rewrite E in P. cbn [bind] in P.
  assert (AL : aa_range (circle 0 0 5) = (0, 360)) by apply (aa_range_circle _ (circle_is 0 0 5)).
  rewrite AL, WR in P. cbn [snd] in P. set (f := fun p : vec => _) in P.
  assert (V : exists u, f (point 3 4 0) = Ok (u, -(19/18))).
  { unfold f. destruct (aa_param_ok (circle 0 0 5) (point 3 4 0) 360 F1 ltac:(cbn; lra) O1 eq_refl) as (u & U & _). rewrite AL in U. rewrite U. cbn [bind].
    exists u. unfold wrap. cbn [a_c a_rev]. rewrite deg_north. unfold aa_param. rewrite (proj2 (Rltb_true 360 460)), (proj2 (Rltb_true (360 - 360) 90)), orb_true_r by lra.
    unfold fdiv. rewrite (proj2 (Reqb_false (460 - 280) 0)) by lra. cbn [bind]. do 2 f_equal. field. }
  destruct V as [u V].
  assert (G : forall ps i us, nth_error ps i = Some (point 3 4 0) -> mapR f ps = Ok us -> nth_error us i = Some (u, -(19/18))).
  { clear - V. induction ps as [|p ps IH]; intros [|i] us Hi Hm; try discriminate; cbn [mapR nth_error] in *.
    - injection Hi as ->. rewrite V in Hm. cbn [bind] in Hm. destruct (mapR f ps); cbn [bind] in Hm; try discriminate. injection Hm as <-. reflexivity.
    - destruct (f p); cbn [bind] in Hm; try discriminate. destruct (mapR f ps) as [ys| | | | |] eqn:M; cbn [bind] in Hm; try discriminate. injection Hm as <-. cbn [nth_error]. apply IH; auto. }
  destruct (mapR f ps) as [ys| | | | |] eqn:M; cbn [bind] in P; try discriminate. specialize (G ps i ys Hi M). injection P as <- <-.
  exists i, (-(19/18)). split; [unfold arcArcIntersectXY_params; rewrite (level2_planar 0 _ _ L); unfold arcArc_params_raw; rewrite E; cbn [bind]; rewrite AL, WR; cbn [snd]; fold f; rewrite M; reflexivity|].
  split; [rewrite nth_error_map, G; reflexivity|]. split; [|reflexivity].
  rewrite samplearc_spot, <- (aa_range_plain wrap wrap_plain), WR. unfold wrap. cbn [fst snd a_rev]. replace ((460 - 280) * - (19 / 18) + 280) with 90 by field.
  unfold spot, add, scale3, point. cbn [a_c a_r vx vy vz]. replace (90 * pi2 / 360) with (PI / 2) by (unfold pi2; field). rewrite cos_PI2, sin_PI2. apply mkv_eq; ring.
Qed.
Print Assumptions c282_params_refuted.

(** ** C283 tangent lines of two circles *)
(** Two different lines, each from a point of the first circle to a point of the
    second, that touch both circles without crossing them. *)
Theorem c283_tangents : forall z c1 c2,
  iscircle c1 = true -> iscircle c2 = true -> vz (a_c c1) = z -> vz (a_c c2) = z -> 0 <= a_r c1 -> 0 <= a_r c2 ->
  Rabs (a_r c1 - a_r c2) < dist (a_c c1) (a_c c2) ->
  exists l1 l2, circleCircleTangentsXY c1 c2 = Ok (l1, l2) /\ both_tangent c1 c2 l1 /\ both_tangent c1 c2 l2 /\
    (0 < a_r c1 \/ 0 < a_r c2 -> l1 <> l2).
Proof. intros z c1 c2. exact (tangents_ok c1 c2 z). Qed.
Print Assumptions c283_tangents.
(** From a point outside a circle: two lines that start within epsilon of the
    point and touch the circle. *)
Theorem c283_from_point : forall z p c,
  iscircle c = true -> vz p = z -> vz (a_c c) = z -> 0 <= a_r c -> Rabs (epsilon - a_r c) < dist p (a_c c) ->
  exists l1 l2, pointCircleTangentsXY p c = Ok (l1, l2) /\ l1 <> l2 /\
    dist (fst l1) p = epsilon /\ dist (fst l2) p = epsilon /\ tangent_at l1 c (snd l1) /\ tangent_at l2 c (snd l2).
Proof.
  intros z p c I Z1 Z2 Hr D.
  destruct (tangents_ok (mkarc p epsilon 0 360 false) c z) as (l1 & l2 & E & [A1 A2] & [B1 B2] & N); auto.
  - apply circle_iff. split; reflexivity.
  - cbn. unfold epsilon. lra.
  - exists l1, l2. split; [exact E|]. split; [apply N; left; cbn; unfold epsilon; lra|]. destruct A1 as ((A1 & _) & _), B1 as ((B1 & _) & _).
    split; [exact A1|]. split; [exact B1|]. split; assumption.
Qed.
Print Assumptions c283_from_point.
Example c283_nonvacuous : Rabs (a_r (circle 0 0 1) - a_r (circle 10 0 3)) < dist (a_c (circle 0 0 1)) (a_c (circle 10 0 3)).
Proof. rewrite (dist_is _ _ 10); [|lra|cbn; lra]. cbn. rewrite Rabs_left; lra. Qed.
(** C284: when the centres are too close the documented answer is False; the
    function raises an error instead. *)
Theorem c284_too_close_refuted : forall c1 c2,
  iscircle c1 = true -> iscircle c2 = true -> dist (a_c c1) (a_c c2) <= Rabs (a_r c1 - a_r c2) ->
  circleCircleTangentsXY c1 c2 = ValueError.
Proof. exact tangents_error. Qed.
Print Assumptions c284_too_close_refuted.
Example c284_nonvacuous : dist (a_c (circle 0 0 1)) (a_c (circle 1 0 3)) <= Rabs (a_r (circle 0 0 1) - a_r (circle 1 0 3)).
Proof. rewrite (dist_is _ _ 1); [|lra|cbn; lra]. cbn. rewrite Rabs_left; lra. Qed.

(** ** C285 the inside test of circles and arcs *)
Theorem c285_circle : forall c p, iscircle c = true -> (isinsidearcXY c p = true <-> dist (a_c c) p <= a_r c).
Proof. exact inside_circle. Qed.
Print Assumptions c285_circle.
(** for an arc: the sector between its two radii (the centre apart) *)
Theorem c285_sector : forall c p,
  fair_arc c -> 0 < dist (a_c c) p -> vz p = vz (a_c c) -> vw p = 1 ->
  (isinsidearcXY c p = true <-> dist (a_c c) p <= a_r c /\ on_arc (through c p) p).
Proof. exact inside_sector. Qed.
Print Assumptions c285_sector.
Example c285_nonvacuous : fair_arc wrap /\ 0 < dist (a_c wrap) (point 3 4 0) /\ isinsidearcXY (circle 0 0 1) (point (1/2) 0 0) = true.
Proof.
  split; [exact wrap_fair|]. split; [rewrite (dist_is _ _ 4); [lra|lra|cbn; lra]|]. apply inside_circle; [apply circle_is|].
  rewrite (dist_is _ _ (1/2)); [cbn; lra|lra|cbn; lra].
Qed.
(** C286: the docstring promises True only for points within epsilon of an arc
    that is not a circle; a point half a radius away is accepted. *)
Theorem c286_on_arc_refuted :
  let p := point 3 2 0 in isinsidearcXY wrap p = true /\ dist p (a_c wrap) = 2 /\ a_r wrap = 4.
Proof.
  intros p. assert (D : dist p (a_c wrap) = 2) by (apply dist_is; cbn; lra). assert (DN : deg_of (sub p (a_c wrap)) = 90).
  { apply (deg_unique _ 2); [lra|lra| |]; unfold sub, p, wrap, point; cbn [a_c vx vy]; replace (90 * pi2 / 360) with (PI / 2) by (unfold pi2; field); rewrite ?cos_PI2, ?sin_PI2; ring. }
  split; [|split; [exact D|reflexivity]]. unfold isinsidearcXY. rewrite DN, dist_comm, D, (plain_not_circle wrap wrap_plain). unfold wrap. cbn [a_r a_start a_end].
  rewrite (proj2 (Rltb_false 4 2)) by lra. rewrite !pymod_id by lra. rewrite (proj2 (Rltb_true 100 280)) by lra.
  rewrite (proj2 (Rleb_false (100 + 360) 360)), (proj2 (Rleb_true 90 (100 + 360 - 360))), orb_true_r by lra. reflexivity.
Qed.
Print Assumptions c286_on_arc_refuted.
