(** C46: splines start and end where they should, are weighted averages of their
    control points, and stay in the hull.  C138, C139: where they do not. *)
From Coq Require Import Reals List Bool ZArith Lia Lra.
From Verif Require Import Xform_Model Spline_Model Spline_Spec Spline_Proofs Spline_Proofs2 Spline_Proofs3 Spline_Proofs4.
Import ListNotations.
Open Scope R_scope.

(** * Bezier curves *)
(** Every point of the curve is the Bernstein average of the control points;
    the weights are non-negative and sum to one. *)
Theorem c46_bezier_bernstein : forall pts t,
  pts <> [] -> 0 <= t <= 1 ->
  exists q, bezier_point pts t = Val q /\
            is_combination q (bernstein (length pts - 1) t) pts /\
            (forall i, 0 <= bernstein (length pts - 1) t i) /\
            total (bernstein (length pts - 1) t) (length pts) = 1.
Proof.
  intros pts t H Ht. destruct (bezier_combination pts t H Ht) as (q & E & C).
  exists q. split; [exact E|]. split; [exact C|]. split; [intros; now apply bernstein_nonneg|].
  destruct pts as [|p r]; [congruence|]. cbn [length]. replace (S (length r) - 1)%nat with (length r) by lia.
  apply bernstein_total.
Qed.
Print Assumptions c46_bezier_bernstein.

(** Any parameter, also outside [0,1], gives a point of the convex hull. *)
Theorem c46_bezier_hull : forall pts t,
  pts <> [] -> exists q, bezier_point pts t = Val q /\ in_hull pts q.
Proof. exact bezier_hull. Qed.
Print Assumptions c46_bezier_hull.

Theorem c46_bezier_ends : forall t,
  (forall p r, t <= 0 -> bezier_point (p :: r) t = Val (point (vx p) (vy p) (vz p))) /\
  (forall r p, 1 <= t -> bezier_point (r ++ [p]) t = Val (point (vx p) (vy p) (vz p))).
Proof. intros t. split; [intros; now apply bezier_first|intros; now apply bezier_last]. Qed.
Print Assumptions c46_bezier_ends.

(** The sampled polyline has segments + 1 points, its i-th point is the curve at
    i/segments, and it joins the first control point to the last. *)
Theorem c46_bezier_curve : forall pts segments,
  pts <> [] -> (1 <= segments)%nat ->
  exists line, bezier_curve pts segments = Val line /\
    length line = (segments + 1)%nat /\
    (forall i, (i <= segments)%nat -> exists q,
       nth_error line i = Some q /\ bezier_point pts (INR i / INR segments) = Val q).
Proof.
  intros pts segments H S. unfold bezier_curve.
  replace (Nat.ltb segments 1) with false by (symmetry; apply Nat.ltb_ge; lia).
  destruct (collect_all (fun i => bezier_point pts (INR i / INR segments)) (seq 0 (segments + 1))) as [l E].
  { intros i _. destruct (bezier_value pts (INR i / INR segments) H) as (q & Eq & _). eauto. }
  exists l. destruct (collect_nth _ _ _ E) as [L N]. rewrite seq_length in L.
  split; [exact E|]. split; [exact L|].
  intros i Hi. destruct (N i i) as (q & Eq & Nq).
  { rewrite (nth_error_nth' _ 0%nat) by (rewrite seq_length; lia). rewrite seq_nth by lia. reflexivity. }
  exists q. auto.
Qed.
Print Assumptions c46_bezier_curve.

(** The tangent function returns the derivative of the curve: for a functional
    a*x + b*y + c*z (so for each coordinate) its value along the curve has the
    functional of the tangent as derivative, at every t strictly inside (0,1). *)
Theorem c46_bezier_tangent : forall pts t a b c,
  (2 <= length pts)%nat -> 0 < t < 1 ->
  exists v, bezier_tangent pts t = Val v /\ vw v = 0 /\
    forall (along : R -> R),
      (forall s q, bezier_point pts s = Val q -> along s = a * vx q + b * vy q + c * vz q) ->
      derivable_pt_lim along t (a * vx v + b * vy v + c * vz v).
Proof.
  intros pts t a b c H Ht. destruct (bezier_tangent_value pts t H) as (v & E & W & L).
  exists v. split; [exact E|]. split; [exact W|]. intros along HA.
  assert (NE : pts <> []) by (intros Z; rewrite Z in H; cbn in H; lia).
  change (derivable_pt_lim along t (lin a b c v)). rewrite L, clamp01_id by lra.
  pose proof (bz_derivative (fl a b c pts) (length pts - 1) 0 t) as D.
  replace (length pts - 1 - 1)%nat with (length pts - 2)%nat in D by lia.
  intros eps Heps. destruct (D eps Heps) as [d Hd].
  assert (P : 0 < Rmin d (Rmin t (1 - t))).
  { apply Rmin_pos; [apply cond_pos|]. apply Rmin_pos; lra. }
  exists (mkposreal _ P). intros h Hh Hl. cbn in Hl.
  assert (Hl1 : Rabs h < d) by (eapply Rlt_le_trans; [exact Hl|apply Rmin_l]).
  assert (Hl2 : Rabs h < Rmin t (1 - t)) by (eapply Rlt_le_trans; [exact Hl|apply Rmin_r]).
  assert (Hl3 : Rabs h < t) by (eapply Rlt_le_trans; [exact Hl2|apply Rmin_l]).
  assert (Hl4 : Rabs h < 1 - t) by (eapply Rlt_le_trans; [exact Hl2|apply Rmin_r]).
  assert (B : 0 <= t + h <= 1) by (revert Hl3 Hl4; unfold Rabs; destruct (Rcase_abs h); lra).
  assert (V : forall s, 0 <= s <= 1 -> along s = bz s (fl a b c pts) (length pts - 1) 0).
  { intros s Hs. destruct (bezier_value pts s NE) as (q & Eq & _ & Lq).
    rewrite (HA s q Eq). change (lin a b c q = bz s (fl a b c pts) (length pts - 1) 0).
    rewrite Lq, clamp01_id by lra. reflexivity. }
  rewrite (V (t + h) B), (V t) by lra. apply Hd; assumption.
Qed.
Print Assumptions c46_bezier_tangent.

(** No control points and no segments are rejected. *)
Theorem c46_bezier_errors : forall pts t,
  bezier_point [] t = Value_Error /\ bezier_curve pts 0 = Value_Error.
Proof. intros; split; reflexivity. Qed.
Print Assumptions c46_bezier_errors.

(** * Open B-splines *)
(** Every point is an average of the control points; strictly inside, the
    weights are the Cox-de Boor basis functions over the clamped uniform knots.
    (Fewer than 10^12 spans: wider than the code's 1e-12 tolerance.) *)
Theorem c46_bspline_weights : forall pts t degree,
  (degree < length pts)%nat -> INR (length pts - degree) < 1000000000000 -> 0 <= t <= 1 ->
  exists q w, bspline_point pts t degree false = Val q /\
    is_combination q w pts /\
    (forall i, (i < length pts)%nat -> 0 <= w i) /\ total w (length pts) = 1 /\
    (t < 1 -> forall i, (i < length pts)%nat ->
       w i = cox (fun j => INR (Nat.min (j - degree) (length pts - degree)) / INR (length pts - degree)) i degree t).
Proof.
  intros pts t p H B Ht. destruct (bspline_value pts t p H B) as (q & E & _ & C).
  rewrite clamp01_id in C by assumption.
  destruct (bweights_good (length pts) p t H Ht) as [N T].
  exists q, (bweights (length pts) p t). split; [exact E|]. split; [exact C|]. split; [exact N|]. split; [exact T|].
  intros L i Hi. exact (bweights_cox (length pts) p t i H (conj (proj1 Ht) L) Hi).
Qed.
Print Assumptions c46_bspline_weights.

Theorem c46_bspline_hull : forall pts t degree,
  (degree < length pts)%nat -> INR (length pts - degree) < 1000000000000 ->
  exists q, bspline_point pts t degree false = Val q /\ in_hull pts q.
Proof.
  intros pts t p H B. destruct (bspline_value pts t p H B) as (q & E & _ & C).
  exists q. split; [exact E|].
  destruct (bweights_good (length pts) p (clamp01 t) H (clamp01_in t)) as [N T].
  exact (combination_hull q _ pts C N T).
Qed.
Print Assumptions c46_bspline_hull.

Theorem c46_bspline_ends : forall t degree,
  (forall p r, (degree <= length r)%nat -> INR (S (length r) - degree) < 1000000000000 -> t <= 0 ->
     bspline_point (p :: r) t degree false = Val (point (vx p) (vy p) (vz p))) /\
  (forall r p, (degree <= length r)%nat -> INR (S (length r) - degree) < 1000000000000 -> 1 <= t ->
     bspline_point (r ++ [p]) t degree false = Val (point (vx p) (vy p) (vz p))).
Proof. intros t d. split; [intros; now apply bspline_first|intros; now apply bspline_last]. Qed.
Print Assumptions c46_bspline_ends.

(** Local control: a control point only matters while the parameter is inside
    its degree + 1 spans. *)
Theorem c46_bspline_local : forall l p p' r t degree,
  let n := length (l ++ p :: r) in
  let knot j := INR (Nat.min (j - degree) (n - degree)) / INR (n - degree) in
  (degree < n)%nat -> INR (n - degree) < 1000000000000 -> 0 <= t < 1 ->
  (t < knot (length l) \/ knot (length l + degree + 1)%nat <= t) ->
  bspline_point (l ++ p :: r) t degree false = bspline_point (l ++ p' :: r) t degree false.
Proof.
  intros l p p' r t d n knot H B Ht Out.
  assert (L' : length (l ++ p' :: r) = n) by (unfold n; rewrite !app_length; reflexivity).
  destruct (bspline_value (l ++ p :: r) t d H B) as (q & E & W & C).
  destruct (bspline_value (l ++ p' :: r) t d) as (q' & E' & W' & C'); [now rewrite L'|now rewrite L'|].
  rewrite E, E'. f_equal. rewrite L' in C'. fold n in C.
  rewrite clamp01_id in C, C' by lra.
  assert (Z : bweights n d t (length l) = 0).
  { rewrite bweights_cox; [|assumption|assumption|unfold n; rewrite app_length; cbn; lia].
    pose proof (ku_clamped n d H) as K.
    assert (Ln : (length l < n)%nat) by (unfold n; rewrite app_length; cbn; lia).
    destruct Out as [O|O].
    - apply (cox_below _ _ _ K H); [lia|exact O].
    - apply (cox_above _ _ _ K H); [lia|]. replace (S (length l + d)) with (length l + d + 1)%nat by lia. exact O. }
  assert (S : forall f, weighted f (bweights n d t) 0 (l ++ p :: r) = weighted f (bweights n d t) 0 (l ++ p' :: r)).
  { intros f. rewrite !weighted_app. cbn [weighted Nat.add]. rewrite Z. ring. }
  destruct C as (X & Y & Q). destruct C' as (X' & Y' & Q'). rewrite !S in *.
  destruct q, q'; cbn in *; congruence.
Qed.
Print Assumptions c46_bspline_local.

Theorem c46_bspline_too_few : forall pts t degree closed,
  (length pts <= degree)%nat -> bspline_point pts t degree closed = Value_Error.
Proof.
  intros pts t d c H. unfold bspline_point. rewrite map_length.
  now replace (Nat.ltb (length pts) (d + 1)) with true by (symmetry; apply Nat.ltb_lt; lia).
Qed.
Print Assumptions c46_bspline_too_few.

(** * NURBS *)
(** With clamped knots and positive weights, every parameter below 1 gives the
    rational average of the control points, which lies in the hull. *)
Theorem c46_nurbs_weights : forall ctrl weights knots degree u,
  let n := length ctrl in
  let k := fun i => nth i knots 0 in
  let x := k degree + (k n - k degree) * Rmax 0 (Rmin 1 u) in
  length weights = n -> length knots = (n + degree + 1)%nat -> (degree < n)%nat ->
  clamped k n degree -> (forall i, (i < n)%nat -> 0 < nth i weights 0) -> u < 1 ->
  exists q, evaluate_nurbs (mknurbs ctrl degree weights knots) u = Val q /\
    is_combination q (rational weights k n degree x) ctrl /\
    (forall i, (i < n)%nat -> 0 <= rational weights k n degree x i) /\
    total (rational weights k n degree x) n = 1 /\
    in_hull ctrl q.
Proof.
  intros ctrl weights knots p u n k x LW LK NP K POS Hu.
  destruct (nurbs_inside ctrl weights knots p LW LK NP K POS u Hu) as (q & E & _ & C).
  destruct (rational_good ctrl weights knots p LW LK NP K POS x) as (_ & N & T).
  { exact (real_u ctrl weights knots p LW LK NP K u Hu). }
  exists q. split; [exact E|]. split; [exact C|]. split; [exact N|]. split; [exact T|].
  exact (combination_hull q _ ctrl C N T).
Qed.
Print Assumptions c46_nurbs_weights.

(** It starts at the first control point, and without interior knots (as many
    control points as the degree plus one) it ends at the last. *)
Theorem c46_nurbs_ends : forall ctrl weights knots degree u,
  let n := length ctrl in
  length weights = n -> length knots = (n + degree + 1)%nat -> (degree < n)%nat ->
  clamped (fun i => nth i knots 0) n degree -> (forall i, (i < n)%nat -> 0 < nth i weights 0) ->
  (forall p r, ctrl = p :: r -> u <= 0 ->
     evaluate_nurbs (mknurbs ctrl degree weights knots) u = Val (point (vx p) (vy p) (vz p))) /\
  (forall r p, ctrl = r ++ [p] -> n = S degree -> 1 <= u ->
     evaluate_nurbs (mknurbs ctrl degree weights knots) u = Val (point (vx p) (vy p) (vz p))).
Proof.
  intros ctrl weights knots p u n LW LK NP K POS. split.
  - intros p0 r E Hu. exact (nurbs_start ctrl weights knots p LW LK NP K POS u p0 r E Hu).
  - intros r pn E En Hu. exact (nurbs_end ctrl weights knots p LW LK NP K POS u r pn E En Hu).
Qed.
Print Assumptions c46_nurbs_ends.

(** The constructor's default knots are clamped and its default weights positive,
    so these results apply to every curve made without explicit knots. *)
Theorem c46_nurbs_default : forall ctrl degree weights,
  (1 <= degree < length ctrl)%nat ->
  match weights with Some w => length w = length ctrl /\ (forall x, In x w -> 0 < x) | None => True end ->
  exists w knots, nurbs ctrl degree weights None = Val (mknurbs ctrl degree w knots) /\
    length w = length ctrl /\ length knots = (length ctrl + degree + 1)%nat /\
    clamped (fun i => nth i knots 0) (length ctrl) degree /\
    (forall i, (i < length ctrl)%nat -> 0 < nth i w 0).
Proof.
  intros ctrl d weights H HW. unfold nurbs.
  replace (Nat.eqb (length ctrl) 0) with false by (symmetry; apply Nat.eqb_neq; lia).
  replace (Nat.ltb d 1) with false by (symmetry; apply Nat.ltb_ge; lia).
  replace (Nat.ltb (length ctrl) (d + 1)) with false by (symmetry; apply Nat.ltb_ge; lia).
  destruct weights as [w|].
  - destruct HW as [L P]. rewrite (proj2 (Nat.eqb_eq _ _) L). cbn [obind].
    eexists _, _. split; [reflexivity|]. split; [exact L|]. split; [apply open_uniform_length; lia|].
    split; [apply open_uniform_clamped; lia|].
    intros i Hi. apply P, nth_In. lia.
  - cbn [obind]. eexists _, _. split; [reflexivity|]. split; [apply repeat_length|].
    split; [apply open_uniform_length; lia|]. split; [apply open_uniform_clamped; lia|].
    intros i Hi. assert (G : forall m j, (j < m)%nat -> nth j (repeat 1 m) 0 = 1).
    { induction m as [|m IH]; intros [|j] Hj; cbn; try lia; [reflexivity|]. apply IH. lia. }
    rewrite G by assumption. lra.
Qed.
Print Assumptions c46_nurbs_default.

(** * Catmull-Rom *)
(** The curve passes through every control point: at j / (number of spans) it is
    at control point j (for a closed curve, back at the first at the end). *)
Theorem c46_catmull_through : forall ctrl closed alpha j,
  (2 <= length ctrl)%nat -> 0 <= alpha -> all_apart alpha ctrl closed ->
  (j <= seg_count ctrl closed)%nat ->
  exists q, evaluate_catmullrom ctrl closed alpha (INR j / INR (seg_count ctrl closed)) = Val q /\
            same_place q (ctl ctrl j).
Proof.
  intros ctrl closed alpha j L Ha A H. rewrite evaluate_at_knot by assumption.
  eexists. split; [reflexivity|]. unfold same_place. auto.
Qed.
Print Assumptions c46_catmull_through.

(** Sampling: every segments_per_span-th sample is a control point. *)
Theorem c46_catmull_samples : forall ctrl closed alpha segments_per_span,
  (2 <= length ctrl)%nat -> 0 <= alpha -> all_apart alpha ctrl closed -> (1 <= segments_per_span)%nat ->
  exists samples, sample_catmullrom ctrl closed alpha segments_per_span = Val samples /\
    length samples = (seg_count ctrl closed * segments_per_span + 1)%nat /\
    forall i, (i <= seg_count ctrl closed)%nat ->
      same_place (nth (i * segments_per_span) samples (mkv 0 0 0 1)) (ctl ctrl i).
Proof. exact sample_through. Qed.
Print Assumptions c46_catmull_samples.

(** * Non-vacuity *)
Definition sq4 : list vec := [mkv 0 0 0 1; mkv 1 2 0 1; mkv 3 2 0 1; mkv 4 0 0 1].

Example c46_nonvacuous_bezier : exists q, bezier_point sq4 (1/2) = Val q /\ vx q = 2 /\ vy q = 3 / 2.
Proof.
  eexists. split; [reflexivity|]. cbn. rewrite clamp01_id by lra. split; field.
Qed.

Example c46_nonvacuous_bspline : (3 < length (mkv 5 5 5 1 :: sq4))%nat /\
  INR (length (mkv 5 5 5 1 :: sq4) - 3) < 1000000000000.
Proof. cbn. split; [lia|lra]. Qed.

Example c46_nonvacuous_catmull : all_apart (1/2) sq4 true /\ all_apart (1/2) sq4 false.
Proof.
  assert (F : forall p q, 1 <= dist p q -> apart (1/2) p q).
  { intros p q D. right. apply Rle_trans with (Rpower 1 (1/2)).
    - unfold Rpower. rewrite ln_1, Rmult_0_r, exp_0. lra.
    - apply Rle_Rpower_l; lra. }
  assert (S1 : forall x, 1 <= x -> 1 <= sqrt x).
  { intros x Hx. rewrite <- sqrt_1. apply sqrt_le_1_alt. exact Hx. }
  assert (G : forall i, (i < 4)%nat -> apart (1/2) (ctl sq4 i) (ctl sq4 (i + 1))).
  { intros i Hi. apply F. unfold dist, mag.
    destruct i as [|[|[|[|i]]]]; [| | | |lia]; apply S1; cbn; lra. }
  split; intros i Hi; apply G; cbn in Hi; lia.
Qed.

(** * Refutations *)
(** C138: the default NURBS curve of degree 2 through four points on a line
    should end at the last one, x = 3.  It ends at x = 5/2. *)
Definition line4 : list vec := [mkv 0 0 0 1; mkv 1 0 0 1; mkv 2 0 0 1; mkv 3 0 0 1].

Theorem c138_nurbs_end_refuted :
  exists c q, nurbs line4 2 None None = Val c /\ evaluate_nurbs c 1 = Val q /\
    vx q = 5 / 2 /\ vx (last line4 (mkv 0 0 0 1)) = 3.
Proof.
  eexists. assert (G : exists q, evaluate_nurbs (mknurbs line4 2 (repeat 1 4) (open_uniform_knot_vector 4 2)) 1 = Val q /\ vx q = 5 / 2);
    [|destruct G as (q & G1 & G2); exists q; split; [reflexivity|]; split; [exact G1|]; split; [exact G2|reflexivity]].
  rewrite nurbs_eval by (cbn; lia || reflexivity).
  rewrite clamp01_id by lra.
  set (ks := open_uniform_knot_vector 4 2).
  assert (EK : ks = [0; 0; 0; 1/2; 1; 1; 1]).
  { unfold ks. cbn. repeat f_equal. }
  rewrite EK. cbn [length line4 nth].
  replace (0 + (1 - 0) * 1) with 1 by ring.
  set (kk := [0; 0; 0; 1/2; 1; 1; 1]).
  assert (NB : nbase kk 1 0 = 0 /\ nbase kk 1 1 = 0 /\ nbase kk 1 2 = 1 /\ nbase kk 1 3 = 1 /\ nbase kk 1 4 = 0 /\ nbase kk 1 5 = 0).
  { unfold nbase, kk, kf. cbn [nth last Nat.add].
    unfold Rleb, Rltb, Reqb. repeat split;
    repeat match goal with |- context [Rle_dec ?a ?b] => destruct (Rle_dec a b); try lra end;
    repeat match goal with |- context [Rlt_dec ?a ?b] => destruct (Rlt_dec a b); try lra end;
    repeat match goal with |- context [Req_EM_T ?a ?b] => destruct (Req_EM_T a b); try lra end; reflexivity. }
  destruct NB as (B0 & B1 & B2 & B3 & B4 & B5).
  assert (F0 : forall a, frac a (0 - 0) = 0) by (intros; apply frac_0; ring).
  assert (F1 : forall a, frac a (1 - 1) = 0) by (intros; apply frac_0; ring).
  assert (F2 : forall a, frac a (1/2 - 0) = a * 2) by (intros; rewrite frac_n by lra; field).
  assert (F3 : forall a, frac a (1 - 0) = a) by (intros; rewrite frac_n by lra; field).
  assert (F4 : forall a, frac a (1 - 1/2) = a * 2) by (intros; rewrite frac_n by lra; field).
  assert (W0 : coxb (nbase kk 1) (kf kk) 0 2 1 = 1).
  { cbn [coxb Nat.add]. rewrite B0, B1, B2. unfold kk, kf; cbn [nth]. rewrite !F0, !F2. field. }
  assert (W1 : coxb (nbase kk 1) (kf kk) 1 2 1 = -2).
  { cbn [coxb Nat.add]. rewrite B1, B2, B3. unfold kk, kf; cbn [nth]. rewrite ?F0, ?F2, ?F3, ?F4. field. }
  assert (W2 : coxb (nbase kk 1) (kf kk) 2 2 1 = 2).
  { cbn [coxb Nat.add]. rewrite B2, B3, B4. unfold kk, kf; cbn [nth]. rewrite ?F0, ?F1, ?F2, ?F3, ?F4. field. }
  assert (W3 : coxb (nbase kk 1) (kf kk) 3 2 1 = 1).
  { cbn [coxb Nat.add]. rewrite B3, B4, B5. unfold kk, kf; cbn [nth]. rewrite ?F0, ?F1, ?F2, ?F3, ?F4. field. }
  destruct (nurbs_point_value line4 (repeat 1 4) kk 2 1) as (q' & E & _ & (X & _)); try reflexivity; [discriminate| |].
  - cbn [weighted line4 Nat.add]. rewrite W0, W1, W2, W3. unfold kf; cbn [nth repeat]. lra.
  - exists q'. split; [exact E|]. rewrite X.
    cbn [weighted line4 Nat.add vx]. rewrite W0, W1, W2, W3. unfold kf; cbn [nth repeat]. field.
Qed.
Print Assumptions c138_nurbs_end_refuted.

(** C139: a closed B-spline of degree two or more can never be evaluated: every
    set of control points and every parameter raises IndexError. *)
Theorem c139_closed_refuted : forall pts t degree,
  (2 <= degree)%nat -> (degree < length pts)%nat ->
  bspline_point pts t degree true = Index_Error.
Proof. intros. now apply bspline_closed_fails. Qed.
Print Assumptions c139_closed_refuted.

Theorem c139_closed_curve_refuted : forall pts degree segments,
  (2 <= degree)%nat -> (degree < length pts)%nat -> (1 <= segments)%nat ->
  bspline_curve pts degree true segments = Index_Error.
Proof.
  intros pts d segments H1 H2 H3. unfold bspline_curve.
  replace (Nat.ltb segments 1) with false by (symmetry; apply Nat.ltb_ge; lia).
  replace (segments + 1)%nat with (S segments) by lia. cbn [seq collect].
  rewrite bspline_closed_fails by assumption. reflexivity.
Qed.
Print Assumptions c139_closed_curve_refuted.
