(** Properties of yapcad/manufacturing/path_utils.py (C250-C257). *)
From Coq Require Import Reals List Bool ZArith Lra Lia.
From Verif Require Import Xform_Model Xform_Proofs Path_Model Path_Spec Path_Proofs Path_Proofs2 Path_Proofs3.
Import ListNotations.
Open Scope R_scope.

(** an L shaped tube: a straight piece and a quarter turn *)
Definition v3 x y z : vec := mkv x y z 0.
Definition bend : list seg := [Line (v3 0 0 0) (v3 1 0 0); Arc (v3 1 1 0) (v3 1 0 0) (v3 2 1 0) (v3 0 0 1)].
Lemma mag_of v r : 0 <= r -> dot v v = r * r -> mag v = r.
Proof. intros H E. unfold mag. unfold dot in E. rewrite E. apply sqrt_square, H. Qed.
Lemma bend_good : Forall good bend.
Proof.
  repeat constructor; unfold dist; rewrite ?(mag_of _ 1); unfold tiny10, dot, sub, v3; cbn [vx vy vz]; lra.
Qed.
Lemma bend_joined : joined bend. Proof. repeat split. Qed.

(** C250: evaluate_path3d_at_t follows the segments in order, the i-th over [i/n, (i+1)/n]. *)
Theorem c250_evaluate p i u : Forall good p -> joined p -> (i < length p)%nat -> 0 <= u <= 1 ->
  exists q d, evaluate p ((INR i + u) / INR (length p)) = Ok (q, d) /\ along (nth i p Other) u q.
Proof.
  intros G J L U. assert (N : 0 < INR (length p)) by (apply lt_0_INR; lia). pose proof (pos_INR i).
  assert (NE : p <> []) by (intros ->; cbn in L; lia).
  assert (LE : INR i + 1 <= INR (length p)) by (rewrite <- S_INR; apply le_INR; lia).
  destruct (evaluate_pos p G J ((INR i + u) / INR (length p)) NE) as [d E].
  { split; [apply Rmult_le_pos; [lra|left; apply Rinv_0_lt_compat, N]|]. apply (Rmult_le_reg_r (INR (length p))); [exact N|]. unfold Rdiv. rewrite Rmult_assoc, Rinv_l by lra. lra. }
  replace ((INR i + u) / INR (length p) * INR (length p)) with (INR i + u) in E by (field; lra).
  rewrite pos_at in E by assumption. eexists. eexists. split; [exact E|]. apply pt_along, sg_good; assumption.
Qed.
Print Assumptions c250_evaluate.
(** and the point at a fraction of a segment is unique, so this determines the answer *)
Theorem c250_determined g u q q' : good g -> along g u q -> along g u q' -> q = q'.
Proof. intros G H H'. rewrite (along_pt g u q G H), (along_pt g u q' G H'). reflexivity. Qed.
Print Assumptions c250_determined.
Theorem c250_ends p : Forall good p -> joined p -> p <> [] ->
  (exists d, evaluate p 0 = Ok (seg_start (hd Other p), d)) /\ (exists d, evaluate p 1 = Ok (seg_end (last p Other), d)).
Proof. exact (ends_of p). Qed.
Print Assumptions c250_ends.
(** every point of an arc is on its circle and in its plane *)
Theorem c250_on_circle c s e n u q : good (Arc c s e n) -> along (Arc c s e n) u q -> dist q c = dist s c /\ dot n (sub q c) = 0.
Proof.
  intros (_ & _ & _ & H1 & H2 & _ & H4 & _) (al & _ & ->). pose proof tiny_pos. split; [apply turned_dist|apply turned_plane]; auto; lra.
Qed.
Print Assumptions c250_on_circle.
Example c250_nonvacuous : exists d, evaluate bend 1 = Ok (v3 2 1 0, d).
Proof. apply (c250_ends bend bend_good bend_joined). discriminate. Qed.

(** C251: the tangent is the unit vector of motion: inside a segment the point moves with
    velocity (number of segments x length of the segment) x tangent. *)
Theorem c251_tangent p i u q d : Forall good p -> (i < length p)%nat -> 0 < u < 1 ->
  (match nth i p Other with Line s e => tiny10 <= dist s e | _ => True end) ->
  evaluate p ((INR i + u) / INR (length p)) = Ok (q, d) ->
  mag d = 1 /\
  exists l, has_length (nth i p Other) l /\
  let v := INR (length p) * l in
  moves (fun t => match evaluate p t with Ok (x, _) => x | _ => mkv 0 0 0 0 end) ((INR i + u) / INR (length p)) (mkv (v * vx d) (v * vy d) (v * vz d) 0).
Proof.
  intros G L U ST E. destruct (path_moves p i u q d G L U ST E) as [A B]. split; [exact A|].
  exists (seg_length (nth i p Other)). split; [apply seg_length_ok; rewrite Forall_forall in G; apply G, nth_In, L|exact B].
Qed.
Print Assumptions c251_tangent.
Example c251_nonvacuous : exists q d, evaluate bend ((INR 1 + 1 / 2) / INR (length bend)) = Ok (q, d) /\ mag d = 1.
Proof.
  destruct (c250_evaluate bend 1 (1 / 2) bend_good bend_joined) as (q & d & E & _); [cbn; lia|lra|]. exists q, d. split; [exact E|].
  apply (c251_tangent bend 1 (1 / 2) q d bend_good); [cbn; lia|lra|exact I|exact E].
Qed.

(** C252: extract_sub_path gives a well formed, gapless path through exactly the points of
    the original between the two parameters, in the same direction. *)
Theorem c252_sub_path p a b : Forall good p -> joined p -> p <> [] -> 0 <= a -> a < b -> b <= 1 ->
  exists q, extract p a b = Ok q /\ q <> [] /\ Forall good q /\ joined q /\
    (forall v, passes q 0 1 v <-> passes p a b v) /\
    (exists v d d', evaluate q 0 = Ok (v, d) /\ evaluate p a = Ok (v, d')) /\
    (exists v d d', evaluate q 1 = Ok (v, d) /\ evaluate p b = Ok (v, d')).
Proof. exact (sub_ok p a b). Qed.
Print Assumptions c252_sub_path.
Theorem c252_refuses p a b : b <= a -> extract p a b = ValueError.
Proof. intros H. unfold extract. replace (Rleb b a) with true; [reflexivity|symmetry; apply rleb_true, H]. Qed.
Print Assumptions c252_refuses.
Example c252_nonvacuous : exists q, extract bend (1 / 4) (3 / 4) = Ok q /\ q <> [].
Proof. destruct (c252_sub_path bend (1 / 4) (3 / 4) bend_good bend_joined) as (q & E & N & _); try lra; [discriminate|]. exists q. auto. Qed.

(** C253: path_length is the sum of the lengths of the segments, and the lengths of
    consecutive sub-paths add up. *)
Theorem c253_sum p : Forall good p -> exists ls, Forall2 has_length p ls /\ path_length p = fold_right Rplus 0 ls.
Proof.
  intros G. exists (map seg_length p). split.
  - induction G; cbn; constructor; auto. apply seg_length_ok. assumption.
  - rewrite path_length_total. clear G. induction p as [|g r IH]; [reflexivity|]. change (total (g :: r)) with (seg_length g + total r). rewrite IH. reflexivity.
Qed.
Print Assumptions c253_sum.
Theorem c253_adds p a b c : Forall good p -> p <> [] -> 0 <= a -> a < b -> b < c -> c <= 1 ->
  exists q1 q2 q, extract p a b = Ok q1 /\ extract p b c = Ok q2 /\ extract p a c = Ok q /\ path_length q1 + path_length q2 = path_length q.
Proof. exact (length_adds p a b c). Qed.
Print Assumptions c253_adds.
Theorem c253_whole p : Forall good p -> p <> [] -> exists q, extract p 0 1 = Ok q /\ path_length q = path_length p.
Proof. exact (length_whole p). Qed.
Print Assumptions c253_whole.
Example c253_nonvacuous : path_length bend = 1 + 1 * (PI / 2).
Proof.
  rewrite path_length_total. unfold total, bend. cbn [fold_right].
  assert (E1 : seg_length (Line (v3 0 0 0) (v3 1 0 0)) = 1) by (cbn [seg_length]; apply mag_of; [lra|]; unfold dot, psub, v3; cbn; ring).
  assert (GA : good (Arc (v3 1 1 0) (v3 1 0 0) (v3 2 1 0) (v3 0 0 1))) by (pose proof bend_good as B; inversion B; subst; inversion H2; assumption).
  pose proof PI_RGT_0. assert (A : PI / 2 = arc_angle (v3 1 1 0) (v3 1 0 0) (v3 2 1 0) (v3 0 0 1)).
  { apply angle_unique; [exact GA|]. split; [lra|]. unfold turned. rewrite cos_PI2, sin_PI2, (mag_of (v3 0 0 1) 1) by (unfold dot, v3; cbn; lra).
    apply veq; unfold v3; cbn [vx vy vz vw]; field. }
  rewrite E1. cbn [seg_length]. rewrite <- A, (mag_of _ 1) by (unfold dot, psub, v3; cbn; lra). ring.
Qed.

(** C254 REFUTED: parameter_to_length accepts every parameter in [0, 1]: at 0 it raises. *)
Theorem c254_start_refuted p : parameter_to_length p 0 = ValueError.
Proof. unfold parameter_to_length. rewrite c252_refuses by lra. reflexivity. Qed.
Print Assumptions c254_start_refuted.

(** C255 REFUTED: length_to_parameter and parameter_to_length convert the same
    correspondence: they do not when the segments differ in length. *)
Definition uneven : list seg := [Line (v3 0 0 0) (v3 1 0 0); Line (v3 1 0 0) (v3 4 0 0)].
Lemma uneven_good : Forall good uneven. Proof. repeat constructor. Qed.
Lemma sum_overlap y n : forall k, wsum (overlap 0 y) k n = Rmax 0 (Rmin (INR n) (y - INR k)).
Proof.
  induction n as [|n IH]; intros k; cbn [wsum].
  - cbn. pose proof (Rmin_l 0 (y - INR k)). rewrite Rmax_left by lra. reflexivity.
  - rewrite IH, !S_INR. unfold overlap, lo, hi. pose proof (pos_INR k). pose proof (pos_INR n). rewrite (Rmax_right 0 (INR k)) by lra.
    unfold Rmin. destruct (Rle_dec y (INR k + 1)), (Rle_dec (INR n) (y - (INR k + 1))), (Rle_dec (INR n + 1) (y - INR k));
    unfold Rmax; repeat match goal with |- context [Rle_dec ?a ?b] => destruct (Rle_dec a b) end; lra.
Qed.
Theorem c255_inverse_refuted :
  path_length uneven = 4 /\ length_to_parameter uneven 1 = 1 / 4 /\ parameter_to_length uneven (1 / 4) = Ok (1 / 2).
Proof.
  assert (L1 : seg_length (Line (v3 0 0 0) (v3 1 0 0)) = 1) by (cbn [seg_length]; apply mag_of; [lra|]; unfold dot, psub, v3; cbn; ring).
  assert (L2 : seg_length (Line (v3 1 0 0) (v3 4 0 0)) = 3) by (cbn [seg_length]; apply mag_of; [lra|]; unfold dot, psub, v3; cbn; ring).
  assert (PL : path_length uneven = 4) by (rewrite path_length_total; unfold total, uneven; cbn [fold_right]; rewrite L1, L2; ring).
  split; [exact PL|]. split.
  - unfold length_to_parameter. rewrite PL. replace (Rltb 4 tiny10) with false by (symmetry; apply Rltb_false; unfold tiny10; lra).
    rewrite Rmax_right, Rmin_right by lra || (rewrite Rmax_right; lra). reflexivity.
  - unfold parameter_to_length. destruct (length_of_cut uneven 0 (1 / 4) uneven_good) as (q & E & L); try lra; [discriminate|]. rewrite E, L. f_equal.
    change (length uneven) with 2%nat. rewrite Rmult_0_l. replace (1 / 4 * INR 2) with (1 / 2) by (cbn; lra).
    cbn [wsum]. unfold sg, uneven. cbn [nth]. rewrite L1, L2.
    assert (O0 : overlap 0 (1 / 2) 0 = 1 / 2) by (unfold overlap, lo, hi; cbn [INR]; rewrite (Rmin_left (1 / 2)), (Rmax_left 0 0) by lra; rewrite Rmax_right; lra).
    assert (O1 : overlap 0 (1 / 2) 1 = 0) by (unfold overlap, lo, hi; cbn [INR]; rewrite (Rmin_left (1 / 2)), (Rmax_right 0 1) by lra; rewrite Rmax_left; lra).
    rewrite O0, O1. lra.
Qed.
Print Assumptions c255_inverse_refuted.

(** C256: on a path whose segments all have the same length the two conversions are inverse. *)
Lemma even_length p l t : Forall good p -> Forall (fun g => has_length g l) p -> p <> [] -> 0 < t <= 1 ->
  parameter_to_length p t = Ok (t * path_length p) /\ path_length p = INR (length p) * l.
Proof.
  intros G H N T.
  assert (SL : forall i, (i < length p)%nat -> seg_length (sg p i) = l).
  { intros i L. rewrite Forall_forall in G, H. specialize (G _ (nth_In p Other L)). specialize (H _ (nth_In p Other L)).
    pose proof (seg_length_ok _ G) as K. fold (sg p i) in *. destruct (sg p i) as [s e|c s e n|]; [cbn [has_length] in *; congruence| |destruct G].
    cbn [has_length] in H, K. destruct H as (a1 & A1 & ->), K as (a2 & A2 & K). rewrite K. rewrite (angle_unique _ _ _ _ _ G A1), (angle_unique _ _ _ _ _ G A2). reflexivity. }
  assert (NP : 0 < INR (length p)) by (apply lt_0_INR; destruct p; [contradiction|cbn; lia]).
  assert (W : forall y, wsum (fun i => overlap 0 y i * seg_length (sg p i)) 0 (length p) = l * wsum (overlap 0 y) 0 (length p)).
  { intros y. rewrite (wsum_ext _ (fun i => overlap 0 y i * l)).
    - generalize (length p) as m, 0%nat as k. induction m as [|m IH]; intros k; cbn [wsum]; [ring|]. rewrite IH. ring.
    - intros i Hi. rewrite SL by lia. reflexivity. }
  assert (PL : path_length p = INR (length p) * l).
  { destruct (length_of_cut p 0 1 G N) as (q & E & L); try lra. destruct (length_whole p G N) as (q' & E' & L'). assert (q = q') by congruence. subst q'.
    rewrite <- L', L, Rmult_0_l, Rmult_1_l, W, sum_overlap. cbn [INR]. rewrite Rminus_0_r, Rmin_left, Rmax_right by lra. ring. }
  split; [|exact PL]. unfold parameter_to_length. destruct (length_of_cut p 0 t G N) as (q & E & L); try lra. rewrite E, L, Rmult_0_l, W, sum_overlap. f_equal.
  cbn [INR]. rewrite Rminus_0_r, Rmin_right by nra. rewrite Rmax_right by nra. rewrite PL. ring.
Qed.
Theorem c256_inverse p l : Forall good p -> Forall (fun g => has_length g l) p -> p <> [] -> tiny10 <= path_length p ->
  (forall s, 0 < s <= path_length p -> parameter_to_length p (length_to_parameter p s) = Ok s) /\
  (forall t, 0 < t <= 1 -> exists s, parameter_to_length p t = Ok s /\ length_to_parameter p s = t).
Proof.
  intros G H N T. pose proof tiny_pos.
  assert (LP : forall s, 0 <= s <= path_length p -> length_to_parameter p s = s / path_length p /\ 0 <= s / path_length p <= 1).
  { intros s S. assert (B : 0 <= s / path_length p <= 1).
    { split; [apply Rmult_le_pos; [lra|left; apply Rinv_0_lt_compat; lra]|]. apply (Rmult_le_reg_r (path_length p)); [lra|]. unfold Rdiv. rewrite Rmult_assoc, Rinv_l by lra. lra. }
    split; [|exact B]. unfold length_to_parameter. replace (Rltb (path_length p) tiny10) with false by (symmetry; apply Rltb_false; lra).
    rewrite Rmax_right by lra. apply Rmin_right. lra. }
  split.
  - intros s S. destruct (LP s) as [E B]; [lra|]. rewrite E. destruct (even_length p l (s / path_length p) G H N) as [E2 _].
    + split; [apply Rdiv_lt_0_compat; lra|apply B].
    + rewrite E2. f_equal. field. lra.
  - intros t Ht. destruct (even_length p l t G H N Ht) as [E _]. exists (t * path_length p). split; [exact E|].
    destruct (LP (t * path_length p)) as [E2 _]; [split; nra|]. rewrite E2. field. lra.
Qed.
Print Assumptions c256_inverse.
Example c256_nonvacuous : parameter_to_length [Line (v3 0 0 0) (v3 1 0 0); Line (v3 1 0 0) (v3 1 1 0)] (1 / 2) = Ok 1.
Proof.
  set (p := [_; _]).
  assert (G : Forall good p) by (repeat constructor).
  assert (H : Forall (fun g => has_length g 1) p) by (repeat constructor; cbn [has_length]; symmetry; apply mag_of; try lra; unfold dot, sub, v3; cbn; ring).
  destruct (even_length p 1 (1 / 2) G H) as [E L]; [discriminate|lra|]. rewrite E, L. unfold p. cbn [length INR]. f_equal. lra.
Qed.

(** C257 REFUTED: parameters outside [0, 1] raise ValueError (the docstrings): they are
    clamped, and a sub-path beyond the end is silently empty. *)
Theorem c257_clamped p t : evaluate p t = evaluate p (Rmax 0 (Rmin 1 t)).
Proof. unfold evaluate. destruct p; [reflexivity|]. rewrite (clamp_id (Rmax 0 (Rmin 1 t))) by apply (clamp_range t). reflexivity. Qed.
Print Assumptions c257_clamped.
Theorem c257_out_of_range_refuted : (exists q d, evaluate bend 2 = Ok (q, d)) /\ extract bend 1 2 = Ok [].
Proof.
  split.
  - rewrite c257_clamped. rewrite Rmin_left, Rmax_right by lra. destruct (c250_ends bend bend_good bend_joined) as [_ [d E]]; [discriminate|]. exists (seg_end (last bend Other)), d. exact E.
  - unfold extract. replace (Rleb 2 1) with false by (symmetry; apply rleb_false; lra). rewrite (clamp_id 1) by lra.
    unfold clamp. rewrite Rmin_left, Rmax_right by lra. unfold bend. cbn [length]. rewrite !Rmult_1_l.
    assert (T : trunc (INR 2) = 2%nat) by (apply trunc_unique; lra). rewrite T. reflexivity.
Qed.
Print Assumptions c257_out_of_range_refuted.
