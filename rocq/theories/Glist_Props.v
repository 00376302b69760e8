(** Property theorems about yapcad.geom's geometry lists and polylines: sampling,
    slicing, parameters of points, and intersections with lines.  Reals stand for
    floats. *)
From Coq Require Import Reals List Bool Lra Lia Psatz.
From Verif Require Import Xform_Model Xform_Proofs Fig_Model Fig_Proofs Isect_Model Isect_Spec Isect_Proofs2 Isect_Proofs3 Isect_Props Fig_Proofs2
  Glist_Model Glist_Spec Glist_Proofs Glist_Proofs2 Glist_Proofs3 Glist_Proofs4 Glist_Proofs5.
Import ListNotations.
Open Scope R_scope.

(** ** C287 sampling a list of figures *)
(** The length of a list is the sum of the lengths. *)
Theorem c287_length : forall gs, Forall long gs -> glength (GList gs) = Ok (total gs).
Proof. exact list_len. Qed.
Print Assumptions c287_length.
(** Parameter [u] is the point of the element in which the fraction [u] of the
    total length falls, at the distance left over. *)
Theorem c287_place : forall gs u, Forall long gs -> gs <> [] -> 0 <= u <= 1 ->
  exists pre g post t, gs = pre ++ g :: post /\ 0 <= t <= 1 /\ sample (GList gs) u = sample g t /\
    u * total gs = total pre + t * glen g.
Proof. exact sample_place. Qed.
Print Assumptions c287_place.
Theorem c287_start : forall g gs, Forall long (g :: gs) -> sample (GList (g :: gs)) 0 = sample g 0.
Proof. intros g gs F. exact (path_first _ F g gs eq_refl). Qed.
Print Assumptions c287_start.
Theorem c287_end : forall g gs, Forall long (gs ++ [g]) -> sample (GList (gs ++ [g])) 1 = sample g 1.
Proof. intros g gs F. exact (path_last _ F gs g eq_refl). Qed.
Print Assumptions c287_end.
(** A list is continuous exactly if every element ends within epsilon of the start
    of the next one; a continuous list is closed exactly if the last element ends
    within epsilon of the start of the first. *)
Lemma vclose_dist p q : vclose p q = true <-> dist p q < epsilon.
Proof.
  unfold vclose, close. rewrite Rltb_true. rewrite Rminus_0_r, Rabs_right by (apply Rle_ge, sqrt_pos). reflexivity.
Qed.
Definition meet (g h : geo) : Prop :=
  exists p q, sample g 1 = Ok (Some p) /\ sample h 0 = Ok (Some q) /\ dist p q < epsilon.
Lemma ends_meet_iff g h b : ends_meet g h = Ok b -> (b = true <-> meet g h).
Proof.
  unfold ends_meet. destruct (sample g 1) as [x| | | | |] eqn:E1; try discriminate. cbn [bind].
  destruct (sample h 0) as [y| | | | |] eqn:E2; try discriminate. cbn [bind]. destruct x as [p|], y as [q|]; try discriminate.
  intros K. apply ok_inj in K. subst b. rewrite vclose_dist. split.
  - intros D. exists p, q. auto.
  - intros (p' & q' & K1 & K2 & D). rewrite E1 in K1. rewrite E2 in K2. injection K1 as <-. injection K2 as <-. exact D.
Qed.
Theorem c287_continuous : forall gs b, iscontinuousgeomlist gs = Ok b ->
  (b = true <-> forall pre g h post, gs = pre ++ g :: h :: post -> meet g h).
Proof.
  induction gs as [|g [|h r] IH]; intros b E.
  - injection E as <-. split; [|reflexivity]. intros _ pre g h post K. destruct pre; discriminate.
  - injection E as <-. split; [|reflexivity]. intros _ pre x h post K. destruct pre as [|y [|z pre]]; discriminate.
  - change (iscontinuousgeomlist (g :: h :: r)) with (bind (ends_meet g h) (fun b => if b then iscontinuousgeomlist (h :: r) else Ok false)) in E.
    destruct (ends_meet g h) as [m| | | | |] eqn:M; try discriminate. cbn [bind] in E. pose proof (ends_meet_iff g h m M) as MI. destruct m.
    + rewrite (IH b E). split.
      * intros K pre x y post S. destruct pre as [|z pre].
        { injection S as <- <- _. apply MI; reflexivity. }
        { injection S as _ S. exact (K pre x y post S). }
      * intros K pre x y post S. apply (K (g :: pre) x y post). rewrite S. reflexivity.
    + injection E as <-. split; [discriminate|]. intros K. specialize (K [] g h r eq_refl). apply MI in K. discriminate.
Qed.
Print Assumptions c287_continuous.
Theorem c287_closed : forall g gs h pre b, Forall long (g :: gs) -> g :: gs = pre ++ [h] -> iscontinuousgeomlist (g :: gs) = Ok true ->
  isclosedgeomlist (g :: gs) = Ok b -> (b = true <-> exists p q, sample g 0 = Ok (Some p) /\ sample h 1 = Ok (Some q) /\ dist p q < epsilon).
Proof.
  intros g gs h pre b F S C E. unfold isclosedgeomlist in E. rewrite C in E. cbn [bind] in E.
  rewrite (path_first _ F g gs eq_refl), (path_last _ F pre h S) in E.
  destruct (sample g 0) as [x| | | | |] eqn:E1; try discriminate. cbn [bind] in E.
  destruct (sample h 1) as [y| | | | |] eqn:E2; try discriminate. cbn [bind] in E. destruct x as [p|], y as [q|]; try discriminate.
  apply ok_inj in E. subst b. rewrite vclose_dist. split.
  - intros D. exists p, q. auto.
  - intros (p' & q' & K1 & K2 & D). injection K1 as <-. injection K2 as <-. exact D.
Qed.
Print Assumptions c287_closed.
Theorem c287_empty : isclosedgeomlist [] = Ok true /\ iscontinuousgeomlist [] = Ok true.
Proof. split; reflexivity. Qed.
Print Assumptions c287_empty.
(** concrete figures: two unit steps along the x axis *)
Definition step1 : line := flat 0 0 1 0.
Definition step2 : line := flat 1 0 2 0.
Lemma flat_len x0 y0 x1 y1 L : 0 <= L -> (x0 - x1) * (x0 - x1) + (y0 - y1) * (y0 - y1) = L * L -> linelength (flat x0 y0 x1 y1) = L.
Proof. intros H E. unfold linelength, flat. cbn [fst snd]. apply dist_is; [exact H|]. unfold point. cbn [vx vy vz]. lra. Qed.
Lemma step1_len : linelength step1 = 1. Proof. apply flat_len; lra. Qed.
Lemma step2_len : linelength step2 = 1. Proof. apply flat_len; lra. Qed.
Lemma flat_at x0 y0 x1 y1 u : sampleline (flat x0 y0 x1 y1) u = point (x0 + u * (x1 - x0)) (y0 + u * (y1 - y0)) 0.
Proof. unfold sampleline, flat, point, add, scale3. cbn [fst snd vx vy vz vw]. f_equal; ring. Qed.
Example c287_nonvacuous :
  Forall long [GLine step1; GLine step2] /\ total [GLine step1; GLine step2] = 2 /\
  iscontinuousgeomlist [GLine step1; GLine step2] = Ok true /\
  sample (GList [GLine step1; GLine step2]) (3 / 4) = Ok (Some (point (3 / 2) 0 0)).
Proof.
  assert (F : Forall long [GLine step1; GLine step2]).
  { constructor; [|constructor; [|constructor]]; eexists; (split; [reflexivity|]); rewrite ?step1_len, ?step2_len; lra. }
  assert (T : total [GLine step1; GLine step2] = 2) by (unfold total, glen; cbn [fold_right glength]; rewrite step1_len, step2_len; lra).
  split; [exact F|]. split; [exact T|]. split.
  - cbn [iscontinuousgeomlist]. unfold ends_meet. cbn [sample bind]. rewrite (proj2 (vclose_dist _ _)); [reflexivity|].
    unfold step1, step2. rewrite !flat_at. rewrite (dist_is _ _ 0); [unfold epsilon; lra|lra|]. unfold point. cbn [vx vy vz]. lra.
  - rewrite sample_GList, (list_len _ F), T. cbn [bind]. rewrite (proj2 (Rltb_true (3/4) 1)) by lra. cbn [seek glength bind]. rewrite step1_len, step2_len.
    rewrite (proj2 (Rleb_false _ _)) by lra. rewrite (proj2 (Rleb_true _ _)) by lra. rewrite fdiv_ok by lra. cbn [bind sample]. unfold step2. rewrite flat_at.
    do 2 f_equal. unfold point. f_equal; lra.
Qed.
(** C288: a point at the start or end of the list has length 0, and sampling
    divides by it. *)
Theorem c288_points_refuted :
  sample (GList [GPoint (point 5 5 0); GLine step1]) 0 = ZeroDivisionError /\
  sample (GList [GLine step1; GPoint (point 5 5 0)]) 1 = ZeroDivisionError /\
  sample (GList []) 0 = Ok None.
Proof.
  split; [|split].
  - rewrite sample_GList, glength_list. cbn [ln_list glength bind]. rewrite (proj2 (Rltb_true 0 1)) by lra. cbn [seek glength bind].
    rewrite (proj2 (Rleb_true _ _)) by lra. unfold fdiv. rewrite (proj2 (Reqb_true 0 0)) by reflexivity. reflexivity.
  - rewrite sample_GList, glength_list. cbn [ln_list glength bind]. rewrite (proj2 (Rltb_false 1 1)) by lra. cbn [fin glength bind].
    unfold fdiv. rewrite (proj2 (Reqb_true 0 0)) by reflexivity. reflexivity.
  - rewrite sample_GList, glength_list. cbn [ln_list bind]. rewrite (proj2 (Rltb_true 0 1)) by lra. reflexivity.
Qed.
Print Assumptions c288_points_refuted.

(** ** C289 slicing a list of figures *)
(** The slice from [u1] to [u2] has the proportional length and its parameter [v]
    is the list's parameter [u1 + v (u2 - u1)]. *)
Theorem c289_slice : forall gs u1 u2, Forall cuttable gs -> gs <> [] -> 0 <= u1 -> u1 < u2 -> u2 <= 1 ->
  ~ joint gs (u1 * total gs) -> ~ joint gs (u2 * total gs) ->
  exists gs', segmentgeomlist gs u1 u2 = Ok gs' /\ glength (GList gs') = Ok ((u2 - u1) * total gs) /\
    forall v, 0 <= v <= 1 -> sample (GList gs') v = sample (GList gs) (u1 + v * (u2 - u1)).
Proof. exact segment_ok. Qed.
Print Assumptions c289_slice.
(** Bad parameters are rejected. *)
Theorem c289_bad : forall gs u1 u2 l, glength (GList gs) = Ok l -> (u1 < 0 \/ u2 < u1 \/ 1 < u2) -> segmentgeomlist gs u1 u2 = ValueError.
Proof.
  intros gs u1 u2 l E H. unfold segmentgeomlist. rewrite E. cbn [bind]. unfold slice.
  destruct (Rltb u1 0) eqn:A; [reflexivity|]. destruct (Rltb u2 u1) eqn:B; [reflexivity|]. destruct (Rltb u2 0) eqn:C; [reflexivity|]. destruct (Rltb 1 u2) eqn:D; [reflexivity|].
  apply Rltb_false in A, B, C, D. lra.
Qed.
Print Assumptions c289_bad.
Lemma joint_two g h s : joint [g; h] s -> s = glen g.
Proof.
  intros (pre & post & E & A & B & ->). destruct pre as [|x [|y [|z pre]]]; [congruence| | |discriminate].
  - injection E as <- _. cbn. lra.
  - injection E as _ _ E. congruence.
Qed.
Example c289_nonvacuous : let gs := [GLine step1; GLine step2] in
  Forall cuttable gs /\ ~ joint gs (1 / 4 * total gs) /\ ~ joint gs (3 / 4 * total gs).
Proof.
  cbv zeta. pose proof c287_nonvacuous as (_ & T & _). rewrite T. split.
  - repeat constructor; cbn [cuttable]; rewrite ?step1_len, ?step2_len; unfold epsilon; lra.
  - split; intros J; apply joint_two in J; unfold glen in J; cbn [glength] in J; rewrite step1_len in J; lra.
Qed.
(** C290: a slice that ends at a joint gets a last element of length 0, so its own
    end cannot be sampled; one that starts at a joint has it in front. *)
Theorem c290_joints_refuted :
  exists gs' gs'', segmentgeomlist [GLine step1; GLine step2] 0 (1 / 2) = Ok gs' /\ sample (GList gs') 1 = ZeroDivisionError /\
  segmentgeomlist [GLine step1; GLine step2] (1 / 2) 1 = Ok gs'' /\ sample (GList gs'') 0 = ZeroDivisionError.
Proof.
  pose proof c287_nonvacuous as (F & T & _).
  assert (Z : forall x y, linelength (segmentline (flat x 0 y 0) 0 0) = 0).
  { intros x y. unfold segmentline. rewrite flat_at. apply (dist_is _ _ 0); [lra|cbn [fst snd]; ring]. }
  assert (Z1 : forall x y, linelength (segmentline (flat x 0 y 0) 1 1) = 0).
  { intros x y. unfold segmentline. rewrite flat_at. apply (dist_is _ _ 0); [lra|cbn [fst snd]; ring]. }
  assert (W : linelength (segmentline step1 0 1) = 1) by (unfold segmentline, step1; rewrite !flat_at; apply dist_is; unfold point; cbn [fst snd vx vy vz]; lra).
  assert (W2 : linelength (segmentline step2 0 1) = 1) by (unfold segmentline, step2; rewrite !flat_at; apply dist_is; unfold point; cbn [fst snd vx vy vz]; lra).
  assert (EP : 0 < epsilon < 1) by (unfold epsilon; lra).
  exists [GLine (segmentline step1 0 1); GLine (segmentline step2 0 0)], [GLine (segmentline step1 1 1); GLine step2]. split; [|split; [|split]].
  - unfold segmentgeomlist. rewrite (list_len _ F), T. cbn [bind]. unfold slice.
    rewrite (proj2 (Rltb_false 0 0)), (proj2 (Rltb_false (1/2) 0)), (proj2 (Rltb_false 1 (1/2))) by lra. cbn [orb].
    cbn [seg_loop glength bind]. rewrite step1_len, step2_len. rewrite (proj2 (Rltb_false 1 epsilon)) by lra.
    rewrite (proj2 (Rleb_true (0 * 2) (0 + 1))) by lra. cbn [negb]. rewrite (proj2 (Rltb_false (1/2*2) (0 + 1))) by lra.
    rewrite (proj2 (Rleb_true (0 * 2) (0 + 1 + 1))) by lra. rewrite (proj2 (Rleb_true (1/2*2) (0 + 1 + 1))) by lra.
    cbn [seg_simple bind]. replace (1 - (0 + 1 - 0 * 2) / 1) with 0 by field. replace (1 - (0 + 1 + 1 - 1 / 2 * 2) / 1) with 0 by field. reflexivity.
  - rewrite sample_GList, glength_list. cbn [ln_list glength bind]. rewrite (proj2 (Rltb_false 1 1)) by lra. cbn [fin glength bind].
    unfold step2. rewrite Z. unfold fdiv. rewrite (proj2 (Reqb_true 0 0)) by reflexivity. reflexivity.
  - unfold segmentgeomlist. rewrite (list_len _ F), T. cbn [bind]. unfold slice.
    rewrite (proj2 (Rltb_false (1/2) 0)), (proj2 (Rltb_false 1 (1/2))), (proj2 (Rltb_false 1 0)), (proj2 (Rltb_false 1 1)) by lra. cbn [orb].
    cbn [seg_loop glength bind]. rewrite step1_len, step2_len. rewrite (proj2 (Rltb_false 1 epsilon)) by lra.
    rewrite (proj2 (Rleb_true (1/2 * 2) (0 + 1))) by lra. cbn [negb]. rewrite (proj2 (Rltb_false (1*2) (0 + 1))) by lra.
    rewrite (proj2 (Rleb_true (1/2 * 2) (0 + 1 + 1))) by lra. rewrite (proj2 (Rleb_true (1*2) (0 + 1 + 1))) by lra.
    cbn [seg_simple bind]. replace (1 - (0 + 1 - 1 / 2 * 2) / 1) with 1 by field. replace (1 - (0 + 1 + 1 - 1 * 2) / 1) with 1 by field.
    unfold step2 at 1. unfold segmentline at 2. rewrite !flat_at. unfold step2, flat. do 4 f_equal. f_equal; unfold point; f_equal; ring.
  - rewrite sample_GList, glength_list. cbn [ln_list glength bind]. rewrite (proj2 (Rltb_true 0 1)) by lra. cbn [seek glength bind].
    unfold step1. rewrite Z1. rewrite (proj2 (Rleb_true _ _)) by lra. unfold fdiv. rewrite (proj2 (Reqb_true 0 0)) by reflexivity. reflexivity.
Qed.
Print Assumptions c290_joints_refuted.

(** ** C291 slicing a polyline or polygon *)
Theorem c291_slice : forall a u1 u2 fuel, good_poly a -> Forall (fun l => epsilon <= linelength l) (lines_of a) -> 0 <= u1 -> u1 < u2 ->
  (if poly_closed a then u2 < 1 else u2 <= 1) -> ~ corner a (u1 * polylength a) -> ~ corner a (u2 * polylength a) ->
  exists ps, segmentpoly (S fuel) a u1 u2 = Some (Ok ps) /\ glength (figure ps) = Ok ((u2 - u1) * polylength a) /\
    (forall v, 0 <= v < 1 -> sample (figure ps) v = samplepoly a (u1 + v * (u2 - u1))) /\
    forall d, samplepoly a u2 = Ok (Some (last ps d)).
Proof. exact segmentpoly_ok. Qed.
Print Assumptions c291_slice.
Definition bend : list vec := [point 0 0 0; point 1 0 0; point 1 1 0].
Lemma bend_lines : lines_of bend = [flat 0 0 1 0; flat 1 0 1 1]. Proof. reflexivity. Qed.
Lemma bend_lens : linelength (flat 0 0 1 0) = 1 /\ linelength (flat 1 0 1 1) = 1. Proof. split; apply flat_len; lra. Qed.
Lemma bend_len : polylength bend = 2.
Proof. unfold polylength. rewrite bend_lines. unfold total_length. cbn [fold_right]. destruct bend_lens as [-> ->]. lra. Qed.
Lemma bend_good : good_poly bend.
Proof.
  split; [cbn; lia|]. split; [repeat constructor|]. rewrite bend_lines. destruct bend_lens as [E1 E2]. constructor; [rewrite E1; lra|constructor; [rewrite E2; lra|constructor]].
Qed.
Lemma bend_open : poly_closed bend = false.
Proof.
  unfold poly_closed, bend. cbn [length]. change (Nat.ltb 2 3) with true. cbn [andb]. apply Rltb_false. change (epsilon <= dist (point 0 0 0) (point 1 1 0)).
  assert (D : 1 * 1 <= dist (point 0 0 0) (point 1 1 0) * dist (point 0 0 0) (point 1 1 0)) by (rewrite Isect_Proofs4.dist2; unfold point; cbn [vx vy vz]; lra).
  apply Isect_Proofs4.sq_le in D; [unfold epsilon; lra|]. apply dist_nonneg.
Qed.
Example c291_nonvacuous :
  good_poly bend /\ Forall (fun l => epsilon <= linelength l) (lines_of bend) /\ poly_closed bend = false /\
  ~ corner bend (1 / 4 * polylength bend) /\ ~ corner bend (1 * polylength bend).
Proof.
  split; [exact bend_good|]. split.
  { rewrite bend_lines. destruct bend_lens as [E1 E2]. constructor; [rewrite E1; unfold epsilon; lra|constructor; [rewrite E2; unfold epsilon; lra|constructor]]. }
  split; [exact bend_open|]. rewrite bend_len.
  assert (K : forall s, corner bend s -> s = 1).
  { intros s (pre & post & E & A & B & ->). rewrite bend_lines in E. destruct pre as [|x [|y [|z pre]]]; [congruence| | |discriminate].
    - injection E as <- _. unfold total_length. cbn [fold_right]. rewrite (proj1 bend_lens). lra.
    - injection E as _ _ E. congruence. }
  split; intros C; apply K in C; lra.
Qed.
(** C292: outside this range: the whole of a closed polygon is two equal points;
    an open polyline is never reversed but fails; and going over the seam from
    within epsilon of the end never returns. *)
Theorem c292_seam_refuted :
  (forall a fuel, good_poly a -> Forall (fun l => epsilon <= linelength l) (lines_of a) -> poly_closed a = true ->
     exists p, segmentpoly (S fuel) a 0 1 = Some (Ok [p; p])) /\
  (forall a u1 u2 fuel, poly_closed a = false -> 0 <= u2 -> u2 < u1 -> u1 <= 1 -> segmentpoly (S fuel) a u1 u2 = Some TypeError) /\
  (forall a u1 u2 fuel, poly_closed a = true -> 1 - epsilon < u1 < 1 -> 0 <= u2 < u1 -> segmentpoly fuel a u1 u2 = None) /\
  exists a, good_poly a /\ Forall (fun l => epsilon <= linelength l) (lines_of a) /\ poly_closed a = true.
Proof.
  split; [|split; [|split]].
  - intros a fuel (L & W & P) FE C. destruct a as [|p [|q r]]; [cbn in L; lia|cbn in L; lia|]. exists p.
    cbn [segmentpoly]. rewrite C. cbv zeta. rewrite pymod_one, pymod_small by lra. rewrite (proj2 (Rltb_false 0 0)) by lra. do 2 f_equal.
    unfold slice_lines. cbv zeta. unfold slice. rewrite (proj2 (Rltb_false 0 0)), (proj2 (Rltb_false 1 0)) by lra. cbn [orb]. rewrite Rmult_0_l.
    change (lines_of (p :: q :: r)) with ((p, q) :: lines_of (q :: r)) in *. inversion P as [|? ? P1 _]; subst. inversion FE as [|? ? P2 _]; subst. inversion W as [|? ? W1 _]; subst.
    cbn [seg_loop bind]. rewrite (proj2 (Rltb_false _ _)) by exact P2. rewrite (proj2 (Rleb_true _ _)) by lra. cbn [negb]. rewrite (proj2 (Rltb_true _ _)) by lra. cbn [bind sliced_points].
    unfold segmentline. cbn [map fst snd last app]. assert (E : sampleline (p, q) (1 - (0 + linelength (p, q) - 0) / linelength (p, q)) = p).
    { replace (1 - (0 + linelength (p, q) - 0) / linelength (p, q)) with 0 by (field; lra). apply sampleline_0. exact W1. }
    rewrite E. reflexivity.
  - intros a u1 u2 fuel C A B D. cbn [segmentpoly]. rewrite C. rewrite (proj2 (Rltb_false u1 0)), (proj2 (Rltb_false u2 0)), (proj2 (Rltb_false 1 u1)), (proj2 (Rltb_false 1 u2)) by lra. cbn [orb].
    rewrite (proj2 (Rltb_true u2 u1)) by lra. reflexivity.
  - assert (EP : 0 < epsilon < 1) by (unfold epsilon; lra).
    assert (N : forall a fuel u1 u2, poly_closed a = true -> 1 - epsilon < u1 < 1 -> 0 <= u2 < u1 -> segmentpoly fuel a u1 u2 = None).
    { intros a fuel. induction fuel as [|fuel IH]; intros u1 u2 C A B; [reflexivity|]. cbn [segmentpoly]. rewrite C. cbv zeta. rewrite !pymod_small by lra.
      rewrite (proj2 (Rltb_true u2 u1)) by lra. rewrite IH by (first [exact C|lra]). reflexivity. }
    intros a u1 u2 fuel. apply N.
  - exists [point 0 0 0; point 1 0 0; point 0 0 0].
    assert (E1 : linelength (flat 0 0 1 0) = 1) by (apply flat_len; lra). assert (E2 : linelength (flat 1 0 0 0) = 1) by (apply flat_len; lra).
    change (lines_of [point 0 0 0; point 1 0 0; point 0 0 0]) with [flat 0 0 1 0; flat 1 0 0 0]. split; [|split].
    + split; [cbn; lia|]. split; [repeat constructor|]. change (lines_of [point 0 0 0; point 1 0 0; point 0 0 0]) with [flat 0 0 1 0; flat 1 0 0 0]. constructor; [rewrite E1; lra|constructor; [rewrite E2; lra|constructor]].
    + constructor; [rewrite E1; unfold epsilon; lra|constructor; [rewrite E2; unfold epsilon; lra|constructor]].
    + unfold poly_closed. cbn [length]. change (Nat.ltb 2 3) with true. cbn [andb]. apply Rltb_true. unfold lastv; cbn [last]. rewrite (dist_is _ _ 0); [unfold epsilon; lra|lra|ring].
Qed.
Print Assumptions c292_seam_refuted.

(** ** C293 the parameter of a point of a polyline *)
(** A reported parameter samples to a point within 2 epsilon (per unit of the
    edge's length) of the one asked for; a point on the polyline always gets one. *)
Theorem c293_sound : forall a p o, good_poly a -> (poly_closed a = true -> exists q, hd_error a = Some q /\ last a q = q) ->
  unsamplepoly a p = Ok (Some o) ->
  exists q l, samplepoly a o = Ok (Some q) /\ In l (lines_of a) /\ linelength l * dist p q <= 2 * epsilon.
Proof. exact unsamplepoly_sound. Qed.
Print Assumptions c293_sound.
Theorem c293_complete : forall a p, good_poly a -> on_poly a p -> exists o, unsamplepoly a p = Ok (Some o).
Proof. exact unsamplepoly_complete. Qed.
Print Assumptions c293_complete.
Example c293_nonvacuous : good_poly bend /\ on_poly bend (point 1 (1 / 2) 0).
Proof.
  split; [exact bend_good|]. exists (flat 1 0 1 1). split; [rewrite bend_lines; right; left; reflexivity|]. exists (1/2). split; [lra|]. rewrite flat_at. unfold point. f_equal; lra.
Qed.
(** C294: isinsideXY of an open polyline compares the parameter with False: the
    start point (parameter 0.0) is reported as not on the polyline; a point far
    behind the start, on the extension of the first edge, is. *)
Lemma unsample_flat x1 p u : vz p = 0 -> vy p = 0 -> vx p = u * x1 -> 0 < x1 -> unsampleline (flat 0 0 x1 0) p = Ok (Some u).
Proof.
  intros Z Y X H. unfold unsampleline, flat. cbn [fst snd]. cbv zeta.
  assert (M : forall v r, 0 <= r -> vx v * vx v + vy v * vy v + vz v * vz v = r * r -> mag v = r).
  { intros v r R E. unfold mag, dot. rewrite E. apply sqrt_square, R. }
  assert (CR : mag (cross (sub (point x1 0 0) (point 0 0 0)) (sub p (point 0 0 0))) = 0).
  { apply M; [lra|]. unfold cross, sub, point. cbn [vx vy vz]. rewrite Z, Y. ring. }
  rewrite CR. rewrite (proj2 (Rltb_false epsilon 0)) by (unfold epsilon; lra).
  assert (D : dot (sub (point x1 0 0) (point 0 0 0)) (sub p (point 0 0 0)) = u * (x1 * x1)) by (unfold dot, sub, point; cbn [vx vy vz]; rewrite Z, Y, X; ring).
  assert (M1 : mag (sub (point x1 0 0) (point 0 0 0)) = x1) by (apply M; [lra|]; unfold sub, point; cbn [vx vy vz]; ring).
  rewrite D, M1. assert (XX : 0 < x1 * x1) by nra. destruct (Rlt_dec 0 u) as [U|U].
  - rewrite (proj2 (Rltb_true _ _)) by nra. rewrite (M (sub p (point 0 0 0)) (u * x1)); [|nra|unfold sub, point; cbn [vx vy vz]; rewrite X, Y, Z; ring].
    rewrite fdiv_ok by lra. cbn [bind]. do 2 f_equal. field. lra.
  - rewrite (proj2 (Rltb_false _ _)) by nra. rewrite (M (sub p (point 0 0 0)) (- u * x1)); [|nra|unfold sub, point; cbn [vx vy vz]; rewrite X, Y, Z; ring].
    rewrite fdiv_ok by lra. cbn [bind]. do 2 f_equal. field. lra.
Qed.
Theorem c294_inside_refuted :
  poly_closed bend = false /\ on_poly bend (point 0 0 0) /\ isinside_open_polyXY bend (point 0 0 0) = Ok false /\
  ~ on_poly bend (point (-5) 0 0) /\ isinside_open_polyXY bend (point (-5) 0 0) = Ok true.
Proof.
  assert (U : forall x, x < 1 -> unsamplepoly bend (point x 0 0) = Ok (Some (x / 2))).
  { intros x X. unfold unsamplepoly. change (Nat.ltb (length bend) 3) with false. cbv iota. rewrite bend_open. change (total_length (lines_of bend)) with (polylength bend). rewrite bend_len, bend_lines.
    cbn [unsample_lines]. rewrite (unsample_flat 1 (point x 0 0) x) by (unfold point; cbn [vx vy vz]; lra). cbn [bind]. unfold ok_param. rewrite (proj2 (Rltb_true x 1)) by exact X. cbn [andb negb orb].
    rewrite (proj1 bend_lens), fdiv_ok by lra. cbn [bind]. do 2 f_equal. lra. }
  split; [exact bend_open|]. split; [|split; [|split]].
  - exists (flat 0 0 1 0). split; [rewrite bend_lines; left; reflexivity|]. exists 0. split; [lra|]. rewrite flat_at. unfold point. f_equal; lra.
  - unfold isinside_open_polyXY. rewrite U by lra. cbn [bind]. rewrite (proj2 (Reqb_true _ _)) by lra. reflexivity.
  - intros (l & I & t & T & E). rewrite bend_lines in I. destruct I as [<- |[<- |[]]]; rewrite flat_at in E; unfold point in E; injection E; lra.
  - unfold isinside_open_polyXY. rewrite U by lra. cbn [bind]. rewrite (proj2 (Reqb_false _ _)) by lra. reflexivity.
Qed.
Print Assumptions c294_inside_refuted.

(** ** C295 a line and a polyline of at least three edges, in one horizontal plane *)
Theorem c295_sound : forall z g a ps p, Forall (fun p => vz p = z /\ vw p = 1) a ->
  vz (fst g) = z -> vz (snd g) = z -> vw (fst g) = 1 -> vw (snd g) = 1 -> (4 <= length a)%nat ->
  linePolyIntersectXY g a true = Ok (Some ps) -> In p ps -> on_poly a p /\ on_segment g p.
Proof. intros z g a ps p A B C D E F. apply (meets_sound z g a A B C D E F). Qed.
Print Assumptions c295_sound.
(** Every common point on an edge that is not nearly parallel to the line is reported. *)
Theorem c295_complete : forall z g a l p, Forall (fun p => vz p = z /\ vw p = 1) a ->
  vz (fst g) = z -> vz (snd g) = z -> (4 <= length a)%nat ->
  In l (lines_of a) -> epsilon <= Rsqr (ll_denom l g) -> on_segment l p -> on_segment g p ->
  exists ps, linePolyIntersectXY g a true = Ok (Some ps) /\ In p ps.
Proof. intros z g a l p A B C F. apply (meets_complete z g a A B C F). Qed.
Print Assumptions c295_complete.
(** The reported parameters come in pairs that name the same point of the polyline
    and of the line. *)
Theorem c295_params : forall z g a vs us v o, Forall (fun p => vz p = z /\ vw p = 1) a ->
  vz (fst g) = z -> vz (snd g) = z -> vw (fst g) = 1 -> vw (snd g) = 1 -> (4 <= length a)%nat -> Forall (fun l => 0 < linelength l) (lines_of a) ->
  (poly_closed a = true -> exists q, hd_error a = Some q /\ last a q = q) ->
  linePolyIntersectXY_params g a = Ok (Some (vs, us)) ->
  length vs = length us /\ (In (v, o) (combine vs us) -> samplepoly a o = Ok (Some (sampleline g v))).
Proof. intros z g a vs us v o A B C D E F G. apply (params_sound z g a A B C D E F G). Qed.
Print Assumptions c295_params.
Theorem c295_params_complete : forall z g a l t v, Forall (fun p => vz p = z /\ vw p = 1) a ->
  vz (fst g) = z -> vz (snd g) = z -> (4 <= length a)%nat -> Forall (fun l => 0 < linelength l) (lines_of a) ->
  In l (lines_of a) -> epsilon <= Rsqr (ll_denom l g) -> 0 <= t <= 1 -> sampleline l t = sampleline g v ->
  exists vs us, linePolyIntersectXY_params g a = Ok (Some (vs, us)) /\ In v vs.
Proof. intros z g a l t v A B C F G. apply (params_complete z g a A B C F G). Qed.
Print Assumptions c295_params_complete.
(** a square, and a line through two of its sides *)
Definition box : list vec := [point 0 0 0; point 2 0 0; point 2 2 0; point 0 2 0; point 0 0 0].
Example c295_nonvacuous :
  Forall (fun p => vz p = 0 /\ vw p = 1) box /\ In (flat 2 0 2 2) (lines_of box) /\ epsilon <= Rsqr (ll_denom (flat 2 0 2 2) (flat (-1) 1 3 1)) /\
  on_segment (flat 2 0 2 2) (point 2 1 0) /\ on_segment (flat (-1) 1 3 1) (point 2 1 0).
Proof.
  split; [repeat constructor|]. split; [right; left; reflexivity|]. split; [unfold ll_denom, flat, point, Rsqr, epsilon; cbn [fst snd vx vy]; lra|].
  split; [exists (1/2)|exists (3/4)]; (split; [lra|]); rewrite flat_at; unfold point; f_equal; lra.
Qed.
(** C296: a polyline of two edges is never met by anything; and two polylines'
    parameters come back as one list, the same for both, with parameters of the
    first and second taking turns. *)
Definition beam : list vec := [point 0 0 0; point 1 0 0; point 2 0 0; point 3 0 0].
Definition mast : list vec := [point (1/2) (-1) 0; point (1/2) 1 0; point (1/2) 2 0; point (1/2) 3 0].
Lemma mast_hits x0 x1 : x0 < x1 -> x1 - x0 = 1 -> linePolyIntersectXY_params (flat x0 0 x1 0) mast = Ok (Some ([1/2 - x0], [1/4])).
Proof.
  intros X X1.
  assert (L : lines_of mast = [flat (1/2) (-1) (1/2) 1; flat (1/2) 1 (1/2) 2; flat (1/2) 2 (1/2) 3]) by reflexivity.
  assert (L1 : linelength (flat (1/2) (-1) (1/2) 1) = 2) by (apply flat_len; lra).
  assert (L2 : linelength (flat (1/2) 1 (1/2) 2) = 1) by (apply flat_len; lra).
  assert (L3 : linelength (flat (1/2) 2 (1/2) 3) = 1) by (apply flat_len; lra).
  assert (C : poly_closed mast = false).
  { unfold poly_closed, mast. cbn [length]. change (Nat.ltb 2 4) with true. unfold lastv; cbn [andb last]. apply Rltb_false. rewrite (dist_is _ _ 4); unfold point, epsilon; cbn [vx vy vz]; lra. }
  assert (Q : forall y0 y1 t, y1 - y0 = 1 \/ y1 - y0 = 2 -> y0 + t * (y1 - y0) = 0 -> ll_params (flat (1/2) y0 (1/2) y1) (flat x0 0 x1 0) = Ok (Some (t, 1/2 - x0))).
  { intros y0 y1 t H T. unfold flat. apply ll_params_val; try reflexivity.
    - unfold ll_denom, point, epsilon. cbn [fst snd vx vy]. replace x1 with (x0 + 1) by lra. destruct H as [H|H]; [replace y1 with (y0 + 1) by lra|replace y1 with (y0 + 2) by lra]; nra.
    - change (point (1/2) y0 0, point (1/2) y1 0) with (flat (1/2) y0 (1/2) y1). change (point x0 0 0, point x1 0 0) with (flat x0 0 x1 0). rewrite !flat_at. unfold point. cbn [vx]. rewrite X1. lra.
    - change (point (1/2) y0 0, point (1/2) y1 0) with (flat (1/2) y0 (1/2) y1). change (point x0 0 0, point x1 0 0) with (flat x0 0 x1 0). rewrite !flat_at. unfold point. cbn [vy]. lra. }
  unfold linePolyIntersectXY_params. change (Nat.ltb (length mast) 3) with false. rewrite (level_planar_poly 0 mast) by (repeat constructor). cbn [orb negb].
  unfold poly_edges. rewrite L. change (Nat.ltb 2 (length [flat (1/2) (-1) (1/2) 1; flat (1/2) 1 (1/2) 2; flat (1/2) 2 (1/2) 3])) with true. cbv iota. rewrite C.
  cbn [poly_hits]. rewrite (Q (-1) 1 (1/2)), (Q 1 2 (-1)), (Q 2 3 (-2)) by lra. cbn [bind]. unfold edge_ok. cbn [negb andb orb].
  rewrite (proj2 (Rleb_false 0 (-2))), (proj2 (Rleb_false 0 (-1))), (proj2 (Rleb_true (1/2) 1)) by lra. cbn [andb orb bind].
  unfold total_length. cbn [fold_right mapR]. rewrite L1, L2, L3. cbn [snd fst]. rewrite fdiv_ok by lra. cbn [bind map]. cbn [snd fst]. do 3 f_equal. f_equal. lra.
Qed.
Theorem c296_missed_refuted :
  (forall g a inside ps, length a = 3%nat -> linePolyIntersectXY g a inside <> Ok (Some ps)) /\
  (on_segment (flat 0 (-1) 1 1) (point (1/2) 0 0) /\ on_poly bend (point (1/2) 0 0)) /\
  (forall a b us vs, polyPolyIntersectXY_params a b = Ok (Some (us, vs)) -> us = vs) /\
  polyPolyIntersectXY_params beam mast = Ok (Some ([1/6; 1/4], [1/6; 1/4])).
Proof.
  split; [|split; [|split]].
  - intros g a inside ps L E. unfold linePolyIntersectXY in E. rewrite L in E. change (Nat.ltb 3 3) with false in E. cbn [orb] in E. destruct (negb (isXYPlanar a)); [discriminate|].
    unfold poly_edges in E. rewrite lines_len, L in E. cbn in E. discriminate.
  - split.
    + exists (1/2). split; [lra|]. rewrite flat_at. unfold point. f_equal; lra.
    + exists (flat 0 0 1 0). split; [rewrite bend_lines; left; reflexivity|]. exists (1/2). split; [lra|]. rewrite flat_at. unfold point. f_equal; lra.
  - intros a b us vs E. unfold polyPolyIntersectXY_params in E. destruct (pairs_loop _ _ _ _ _) as [l| | | | |]; try discriminate. cbn [bind] in E. apply ok_inj in E. destruct l; [discriminate|]. injection E as <- <-. reflexivity.
  - assert (L : lines_of beam = [flat 0 0 1 0; flat 1 0 2 0; flat 2 0 3 0]) by reflexivity.
    assert (B1 : forall x0 x1, x1 - x0 = 1 -> linelength (flat x0 0 x1 0) = 1) by (intros x0 x1 X; apply flat_len; [lra|replace x1 with (x0 + 1) by lra; ring]).
    assert (C : poly_closed beam = false).
    { unfold poly_closed, beam. cbn [length]. change (Nat.ltb 2 4) with true. unfold lastv; cbn [andb last]. apply Rltb_false. rewrite (dist_is _ _ 3); unfold point, epsilon; cbn [vx vy vz]; lra. }
    unfold polyPolyIntersectXY_params. rewrite C, L. cbn [pairs_loop]. rewrite !mast_hits by lra. cbn [bind combine filter fst]. unfold edge_ok. cbn [negb andb orb].
    rewrite (proj2 (Rleb_true (1/2 - 0) 1)), (proj2 (Rleb_false 0 (1/2 - 1))), (proj2 (Rleb_false 0 (1/2 - 2))) by lra. cbn [andb orb mapR bind concat app fst snd].
    unfold total_length. cbn [fold_right]. rewrite !B1 by lra. rewrite fdiv_ok by lra. cbn [bind concat app].
    replace ((1/2 - 0) * 1 / (1 + (1 + (1 + 0)))) with (1/6) by lra. reflexivity.
Qed.
Print Assumptions c296_missed_refuted.
