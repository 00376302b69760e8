From Coq Require Import Reals List Bool Lra Lia Psatz.
From Verif Require Import Xform_Model Xform_Proofs Fig_Model Fig_Proofs Fig_Proofs2 Fig_Proofs3 Isect_Model Isect_Spec Isect_Proofs Isect_Proofs2.
From Verif Require Kin_Model.
Import ListNotations.
Open Scope R_scope.

(** ** when a point of the circle is on the arc *)
Lemma spot_same c g g' : 0 < a_r c -> (spot c g = spot c g' <-> pymod g 360 = pymod g' 360).
Proof.
  intros H. split; intros E.
  - rewrite <- (deg_spot c g H), <- (deg_spot c g' H), E. reflexivity.
  - rewrite <- (spot_mod c g), <- (spot_mod c g'), E. reflexivity.
Qed.
Lemma on_arc_iff c p : 0 < a_r c -> ranged c -> on_circle c p -> vw p = 1 ->
  let g := deg_of (sub p (a_c c)) in let s := fst (arc_range c) in let e := snd (arc_range c) in
  on_arc c p <-> (s <= g <= e) \/ (s <= g + 360 <= e).
Proof.
  intros Hr [R1 R2] C W g s e. pose proof (deg_range (sub p (a_c c))) as G. fold g in G. fold s e in R1, R2.
  assert (Q : forall u, samplearc c u = spot c ((e - s) * (if a_rev c then 1 - u else u) + s)) by (intros; apply samplearc_spot).
  assert (K : on_arc c p <-> exists th, s <= th <= e /\ p = spot c th).
  { split.
    - intros (u & U & ->). rewrite Q. eexists. split; [|reflexivity]. destruct (a_rev c); nra.
    - intros (th & T & ->). exists (if a_rev c then 1 - (th - s) / (e - s) else (th - s) / (e - s)).
      assert (0 <= (th - s) / (e - s) <= 1).
      { split; [apply Rmult_le_pos; [lra|apply Rlt_le, Rinv_0_lt_compat; lra]|].
        apply (Rmult_le_reg_r (e - s)); [lra|]. replace ((th - s) / (e - s) * (e - s)) with (th - s) by (field; lra). lra. }
      split; [destruct (a_rev c); lra|]. rewrite Q. f_equal. destruct (a_rev c); field; lra. }
  rewrite K. clear K Q. split.
  - intros (th & T & E). assert (M : g = pymod th 360) by (unfold g; rewrite E; apply deg_spot; exact Hr).
    destruct (Rlt_dec th 360) as [L|L].
    + left. rewrite M, pymod_id by lra. exact T.
    + right. replace th with (th - 360 + 360) in M by ring. rewrite pymod_plus in M by lra. lra.
  - pose proof (circle_spot c p Hr C W) as E. fold g in E. intros [T|T].
    + exists g. split; assumption.
    + exists (g + 360). split; [exact T|]. rewrite E. apply spot_same; [exact Hr|]. rewrite pymod_plus, pymod_id by lra. reflexivity.
Qed.
Lemma rleb_dec a b : Rleb a b = true <-> a <= b. Proof. apply Rleb_true. Qed.
Ltac bools := repeat match goal with
  | |- context [Rleb ?a ?b] => let H := fresh "B" in destruct (Rleb a b) eqn:H; [apply Rleb_true in H|apply Rleb_false in H]
  | |- context [Rltb ?a ?b] => let H := fresh "B" in destruct (Rltb a b) eqn:H; [apply Rltb_true in H|apply Rltb_false in H]
  end.
Ltac decide_bool := split; intros ?H; try discriminate; try reflexivity; try lra; exfalso; lra.
Lemma plain_range c : plain_arc c ->
  fst (arc_range c) = a_start c /\ snd (arc_range c) = (if Rltb (a_end c) (a_start c) then a_end c + 360 else a_end c).
Proof.
  intros (A & B & N & F). unfold arc_range.
  destruct (Reqb (a_start c) 0) eqn:E1; [apply Reqb_true in E1|apply Reqb_false in E1]; cbn [negb andb fst snd].
  - split; [reflexivity|]. rewrite (proj2 (Rltb_false _ _)) by lra. reflexivity.
  - destruct (Reqb (a_end c) 360) eqn:E2; [apply Reqb_true in E2|apply Reqb_false in E2]; cbn [negb andb fst snd].
    + rewrite (proj2 (Rltb_false _ _)) by lra. split; reflexivity.
    + rewrite !pymod_id by lra. split; reflexivity.
Qed.
Lemma pymod_360 : pymod 360 360 = 0.
Proof. apply (pymod_eq _ _ 1); lra. Qed.
Lemma plain_end c : plain_arc c ->
  (a_end c < 360 /\ pymod (a_end c) 360 = a_end c) \/ (a_end c = 360 /\ pymod (a_end c) 360 = 0).
Proof.
  intros (_ & B & _). destruct (Req_dec (a_end c) 360) as [E|E]; [right|left].
  - split; [exact E|]. rewrite E. apply pymod_360.
  - split; [lra|]. apply pymod_id. lra.
Qed.
Lemma keeps_iff c p : 0 < a_r c -> plain_arc c -> on_circle c p -> vw p = 1 ->
  (arc_keeps c (sub p (a_c c)) = true <-> on_arc c p).
Proof.
  intros Hr PA C W. pose proof (plain_ranged c PA) as [RG _]. rewrite (on_arc_iff c p Hr RG C W). cbv zeta.
  destruct (plain_range c PA) as [-> ->]. unfold arc_keeps. pose proof (deg_range (sub p (a_c c))) as G. set (g := deg_of _) in *. clearbody g.
  pose proof (plain_end c PA) as PE. destruct PA as (A & B & N & F). rewrite (pymod_id (a_start c)) by lra.
  assert (F' : a_start c = 0 -> a_end c <> 360) by (intros K1 K2; apply F; split; assumption). clear F.
  destruct PE as [[E ->]|[E ->]].
  - destruct (Rltb (a_end c) (a_start c)) eqn:L; [apply Rltb_true in L|apply Rltb_false in L].
    + rewrite (proj2 (Rltb_false (a_start c) (a_end c))) by lra. cbn [andb]. bools; cbn [orb]; decide_bool.
    + rewrite (proj2 (Rltb_true (a_start c) (a_end c))) by lra. cbn [andb]. bools; cbn [andb]; decide_bool.
  - rewrite (proj2 (Rltb_false (a_end c) (a_start c))) by lra. rewrite E in *.
    assert (0 < a_start c) by (destruct (Req_dec (a_start c) 0) as [K|K]; [exfalso; apply F'; auto|lra]).
    rewrite (proj2 (Rltb_false (a_start c) 0)), (proj2 (Rltb_true 0 (a_start c))) by lra. cbn [andb]. bools; cbn [orb]; decide_bool.
Qed.
Lemma circle_on_arc c p : 0 < a_r c -> iscircle c = true -> on_circle c p -> vw p = 1 -> on_arc c p.
Proof.
  intros Hr H C W. apply (on_arc_iff c p Hr (circle_ranged c H) C W). unfold iscircle in H. apply andb_true_iff in H as [H1 H2].
  unfold arc_range. rewrite H1. cbn [negb andb fst snd]. apply Reqb_true in H1. apply Reqb_true in H2. rewrite H1, H2.
  left. pose proof (deg_range (sub p (a_c c))). lra.
Qed.
Lemma plain_not_circle c : plain_arc c -> iscircle c = false.
Proof.
  intros (_ & _ & _ & F). unfold iscircle. destruct (Reqb (a_start c) 0) eqn:E1; [|reflexivity]. cbn [andb]. apply Reqb_false.
  intros E. apply F. split; [apply Reqb_true; exact E1|exact E].
Qed.

(** ** lineArcIntersectXY *)
Lemma add_sub p x : vw p = 1 -> add (sub p x) x = p /\ add x (sub p x) = p.
Proof. intros W. split; apply vext; unfold add, sub; cbn [vx vy vz vw]; try ring; symmetry; exact W. Qed.
Lemma level_planar z l c : level z l c -> la_planar l c = true.
Proof.
  intros (H1 & H2 & H3 & _). unfold la_planar, isXYPlanar. cbn [forallb]. rewrite H1, H2, H3, Rminus_eq_0, Rabs_R0.
  rewrite (proj2 (Rltb_false epsilon 0)) by (unfold epsilon; lra). reflexivity.
Qed.
(** the points of the arc's answer: kept by the arc test unless it does not apply *)
Definition kept (c : arc) (inside : bool) (p : vec) : bool := negb inside || iscircle c || arc_keeps c (sub p (a_c c)).
Definition answer (l : list vec) : option (list vec) := match l with [] => None | _ => Some l end.
Lemma raw_answer l c inside ps : la_roots l c inside = Ok (Some (map (fun p => sub p (a_c c)) ps)) -> ps <> [] ->
  Forall (fun p => vw p = 1) ps -> lineArc_raw l c inside = Ok (answer (filter (kept c inside) ps)).
Proof.
  intros H N W. unfold lineArc_raw. rewrite H. cbn [bind]. unfold kept.
  assert (M1 : map (fun q => add q (a_c c)) (map (fun p => sub p (a_c c)) ps) = ps).
  { rewrite map_map. rewrite <- (map_id ps) at 2. apply map_ext_in. intros p Hp. rewrite Forall_forall in W. apply add_sub, W, Hp. }
  destruct (negb inside || iscircle c) eqn:Q.
  - rewrite M1. assert (FI : filter (fun p => true || arc_keeps c (sub p (a_c c))) ps = ps).
    { clear. induction ps as [|p ps IH]; [reflexivity|]. cbn. f_equal. exact IH. }
    rewrite FI. destruct ps; [congruence|reflexivity].
  - cbn [orb]. assert (M2 : map (fun i => add (a_c c) i) (filter (arc_keeps c) (map (fun p => sub p (a_c c)) ps)) = filter (fun p => arc_keeps c (sub p (a_c c))) ps).
    { clear - W. induction W as [|p ps Wp W IH]; [reflexivity|]. cbn [map filter]. destruct (arc_keeps c (sub p (a_c c))); cbn [map].
      - f_equal; [apply add_sub, Wp|exact IH].
      - exact IH. }
    rewrite M2. destruct (filter _ ps); reflexivity.
Qed.
(** the outcomes of lineArcIntersectXY *)
Lemma line_arc_cases z l c inside : level z l c -> exists h D,
  line_distance_is l (a_c c) h /\ h <= D /\ (inside = false -> D = h) /\ (forall p, on_segment l p -> D <= dist (a_c c) p) /\
  ((a_r c + epsilon < D /\ lineArcIntersectXY l c inside = Ok None) \/
   (D <= a_r c + epsilon /\ Rabs (a_r c * a_r c - h * h) * (2 * linelength l) < epsilon /\
      exists p, on_line l p /\ vw p = 1 /\ dist p (a_c c) = h /\ lineArcIntersectXY l c inside = Ok (answer (filter (kept c inside) [p]))) \/
   (D <= a_r c + epsilon /\ epsilon <= (h * h - a_r c * a_r c) * (2 * linelength l) /\ lineArcIntersectXY l c inside = ValueError) \/
   (D <= a_r c + epsilon /\ epsilon <= (a_r c * a_r c - h * h) * (2 * linelength l) /\
      exists pa pb, pa <> pb /\ (on_line l pa /\ vw pa = 1 /\ on_circle c pa) /\ (on_line l pb /\ vw pb = 1 /\ on_circle c pb) /\
        (forall p, on_line l p -> on_circle c p -> p = pa \/ p = pb) /\
        ((pb = snd l /\ lineArcIntersectXY l c inside = Ok (answer (filter (kept c inside) [pa]))) \/
         lineArcIntersectXY l c inside = Ok (answer (filter (kept c inside) [pa; pb]))))).
Proof.
  intros LV. unfold lineArcIntersectXY. rewrite (level_planar z l c LV).
  destruct (roots_spec l c z LV inside) as (h & D & H1 & H2 & H3 & H4 & H5). exists h, D. split; [exact H1|]. split; [exact H2|]. split; [exact H3|]. split; [exact H4|].
  destruct H5 as [[F E]|[(F & T & p & O & W & Dp & E)|[(F & T & E)|(F & T & pa & pb & N & A & B & U & E)]]].
  - left. split; [exact F|]. unfold lineArc_raw. rewrite E. reflexivity.
  - right; left. split; [exact F|]. split; [exact T|]. exists p. split; [exact O|]. split; [exact W|]. split; [exact Dp|].
    apply raw_answer; [exact E|discriminate|]. constructor; [exact W|constructor].
  - right; right; left. split; [exact F|]. split; [exact T|]. unfold lineArc_raw. rewrite E. reflexivity.
  - right; right; right. split; [exact F|]. split; [exact T|]. exists pa, pb. split; [exact N|]. split; [exact A|]. split; [exact B|]. split; [exact U|].
    destruct A as (_ & WA & _), B as (_ & WB & _).
    destruct E as [[Q E]|E]; [left; split; [exact Q|]|right]; (apply raw_answer; [exact E|discriminate|]); repeat constructor; assumption.
Qed.
Lemma ok_inj {A} (x y : A) : Ok x = Ok y -> x = y. Proof. congruence. Qed.
Lemma answer_in ls ps p : answer ls = Some ps -> In p ps -> In p ls.
Proof. destruct ls; [discriminate|]. intros [= <-] H. exact H. Qed.
Lemma line_arc_sound z l c inside ps p : level z l c -> lineArcIntersectXY l c inside = Ok (Some ps) -> In p ps ->
  on_line l p /\ vw p = 1 /\ kept c inside p = true /\
  (on_circle c p \/ (ps = [p] /\ line_distance_is l (a_c c) (dist p (a_c c)) /\
     Rabs (a_r c * a_r c - dist p (a_c c) * dist p (a_c c)) * (2 * linelength l) < epsilon)).
Proof.
  intros LV E I. destruct (line_arc_cases z l c inside LV) as (h & D & H1 & H2 & H3 & H4 & H5).
  destruct H5 as [[F K]|[(F & T & p' & O & W & Dp & K)|[(F & T & K)|(F & T & pa & pb & N & A & B & U & K)]]].
  - rewrite K in E. discriminate.
  - rewrite K in E. assert (E' : answer (filter (kept c inside) [p']) = Some ps) by congruence. clear E. rename E' into E. pose proof (answer_in _ _ _ E I) as J. apply filter_In in J as [[<-|[]] J]. split; [exact O|]. split; [exact W|]. split; [exact J|]. right.
    cbn [filter] in E. rewrite J in E. injection E as <-. split; [reflexivity|]. rewrite Dp. split; assumption.
  - rewrite K in E. discriminate.
  - assert (G : In p (filter (kept c inside) [pa; pb])).
    { destruct K as [[_ K]|K]; rewrite K in E; apply ok_inj in E; pose proof (answer_in _ _ _ E I) as J; apply filter_In in J as [J1 J2]; apply filter_In; split; auto.
      destruct J1 as [<-|[]]. left. reflexivity. }
    apply filter_In in G as [[<-|[<-|[]]] G].
    + destruct A as (A1 & A2 & A3). split; [exact A1|]. split; [exact A2|]. split; [exact G|]. left. exact A3.
    + destruct B as (A1 & A2 & A3). split; [exact A1|]. split; [exact A2|]. split; [exact G|]. left. exact A3.
Qed.
Lemma line_distance_unique l x h h' : line_distance_is l x h -> line_distance_is l x h' -> h = h'.
Proof. intros [A [t E]] [B [t' E']]. specialize (A t'). specialize (B t). lra. Qed.
(** every point on both is found *)
Lemma line_arc_complete z l c (inside : bool) h p : level z l c -> line_distance_is l (a_c c) h ->
  epsilon <= (a_r c * a_r c - h * h) * (2 * linelength l) ->
  (if inside then on_segment l p else on_line l p) -> on_circle c p -> kept c inside p = true -> p <> snd l ->
  exists ps, lineArcIntersectXY l c inside = Ok (Some ps) /\ In p ps.
Proof.
  intros LV Hh Q O C K N. assert (OL : on_line l p) by (destruct inside; [destruct O as (t & _ & E); exists t; exact E|exact O]).
  assert (EP : 0 < epsilon) by (unfold epsilon; lra). pose proof LV as (_ & _ & _ & LL & RR & _).
  destruct (line_arc_cases z l c inside LV) as (h' & D & H1 & H2 & H3 & H4 & H5).
  pose proof (line_distance_unique _ _ _ _ H1 Hh) as ->.
  assert (DR : D <= a_r c).
  { destruct inside.
    - destruct C as [C _]. rewrite <- C, dist_comm. apply H4. exact O.
    - rewrite H3 by reflexivity. destruct C as [C _]. rewrite <- C. destruct Hh as [B _]. destruct O as [t ->]. rewrite dist_comm. apply B. }
  destruct H5 as [[F K']|[(F & T & p' & O' & W & Dp & K')|[(F & T & K')|(F & T & pa & pb & N' & A & B & U & K')]]].
  - exfalso. lra.
  - exfalso. pose proof (Rle_abs (a_r c * a_r c - h * h)). assert (0 <= 2 * linelength l) by lra. nra.
  - exfalso. lra.
  - assert (G : In p (filter (kept c inside) [pa; pb])) by (apply filter_In; split; [destruct (U p OL C) as [-> | ->]; [left|right; left]; reflexivity|exact K]).
    destruct K' as [[Eb K']|K'].
    + destruct (U p OL C) as [-> | ->]; [|congruence]. exists [pa]. rewrite K'. cbn [filter]. rewrite K. split; [reflexivity|left; reflexivity].
    + exists (filter (kept c inside) [pa; pb]). rewrite K'. destruct (filter (kept c inside) [pa; pb]); [destruct G|]. split; [reflexivity|exact G].
Qed.
Lemma line_arc_outcome z l c h : level z l c -> line_distance_is l (a_c c) h ->
  (lineArcIntersectXY l c false = Ok None <-> a_r c + epsilon < h) /\
  (lineArcIntersectXY l c false = ValueError <-> h <= a_r c + epsilon /\ epsilon <= (h * h - a_r c * a_r c) * (2 * linelength l)) /\
  (lineArcIntersectXY l c false = Ok None \/ lineArcIntersectXY l c false = ValueError \/
   exists ps, lineArcIntersectXY l c false = Ok (Some ps) /\ (1 <= length ps <= 2)%nat).
Proof.
  intros LV Hh. assert (EP : 0 < epsilon) by (unfold epsilon; lra). pose proof LV as (_ & _ & _ & LL & RR & _).
  destruct (line_arc_cases z l c false LV) as (h' & D & H1 & H2 & H3 & H4 & H5).
  pose proof (line_distance_unique _ _ _ _ H1 Hh) as ->. rewrite H3 in H5 by reflexivity.
  assert (KT : forall p, kept c false p = true) by reflexivity.
  destruct H5 as [[F K']|[(F & T & p' & O' & W & Dp & K')|[(F & T & K')|(F & T & pa & pb & N' & A & B & U & K')]]].
  - rewrite K'. split; [split; auto|]. split; [split; [discriminate|intros [? _]; exfalso; lra]|]. left; reflexivity.
  - cbn [filter] in K'. rewrite KT in K'. rewrite K'. split; [split; [discriminate|intros; exfalso; lra]|].
    split; [split; [discriminate|]|right; right; eexists; split; [reflexivity|cbn; lia]].
    intros [_ B]. exfalso. assert (- (a_r c * a_r c - h * h) <= Rabs (a_r c * a_r c - h * h)) by (rewrite <- Rabs_Ropp; apply Rle_abs). assert (0 <= 2 * linelength l) by lra. nra.
  - rewrite K'. split; [split; [discriminate|intros; exfalso; lra]|]. split; [split; auto|]. right; left; reflexivity.
  - destruct K' as [[_ K']|K']; cbn [filter] in K'; rewrite ?KT in K'; rewrite K'; (split; [split; [discriminate|intros; exfalso; lra]|]);
      (split; [split; [discriminate|intros [_ ?]; exfalso; lra]|right; right; eexists; split; [reflexivity|cbn; lia]]).
Qed.

(** ** parameters *)
Lemma mapR_ok {A B} (f : A -> res B) (g : A -> B) l : Forall (fun x => f x = Ok (g x)) l -> mapR f l = Ok (map g l).
Proof. induction 1 as [|x l E _ IH]; [reflexivity|]. cbn [mapR map]. rewrite E, IH. reflexivity. Qed.
Lemma params_points z l c o : level z l c -> lineArcIntersectXY_params l c = o ->
  match o with
  | Ok None => lineArcIntersectXY l c false = Ok None
  | Ok (Some (us, vs)) => exists ps, lineArcIntersectXY l c false = Ok (Some ps) /\ length us = length ps /\ length vs = length ps /\
      (forall i p, nth_error ps i = Some p -> exists u, nth_error us i = Some (Some u) /\ sampleline l u = p) /\
      (forall i p, nth_error ps i = Some p -> nth_error vs i = Some (unsamplearc c p))
  | ValueError => lineArcIntersectXY l c false = ValueError
  | _ => False
  end.
Proof.
  intros LV <-. unfold lineArcIntersectXY_params, lineArcIntersectXY. rewrite (level_planar z l c LV).
  unfold lineArc_params_raw, lineArc_raw.
  assert (G : forall s, la_roots l c false = Ok (Some s) -> Forall (fun p => on_line l p) (map (fun q => add q (a_c c)) s)).
  { intros s E. destruct (roots_spec l c z LV false) as (h & D & _ & _ & _ & _ & K). rewrite E in K.
    assert (X : forall p, on_line l p -> vw p = 1 -> on_line l (add (sub p (a_c c)) (a_c c))) by (intros p H W; rewrite (proj1 (add_sub p (a_c c) W)); exact H).
    destruct K as [[_ K]|[(_ & _ & p & O & W & _ & K)|[(_ & _ & K)|(_ & _ & pa & pb & _ & (O1 & W1 & _) & (O2 & W2 & _) & _ & [[_ K]|K])]]];
      try discriminate; injection K as ->; cbn [map]; repeat constructor; auto. }
  destruct (la_roots l c false) as [[s|]| | | | |] eqn:E; cbn [bind]; try reflexivity;
    try (destruct (roots_spec l c z LV false) as (h & D & _ & _ & _ & _ & K); rewrite E in K;
         destruct K as [[_ K]|[(_ & _ & p & O & W & _ & K)|[(_ & _ & K)|(_ & _ & pa & pb & _ & (O1 & W1 & _) & (O2 & W2 & _) & _ & [[_ K]|K])]]]; discriminate).
  cbn [negb orb]. specialize (G s eq_refl). set (pp := map (fun q => add q (a_c c)) s) in *. clearbody pp.
  assert (LN : linelength l <> 0) by (destruct LV as (_ & _ & _ & Q & _); unfold epsilon in Q; lra).
  assert (M : exists us, mapR (unsampleline l) pp = Ok us /\ length us = length pp /\
     forall i p, nth_error pp i = Some p -> exists u, nth_error us i = Some (Some u) /\ sampleline l u = p).
  { clear - G LN. induction G as [|p pp [t ->] G (us & E & Len & IH)].
    - exists []. split; [reflexivity|]. split; [reflexivity|]. intros [|i] p; discriminate.
    - exists (Some t :: us). cbn [mapR]. rewrite (unsample_sample_line l t LN). cbn [bind]. rewrite E. cbn [bind]. split; [reflexivity|].
      split; [cbn; f_equal; exact Len|]. intros [|i] p Hp; cbn [nth_error] in *; [|apply IH; exact Hp].
      injection Hp as <-. exists t. split; reflexivity. }
  destruct M as (us & -> & Len & M). cbn [bind]. exists pp. split; [reflexivity|]. split; [exact Len|]. split; [apply map_length|]. split; [exact M|].
  intros i p Hp. rewrite nth_error_map, Hp. reflexivity.
Qed.
