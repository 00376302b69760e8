From Coq Require Import Reals List Bool Arith Permutation Lra Lia.
From Verif Require Import Xform_Model Xform_Proofs Oct_Model Oct_Spec Oct_Proofs Oct_Proofs2.
Import ListNotations.
Open Scope R_scope.
Open Scope list_scope.

(** ** Bounding boxes *)
Lemma range_ok f l : forall mn mx a b, mn <= mx -> range f l mn mx = (a, b) ->
  a <= mn /\ mx <= b /\ (forall p, In p l -> a <= f p <= b) /\
  (forall A, A <= mn -> (forall p, In p l -> A <= f p) -> A <= a) /\ (forall B, mx <= B -> (forall p, In p l -> f p <= B) -> b <= B).
Proof.
  induction l as [|p l IH]; cbn [range]; intros mn mx a b L H.
  - injection H as <- <-. split; [lra|]. split; [lra|]. split; [intros p []|]. split; auto.
  - destruct (Rltb (f p) mn) eqn:C; [apply Rltb_true in C|apply Rltb_false in C; destruct (Rltb mx (f p)) eqn:D; [apply Rltb_true in D|apply Rltb_false in D]].
    + apply IH in H as (H1 & H2 & H3 & H4 & H5); [|lra]. split; [lra|]. split; [lra|]. split; [intros x [<-|Hx]; [lra|auto]|].
      split; [intros A HA Hp; apply H4; [apply Hp; left; reflexivity|intros x Hx; apply Hp; right; exact Hx]|intros B HB Hp; apply H5; [lra|intros x Hx; apply Hp; right; exact Hx]].
    + apply IH in H as (H1 & H2 & H3 & H4 & H5); [|lra]. split; [lra|]. split; [lra|]. split; [intros x [<-|Hx]; [lra|auto]|].
      split; [intros A HA Hp; apply H4; [lra|intros x Hx; apply Hp; right; exact Hx]|intros B HB Hp; apply H5; [apply Hp; left; reflexivity|intros x Hx; apply Hp; right; exact Hx]].
    + apply IH in H as (H1 & H2 & H3 & H4 & H5); [|lra]. split; [lra|]. split; [lra|]. split; [intros x [<-|Hx]; [lra|auto]|].
      split; [intros A HA Hp; apply H4; [lra|intros x Hx; apply Hp; right; exact Hx]|intros B HB Hp; apply H5; [lra|intros x Hx; apply Hp; right; exact Hx]].
Qed.
Definition within (b B : box) : Prop := inside true B (lo b) /\ inside true B (hi b).
Lemma polybbox_cons p q l : exists b, polybbox (p :: q :: l) = Some b /\ proper true b /\ (forall x, In x (p :: q :: l) -> inside true b x) /\
  (forall B, (forall x, In x (p :: q :: l) -> inside true B x) -> within b B).
Proof.
  cbn [polybbox]. destruct (range vx (q :: l) (vx p) (vx p)) as [x0 x1] eqn:X. destruct (range vy (q :: l) (vy p) (vy p)) as [y0 y1] eqn:Y. destruct (range vz (q :: l) (vz p) (vz p)) as [z0 z1] eqn:Z.
  apply range_ok in X as (X1 & X2 & X3 & X4 & X5), Y as (Y1 & Y2 & Y3 & Y4 & Y5), Z as (Z1 & Z2 & Z3 & Z4 & Z5); try lra.
  eexists. split; [reflexivity|]. split; [|split].
  - unfold proper. cbn [lo hi point vx vy vz]. repeat split; try intros _; lra.
  - intros v [<-|Hv]; unfold inside; cbn [lo hi point vx vy vz].
    + repeat split; try intros _; lra.
    + split; [auto|]. split; [auto|]. intros _. auto.
  - intros B HB. assert (HP : inside true B p) by (apply HB; left; reflexivity). assert (HQ : forall v, In v (q :: l) -> inside true B v) by (intros v Hv; apply HB; right; exact Hv).
    destruct HP as (Px & Py & Pz). specialize (Pz eq_refl).
    assert (x0 >= vx (lo B)) by (apply Rle_ge, X4; [lra|intros v Hv; apply HQ in Hv as (A & _); lra]).
    assert (x1 <= vx (hi B)) by (apply X5; [lra|intros v Hv; apply HQ in Hv as (A & _); lra]).
    assert (y0 >= vy (lo B)) by (apply Rle_ge, Y4; [lra|intros v Hv; apply HQ in Hv as (_ & A & _); lra]).
    assert (y1 <= vy (hi B)) by (apply Y5; [lra|intros v Hv; apply HQ in Hv as (_ & A & _); lra]).
    assert (z0 >= vz (lo B)) by (apply Rle_ge, Z4; [lra|intros v Hv; apply HQ in Hv as (_ & _ & A); specialize (A eq_refl); lra]).
    assert (z1 <= vz (hi B)) by (apply Z5; [lra|intros v Hv; apply HQ in Hv as (_ & _ & A); specialize (A eq_refl); lra]).
    unfold within, inside. cbn [lo hi point vx vy vz]. repeat split; try intros _; lra.
Qed.
Lemma pointbbox_proper p : proper true (pointbbox p).
Proof. pose proof eps_pos. unfold proper, pointbbox, sub, add, point. cbn [lo hi vx vy vz]. repeat split; try intros _; lra. Qed.
Lemma polybbox_proper l b : polybbox l = Some b -> proper true b.
Proof.
  destruct l as [|p [|q l]]; [discriminate| |].
  - intros [= <-]. apply pointbbox_proper.
  - intros H. destruct (polybbox_cons p q l) as (b' & E & P & _). congruence.
Qed.
Lemma ebox_proper e b : ebox e = Some b -> proper true b.
Proof. destruct e as [p|p q ps|ps]; cbn [ebox]; [intros [= <-]; apply pointbbox_proper| |]; apply polybbox_proper. Qed.
Lemma proper_any th b : proper true b -> proper th b.
Proof. intros (X & Y & Z). split; auto. Qed.
Lemma inside_any th b p : inside true b p -> inside th b p.
Proof. intros (X & Y & Z). split; auto. Qed.
Lemma within_inside th b B p : within b B -> inside th b p -> inside th B p.
Proof.
  intros [(X & Y & Z) (X' & Y' & Z')] (A & C & D). specialize (Z eq_refl). specialize (Z' eq_refl). unfold inside. split; [lra|]. split; [lra|]. intros T. specialize (D T). lra.
Qed.

Definition ok_element (e : element) : Prop := ~ bare e /\ solid_element e.
Lemma collected_ok e : ok_element e -> exists p q l b, collected e = Some (p :: q :: l) /\ ebox e = Some b /\ forall B, (forall x, In x (p :: q :: l) -> inside true B x) -> within b B.
Proof.
  intros [Nb So]. destruct e as [p|p q ps|ps].
  - exfalso. apply Nb. exists p. reflexivity.
  - destruct (polybbox_cons p q ps) as (b & E & _ & _ & H). exists p, q, ps, b. auto.
  - destruct (polybbox ps) as [b|] eqn:P; [|destruct ps as [|? [|]]; try discriminate P; [exfalso; apply So; reflexivity|]; cbn [polybbox] in P; repeat destruct (range _ _ _ _); discriminate P].
    exists (lo b), (hi b), [], b. cbn [collected ebox]. rewrite P. split; auto. split; auto. intros B H. split; apply H; cbn; auto.
Qed.
Lemma collected_total e : solid_element e -> collected e <> None /\ ebox e <> None.
Proof.
  intros So. destruct e as [p|p q ps|ps].
  - split; discriminate.
  - split; [discriminate|]. destruct (polybbox_cons p q ps) as (b & E & _). cbn [ebox]. rewrite E. discriminate.
  - cbn [collected ebox]. destruct (polybbox ps) as [b|] eqn:P; [split; discriminate|]. destruct ps as [|x [|y l]]; [exfalso; apply So; reflexivity|discriminate P|]. destruct (polybbox_cons x y l) as (b & E & _). congruence.
Qed.
Lemma bbox_of_ok es : es <> [] -> Forall ok_element es -> exists b, bbox_of es = Some b /\ proper true b /\
  (forall e eb, In e es -> ebox e = Some eb -> within eb b) /\
  (forall B, (forall e l, In e es -> collected e = Some l -> forall x, In x l -> inside true B x) -> within b B) /\
  (forall e l x, In e es -> collected e = Some l -> In x l -> inside true b x).
Proof.
  intros N F. unfold bbox_of. destruct (all_some collected es) as [ls E].
  { intros e He. rewrite Forall_forall in F. destruct (collected_ok e (F e He)) as (p & q & l & b & C & _). eauto. }
  rewrite E.
  assert (In_ls : forall e l, In e es -> collected e = Some l -> In l ls).
  { intros e l He C. apply In_nth_error in He as [i Hi]. destruct (all_nth _ _ _ E i e Hi) as (l' & C' & Hl). rewrite C in C'. injection C' as <-. eapply nth_error_In; eauto. }
  assert (ls_In : forall l, In l ls -> exists e, In e es /\ collected e = Some l).
  { intros l Hl. apply In_nth_error in Hl as [i Hi]. assert (Li : (i < length es)%nat) by (rewrite <- (all_length _ _ _ E); apply nth_error_Some; congruence).
    destruct (nth_error es i) as [e|] eqn:He; [|apply nth_error_None in He; lia]. destruct (all_nth _ _ _ E i e He) as (l' & C & Hl'). rewrite Hi in Hl'. injection Hl' as <-. exists e. split; auto. eapply nth_error_In; eauto. }
  assert (Sh : exists p q l, concat ls = p :: q :: l).
  { destruct es as [|e es]; [contradiction|]. inversion F as [|? ? Fe _]; subst. destruct (collected_ok e Fe) as (p & q & l & b & C & _). cbn [map all] in E. rewrite C in E. destruct (all (map collected es)); [|discriminate]. injection E as <-. cbn. eauto. }
  destruct Sh as (p & q & l & Sh). rewrite Sh. destruct (polybbox_cons p q l) as (b & Eb & P & Cov & Least). exists b. split; [exact Eb|]. split; [exact P|].
  rewrite <- Sh in Cov, Least.
  assert (Ins : forall e l x, In e es -> collected e = Some l -> In x l -> inside true b x).
  { intros e l' x He C Hx. apply Cov. apply in_concat. exists l'. split; auto. eapply In_ls; eauto. }
  split; [|split].
  - intros e eb He He'. rewrite Forall_forall in F. destruct (collected_ok e (F e He)) as (a & c & l' & b' & C & Eb' & H). assert (eb = b') by congruence. subst b'. apply H. intros x Hx. eapply Ins; eauto.
  - intros B H. apply Least. intros x Hx. apply in_concat in Hx as (l' & Hl & Hx). apply ls_In in Hl as (e & He & C). eapply H; eauto.
  - exact Ins.
Qed.

(** ** States *)
Definition elements (t : ntree) : list element := map fst (geom t).
Definition built (t : ntree) : Prop := exists b bs c md k,
  bbox_of (elements t) = Some b /\ all (map ebox (elements t)) = Some bs /\ elem_boxes t = Some (combine (seq 0 (length bs)) bs) /\
  build (three t) md k b c (combine (seq 0 (length bs)) bs) = Some (the_tree t).
Definition inv (t : ntree) : Prop := Forall (fun e => ~ bare e) (elements t) /\ (update t = false -> geom t <> [] /\ built t).
Lemma updateTree_built t t' : updateTree t = Done tt t' -> inv t -> geom t <> [] -> built t' /\ geom t' = geom t /\ three t' = three t /\ inv t'.
Proof.
  unfold updateTree. intros H [Nb I] G. destruct (update t) eqn:U; cbn [negb] in H.
  2:{ injection H as <-. destruct (I eq_refl). split; auto. split; auto. split; auto. split; auto. }
  destruct (geom t) as [|g gs] eqn:E; [contradiction|]. rewrite <- E in *.
  destruct (bbox_of (map fst (geom t))) as [b|] eqn:B; [|discriminate H]. cbn zeta in H.
  destruct (all (map ebox (map fst (geom t)))) as [bs|] eqn:A; [|discriminate H].
  set (t1 := set_bbox (set_update t false) (Some b)) in *.
  set (t2 := match center t1 with Some _ => t1 | None => set_update (set_center t1 (Some (boxmid b))) true end) in *.
  assert (T2 : geom t2 = geom t /\ three t2 = three t) by (unfold t2; destruct (center t1); auto). destruct T2 as [Tg Th].
  destruct (center (set_boxes t2 (combine (seq 0 (length bs)) bs))) as [c|] eqn:C; [|discriminate H].
  destruct (build _ _ _ _ _ _) as [tr|] eqn:Bd; [|discriminate H]. injection H as <-.
  assert (Bt : built (set_tree (set_boxes t2 (combine (seq 0 (length bs)) bs)) tr (Nat.max (depth (set_boxes t2 (combine (seq 0 (length bs)) bs))) (depth_of tr)))).
  { exists b, bs, c. eexists. eexists. unfold elements. cbn [geom set_tree set_boxes elem_boxes the_tree three]. rewrite Tg. split; [exact B|]. split; [exact A|]. split; [reflexivity|]. exact Bd. }
  split; [exact Bt|]. cbn [geom set_tree set_boxes three]. split; [exact Tg|]. split; [exact Th|]. split; [unfold elements; cbn [geom set_tree set_boxes]; rewrite Tg; exact Nb|]. intros _. split; [cbn [geom set_tree set_boxes]; congruence|exact Bt].
Qed.
Lemma updateTree_empty t : geom t = [] -> updateTree t = Done tt t.
Proof. intros G. unfold updateTree. rewrite G. destruct (update t); reflexivity. Qed.
Lemma updateTree_inv t t' : updateTree t = Done tt t' -> inv t -> inv t'.
Proof.
  intros H I. destruct (geom t) as [|g gs] eqn:G.
  - rewrite (updateTree_empty t G) in H. injection H as <-. exact I.
  - apply (updateTree_built t t' H I). congruence.
Qed.
Lemma get_split order q t es t' : getElements order q t = Done es t' -> exists boxes, updateTree t = Done tt t' /\ elem_boxes t' = Some boxes /\
  all (map (fun i => nth_error (geom t') i) (order (nodup Nat.eq_dec (find (three t') boxes q (the_tree t'))))) = Some es.
Proof.
  unfold getElements. intros H. assert (U : (if update t then updateTree t else Done tt t) = updateTree t) by (unfold updateTree; destruct (update t); reflexivity).
  rewrite U in H. destruct (updateTree t) as [[] t1|t1]; [|discriminate H]. destruct (elem_boxes t1) as [boxes|] eqn:B; [|discriminate H].
  destruct (all _) as [es'|] eqn:A; [|discriminate H]. injection H as <- <-. exists boxes. auto.
Qed.
Lemma make_inv order c t t' : make order c t = Some t' -> inv t -> inv t'.
Proof.
  intros H I. destruct c as [e tag|c| |q|d|m]; cbn [make] in H.
  - unfold addElement in H. destruct I as [Nb _]. destruct e as [p|p q ps|ps]; cbn [forget] in H; [discriminate H| |]; injection H as <-; (split; [|discriminate]);
      unfold elements; cbn [set_update set_geom geom]; rewrite map_app; (apply Forall_app; split; [exact Nb|]); (constructor; [|constructor]); intros [x Hx]; discriminate Hx.
  - unfold updateCenter in H. destruct (geom t) as [|g gs] eqn:G; [injection H as <-; exact I|]. destruct I as [Nb _].
    assert (K : forall x, inv (set_update (set_center t x) true)) by (intros x; split; [exact Nb|discriminate]).
    destruct c as [c|]; [injection H as <-; apply K|]. destruct (bbox t); [injection H as <-; apply K|discriminate H].
  - destruct (updateTree t) as [[] t1|] eqn:U; [|discriminate H]. injection H as <-. eapply updateTree_inv; eauto.
  - destruct (getElements order q t) as [es t1|] eqn:G; [|discriminate H]. injection H as <-. apply get_split in G as (bx & U & _). eapply updateTree_inv; eauto.
  - unfold setMaxdepth in H. destruct (d <? 1)%nat; [discriminate H|]. injection H as <-. exact I.
  - unfold setMindim in H. destruct (Rltb m epsilon); [discriminate H|]. injection H as <-. exact I.
Qed.
Lemma history_inv order cs : forall t t', history order cs t = Some t' -> inv t -> inv t'.
Proof.
  induction cs as [|c cs IH]; cbn [history]; intros t t' H I; [injection H as <-; exact I|]. destruct (make order c t) as [t1|] eqn:M; [|discriminate H]. eapply IH; eauto. eapply make_inv; eauto.
Qed.
Lemma create_inv is8 g c md mxd t : create is8 g c md mxd = Some t -> Forall (fun e => ~ bare (fst e)) g -> inv t /\ geom t = g.
Proof.
  intros H F. unfold create in H. cbn zeta in H. match type of H with match ?x with Some _ => _ | None => _ end = _ => destruct x as [m|] end; [|discriminate H].
  assert (Fe : Forall (fun e => ~ bare e) (map fst g)) by (apply Forall_map; exact F).
  destruct g as [|x g]; [injection H as <-; split; auto; split; [constructor|discriminate]|]. destruct (bbox_of (map fst (x :: g))); [|discriminate H]. injection H as <-. split; auto. split; [exact Fe|discriminate].
Qed.
(** what the search finds *)
Lemma find_exact t boxes q : built t -> Forall (fun e => ~ bare e) (elements t) -> elem_boxes t = Some boxes -> proper (three t) q ->
  forall i, In i (find (three t) boxes q (the_tree t)) <-> exists e b, nth_error (geom t) i = Some e /\ ebox (fst e) = Some b /\ overlap (three t) b q.
Proof.
  intros (b & bs & c & md & k & B & A & Eb & Bd) Nb Eb' Q i. rewrite Eb in Eb'. injection Eb' as <-.
  assert (Ok : Forall ok_element (elements t)).
  { rewrite Forall_forall in *. intros e He. split; [auto|]. intros ->. apply In_nth_error in He as [j Hj]. destruct (all_nth _ _ _ A j _ Hj) as (x & X & _). discriminate X. }
  assert (Box : forall i e, nth_error (geom t) i = Some e -> exists eb, ebox (fst e) = Some eb /\ nth_error (combine (seq 0 (length bs)) bs) i = Some (i, eb)).
  { intros j e Hj. assert (He : nth_error (elements t) j = Some (fst e)) by (exact (map_nth_error fst j (geom t) Hj)).
    destruct (all_nth _ _ _ A j _ He) as (eb & E1 & E2). exists eb. split; auto. rewrite (nth_combine_seq bs 0 j eb E2). reflexivity. }
  split.
  - intros H. apply find_sound in H as (j & eb & N & O).
    assert (Li : (i < length (geom t))%nat).
    { assert (Lb : (i < length (combine (seq 0 (length bs)) bs))%nat) by (apply nth_error_Some; congruence). rewrite combine_length, seq_length, Nat.min_id in Lb. rewrite (all_length _ _ _ A) in Lb. unfold elements in Lb. rewrite map_length in Lb. exact Lb. }
    destruct (nth_error (geom t) i) as [e|] eqn:G; [|apply nth_error_None in G; lia]. destruct (Box i e G) as (eb' & E1 & E2). rewrite N in E2. injection E2 as -> ->. exists e, eb'. split; auto. split; auto.
    pose proof (ebox_proper _ _ E1) as P. apply boxoverlap2_spec in O; auto; [|apply proper_any, P]. destruct O as (p & Pq & Pe). exists p. auto.
  - intros (e & eb & G & E & (p & Pe & Pq)). destruct (Box i e G) as (eb' & E1 & E2). assert (eb' = eb) by congruence. subst eb'.
    assert (Nn : elements t <> []) by (unfold elements; destruct (geom t); [destruct i; discriminate G|discriminate]).
    destruct (bbox_of_ok (elements t) Nn Ok) as (b' & B' & _ & W & _). rewrite B in B'. injection B' as <-.
    eapply build_finds; [exact Bd| |exact E2| |exact Pe|exact Pq].
    + eapply nth_error_In; eauto.
    + eapply within_inside; [|exact Pe]. apply (W (fst e)); auto. unfold elements. apply in_map. eapply nth_error_In; eauto.
Qed.
(** ** No exception *)
Definition centred (t : ntree) : Prop := epsilon <= mindim t /\ Forall ok_element (elements t) /\
  (forall c, center t = Some c -> exists b, bbox_of (elements t) = Some b /\ isinsidebbox b c = true).
Lemma bbox_of_grows es e b b' : es <> [] -> Forall ok_element (es ++ [e]) -> bbox_of es = Some b -> bbox_of (es ++ [e]) = Some b' -> within b b'.
Proof.
  intros N F B B'. assert (F1 : Forall ok_element es) by (apply Forall_app in F; apply F). destruct (bbox_of_ok es N F1) as (b0 & E0 & _ & _ & L & _). rewrite B in E0. injection E0 as <-.
  assert (N' : es ++ [e] <> []) by (destruct es; discriminate). destruct (bbox_of_ok _ N' F) as (b1 & E1 & _ & _ & _ & I). rewrite B' in E1. injection E1 as <-.
  apply L. intros x l Hx C y Hy. eapply I; eauto. apply in_or_app. left. exact Hx.
Qed.
Lemma updateTree_total t : centred t -> exists t', updateTree t = Done tt t' /\ centred t' /\ geom t' = geom t.
Proof.
  intros (M & F & C). destruct (geom t) as [|g gs] eqn:G; [rewrite updateTree_empty by exact G; exists t; split; auto; split; [|exact G]; split; auto|].
  unfold updateTree. destruct (update t); cbn [negb]; [|exists t; split; auto; split; [|exact G]; split; auto].
  assert (Gn : geom t <> []) by congruence.
  assert (Nn : elements t <> []) by (unfold elements; rewrite G; discriminate). destruct (bbox_of_ok _ Nn F) as (b & B & P & _). rewrite G. rewrite <- G in *. fold (elements t). rewrite B. cbn zeta.
  destruct (all_some ebox (elements t)) as [bs A].
  { intros e He. rewrite Forall_forall in F. destruct (collected_ok e (F e He)) as (p & q & l & b' & _ & E & _). eauto. }
  rewrite A. cbn [center set_bbox set_update].
  destruct (center t) as [c|] eqn:Ct.
  - cbn [center set_bbox set_update set_boxes]. rewrite Ct. destruct (C c eq_refl) as (b' & B' & I). rewrite B in B'. injection B' as <-.
    destruct (build_total (three t) (mindim t) M (S (maxdepth t)) b c (combine (seq 0 (length bs)) bs) I) as [tr Bd]. cbn [three mindim maxdepth set_boxes set_bbox set_update]. rewrite Bd. eexists. split; [reflexivity|]. split; [|reflexivity].
    split; [exact M|]. split; [exact F|]. cbn [center set_tree set_boxes set_bbox set_update geom]. rewrite Ct. intros c' [= <-]. exists b. split; auto.
  - cbn [center set_bbox set_update set_boxes set_center].
    assert (I : isinsidebbox b (boxmid b) = true) by (destruct P as (X & Y & Z); apply mid_inside; auto).
    destruct (build_total (three t) (mindim t) M (S (maxdepth t)) b (boxmid b) (combine (seq 0 (length bs)) bs) I) as [tr Bd]. cbn [three mindim maxdepth set_boxes set_bbox set_update set_center]. rewrite Bd. eexists. split; [reflexivity|]. split; [|reflexivity].
    split; [exact M|]. split; [exact F|]. cbn [center set_tree set_boxes set_bbox set_update set_center geom]. intros c' E'. exists b. split; [exact B|]. assert (c' = boxmid b) by congruence. subst c'. exact I.
Qed.
Lemma centred_add t e tag : centred t -> ok_element e -> centred (set_update (set_geom t (geom t ++ [(e, tag)])) true).
Proof.
  intros (M & F & C) Ok. assert (F' : Forall ok_element (map fst (geom t ++ [(e, tag)]))) by (rewrite map_app; apply Forall_app; split; [exact F|constructor; [exact Ok|constructor]]).
  split; [exact M|]. split; [exact F'|]. unfold elements. cbn [center set_update set_geom geom]. intros c Hc.
  destruct (bbox_of_ok (map fst (geom t ++ [(e, tag)]))) as (b' & B' & P & _); [rewrite map_app; intros X; apply app_eq_nil in X as [_ X]; discriminate X|exact F'|]. exists b'. split; [exact B'|].
  destruct (C c Hc) as (b & B & Ib). rewrite map_app in F', B'. apply isinside_iff. apply isinside_iff in Ib. eapply within_inside; [|exact Ib]. eapply bbox_of_grows; [|exact F'|exact B|exact B'].
  intros X. change (elements t = []) in X. rewrite X in B. discriminate B.
Qed.
Lemma make_centred order c t t' : make order c t = Some t' -> plain c -> centred t -> centred t'.
Proof.
  intros H P C. destruct c as [e tag|c| |q|d|m]; cbn [make plain] in *.
  - unfold addElement in H. destruct e as [p|p q ps|ps]; cbn [forget] in H; [discriminate H| |]; injection H as <-; apply centred_add; auto; split; auto; intros [x X]; discriminate X.
  - contradiction P.
  - destruct (updateTree_total t C) as (t1 & U & C1 & _). rewrite U in H. injection H as <-. exact C1.
  - destruct (getElements order q t) as [es t1|] eqn:G; [|discriminate H]. injection H as <-. apply get_split in G as (bx & U & _). destruct (updateTree_total t C) as (t2 & U2 & C1 & _). rewrite U in U2. injection U2 as <-. exact C1.
  - unfold setMaxdepth in H. destruct (d <? 1)%nat; [discriminate H|]. injection H as <-. exact C.
  - unfold setMindim in H. destruct (Rltb m epsilon) eqn:E; [discriminate H|]. apply Rltb_false in E. injection H as <-. destruct C as (_ & C). split; [exact E|exact C].
Qed.
Lemma history_centred order cs : forall t t', history order cs t = Some t' -> Forall plain cs -> centred t -> centred t'.
Proof.
  induction cs as [|c cs IH]; cbn [history]; intros t t' H F C; [injection H as <-; exact C|]. inversion F; subst. destruct (make order c t) as [t1|] eqn:M; [|discriminate H]. eapply IH; eauto. eapply make_centred; eauto.
Qed.
Lemma create_centred is8 g md mxd t : create is8 g None md mxd = Some t -> Forall (fun e => ok_element (fst e)) g -> centred t.
Proof.
  intros H F. pose proof eps_pos as Ep. assert (E1 : epsilon <= 1) by (unfold epsilon; lra). unfold create in H. cbn zeta in H. match type of H with match ?x with Some _ => _ | None => _ end = _ => destruct x as [m|] eqn:X end; [|discriminate H].
  assert (M : epsilon <= m).
  { destruct md as [d|]; [|injection X as <-; exact E1]. destruct (Reqb d 0); [injection X as <-; exact E1|]. destruct (Rltb epsilon d) eqn:Y; [|discriminate X]. apply Rltb_true in Y. injection X as <-. lra. }
  assert (Fe : Forall ok_element (map fst g)) by (apply Forall_map; exact F).
  destruct g as [|x g]; [injection H as <-; split; [exact M|]; split; [constructor|discriminate]|].
  destruct (bbox_of_ok (map fst (x :: g)) ltac:(discriminate) Fe) as (b & B & (Px & Py & Pz) & _). rewrite B in H. injection H as <-. split; [exact M|]. split; [exact Fe|].
  cbn [center set_center]. intros c Hc. exists b. split; [exact B|]. assert (c = boxmid b) by congruence. subst c. apply mid_inside; auto.
Qed.
Lemma get_total order q t : set_order order -> inv t -> centred t -> geom t <> [] -> proper (three t) q -> exists es t', getElements order q t = Done es t'.
Proof.
  intros O I C G Q. destruct (updateTree_total t C) as (t' & U & C' & G'). destruct (updateTree_built t t' U I G) as (B & _ & Th & [Nb _]). pose proof B as (b & bs & c & md & k & _ & _ & Eb & _).
  assert (Fx := find_exact t' _ q B Nb Eb). rewrite Th in Fx. specialize (Fx Q).
  unfold getElements. replace (if update t then updateTree t else Done tt t) with (updateTree t) by (unfold updateTree; destruct (update t); reflexivity). rewrite U, Eb, Th.
  destruct (all_some (fun i => nth_error (geom t') i) (order (nodup Nat.eq_dec (find (three t) (combine (seq 0 (length bs)) bs) q (the_tree t'))))) as [es E].
  - intros i Hi. apply (Permutation_in _ (O _)) in Hi. apply nodup_In in Hi. apply Fx in Hi as (e & _ & N & _). eauto.
  - rewrite E. eauto.
Qed.
(** the result of a query *)
Lemma get_exact order q t es t' : set_order order -> inv t -> proper (three t) q -> getElements order q t = Done es t' -> geom t <> [] ->
  exists is, NoDup is /\ map Some es = map (nth_error (geom t)) is /\
    forall i, In i is <-> exists e b, nth_error (geom t) i = Some e /\ ebox (fst e) = Some b /\ overlap (three t) b q.
Proof.
  intros O I Q H G. apply get_split in H as (boxes & U & Eb & A). destruct (updateTree_built t t' U I G) as (B & G' & Th & [Nb _]).
  exists (order (nodup Nat.eq_dec (find (three t') boxes q (the_tree t')))). split; [|split].
  - apply (Permutation_NoDup (Permutation_sym (O _))), NoDup_nodup.
  - rewrite G' in A. clear -A. set (l := order _) in *. clearbody l. revert es A. induction l as [|i l IH]; intros es; cbn [map all]; [intros [= <-]; reflexivity|].
    destruct (nth_error (geom t) i); [|discriminate]. destruct (all _) as [r|] eqn:E; [|discriminate]. intros [= <-]. cbn [map]. f_equal. apply IH. reflexivity.
  - intros i. rewrite <- Th in Q. pose proof (find_exact t' boxes q B Nb Eb Q i) as Fx. rewrite G', Th in Fx. rewrite <- Fx, Th. split.
    + intros Hi. apply (Permutation_in _ (O _)) in Hi. apply nodup_In in Hi. exact Hi.
    + intros Hi. apply (Permutation_in _ (Permutation_sym (O _))). apply nodup_In. exact Hi.
Qed.
