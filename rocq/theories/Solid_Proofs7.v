(** Bounding boxes, building a surface from triangles, the lines of a surface. *)
From Coq Require Import Reals List Bool ZArith Lra Lia.
From Verif Require Import Xform_Model Xform_Proofs Fig_Model Fig_Proofs Solid_Model Solid_Spec Solid_Proofs Solid_Proofs3 Solid_Proofs5.
Import ListNotations.
Open Scope R_scope.

(** ** boxes *)
Lemma surfacebbox_spec s : (2 <= length (verts s))%nat ->
  exists bb, surfacebbox s = Some bb /\ holds_all (verts s) bb /\ spans (verts s) bb.
Proof.
  intros H. unfold surfacebbox. destruct (verts s) as [|p [|q r]] eqn:E; simpl in H; try lia.
  destruct (polybbox (p :: q :: r)) as [bb|] eqn:B; [|discriminate]. exists bb. split; [auto|]. split.
  - intros x Hx. eapply polybbox_contains; eauto.
  - exact (polybbox_tight p q r bb B).
Qed.
Lemma reached_l f a b x : reached f a x -> reached f (a ++ b) x.
Proof. intros (p & H & E). exists p. split; [apply in_or_app; auto|auto]. Qed.
Lemma reached_r f a b x : reached f b x -> reached f (a ++ b) x.
Proof. intros (p & H & E). exists p. split; [apply in_or_app; auto|auto]. Qed.
Lemma reached_min f a b x y : reached f a x -> reached f b y -> reached f (a ++ b) (Rmin x y).
Proof. intros H1 H2. unfold Rmin. destruct (Rle_dec x y); [apply reached_l|apply reached_r]; auto. Qed.
Lemma reached_max f a b x y : reached f a x -> reached f b y -> reached f (a ++ b) (Rmax x y).
Proof. intros H1 H2. unfold Rmax. destruct (Rle_dec x y); [apply reached_r|apply reached_l]; auto. Qed.
Definition joined (a b : vec * vec) : vec * vec :=
  (point (Rmin (vx (fst a)) (vx (fst b))) (Rmin (vy (fst a)) (vy (fst b))) (Rmin (vz (fst a)) (vz (fst b))),
   point (Rmax (vx (snd a)) (vx (snd b))) (Rmax (vy (snd a)) (vy (snd b))) (Rmax (vz (snd a)) (vz (snd b)))).
Lemma joined_spans a b x y : spans a x -> spans b y -> spans (a ++ b) (joined x y).
Proof.
  intros (A1 & A2 & A3 & A4 & A5 & A6) (B1 & B2 & B3 & B4 & B5 & B6). unfold spans, joined, point; cbn [fst snd vx vy vz].
  repeat apply conj; first [apply reached_min|apply reached_max]; auto.
Qed.
Lemma joined_holds a b x y : holds_all a x -> holds_all b y -> holds_all (a ++ b) (joined x y).
Proof.
  intros HA HB p Hp. unfold inbox, joined, point; cbn [fst snd vx vy vz].
  apply in_app_or in Hp as [Hp|Hp]; [specialize (HA p Hp) as (H1 & H2 & H3)|specialize (HB p Hp) as (H1 & H2 & H3)].
  - pose proof (Rmin_l (vx (fst x)) (vx (fst y))). pose proof (Rmin_l (vy (fst x)) (vy (fst y))). pose proof (Rmin_l (vz (fst x)) (vz (fst y))).
    pose proof (Rmax_l (vx (snd x)) (vx (snd y))). pose proof (Rmax_l (vy (snd x)) (vy (snd y))). pose proof (Rmax_l (vz (snd x)) (vz (snd y))).
    repeat split; lra.
  - pose proof (Rmin_r (vx (fst x)) (vx (fst y))). pose proof (Rmin_r (vy (fst x)) (vy (fst y))). pose proof (Rmin_r (vz (fst x)) (vz (fst y))).
    pose proof (Rmax_r (vx (snd x)) (vx (snd y))). pose proof (Rmax_r (vy (snd x)) (vy (snd y))). pose proof (Rmax_r (vz (snd x)) (vz (snd y))).
    repeat split; lra.
Qed.
Lemma bbox_loop x : (forall s, In s x -> (2 <= length (verts s))%nat) -> forall bb acc, holds_all acc bb -> spans acc bb ->
  exists r, solidbbox_loop x (Some bb) = Val (Some r) /\ holds_all (acc ++ flat_map verts x) r /\ spans (acc ++ flat_map verts x) r.
Proof.
  induction x as [|s x IH]; intros Hl bb acc HH HS.
  - exists bb. simpl. rewrite app_nil_r. auto.
  - destruct (surfacebbox_spec s) as (sb & E & H1 & H2); [apply Hl; left; auto|].
    destruct bb as [lo hi], sb as [l h]. cbn [solidbbox_loop]. rewrite E.
    destruct (IH (fun s' H' => Hl s' (or_intror H')) (joined (lo, hi) (l, h)) (acc ++ verts s)) as (r & R1 & R2 & R3).
    + apply joined_holds; auto.
    + apply joined_spans; auto.
    + exists r. cbn [flat_map]. rewrite app_assoc. auto.
Qed.
Lemma solidbbox_spec x : x <> [] -> (forall s, In s x -> (2 <= length (verts s))%nat) ->
  exists bb, solidbbox x = Val (Some bb) /\ holds_all (flat_map verts x) bb /\ spans (flat_map verts x) bb.
Proof.
  destruct x as [|s x]; [congruence|]. intros _ Hl.
  destruct (surfacebbox_spec s) as (sb & E & H1 & H2); [apply Hl; left; auto|].
  unfold solidbbox; cbn [solidbbox_loop]. rewrite E. cbn [flat_map].
  destruct (bbox_loop x (fun s' H' => Hl s' (or_intror H')) sb (verts s) H1 H2) as (r & R). exists r. exact R.
Qed.

(** ** adding triangles *)
Lemma vclose_near p q : vclose p q = true <-> near p q.
Proof.
  unfold vclose, near. rewrite close_true. unfold Xform_Model.dist in *. rewrite Rminus_0_r.
  rewrite Rabs_right; [tauto|]. unfold mag. apply Rle_ge, sqrt_pos.
Qed.
Lemma find_close_spec p vs : forall i,
  match find_close p vs i with
  | Some j => exists k v, j = (i + k)%nat /\ nth_error vs k = Some v /\ near p v
  | None => forall v, In v vs -> ~ near p v
  end.
Proof.
  induction vs as [|v vs IH]; intros i; cbn [find_close]; [intros v []|].
  destruct (vclose p v) eqn:C.
  - exists 0%nat, v. split; [lia|]. split; [auto|]. apply vclose_near; auto.
  - specialize (IH (S i)). destruct (find_close p vs (S i)).
    + destruct IH as (k & w & -> & H & N). exists (S k), w. split; [lia|auto].
    + intros w [<-|Hw]; [|auto]. intros N. apply vclose_near in N. congruence.
Qed.
Lemma near_self p : near p p.
Proof.
  unfold near, Xform_Model.dist, mag, sub; simpl.
  match goal with |- sqrt ?e < _ => replace e with 0 by ring end. rewrite sqrt_0. apply eps_pos.
Qed.
Lemma near_sym p q : near p q -> near q p.
Proof.
  unfold near, Xform_Model.dist, mag, sub; simpl. intros H.
  match goal with H : sqrt ?a < _ |- sqrt ?b < _ => replace b with a by ring end. exact H.
Qed.
Lemma nth_error_snoc {A} (l : list A) a i x : nth_error (l ++ [a]) i = Some x <->
  nth_error l i = Some x \/ i = length l /\ x = a.
Proof.
  destruct (Nat.lt_trichotomy i (length l)) as [H|[H|H]].
  - rewrite nth_error_app1 by auto. split; [auto|]. intros [?|[? ?]]; [auto|lia].
  - subst i. rewrite nth_error_app2, Nat.sub_diag by auto. simpl. split.
    + intros E. injection E as <-. auto.
    + intros [E|[_ ->]]; [|auto]. assert (length l < length l)%nat by (apply nth_error_Some; congruence). lia.
  - rewrite nth_error_app2 by lia. destruct (i - length l)%nat eqn:E; [lia|]. simpl. split.
    + destruct n; discriminate.
    + intros [X|[? ?]]; [|lia]. assert (i < length l)%nat by (apply nth_error_Some; congruence). lia.
Qed.
Lemma addVert_spec p n vs ns i vs' ns' : length vs = length ns -> apart vs ->
  addVert p n vs ns = (i, vs', ns') ->
  length vs' = length ns' /\ apart vs' /\ (exists ext, vs' = vs ++ ext) /\ (exists ext, ns' = ns ++ ext) /\
  (exists v, nth_error vs' i = Some v /\ near p v) /\
  (forall v, In v vs' -> In v vs \/ v = p) /\ (forall m, In m ns' -> In m ns \/ m = n).
Proof.
  intros Hl Ha H. unfold addVert in H. pose proof (find_close_spec p vs 0) as F.
  destruct (find_close p vs 0) as [j|].
  - injection H as <- <- <-. split; [auto|]. split; [auto|]. split; [exists []; rewrite app_nil_r; auto|].
    split; [exists []; rewrite app_nil_r; auto|]. split; [|auto].
    destruct F as (k & v & -> & H1 & H2). exists v. auto.
  - injection H as <- <- <-. split; [rewrite !app_length, Hl; auto|].
    split.
    { intros a b x y Hx Hy N. apply nth_error_snoc in Hx. apply nth_error_snoc in Hy.
      destruct Hx as [Hx|[-> ->]], Hy as [Hy|[-> ->]]; [eapply Ha; eauto| | |auto]; exfalso.
      - apply (F x); [eapply nth_error_In; eauto|]. apply near_sym; auto.
      - apply (F y); [eapply nth_error_In; eauto|auto]. }
    split; [eauto|]. split; [eauto|]. split.
    { exists p. split; [|apply near_self]. apply nth_error_snoc. auto. }
    split; intros v Hv; apply in_app_or in Hv as [Hv|[Hv|[]]]; auto.
Qed.
Lemma nth_error_ext {A} (l m : list A) i x : nth_error l i = Some x -> nth_error (l ++ m) i = Some x.
Proof. intros H. rewrite nth_error_app1; [auto|]. apply nth_error_Some. congruence. Qed.
Lemma face_near_ext vs m f t : face_near vs f t -> face_near (vs ++ m) f t.
Proof.
  destruct f as [[a b] c], t as [[p q] r]. intros (i & j & k & p' & q' & r' & H).
  exists i, j, k, p', q', r'. destruct H as (H1 & H2 & H3 & H4 & H5 & H6 & H7).
  repeat (split; [solve [auto using nth_error_ext]|]). exact H7.
Qed.
Definition built (s : surf) : Prop := length (verts s) = length (norms s) /\ apart (verts s).
Lemma normfunc_val t ns : normfunc t = Val ns -> exists n, ns = (n, n, n) /\ vw n = 0 /\ vx n * vx n + vy n * vy n + vz n * vz n = 1.
Proof.
  destruct t as [[a b] c]. unfold normfunc. set (d := cross _ _). destruct (Reqb (mag d) 0) eqn:E; [discriminate|].
  intros H. assert (ns = (mkv (vx d * (1 / mag d)) (vy d * (1 / mag d)) (vz d * (1 / mag d)) 0, mkv (vx d * (1 / mag d)) (vy d * (1 / mag d)) (vz d * (1 / mag d)) 0, mkv (vx d * (1 / mag d)) (vy d * (1 / mag d)) (vz d * (1 / mag d)) 0)) by congruence.
  eexists. split; [eassumption|]. cbn [vx vy vz vw]. split; [auto|].
  assert (mag d <> 0). { intros Z. apply Reqb_true in Z. congruence. }
  transitivity ((mag d * mag d) / (mag d * mag d)); [rewrite (mag_sqr d) at 1; field; auto|field; auto].
Qed.
Lemma addTri_spec t s s' : built s -> addTri2Surface t s = Val s' ->
  built s' /\ (exists ext, verts s' = verts s ++ ext) /\ (exists f, faces s' = faces s ++ [f] /\ face_near (verts s') f t) /\
  bnd s' = bnd s /\ holes s' = holes s /\
  (forall n, In n (norms s') -> In n (norms s) \/ vw n = 0 /\ vx n * vx n + vy n * vy n + vz n * vz n = 1) /\
  (forall v, In v (verts s') -> In v (verts s) \/ let '(p, q, r) := t in v = p \/ v = q \/ v = r).
Proof.
  intros [Hl Ha] H. unfold addTri2Surface in H. apply obind_val in H as (ns & Hn & H).
  destruct (normfunc_val _ _ Hn) as (n & -> & Hn0 & Hn1). destruct t as [[p1 p2] p3].
  destruct (addVert p1 n (verts s) (norms s)) as [[i1 v1] m1] eqn:E1.
  destruct (addVert p2 n v1 m1) as [[i2 v2] m2] eqn:E2.
  destruct (addVert p3 n v2 m2) as [[i3 v3] m3] eqn:E3.
  destruct (addVert_spec _ _ _ _ _ _ _ Hl Ha E1) as (L1 & A1 & (x1 & X1) & (y1 & Y1) & (c1 & C1 & N1) & V1 & M1).
  destruct (addVert_spec _ _ _ _ _ _ _ L1 A1 E2) as (L2 & A2 & (x2 & X2) & (y2 & Y2) & (c2 & C2 & N2) & V2 & M2).
  destruct (addVert_spec _ _ _ _ _ _ _ L2 A2 E3) as (L3 & A3 & (x3 & X3) & (y3 & Y3) & (c3 & C3 & N3) & V3 & M3).
  assert (E : s' = mksurf v3 m3 (faces s ++ [(Z.of_nat i1, Z.of_nat i2, Z.of_nat i3)]) (bnd s) (holes s)) by congruence.
  subst s'. cbn [verts norms faces bnd holes]. unfold built; cbn [verts norms].
  split; [auto|]. split; [exists (x1 ++ x2 ++ x3); subst; rewrite !app_assoc; auto|].
  split.
  { eexists. split; [reflexivity|]. exists i1, i2, i3, c1, c2, c3. do 3 (split; [reflexivity|]).
    split; [rewrite X3, X2; auto using nth_error_ext|]. split; [rewrite X3; auto using nth_error_ext|]. auto. }
  split; [auto|]. split; [auto|]. split.
  - intros m Hm. apply M3 in Hm as [Hm| ->]; [|auto]. apply M2 in Hm as [Hm| ->]; [|auto]. apply M1 in Hm as [Hm| ->]; auto.
  - intros v Hv. apply V3 in Hv as [Hv| ->]; [|auto]. apply V2 in Hv as [Hv| ->]; [|auto]. apply V1 in Hv as [Hv| ->]; auto.
Qed.
Lemma addTris_spec ts : forall s s', built s -> addTris ts s = Val s' ->
  built s' /\ (exists ext, verts s' = verts s ++ ext) /\
  (exists fs, faces s' = faces s ++ fs /\ Forall2 (face_near (verts s')) fs ts) /\
  bnd s' = bnd s /\ holes s' = holes s /\
  (forall n, In n (norms s') -> In n (norms s) \/ vw n = 0 /\ vx n * vx n + vy n * vy n + vz n * vz n = 1) /\
  (forall v, In v (verts s') -> In v (verts s) \/ exists t, In t ts /\ tri_corner t v).
Proof.
  induction ts as [|t ts IH]; intros s s' Hb H; cbn [addTris] in H.
  - assert (s' = s) by congruence. subst. split; [auto|]. split; [exists []; rewrite app_nil_r; auto|].
    split; [exists []; rewrite app_nil_r; auto|]. auto.
  - apply obind_val in H as (s1 & H1 & H2).
    destruct (addTri_spec _ _ _ Hb H1) as (B1 & (e1 & X1) & (f1 & F1 & N1) & Y1 & Z1 & M1 & W1).
    destruct (IH _ _ B1 H2) as (B2 & (e2 & X2) & (f2 & F2 & N2) & Y2 & Z2 & M2 & W2).
    split; [auto|]. split; [exists (e1 ++ e2); rewrite X2, X1, app_assoc; auto|].
    split.
    { exists (f1 :: f2). split; [rewrite F2, F1, <- app_assoc; auto|]. constructor; [|auto].
      rewrite X2. apply face_near_ext; auto. }
    split; [congruence|]. split; [congruence|]. split.
    + intros n Hn. apply M2 in Hn as [Hn|Hn]; auto.
    + intros v Hv. apply W2 in Hv as [Hv|(t' & T1 & T2)].
      * apply W1 in Hv as [Hv|Hv]; [auto|]. right. exists t. split; [left; auto|exact Hv].
      * right. exists t'. split; [right; auto|auto].
Qed.
Lemma addTri_total t s : (let '(p, q, r) := t in cross (sub q p) (sub r q) <> mkv 0 0 0 1) <-> exists s', addTri2Surface t s = Val s'.
Proof.
  destruct t as [[p q] r]. unfold addTri2Surface, normfunc. set (d := cross _ _).
  assert (D : d <> mkv 0 0 0 1 <-> mag d <> 0).
  { assert (Hw : vw d = 1) by reflexivity. split.
    - intros N Z. apply N. pose proof (mag_sqr d) as M. rewrite Z in M.
      pose proof (Rle_0_sqr (vx d)). pose proof (Rle_0_sqr (vy d)). pose proof (Rle_0_sqr (vz d)). unfold Rsqr in *.
      destruct d as [a b c w]; cbn [vx vy vz vw] in *. apply mkv_eq; nra.
    - intros N E. apply N. rewrite E. unfold mag; simpl. match goal with |- sqrt ?e = _ => replace e with 0 by ring end. apply sqrt_0. }
  rewrite D. destruct (Reqb (mag d) 0) eqn:E; cbn [obind].
  - apply Reqb_true in E. split; [congruence|]. intros [s' H]. discriminate.
  - split; [|intros _ Z; apply Reqb_true in Z; congruence]. intros _.
    destruct (addVert p _ _ _) as [[i1 v1] m1]. destruct (addVert q _ v1 m1) as [[i2 v2] m2]. destruct (addVert r _ v2 m2) as [[i3 v3] m3]. eauto.
Qed.

(** ** lines *)
Lemma inds2key_eq a b c d : inds2key a b = inds2key c d <-> same_edge (a, b) (c, d).
Proof.
  unfold inds2key, same_edge; simpl. destruct (Z.leb_spec a b), (Z.leb_spec c d); split.
  all: try (intros E; injection E; intros; subst; auto; fail).
  all: try (intros [E|E]; injection E; intros; subst; auto; try lia; f_equal; lia).
Qed.
Lemma ikey_eqb_spec a b : ikey_eqb a b = true <-> a = b.
Proof.
  destruct a, b. unfold ikey_eqb; simpl. rewrite andb_true_iff, !Z.eqb_eq. split; [intros [-> ->]; auto|]. intros E; injection E; auto.
Qed.
(** [es] lists the drawn pairs *)
Definition drawn_inv (s : surf) (es : list (Z * Z)) (st : list (Z * Z) * list line) : Prop :=
  fst st = map (fun e => inds2key (fst e) (snd e)) es /\ Forall2 (line_at s) es (snd st) /\
  NoDup (fst st).
Lemma nodup_snoc {A} (l : list A) a : NoDup l -> ~ In a l -> NoDup (l ++ [a]).
Proof.
  intros H N. induction H as [|b l Hb H IH]; simpl; [constructor; [intros []|constructor]|].
  constructor; [|apply IH; intros X; apply N; right; auto]. intros X. apply in_app_or in X as [X|[X|[]]]; [auto|].
  subst. apply N. left. auto.
Qed.
Lemma addLines_spec s sides : forall es st st', drawn_inv s es st -> addLines s sides st = Val st' ->
  exists es', drawn_inv s (es ++ es') st' /\ (forall e, In e es' -> In e sides) /\
    (forall e, In e sides -> exists e', In e' (es ++ es') /\ same_edge e e').
Proof.
  induction sides as [|e sides IH]; intros es st st' Hi H; cbn [addLines] in H.
  - assert (st' = st) by congruence. subst. exists []. rewrite app_nil_r. split; [auto|]. split; [intros ? []|intros ? []].
  - apply obind_val in H as (st1 & H1 & H2). unfold addLine in H1. cbv zeta in H1.
    destruct (existsb _ (fst st)) eqn:X.
    + assert (st1 = st) by congruence. subst st1. destruct (IH es st st' Hi H2) as (es' & I1 & I2 & I3).
      exists es'. split; [auto|]. split; [intros; right; auto|]. intros x [<-|Hx]; [|auto].
      apply existsb_exists in X as (k & Hk & E). apply ikey_eqb_spec in E. subst k. destruct Hi as (Hi & _).
      rewrite Hi in Hk. apply in_map_iff in Hk as (y & E & Hy). exists y. split; [apply in_or_app; auto|].
      destruct e, y. apply inds2key_eq. symmetry. exact E.
    + apply obind_val in H1 as (p & Hp & H1). apply obind_val in H1 as (q & Hq & H1).
      assert (Est : st1 = (fst st ++ [inds2key (fst e) (snd e)], snd st ++ [(p, q)])) by congruence. subst st1.
      destruct Hi as (J1 & J2 & J3).
      destruct (IH (es ++ [e]) (fst st ++ [inds2key (fst e) (snd e)], snd st ++ [(p, q)]) st') as (es' & I1 & I2 & I3); auto.
      { split; [|split]; cbn [fst snd].
        - rewrite map_app, J1. reflexivity.
        - apply Forall2_app; [auto|]. constructor; [|constructor]. split; cbn [fst snd]; apply pyget_at; auto.
        - apply nodup_snoc; [auto|]. intros Hin.
          assert (existsb (ikey_eqb (inds2key (fst e) (snd e))) (fst st) = true); [|congruence].
          apply existsb_exists. eexists. split; [exact Hin|]. apply ikey_eqb_spec. auto. }
      exists (e :: es'). rewrite <- app_assoc in I1, I3. cbn [app] in I1, I3. split; [auto|]. split.
      * intros x [<-|Hx]; [left; auto|right; auto].
      * intros x [<-|Hx]; [|auto]. exists e. split; [apply in_or_app; right; left; auto|left; auto].
Qed.
Lemma index_side_in s e : index_side s e <-> In e (flat_map face_sides (faces s)).
Proof.
  rewrite in_flat_map. split.
  - intros (a & b & c & H & E). exists (a, b, c). split; [auto|]. simpl. intuition.
  - intros ([[a b] c] & H & E). exists a, b, c. split; [auto|]. simpl in E. intuition.
Qed.
Lemma surf2lines_spec s ls : surf2lines s = Val ls -> exists es, Forall2 (line_at s) es ls /\
  (forall e, In e es -> index_side s e) /\
  (forall e, index_side s e -> exists e', In e' es /\ same_edge e e') /\
  (forall i j e e', nth_error es i = Some e -> nth_error es j = Some e' -> same_edge e e' -> i = j).
Proof.
  intros H. unfold surf2lines in H. apply obind_val in H as (st & H & E). assert (ls = snd st) by congruence. subst ls.
  destruct (addLines_spec s (flat_map face_sides (faces s)) [] ([], []) st) as (es & (I1 & I2 & I3) & S1 & S2); [|exact H|].
  { split; [auto|]. split; [constructor|constructor]. }
  cbn [app] in *. exists es. split; [auto|]. split; [intros; apply index_side_in; auto|].
  split; [intros e He; apply S2, index_side_in; auto|].
  intros i j e e' Hi Hj Hs. apply (proj1 (NoDup_nth_error (fst st)) I3).
  - apply nth_error_Some. rewrite I1, nth_error_map, Hi. discriminate.
  - rewrite I1, !nth_error_map, Hi, Hj. cbn [option_map]. f_equal. destruct e, e'. apply inds2key_eq. exact Hs.
Qed.
Lemma surf2lines_total s : (forall f, In f (faces s) -> exists t, face_corners s f t) -> exists ls, surf2lines s = Val ls.
Proof.
  intros H.
  assert (G : forall e, In e (flat_map face_sides (faces s)) -> (exists p, pyget (verts s) (fst e) = Val p) /\ exists q, pyget (verts s) (snd e) = Val q).
  { intros e He. apply index_side_in in He as (a & b & c & Hf & E). destruct (H _ Hf) as ([[p q] r] & C1 & C2 & C3).
    apply pyget_at in C1, C2, C3. destruct E as [-> | [-> | ->]]; cbn [fst snd]; eauto. }
  unfold surf2lines. generalize (@nil (Z * Z), @nil line). revert G. generalize (flat_map face_sides (faces s)). intros es.
  enough (K : forall st, (forall e, In e es -> (exists p, pyget (verts s) (fst e) = Val p) /\ exists q, pyget (verts s) (snd e) = Val q) -> exists st', addLines s es st = Val st').
  { intros G st. destruct (K st G) as [st' E]. rewrite E. cbn [obind]. eauto. }
  induction es as [|e es IH]; intros st G; cbn [addLines]; [eauto|].
  destruct (G e (or_introl eq_refl)) as ([p Hp] & [q Hq]). unfold addLine. cbv zeta. destruct (existsb _ _); cbn [obind].
  - apply IH. intros; apply G; right; auto.
  - rewrite Hp, Hq. cbn [obind]. apply IH. intros; apply G; right; auto.
Qed.
