From Coq Require Import Reals List Bool Lia Lra.
From Verif Require Import Xform_Model Xform_Proofs Cache_Model Cache_Spec.
Import ListNotations.

Section P.
Variable F : figures.
Notation refresh := (refresh F). Notation step := (step F). Notation after := (after F).
Notation create := (create F).

(** Properties as a new object computes them: None if that raises. *)
Definition props (e : elem F) : option (R * option vec * option (box F)) :=
  let (o, ok) := refresh (create e true) in
  if ok then Some (o_length o, o_center o, o_bbox o) else None.

Definition solidish (e : elem F) : Prop := kind_of F e = KSolid.

(** The cached properties are those of the element (bounding box and centre of a
    solid apart). *)
Definition good (o : obj F) : Prop :=
  o_update o = false ->
  exists l c b, props (o_elem o) = Some (l, c, b) /\ o_length o = l /\
    (kind_of F (o_elem o) <> KSolid -> o_center o = c /\ o_bbox o = b) /\
    (solid_bbox F (o_elem o) <> None -> o_center o = c).

Lemma refresh_elem o : o_elem (fst (refresh o)) = o_elem o.
Proof.
  unfold Cache_Model.refresh. destruct (o_update o); [|reflexivity].
  cbn [set_update o_elem].
  destruct (kind_of F (o_elem o)) eqn:K; unfold solid_props; cbn [o_elem set_props o_bbox set_update];
  repeat match goal with |- context [match ?x with _ => _ end] => destruct x; cbn [o_elem fst set_props] end; reflexivity.
Qed.
Lemma refresh_closed o : o_closed (fst (refresh o)) = o_closed o.
Proof.
  unfold Cache_Model.refresh. destruct (o_update o); [|reflexivity].
  cbn [set_update o_elem].
  destruct (kind_of F (o_elem o)) eqn:K; unfold solid_props; cbn [o_elem set_props o_bbox set_update];
  repeat match goal with |- context [match ?x with _ => _ end] => destruct x; cbn [o_elem fst set_props] end; reflexivity.
Qed.
Lemma refresh_surface o : o_surface (fst (refresh o)) = o_surface o /\ o_ang (fst (refresh o)) = o_ang o /\ o_len (fst (refresh o)) = o_len o.
Proof.
  unfold Cache_Model.refresh. destruct (o_update o); [|now repeat split].
  cbn [set_update o_elem].
  destruct (kind_of F (o_elem o)) eqn:K; unfold solid_props; cbn [o_elem set_props o_bbox set_update];
  repeat match goal with |- context [match ?x with _ => _ end] => destruct x; cbn [o_elem fst set_props] end; now repeat split.
Qed.
Lemma refresh_update o : o_update (fst (refresh o)) = false.
Proof.
  unfold Cache_Model.refresh. destruct (o_update o) eqn:U; [|exact U].
  cbn [set_update o_elem].
  destruct (kind_of F (o_elem o)) eqn:K; unfold solid_props; cbn [o_elem set_props o_bbox set_update];
  repeat match goal with |- context [match ?x with _ => _ end] => destruct x; cbn [o_elem fst set_props] end; reflexivity.
Qed.

(** Whether refreshing raises depends on the element only. *)
Lemma refresh_ok o : o_update o = true -> (snd (refresh o) = true <-> props (o_elem o) <> None).
Proof.
  intros U. unfold props, Cache_Model.refresh. rewrite U. unfold Cache_Model.create; cbn [o_update set_update o_elem].
  destruct (kind_of F (o_elem o)) eqn:K; cbn [snd]; try (split; [discriminate|reflexivity]).
  cbn [o_elem set_props set_update Cache_Model.create].
  destruct (length_of F (o_elem o)); cbn [o_elem set_props set_update Cache_Model.create snd]; [|split; [discriminate|intros H; exfalso; apply H; reflexivity]].
  destruct (center_of F (o_elem o)); cbn [o_elem set_props set_update Cache_Model.create snd]; [|split; [discriminate|intros H; exfalso; apply H; reflexivity]].
  destruct (bbox_of F (o_elem o)); cbn [o_elem set_props set_update Cache_Model.create snd]; [split; [discriminate|reflexivity]|split; [discriminate|intros H; exfalso; apply H; reflexivity]].
Qed.

Lemma refresh_good o : good o -> snd (refresh o) = true -> good (fst (refresh o)).
Proof.
  intros G OK. destruct (o_update o) eqn:U.
  2:{ unfold Cache_Model.refresh. rewrite U. exact G. }
  intros _. rewrite refresh_elem. pose proof (proj1 (refresh_ok o U) OK) as P.
  destruct (props (o_elem o)) as [[[l c] b]|] eqn:E; [|congruence]. exists l, c, b. split; [reflexivity|].
  revert E. unfold props, Cache_Model.refresh. rewrite U.
  unfold Cache_Model.create; cbn [o_update set_update o_elem].
  destruct (kind_of F (o_elem o)) eqn:K; unfold solid_props;
    cbn [fst o_elem set_update o_bbox set_props o_length o_center o_surface o_ang o_len o_closed o_update].
  - intros E. assert (E1 : (0%R, @None vec, @None (box F)) = (l, c, b)) by congruence.
    assert (l = 0%R /\ c = None /\ b = None) as (-> & -> & ->) by (repeat split; congruence). repeat split.
  - destruct (solid_bbox F (o_elem o)) as [sb|] eqn:S1; [|].
    + destruct (solid_center F (o_elem o)) as [sc|] eqn:S2; cbn [o_length o_center o_bbox set_props]; intros E.
      * assert (l = 0%R /\ c = Some sc) as (-> & ->) by (split; congruence).
        destruct (o_bbox o); cbn [o_length o_center o_bbox set_props]; repeat split; congruence.
      * assert (l = 0%R /\ c = None) as (-> & ->) by (split; congruence).
        destruct (o_bbox o); cbn [o_length o_center o_bbox set_props]; repeat split; congruence.
    + cbn [o_length o_center o_bbox set_props]. intros E.
      assert (l = 0%R) as -> by congruence.
      destruct (o_bbox o), (solid_center F (o_elem o)); cbn [o_length o_center o_bbox set_props]; repeat split; congruence.
  - destruct (solid_bbox F (o_elem o)) as [sb|] eqn:S1; [destruct (solid_center F (o_elem o)) as [sc|] eqn:S2|];
      cbn [o_length o_center o_bbox set_props]; intros E;
      assert (EE := E); repeat split; congruence.
  - destruct (length_of F (o_elem o)); [|discriminate]. cbn [o_elem set_props].
    destruct (center_of F (o_elem o)); [|discriminate]. cbn [o_elem set_props].
    destruct (bbox_of F (o_elem o)); [|discriminate].
    cbn [fst o_elem set_update o_bbox set_props o_length o_center]. intros E. repeat split; congruence.
Qed.

Lemma step_elem o x : o_elem (fst (step o x)) = next_figure F (o_elem o) x.
Proof.
  destruct x as [h a|e| | | | | |a l]; cbn [Cache_Model.step next_figure].
  - unfold change, changed. destruct (kind_of F (o_elem o)) eqn:K, h; cbn [fst];
    match goal with |- context [match ?t with Some _ => _ | None => _ end] => destruct t; cbn [fst clears]; reflexivity end.
  - reflexivity.
  - reflexivity.
  - unfold query. pose proof (refresh_elem o) as R. destruct (refresh o). exact R.
  - unfold query. pose proof (refresh_elem o) as R. destruct (refresh o). exact R.
  - unfold query. pose proof (refresh_elem o) as R. destruct (refresh o). exact R.
  - unfold query. pose proof (refresh_elem o) as R. destruct (refresh o). exact R.
  - unfold ask_surface. destruct (o_closed o); cbn [negb]; [|reflexivity].
    pose proof (refresh_elem o) as R. destruct (refresh o) as [o' ok]. cbn [fst] in R.
    destruct ok; cbn [negb]; [|exact R].
    destruct (o_surface o') as [s|]; [destruct (_ && _); [exact R|]|];
    (cbn [set_surface o_elem]; destruct (kind_of F (o_elem o')); [exact R| | |];
     destruct (tri F (o_elem o') a l); exact R).
Qed.

Lemma after_elem xs : forall o, o_elem (after o xs) = figure_after F (o_elem o) xs.
Proof.
  induction xs as [|x xs IH]; intros o; [reflexivity|].
  unfold Cache_Model.after, figure_after in *. cbn [fold_left]. rewrite IH. now rewrite step_elem.
Qed.
Lemma step_closed o x : o_closed (fst (step o x)) = o_closed o.
Proof.
  destruct x as [h a|e| | | | | |a l]; cbn [Cache_Model.step].
  - unfold change. destruct (kind_of F (o_elem o)) eqn:K, h;
    match goal with |- context [match ?t with Some _ => _ | None => _ end] => destruct t; cbn [fst clears]; reflexivity end.
  - reflexivity.
  - reflexivity.
  - unfold query. pose proof (refresh_closed o) as R. destruct (refresh o). exact R.
  - unfold query. pose proof (refresh_closed o) as R. destruct (refresh o). exact R.
  - unfold query. pose proof (refresh_closed o) as R. destruct (refresh o). exact R.
  - unfold query. pose proof (refresh_closed o) as R. destruct (refresh o). exact R.
  - unfold ask_surface. destruct (o_closed o) eqn:C; cbn [negb]; [|exact C].
    pose proof (refresh_closed o) as R. destruct (refresh o) as [o' ok]. cbn [fst] in R. rewrite C in R.
    destruct ok; cbn [negb]; [|exact R].
    destruct (o_surface o') as [s|]; [destruct (_ && _); [exact R|]|];
    (cbn [set_surface o_elem]; destruct (kind_of F (o_elem o')); [exact R| | |];
     destruct (tri F (o_elem o') a l); exact R).
Qed.
Lemma after_closed xs : forall o, o_closed (after o xs) = o_closed o.
Proof.
  induction xs as [|x xs IH]; intros o; [reflexivity|].
  unfold Cache_Model.after in *. cbn [fold_left]. rewrite IH. now rewrite step_closed.
Qed.

(** A change leaves the object to be refreshed or as it was. *)
Lemma change_update o h a : o_update (fst (change F o h a)) = true \/ fst (change F o h a) = o.
Proof.
  unfold change. destruct (kind_of F (o_elem o)) eqn:K, h;
    match goal with |- context [match ?t with Some _ => _ | None => _ end] => destruct t; cbn [fst clears]; auto end.
Qed.

(** good does not look at the surface. *)
Lemma good_surface o s a l : good o -> good (set_surface F o s a l).
Proof. exact (fun H => H). Qed.

Lemma query_good o x : is_query F x = true -> good o -> snd (step o x) <> Raised -> good (fst (step o x)).
Proof.
  intros Q G NR. destruct x as [h a|e| | | | | |a l]; try discriminate Q; cbn [Cache_Model.step] in *.
  1-4: (unfold query in *; pose proof (refresh_good o G) as R; destruct (refresh o) as [o' ok]; cbn [fst snd] in *;
      destruct ok; [auto|congruence]).
  unfold ask_surface in *. destruct (o_closed o); cbn [negb fst snd] in *; [|exact G].
  pose proof (refresh_good o G) as R. destruct (refresh o) as [o' ok]. cbn [fst snd] in *.
  destruct ok; cbn [negb fst snd] in *; [|congruence]. specialize (R eq_refl).
  destruct (o_surface o') as [s|]; [destruct (_ && _); [exact R|]|];
    (cbn [set_surface o_elem] in *; destruct (kind_of F (o_elem o')); [exact R| | |];
     destruct (tri F (o_elem o') a l); exact R).
Qed.

Lemma good_dirty o : o_update o = true -> good o.
Proof. intros U H. congruence. Qed.

Lemma run_good xs : forall o dirty, (dirty = false -> good o) -> disciplined F dirty xs = true ->
  quiet F o xs -> good (after o xs).
Proof.
  induction xs as [|x xs IH]; intros o dirty G D Q.
  { apply G. destruct dirty; [discriminate D|reflexivity]. }
  assert (Q' : quiet F (fst (step o x)) xs).
  { intros ys y zs E. specialize (Q (x :: ys) y zs). rewrite E in Q. exact (Q eq_refl). }
  assert (NR : is_query F x = true -> snd (step o x) <> Raised) by exact (Q [] x xs eq_refl).
  change (after o (x :: xs)) with (after (fst (step o x)) xs).
  destruct x as [h a|e| | | | | |a l]; cbn [disciplined is_query negb orb] in D.
  - apply (IH _ dirty); [|exact D|exact Q']. intros ->.
    cbn [Cache_Model.step]. pose proof (change_update o h a) as C. destruct (change F o h a) as [o' ok]. cbn [fst] in *.
    destruct C as [C| ->]; [now apply good_dirty|auto].
  - apply (IH _ true); [discriminate|exact D|exact Q'].
  - apply (IH _ false); [|exact D|exact Q']. intros _. now apply good_dirty.
  - apply andb_true_iff in D. destruct D as [D0 D]. apply negb_true_iff in D0. subst dirty.
    apply (IH _ false); [|exact D|exact Q']. intros _. apply query_good; auto.
  - apply andb_true_iff in D. destruct D as [D0 D]. apply negb_true_iff in D0. subst dirty.
    apply (IH _ false); [|exact D|exact Q']. intros _. apply query_good; auto.
  - apply andb_true_iff in D. destruct D as [D0 D]. apply negb_true_iff in D0. subst dirty.
    apply (IH _ false); [|exact D|exact Q']. intros _. apply query_good; auto.
  - apply andb_true_iff in D. destruct D as [D0 D]. apply negb_true_iff in D0. subst dirty.
    apply (IH _ false); [|exact D|exact Q']. intros _. apply query_good; auto.
  - apply andb_true_iff in D. destruct D as [D0 D]. apply negb_true_iff in D0. subst dirty.
    apply (IH _ false); [|exact D|exact Q']. intros _. apply query_good; auto.
Qed.

(** A query of a good object answers as a new object would. *)
Lemma props_closed e c : props e = let (o, ok) := refresh (create e c) in
  if ok then Some (o_length o, o_center o, o_bbox o) else None.
Proof.
  unfold props, Cache_Model.refresh. unfold Cache_Model.create; cbn [o_update set_update o_elem].
  destruct (kind_of F e) eqn:K; unfold solid_props; cbn [o_elem set_props o_bbox set_update].
  - reflexivity.
  - destruct (solid_bbox F e), (solid_center F e); reflexivity.
  - destruct (solid_bbox F e), (solid_center F e); reflexivity.
  - destruct (length_of F e); cbn [o_elem set_props]; [|reflexivity].
    destruct (center_of F e); cbn [o_elem set_props]; [|reflexivity].
    destruct (bbox_of F e); reflexivity.
Qed.

Lemma refreshed o : good o -> let (o', ok) := refresh o in
  (ok = true <-> props (o_elem o) <> None) /\
  (ok = true -> forall l c b, props (o_elem o) = Some (l, c, b) ->
     o_length o' = l /\ (kind_of F (o_elem o) <> KSolid -> o_center o' = c /\ o_bbox o' = b) /\
     (solid_bbox F (o_elem o) <> None -> o_center o' = c)).
Proof.
  intros G. pose proof (refresh_good o G) as R. pose proof (refresh_elem o) as RE. pose proof (refresh_update o) as RU.
  destruct (o_update o) eqn:U.
  - pose proof (refresh_ok o U) as OK. destruct (refresh o) as [o' ok]. cbn [fst snd] in *. split; [exact OK|].
    intros -> l c b E. destruct (R eq_refl RU) as (l' & c' & b' & E' & H1 & H2 & H3). rewrite RE in *.
    rewrite E in E'. assert (l' = l /\ c' = c /\ b' = b) as (-> & -> & ->) by (repeat split; congruence). auto.
  - unfold Cache_Model.refresh in *. rewrite U in *. cbn [fst snd] in *.
    destruct (G U) as (l' & c' & b' & E' & H1 & H2 & H3).
    split; [split; [congruence|reflexivity]|].
    intros _ l c b E. rewrite E in E'. assert (l' = l /\ c' = c /\ b' = b) as (-> & -> & ->) by (repeat split; congruence). auto.
Qed.

Lemma query_fresh (o : obj F) (f : obj F -> answer F) : good o ->
  (forall o1 o2 l c b, props (o_elem o) = Some (l, c, b) -> o_elem o1 = o_elem o -> o_elem o2 = o_elem o ->
    o_length o1 = l ->
    (kind_of F (o_elem o) <> KSolid -> o_center o1 = c /\ o_bbox o1 = b) ->
    (solid_bbox F (o_elem o) <> None -> o_center o1 = c) ->
    o_length o2 = l -> o_center o2 = c -> o_bbox o2 = b -> f o1 = f o2) ->
  snd (query F o f) = snd (query F (create (o_elem o) (o_closed o)) f).
Proof.
  intros G Hf. unfold query. pose proof (refreshed o G) as R.
  pose proof (props_closed (o_elem o) (o_closed o)) as P.
  pose proof (refresh_elem o) as E1. pose proof (refresh_elem (create (o_elem o) (o_closed o))) as E2.
  destruct (refresh o) as [o1 ok1]. destruct (refresh (create (o_elem o) (o_closed o))) as [o2 ok2].
  cbn [fst snd] in *. destruct R as [R1 R2]. destruct ok2.
  - assert (ok1 = true) as -> by (apply R1; congruence).
    destruct (R2 eq_refl _ _ _ P) as (L & C & B). eapply Hf; eauto.
  - destruct ok1; [exfalso; apply (proj1 R1); auto|reflexivity].
Qed.

(** * Surfaces *)
(** The cached surface is that of the element at the cached parameters. *)
Definition sgood (o : obj F) : Prop :=
  forall s, o_surface o = Some s -> o_closed o = true /\ kind_of F (o_elem o) <> KEmpty /\
    tri F (o_elem o) (o_ang o) (o_len o) = Some s.

Lemma refresh_sgood o : sgood o -> sgood (fst (refresh o)).
Proof.
  intros S s. destruct (refresh_surface o) as (-> & -> & ->). rewrite refresh_elem, refresh_closed. exact (S s).
Qed.

Definition blank (o : obj F) : Prop := o_surface o = None.

Lemma change_surface o h a : blank o -> blank (fst (change F o h a)).
Proof.
  unfold change, blank. destruct (kind_of F (o_elem o)) eqn:K, h;
    match goal with |- context [match ?t with Some _ => _ | None => _ end] => destruct t; cbn [fst clears]; auto end.
Qed.

Lemma ask_sgood o a l : sgood o -> snd (ask_surface F o a l) <> Raised -> sgood (fst (ask_surface F o a l)).
Proof.
  intros S NR. unfold ask_surface in *. destruct (o_closed o) eqn:C; cbn [negb fst snd] in *; [|exact S].
  pose proof (refresh_sgood o S) as R. pose proof (refresh_closed o) as RC.
  destruct (refresh o) as [o' ok]. cbn [fst snd] in *.
  destruct ok; cbn [negb fst snd] in *; [|congruence].
  assert (M : forall r, r = (let o := set_surface F o' (o_surface o') a l in
        match kind_of F (o_elem o) with
        | KEmpty => (o, ANothing)
        | _ => match tri F (o_elem o) a l with
               | None => (o, Raised)
               | Some s => (set_surface F o (Some s) a l, ASurface s)
               end
        end) -> snd r <> Raised -> sgood (fst r)).
  { intros r Er NR'. cbn [set_surface o_elem] in Er.
    destruct (kind_of F (o_elem o')) eqn:K.
    - subst r. cbn [fst]. intros s Hs. cbn [o_surface set_surface] in Hs.
      destruct (R s Hs) as (_ & R2 & _). congruence.
    - destruct (tri F (o_elem o') a l) as [s|] eqn:T; subst r; cbn [fst snd] in *; [|congruence].
      intros s' Hs. cbn [o_surface set_surface o_closed o_elem o_ang o_len] in *. repeat split; congruence.
    - destruct (tri F (o_elem o') a l) as [s|] eqn:T; subst r; cbn [fst snd] in *; [|congruence].
      intros s' Hs. cbn [o_surface set_surface o_closed o_elem o_ang o_len] in *. repeat split; congruence.
    - destruct (tri F (o_elem o') a l) as [s|] eqn:T; subst r; cbn [fst snd] in *; [|congruence].
      intros s' Hs. cbn [o_surface set_surface o_closed o_elem o_ang o_len] in *. repeat split; congruence. }
  destruct (o_surface o') as [s|] eqn:OS; [destruct (_ && _); [exact R|]|]; eapply M; auto; exact NR.
Qed.

Lemma run_sgood xs : forall o asked, (asked = false -> blank o) -> sgood o -> settled F asked xs = true ->
  quiet F o xs -> sgood (after o xs).
Proof.
  induction xs as [|x xs IH]; intros o asked B S D Q; [exact S|].
  assert (Q' : quiet F (fst (step o x)) xs).
  { intros ys y zs E. specialize (Q (x :: ys) y zs). rewrite E in Q. exact (Q eq_refl). }
  assert (NR : is_query F x = true -> snd (step o x) <> Raised) by exact (Q [] x xs eq_refl).
  change (after o (x :: xs)) with (after (fst (step o x)) xs).
  assert (RF : forall f, sgood (fst (query F o f)) /\ (asked = false -> blank (fst (query F o f)))).
  { intros f. unfold query. pose proof (refresh_sgood o S) as R. destruct (refresh_surface o) as (RS & _ & _).
    destruct (refresh o) as [o' ok]. cbn [fst] in *. split; [exact R|]. intros A. unfold blank. rewrite RS. now apply B. }
  destruct x as [h a|e| | | | | |a l]; cbn [settled] in D; cbn [Cache_Model.step] in *.
  - apply andb_true_iff in D. destruct D as [A D]. apply negb_true_iff in A. subst asked.
    assert (B' : blank (fst (let (o0, ok) := change F o h a in (o0, if ok then Done else @Raised F)))).
    { pose proof (change_surface o h a (B eq_refl)) as C. destruct (change F o h a). exact C. }
    apply (IH _ false); auto. intros s Hs. rewrite B' in Hs. discriminate.
  - apply andb_true_iff in D. destruct D as [A D]. apply negb_true_iff in A. subst asked.
    assert (B' : blank (set_elem F o e)) by exact (B eq_refl).
    apply (IH _ false); auto. intros s Hs. cbn [fst] in Hs. rewrite B' in Hs. discriminate.
  - apply (IH _ asked); auto.
  - destruct (RF (fun o => ALength (o_length o))). now apply (IH _ asked).
  - destruct (RF (fun o => ACenter (o_center o))). now apply (IH _ asked).
  - destruct (RF (fun o => ABox (o_bbox o))). now apply (IH _ asked).
  - destruct (RF (fun o => AGeom (o_elem o))). now apply (IH _ asked).
  - apply (IH _ true); auto; [discriminate|]. apply ask_sgood; auto.
Qed.

Lemma close_refl a : close a a = true.
Proof. unfold close. rewrite Rminus_diag_eq by reflexivity. rewrite Rabs_R0. apply Rltb_true. apply eps_pos. Qed.

Lemma ask_fresh o a l : good o -> sgood o ->
  exists a' l', close a' a = true /\ close l' l = true /\
    snd (ask_surface F o a l) = fresh F (o_elem o) (o_closed o) (GetSurface a' l').
Proof.
  intros G S. unfold fresh, answer_to. cbn [Cache_Model.after fold_left Cache_Model.step].
  unfold ask_surface at 1. destruct (o_closed o) eqn:C; cbn [negb].
  2:{ exists a, l. rewrite !close_refl. repeat split. }
  pose proof (refreshed o G) as R. pose proof (refresh_sgood o S) as RS.
  pose proof (refresh_elem o) as RE.
  pose proof (props_closed (o_elem o) true) as P.
  pose proof (refresh_elem (create (o_elem o) true)) as E2.
  destruct (refresh_surface (create (o_elem o) true)) as (S2 & _ & _). cbn [o_surface create Cache_Model.create] in S2.
  assert (FR : forall a l, ask_surface F (create (o_elem o) true) a l =
     let (o, ok) := refresh (create (o_elem o) true) in
     if negb ok then (o, Raised) else
       let o := set_surface F o (o_surface o) a l in
        match kind_of F (o_elem o) with
        | KEmpty => (o, ANothing)
        | _ => match tri F (o_elem o) a l with
               | None => (o, Raised)
               | Some s => (set_surface F o (Some s) a l, ASurface s)
               end
        end).
  { intros a0 l0. unfold ask_surface. cbn [create Cache_Model.create o_closed negb].
    fold (create (o_elem o) true). destruct (refresh (create (o_elem o) true)) as [o2 ok2]. cbn [fst] in S2.
    destruct ok2; cbn [negb]; [|reflexivity]. rewrite S2. reflexivity. }
  destruct (refresh o) as [o1 ok1]. cbn [fst snd] in *. destruct R as [R1 R2].
  destruct (refresh (create (o_elem o) true)) as [o2 ok2]. cbn [fst snd create Cache_Model.create o_elem] in *.
  destruct ok2; cbn [negb] in FR.
  - assert (ok1 = true) as -> by (apply R1; congruence). cbn [negb].
    assert (HM : forall r, r = (let o := set_surface F o1 (o_surface o1) a l in
        match kind_of F (o_elem o) with
        | KEmpty => (o, ANothing)
        | _ => match tri F (o_elem o) a l with
               | None => (o, Raised)
               | Some s => (set_surface F o (Some s) a l, ASurface s)
               end
        end) -> snd r = snd (ask_surface F (create (o_elem o) true) a l)).
    { intros r ->. rewrite FR. cbn [set_surface o_elem]. rewrite RE, E2.
      destruct (kind_of F (o_elem o)); [reflexivity| | |]; destruct (tri F (o_elem o) a l); reflexivity. }
    destruct (o_surface o1) as [s|] eqn:OS.
    + destruct (close (o_ang o1) a && close (o_len o1) l) eqn:CL.
      * apply andb_true_iff in CL. destruct CL as [CL1 CL2].
        exists (o_ang o1), (o_len o1). split; [exact CL1|]. split; [exact CL2|]. cbn [snd].
        rewrite FR. cbn [set_surface o_elem]. rewrite E2.
        destruct (RS s OS) as (_ & K & T). rewrite RE in K, T. rewrite T.
        destruct (kind_of F (o_elem o)); [congruence|reflexivity|reflexivity|reflexivity].
      * exists a, l. rewrite !close_refl. split; [reflexivity|]. split; [reflexivity|]. now apply HM.
    + exists a, l. rewrite !close_refl. split; [reflexivity|]. split; [reflexivity|]. now apply HM.
  - assert (ok1 = false) as -> by (destruct ok1; [exfalso; apply (proj1 R1); auto|reflexivity]).
    cbn [negb snd]. exists a, l. rewrite !close_refl. rewrite FR. repeat split.
Qed.
End P.
