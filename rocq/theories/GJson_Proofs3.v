(** Saving succeeds, ids in the document, and loading sketches and surfaces. *)
From Coq Require Import Reals ZArith String List Bool Lia Lra FinFun.
From Verif Require Import Dict Xform_Model Json_Model Meta_Model Meta_Proofs GJson_Model GJson_Spec GJson_Proofs GJson_Proofs2.
Import ListNotations.
Open Scope list_scope.

Section S.
Variables (H : host) (uuid : nat -> text) (drawable : gelem -> bool).

(** * Saving succeeds *)
Section Total.
Hypothesis U : injective uuid.
Hypothesis U0 : forall n, uuid n <> [].
Definition good (w : world) : Prop := forall r, good_id (metas w r).

Lemma good_put w r d : good w -> good_id d -> good (meta_put w r d).
Proof. intros G D r'. cbn. destruct (Nat.eqb r' r); [exact D|apply G]. Qed.
Lemma get_meta_good w r : good w -> good (get_meta H uuid w r).
Proof.
  intros G r'. destruct (Nat.eq_dec r' r) as [->|N].
  - unfold good_id. rewrite get_meta_entity. specialize (G r). unfold good_id in G.
    destruct (get (t "entityId") (metas w r)) as [v|]; [exact G|apply U0].
  - rewrite get_meta_other by exact N. apply G.
Qed.
Lemma update_good d o : good_id d -> NoDup (keys o) -> good_id o -> good_id (update d o).
Proof.
  unfold good_id. intros D N O. rewrite get_update by exact N. destruct (get (t "entityId") o); [exact O|exact D].
Qed.
Lemma default_good d : good_id d -> good_id (default_layer H d).
Proof. unfold good_id. rewrite get_default_layer by discriminate. tauto. Qed.
Lemma good_has_id d : good_id d -> get (t "entityId") d <> None -> exists i, get (t "entityId") d = Some (JStr i) /\ i <> [].
Proof. unfold good_id. destruct (get (t "entityId") d) as [[]|]; try contradiction; try congruence. intros N _. eauto. Qed.

Lemma updated_id w r o : good w -> NoDup (keys o) -> good_id o ->
  exists i, get (t "entityId") (default_layer H (update (metas (get_meta H uuid w r) r) o)) = Some (JStr i) /\ i <> [].
Proof.
  intros G N O. apply good_has_id.
  - apply default_good, update_good; [apply get_meta_good, G|exact N|exact O].
  - rewrite get_default_layer by discriminate. rewrite get_update by exact N.
    destruct (get (t "entityId") o); [discriminate|]. rewrite get_meta_entity. destruct (get (t "entityId") (metas w r)); discriminate.
Qed.
Lemma serialize_surface_ok w s o : good w -> NoDup (keys o) -> good_id o ->
  exists w' i, serialize_surface H uuid w s o = GOk (w', entry_for i s) /\ i <> [] /\ good w' /\
    get (t "entityId") (metas w' (g_meta s)) = Some (JStr i).
Proof.
  intros G N O. destruct (updated_id w (g_meta s) o G N O) as (i & E & I0).
  unfold serialize_surface. unfold id_text. rewrite E. cbn [gbind]. do 2 eexists. split; [reflexivity|].
  split; [exact I0|]. split.
  - apply good_put; [apply get_meta_good, G|]. apply default_good, update_good; [apply get_meta_good, G|exact N|exact O].
  - rewrite put_same. exact E.
Qed.
Lemma inherited_good d o p : NoDup (keys o) -> good_id o -> NoDup (keys (inherited H d o p)) /\ good_id (inherited H d o p).
Proof.
  intros N O. assert (A : NoDup (keys (put (t "layer") p o)) /\ good_id (put (t "layer") p o)).
  { split; [apply nodup_set; [exact teq_spec|exact N]|]. unfold good_id. rewrite get_put_other by discriminate. exact O. }
  unfold inherited. destruct (get (t "layer") d) as [v|]; [destruct (_ || _)|]; tauto.
Qed.
Lemma free_id (c : cache) m : exists k, (k < S (length c))%nat /\ dmem teq (uuid (m + k)) c = false.
Proof.
  destruct (List.existsb (fun k => negb (dmem teq (uuid (m + k)) c)) (seq 0 (S (length c)))) eqn:E.
  - apply existsb_exists in E. destruct E as (k & I0 & B). apply in_seq in I0. exists k. split; [lia|].
    apply negb_true_iff. exact B.
  - exfalso. assert (F : incl (map (fun k => uuid (m + k)) (seq 0 (S (length c)))) (keys c)).
    { intros x X. apply in_map_iff in X. destruct X as (k & <- & I0).
      apply (dmem_in _ teq_spec). destruct (dmem teq (uuid (m + k)) c) eqn:M; [reflexivity|].
      exfalso. assert (X : List.existsb (fun k => negb (dmem teq (uuid (m + k)) c)) (seq 0 (S (length c))) = true).
      { apply existsb_exists. exists k. split; [exact I0|]. now rewrite M. }
      congruence. }
    apply NoDup_incl_length in F.
    + rewrite map_length, seq_length in F. unfold keys in F. rewrite map_length in F. lia.
    + apply Injective_map_NoDup; [|apply seq_NoDup]. intros a b X. apply U in X. lia.
Qed.
Lemma rename_ok c r k : forall fuel w i, dmem teq (uuid (made w + k)) c = false -> (k < fuel)%nat -> good w -> i <> [] ->
  get (t "entityId") (metas w r) = Some (JStr i) ->
  exists w' i', rename uuid fuel c w r i = GOk (w', i') /\ good w' /\ i' <> [].
Proof.
  induction k as [|k IH]; intros fuel w i M L G I0 Gi.
  - destruct fuel as [|f]; [lia|]. cbn [rename]. destruct (dmem teq i c); [|eauto].
    rewrite Nat.add_0_r in M. destruct f; cbn [rename next meta_put made metas]; rewrite M; eexists _, _; (split; [reflexivity|]); (split; [|apply U0]);
    (apply good_put; [exact G|]; unfold good_id; rewrite get_put_other by discriminate; rewrite get_put_same; apply U0).
  - destruct fuel as [|f]; [lia|]. cbn [rename]. destruct (dmem teq i c); [|eauto].
    apply IH.
    + cbn. rewrite plus_n_Sm. exact M.
    + lia.
    + apply good_put; [exact G|]. unfold good_id. rewrite get_put_other by discriminate. rewrite get_put_same. apply U0.
    + apply U0.
    + rewrite put_same. rewrite get_put_other by discriminate. apply get_put_same.
Qed.
Definition named_cache (c : cache) : Prop := forall i e, In (i, e) c -> entry_id e <> [].
Lemma in_dset {V} k (v : V) d k' v' : In (k', v') (dset teq k v d) -> (k' = k /\ v' = v) \/ In (k', v') d.
Proof.
  induction d as [|(a, b) d IH]; cbn; [intros [X|[]]; left; split; congruence|].
  destruct (teq k a) eqn:E.
  - apply teq_spec in E. intros [X|X]; [left; split; congruence|right; now right].
  - intros [X|X]; [right; now left|]. destruct (IH X); [now left|right; now right].
Qed.
Lemma one_surface_ok o p w c s : good w -> NoDup (keys o) -> good_id o -> named_cache c ->
  exists w' c' i, one_surface H uuid o p w c s = GOk (w', c', i) /\ good w' /\ named_cache c'.
Proof.
  intros G N O C. unfold one_surface.
  destruct (inherited_good (metas (get_meta H uuid w (g_meta s)) (g_meta s)) o p N O) as [N' O'].
  destruct (serialize_surface_ok (get_meta H uuid w (g_meta s)) s _ (get_meta_good w _ G) N' O') as (w1 & i & E & I0 & G1 & Gi).
  rewrite E. cbn [gbind entry_id entry_for].
  destruct (free_id c (made w1)) as (k & L & M).
  destruct (rename_ok c (g_meta s) k (S (length c)) w1 i M L G1 I0 Gi) as (w2 & i2 & F & G2 & I2).
  rewrite F. cbn [gbind]. do 3 eexists. split; [reflexivity|]. split; [exact G2|].
  intros j e J. apply in_dset in J. destruct J as [[-> ->]|J]; [exact I2|exact (C j e J)].
Qed.
Lemma surfaces_of_ok o p l : NoDup (keys o) -> good_id o -> forall w c, good w -> named_cache c ->
  exists w' c' is, surfaces_of H uuid o p w c l = GOk (w', c', is) /\ good w' /\ named_cache c'.
Proof.
  intros N O. induction l as [|[s|] l IH]; intros w c G C; cbn [surfaces_of]; [eauto 6| |apply IH; assumption].
  destruct (one_surface_ok o p w c s G N O C) as (w1 & c1 & i & E & G1 & C1). rewrite E. cbn [gbind].
  destruct (IH w1 c1 G1 C1) as (w2 & c2 & is & F & G2 & C2). rewrite F. cbn [gbind]. eauto 6.
Qed.
Lemma voids_of_ok o p l : NoDup (keys o) -> good_id o -> Forall (fun v => v <> VAtom) l -> forall w c, good w -> named_cache c ->
  exists w' c' is, voids_of H uuid o p w c l = GOk (w', c', is) /\ good w' /\ named_cache c'.
Proof.
  intros N O. induction 1 as [|[v|] l NV _ IH]; intros w c G C; cbn [voids_of]; [eauto 6| |congruence].
  destruct (surfaces_of_ok o p v N O w c G C) as (w1 & c1 & i & E & G1 & C1). rewrite E. cbn [gbind].
  destruct (IH w1 c1 G1 C1) as (w2 & c2 & is & F & G2 & C2). rewrite F. cbn [gbind]. eauto 6.
Qed.
Lemma get_after rs out w w' r k v : step H rs out w w' -> ~ In k out -> stays H k v -> get k (metas w r) = Some v -> get k (metas w' r) = Some v.
Proof. intros S. apply (st_keeps H _ _ _ _ S). Qed.
(** entityId never goes away *)
Definition lasts (w w' : world) : Prop := forall r, get (t "entityId") (metas w r) <> None -> get (t "entityId") (metas w' r) <> None.
Lemma lasts_put w r d : (get (t "entityId") (metas w r) <> None -> get (t "entityId") d <> None) -> lasts w (meta_put w r d).
Proof. intros A r'. cbn. destruct (Nat.eqb_spec r' r) as [->|]; [exact A|tauto]. Qed.
Lemma lasts_get_meta w r : lasts w (get_meta H uuid w r).
Proof.
  intros r' X. destruct (Nat.eq_dec r' r) as [->|N]; [|rewrite get_meta_other by exact N; exact X].
  rewrite get_meta_entity. destruct (get (t "entityId") (metas w r)); discriminate.
Qed.
Lemma update_lasts d o : get (t "entityId") d <> None -> NoDup (keys o) -> get (t "entityId") (update d o) <> None.
Proof. intros A N. rewrite get_update by exact N. destruct (get (t "entityId") o); [discriminate|exact A]. Qed.
Lemma lasts_serialize w s o w' e : NoDup (keys o) -> serialize_surface H uuid w s o = GOk (w', e) -> lasts w w'.
Proof.
  intros N. unfold serialize_surface. destruct (id_text _) as [i|]; cbn [gbind]; [|discriminate]. intros G.
  assert (X : w' = meta_put (get_meta H uuid w (g_meta s)) (g_meta s)
     (default_layer H (update (metas (get_meta H uuid w (g_meta s)) (g_meta s)) o))) by congruence.
  intros r R. apply (lasts_get_meta w (g_meta s)) in R. rewrite X. revert R. apply lasts_put. intros R.
  rewrite get_default_layer by discriminate. now apply update_lasts.
Qed.
Lemma lasts_rename fuel : forall c w r i w' i', rename uuid fuel c w r i = GOk (w', i') -> lasts w w'.
Proof.
  induction fuel as [|f IH]; intros c w r i w' i'; cbn [rename]; destruct (dmem teq i c) eqn:M; try discriminate.
  1, 3: intros E; assert (w' = w) as -> by congruence; intros r' X; exact X.
  intros E. intros r' X. apply (IH _ _ _ _ _ _ E). revert X. cbn. destruct (Nat.eqb_spec r' r) as [->|]; [|tauto].
  intros _. rewrite get_put_other by discriminate. rewrite get_put_same. discriminate.
Qed.
Lemma lasts_one o p w c s w' c' i : NoDup (keys o) -> good_id o -> one_surface H uuid o p w c s = GOk (w', c', i) -> lasts w w'.
Proof.
  intros N O. unfold one_surface.
  destruct (serialize_surface _ _ _ _ _) as [[w1 e]|] eqn:E; cbn [gbind]; [|discriminate].
  destruct (rename _ _ _ _ _ _) as [[w2 i2]|] eqn:F; cbn [gbind]; [|discriminate].
  intros G. assert (w' = w2) as -> by congruence.
  intros r R. apply (lasts_rename _ _ _ _ _ _ _ F). eapply lasts_serialize; [|exact E|].
  - apply inherited_good; assumption.
  - now apply lasts_get_meta.
Qed.
Lemma lasts_surfaces o p l : NoDup (keys o) -> good_id o -> forall w c w' c' is, surfaces_of H uuid o p w c l = GOk (w', c', is) -> lasts w w'.
Proof.
  intros N O. induction l as [|[s|] l IH]; intros w c w' c' is; cbn [surfaces_of].
  - intros E. assert (w' = w) as -> by congruence. intros r X; exact X.
  - destruct (one_surface _ _ _ _ _ _ _) as [[[w1 c1] i]|] eqn:E; cbn [gbind]; [|discriminate].
    destruct (surfaces_of _ _ _ _ _ _ _) as [[[w2 c2] is2]|] eqn:F; cbn [gbind]; [|discriminate].
    intros G. assert (w' = w2) as -> by congruence. intros r X. apply (IH _ _ _ _ _ F). apply (lasts_one _ _ _ _ _ _ _ _ N O E). exact X.
  - apply IH.
Qed.
Lemma lasts_voids o p l : NoDup (keys o) -> good_id o -> forall w c w' c' is, voids_of H uuid o p w c l = GOk (w', c', is) -> lasts w w'.
Proof.
  intros N O. induction l as [|[v|] l IH]; intros w c w' c' is; cbn [voids_of]; [| |discriminate].
  - intros E. assert (w' = w) as -> by congruence. intros r X; exact X.
  - destruct (surfaces_of _ _ _ _ _ _ _) as [[[w1 c1] i]|] eqn:E; cbn [gbind]; [|discriminate].
    destruct (voids_of _ _ _ _ _ _ _) as [[[w2 c2] is2]|] eqn:F; cbn [gbind]; [|discriminate].
    intros G. assert (w' = w2) as -> by congruence. intros r X. apply (IH _ _ _ _ _ F). apply (lasts_surfaces _ _ _ N O _ _ _ _ _ E). exact X.
Qed.
Lemma serialize_solid_ok w c s o : good w -> NoDup (keys o) -> good_id o -> named_cache c -> Forall (fun v => v <> VAtom) (g_second s) ->
  exists w' c' e, serialize_solid H uuid w c s o = GOk (w', c', e) /\ good w' /\ named_cache c' /\ entry_id e <> [].
Proof.
  intros G N O C V. unfold serialize_solid.
  set (w0 := get_meta H uuid w (g_smeta s)). set (d := default_layer H (update (metas w0 (g_smeta s)) o)).
  assert (G0 : good (meta_put w0 (g_smeta s) d)).
  { apply good_put; [apply get_meta_good, G|]. apply default_good, update_good; [apply get_meta_good, G|exact N|exact O]. }
  destruct (updated_id w (g_smeta s) o G N O) as (i0 & Ei0 & _).
  destruct (surfaces_of_ok o (arg (t "layer") d) (g_shell s) N O _ c G0 C) as (w1 & c1 & sh & E & G1 & C1).
  rewrite E. cbn [gbind].
  destruct (voids_of_ok o (arg (t "layer") d) (g_second s) N O V w1 c1 G1 C1) as (w2 & c2 & vs & F & G2 & C2).
  rewrite F. cbn [gbind].
  assert (L : get (t "entityId") (metas w2 (g_smeta s)) <> None).
  { apply (lasts_voids _ _ _ N O _ _ _ _ _ F), (lasts_surfaces _ _ _ N O _ _ _ _ _ E). rewrite put_same. unfold d, w0. rewrite Ei0. discriminate. }
  destruct (good_has_id _ (G2 (g_smeta s)) L) as (i & Gi & NE). unfold id_text. rewrite Gi. cbn [gbind].
  do 3 eexists. split; [reflexivity|]. split; [exact G2|]. split; [exact C2|exact NE].
Qed.
Lemma filter_good (o : dict) : good_id o -> good_id (filter (fun kv => negb (teq (fst kv) (t "layer"))) o).
Proof.
  unfold good_id, get. intros G.
  replace (dget teq (t "entityId") (filter (fun kv => negb (teq (fst kv) (t "layer"))) o)) with (dget teq (t "entityId") o); [exact G|].
  clear G. induction o as [|(k, v) o IH]; [reflexivity|]. cbn [filter fst dget]. destruct (teq k (t "layer")) eqn:K; cbn [negb].
  - apply teq_spec in K. subst k. change (teq (t "entityId") (t "layer")) with false. exact IH.
  - cbn [dget]. destruct (teq (t "entityId") k); [reflexivity|exact IH].
Qed.
Lemma filter_nodup (o : dict) f : NoDup (keys o) -> NoDup (keys (filter f o)).
Proof.
  unfold keys. induction o as [|(k, v) o IH]; [tauto|]. intros N. inversion N as [|? ? NI N']; subst. cbn [filter].
  destruct (f (k, v)); [|apply IH, N']. cbn. constructor; [|apply IH, N']. intros X. apply NI.
  apply in_map_iff in X. destruct X as (y & Y & Z). apply filter_In in Z. apply in_map_iff. exists y. tauto.
Qed.
Lemma given_good w r o : good w -> NoDup (keys o) -> good_id o -> good (given H uuid w r o).
Proof.
  intros G N O. unfold given. destruct (nonempty_dict o); [|exact G].
  apply good_put; [apply get_meta_good, G|]. apply update_good; [|apply filter_nodup, N|apply filter_good, O].
  assert (D : good_id (metas (get_meta H uuid w r) r)) by apply (get_meta_good w r G).
  destruct (get (t "layer") o) as [v|]; [|exact D]. destruct (truthy H v); [|exact D].
  unfold set_layer, good_id. rewrite get_put_other by discriminate. rewrite get_root.
  change (teq (t "entityId") (t "layer")) with false. change (teq (t "entityId") (t "tags")) with false. change (teq (t "entityId") (t "schema")) with false. cbn iota.
  unfold good_id in D. destruct (get (t "entityId") (metas (get_meta H uuid w r) r)); [exact D|exact I].
Qed.
Lemma kept_primitive e : kept e -> exists p, primitive e = GOk [p] /\ has_empty e = false.
Proof.
  destruct e; cbn [kept primitive has_empty]; try contradiction; intros K; eauto.
  destruct (_ && _); eauto.
Qed.
Lemma sketch_ok w g o : NoDup (keys o) -> good_id o -> Forall (fun e => kept e /\ drawable e = true) g ->
  exists e, serialize_sketch uuid drawable w g o = GOk (next w, e) /\ entry_id e <> [].
Proof.
  intros N O F. unfold serialize_sketch.
  assert (X : exists pss, gmap primitive g = GOk pss /\ existsb has_empty g = false /\ forallb drawable g = true).
  { induction F as [|e g (K & D) _ (pss & A & B & C)]; [now exists []|].
    destruct (kept_primitive e K) as (p & P & E). exists ([p] :: pss). cbn. rewrite P. cbn. rewrite A. cbn. rewrite E, B, D, C. now split. }
  destruct X as (pss & A & B & C). rewrite A. cbn [gbind]. rewrite B, C. cbn [negb].
  set (d := update _ o). assert (X : exists i, get (t "entityId") d = Some (JStr i) /\ i <> []).
  { unfold d. rewrite get_update by exact N. unfold good_id in O. destruct (get (t "entityId") o) as [[]|]; try contradiction; [eauto|].
    eexists. split; [reflexivity|apply U0]. }
  destruct X as (i & Ei & NE). unfold id_text. rewrite Ei. cbn [gbind]. eexists. split; [reflexivity|]. exact NE.
Qed.

Lemma save_all_ok l : forall w c es, good w -> named_cache c -> (forall e, In e es -> entry_id e <> []) ->
  Forall (savable drawable) l -> exists w' doc, save_all H uuid drawable w c es l = GOk (w', doc) /\ named doc.
Proof.
  induction l as [|[x o] l IH]; intros w c es G C E F; cbn [save_all].
  - do 2 eexists. split; [reflexivity|]. intros e I0. apply in_app_or in I0. destruct I0 as [I0|I0]; [now apply E|].
    apply in_map_iff in I0. destruct I0 as ((i, y) & <- & I0). exact (C i y I0).
  - inversion F as [|? ? (N & O & S) F']; subst. cbn [fst snd] in *. destruct x as [s|s|g|]; [| | |contradiction].
    + destruct (serialize_solid_ok (given H uuid w (g_smeta s) o) c s o (given_good _ _ _ G N O) N O C S) as (w1 & c1 & e & A & G1 & C1 & NE).
      rewrite A. cbn [gbind]. apply IH; [exact G1|exact C1| |exact F'].
      intros e0 I0. apply in_app_or in I0. destruct I0 as [I0|[<-|[]]]; [now apply E|exact NE].
    + destruct (serialize_surface_ok (given H uuid w (g_meta s) o) s o (given_good _ _ _ G N O) N O) as (w1 & i & A & I0 & G1 & _).
      rewrite A. cbn [gbind]. apply IH; [exact G1| |exact E|exact F'].
      cbn [entry_id entry_for]. destruct (dmem teq i c); [exact C|]. intros j e J. apply in_dset in J.
      destruct J as [[-> ->]|J]; [exact I0|exact (C j e J)].
    + destruct (sketch_ok w g o N O S) as (e & A & NE). rewrite A. cbn [gbind]. apply IH; [exact G|exact C| |exact F'].
      intros e0 I0. apply in_app_or in I0. destruct I0 as [I0|[<-|[]]]; [now apply E|exact NE].
Qed.
Theorem saving_succeeds w l : good w -> Forall (savable drawable) l ->
  exists w' doc, geometry_to_json H uuid drawable w l = GOk (w', doc) /\ named doc.
Proof. intros G F. apply save_all_ok; [exact G| | |exact F]; [intros i e []|intros e []]. Qed.
End Total.

(** * Loading sketches *)
Lemma point_of_pos p : (vw p > 0)%R -> point_of p = GOk p.
Proof. intros P. unfold point_of. unfold Rltb. destruct (Rlt_dec 0 (vw p)); [reflexivity|lra]. Qed.
Lemma Rltb_no a b : (b <= a)%R -> Rltb a b = false.
Proof. intros L. unfold Rltb. destruct (Rlt_dec a b); [lra|reflexivity]. Qed.
Lemma Rltb_yes a b : (a < b)%R -> Rltb a b = true.
Proof. intros L. unfold Rltb. destruct (Rlt_dec a b); [reflexivity|lra]. Qed.
Lemma points_of ps : Forall (fun p => (vw p > 0)%R) ps -> gmap point_of ps = GOk ps.
Proof. induction 1 as [|p ps P _ IH]; cbn; [reflexivity|]. rewrite (point_of_pos p P). cbn. rewrite IH. reflexivity. Qed.
Lemma flat_plane p : in_plane p -> flat (xy p) = p.
Proof. intros [A B]. destruct p as [x y z v]. cbn in *. subst. reflexivity. Qed.
Lemma flats_plane ps : Forall in_plane ps -> map flat (map xy ps) = ps.
Proof. induction 1 as [|p ps P _ IH]; cbn [map]; [reflexivity|]. now rewrite (flat_plane p P), IH. Qed.
Lemma joined_between ps : joined ps = between ps.
Proof. induction ps as [|p [|q ps] IH]; [reflexivity|reflexivity|]. cbn [joined between] in *. now rewrite IH. Qed.
Lemma arc_back c r s e n : (vw c > 0)%R -> (r >= 0)%R ->
  match n with None => True | Some n => (vw n > 0)%R /\ (Rabs (mag n - 1) <= epsilon)%R end ->
  arc_of c r s e n = GOk (GArc c r s e (-1) n).
Proof.
  intros C R N. unfold arc_of. rewrite (point_of_pos c C). cbn [gbind]. destruct n as [n|].
  - destruct N as [N1 N2]. rewrite (point_of_pos n N1). cbn [gbind]. rewrite Rltb_no by lra. rewrite Rltb_no by lra. reflexivity.
  - rewrite Rltb_no by lra. reflexivity.
Qed.
Lemma Reqb_true a b : Reqb a b = true -> a = b.
Proof. unfold Reqb. destruct (Req_EM_T a b); [tauto|discriminate]. Qed.
Lemma element_back e : kept e -> exists p, primitive e = GOk [p] /\ element p = GOk (expected e).
Proof.
  destruct e as [|p q|c r s e o n|c a b rot s e n|ps cl al|ps d ws ks|ps|]; cbn [kept]; try contradiction.
  - intros [A B]. eexists. split; [reflexivity|]. cbn [element expected].
    change (flat (vx p, vy p)) with (flat (xy p)). change (flat (vx q, vy q)) with (flat (xy q)).
    now rewrite (flat_plane p A), (flat_plane q B).
  - intros (C & R & -> & N). cbn [primitive].
    destruct (Reqb s 0 && Reqb e 360) eqn:Q.
    + apply andb_prop in Q. destruct Q as [Q1 Q2]. apply Reqb_true in Q1, Q2. subst.
      eexists. split; [reflexivity|]. cbn [element]. rewrite (arc_back c r _ _ n C R N). reflexivity.
    + eexists. split; [reflexivity|]. cbn [element]. rewrite (arc_back c r _ _ n C R N). reflexivity.
  - intros (C & A & B & U1 & W). eexists. split; [reflexivity|]. cbn [element]. unfold ellipse_of.
    rewrite (point_of_pos c C). cbn [gbind]. rewrite (Rltb_yes 0 a) by lra. rewrite (Rltb_yes 0 b) by lra. cbn [negb orb].
    rewrite (Rltb_no a b) by lra. rewrite U1, sqrt_1. rewrite Rltb_no by lra. cbn [gbind expected].
    do 2 f_equal. destruct n as [nx ny nz nw]. cbn in *. subst nw. f_equal. f_equal; field.
  - intros (P & L). eexists. split; [reflexivity|]. cbn [element]. unfold catmull_of. rewrite (points_of ps P). cbn [gbind].
    destruct (Nat.ltb_spec (length ps) 2); [lia|]. reflexivity.
  - intros (P & (L1 & L2) & W & K). eexists. split; [reflexivity|]. cbn [element]. unfold nurbs_of. rewrite (points_of ps P). cbn [gbind].
    destruct (Nat.eqb_spec (length ps) 0); [lia|]. destruct (Nat.ltb_spec d 1); [lia|]. destruct (Nat.ltb_spec (length ps) (d + 1)); [lia|].
    rewrite W, K, !Nat.eqb_refl. reflexivity.
  - intros (P & L). eexists. split; [reflexivity|]. cbn [element]. rewrite (flats_plane ps P), joined_between. reflexivity.
Qed.
Lemma gmap_app {A B} (f : A -> gres B) a b : gmap f (a ++ b) = gbind (gmap f a) (fun x => gbind (gmap f b) (fun y => GOk (x ++ y))).
Proof.
  induction a as [|x a IH]; cbn; [destruct (gmap f b); reflexivity|]. destruct (f x); cbn; [|reflexivity]. rewrite IH.
  destruct (gmap f a); cbn; [|reflexivity]. destruct (gmap f b); reflexivity.
Qed.
Lemma sketch_back g ps : Forall kept g -> drawn g ps -> exists ls, gmap element ps = GOk ls /\ concat ls = flat_map expected g.
Proof.
  intros K (pss & E & ->). revert pss E. induction K as [|e g Ke _ IH]; intros pss E; cbn in E.
  - injection E as <-. now exists [].
  - destruct (element_back e Ke) as (p & P & Q). rewrite P in E. cbn in E. destruct (gmap primitive g) as [pss'|]; [|discriminate].
    cbn in E. injection E as <-. destruct (IH _ eq_refl) as (ls & A & B). exists (expected e :: ls).
    cbn. rewrite Q. cbn. rewrite A. cbn. now rewrite B.
Qed.
Lemma expected_nonempty e : kept e -> expected e <> [].
Proof.
  destruct e; cbn; try discriminate. destruct pts as [|p [|q ps]]; cbn; intros [_ L]; try lia. discriminate.
Qed.
Lemma load_sketches doc : forall gs, Forall2 drawn gs (sketch_prims doc) -> Forall (Forall kept) gs -> Forall (fun g => g <> []) gs ->
  exists ls, gmap load_sketch doc = GOk ls /\ concat ls = map (flat_map expected) gs.
Proof.
  induction doc as [|e doc IH]; intros gs F K N; cbn in F.
  - inversion F; subst. now exists [].
  - destruct e as [i m vs ns fs|i m sh vs|i d ps].
    + destruct (IH gs F K N) as (ls & A & B). exists ([] :: ls). cbn. rewrite A. now split.
    + destruct (IH gs F K N) as (ls & A & B). exists ([] :: ls). cbn. rewrite A. now split.
    + inversion F as [|g x gs' y D F']; subst. inversion K as [|? ? Kg K']; subst. inversion N as [|? ? Ng N']; subst.
      destruct (IH gs' F' K' N') as (ls & A & B). destruct (sketch_back g ps Kg D) as (es & C & X).
      exists ([flat_map expected g] :: ls). cbn [gmap load_sketch]. rewrite C. cbn [gbind]. rewrite X.
      assert (Y : flat_map expected g <> []).
      { destruct g as [|e g]; [congruence|]. cbn. inversion Kg as [|? ? Ke _]; subst. pose proof (expected_nonempty e Ke). destruct (expected e); [congruence|discriminate]. }
      destruct (flat_map expected g) as [|z zs] eqn:Z; [congruence|]. rewrite A. cbn [gbind concat map app]. rewrite Z. split; [reflexivity|]. now rewrite B.
Qed.
Lemma load_none doc s : solid_entries doc = [] -> exists ls, gmap (load_solid doc s) doc = GOk ls /\ concat ls = [].
Proof.
  generalize doc at 2 as d. intros d. induction doc as [|e doc IH]; cbn; intros E; [now exists []|].
  destruct e; try discriminate; (destruct (IH E) as (ls & A & B); exists ([] :: ls); rewrite A; now split).
Qed.
Theorem sketches_come_back w l w' doc : geometry_to_json H uuid drawable w l = GOk (w', doc) -> named doc ->
  solids_in l = [] -> sketches_in l <> [] -> Forall (fun g => g <> [] /\ Forall kept g) (sketches_in l) ->
  geometry_from_json doc = GOk (Sketches (map (flat_map expected) (sketches_in l))).
Proof.
  intros E N S0 S1 K. destruct (saved _ _ _ _ _ _ _ E) as (c & T & L & A & B). rewrite S0 in A. inversion A as [A0|]; subst.
  unfold geometry_from_json. rewrite (named_exists doc N). cbn zeta.
  destruct (load_none doc (listed doc []) (eq_sym H0)) as (ls & G & Z).
  rewrite G. cbn [gbind]. rewrite Z.
  destruct (load_sketches doc (sketches_in l) B) as (ls2 & G2 & Z2).
  - eapply Forall_impl; [|exact K]. intros g X. apply X.
  - eapply Forall_impl; [|exact K]. intros g X. apply X.
  - rewrite G2. cbn [gbind]. rewrite Z2. destruct (sketches_in l); [congruence|]. reflexivity.
Qed.
End S.
