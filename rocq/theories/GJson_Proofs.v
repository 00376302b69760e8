(** Saving: the table of surfaces, and what solids refer to. *)
From Coq Require Import Reals ZArith String List Bool Lia.
From Verif Require Import Dict Xform_Model Json_Model Meta_Model Meta_Proofs GJson_Model GJson_Spec.
Import ListNotations.
Open Scope list_scope.

Lemma dset_new {V} (k : text) (v : V) d : dmem teq k d = false -> dset teq k v d = d ++ [(k, v)].
Proof.
  induction d as [|(k', v') d IH]; cbn; intros E; [reflexivity|].
  unfold dmem in E. cbn in E. destruct (teq k k') eqn:K; [discriminate|].
  rewrite IH; [reflexivity|]. unfold dmem. exact E.
Qed.

Section S.
Variables (H : host) (uuid : nat -> text) (drawable : gelem -> bool).

Definition entry_for (i : text) (s : gsurf) : entry := ESurf i (g_meta s) (g_verts s) (g_norms s) (g_faces s).
Definition holds (c : cache) (s : gsurf) (i : text) : Prop := dget teq i c = Some (entry_for i s).
Definition table (c : cache) : Prop :=
  NoDup (keys c) /\ forall i e, dget teq i c = Some e -> exists s, e = entry_for i s.
Definition extends (c c' : cache) : Prop := forall i e, dget teq i c = Some e -> dget teq i c' = Some e.

Lemma extends_refl c : extends c c. Proof. intros i e E. exact E. Qed.
Lemma extends_trans a b c : extends a b -> extends b c -> extends a c.
Proof. intros X Y i e E. apply Y, X, E. Qed.
Lemma holds_extends c c' s i : extends c c' -> holds c s i -> holds c' s i.
Proof. intros X E. apply X, E. Qed.

Lemma dmem_dget {V} (k : text) (d : list (text * V)) : dmem teq k d = false -> dget teq k d = None.
Proof. unfold dmem. destruct (dget teq k d); [discriminate|reflexivity]. Qed.

Lemma table_add c i s : table c -> dmem teq i c = false -> table (dset teq i (entry_for i s) c) /\ extends c (dset teq i (entry_for i s) c).
Proof.
  intros [N T] M. split; [split|].
  - apply nodup_set; [exact teq_spec|exact N].
  - intros j e. rewrite (dget_set _ teq_spec). destruct (teq j i) eqn:J.
    + apply teq_spec in J. intros [= <-]. subst j. now exists s.
    + apply T.
  - intros j e E. rewrite (dget_set _ teq_spec). destruct (teq j i) eqn:J; [|exact E].
    apply teq_spec in J. subst j. rewrite (dmem_dget _ _ M) in E. discriminate.
Qed.

Lemma rename_free fuel : forall c w r i w' i', rename uuid fuel c w r i = GOk (w', i') -> dmem teq i' c = false.
Proof.
  induction fuel as [|f IH]; intros c w r i w' i'; cbn [rename]; destruct (dmem teq i c) eqn:M; try discriminate.
  - intros [= <- <-]. exact M.
  - intros E. apply IH in E. exact E.
  - intros [= <- <-]. exact M.
Qed.

Lemma serialize_surface_entry w s o w' e : serialize_surface H uuid w s o = GOk (w', e) -> exists i, e = entry_for i s.
Proof.
  unfold serialize_surface. destruct (id_text _) as [i|]; cbn; [|discriminate]. intros [= <- <-]. now exists i.
Qed.

Lemma one_surface_spec o p w c s w' c' i : table c -> one_surface H uuid o p w c s = GOk (w', c', i) ->
  table c' /\ extends c c' /\ holds c' s i.
Proof.
  intros T. unfold one_surface.
  destruct (serialize_surface _ _ _ _ _) as [[w1 e]|] eqn:E; cbn [gbind]; [|discriminate].
  destruct (serialize_surface_entry _ _ _ _ _ E) as [i0 ->].
  destruct (rename _ _ _ _ _ _) as [[w2 i2]|] eqn:F; cbn [gbind]; [|discriminate].
  intros G. apply rename_free in F.
  assert (X : c' = dset teq i2 (entry_for i2 s) c /\ i = i2) by (split; [change (with_id i2 (entry_for i0 s)) with (entry_for i2 s) in G|]; congruence).
  destruct X as [-> ->]. destruct (table_add c i2 s T F) as [A B].
  split; [exact A|]. split; [exact B|]. unfold holds. apply dget_set_same. exact teq_spec.
Qed.

Lemma surfaces_of_spec o p l : forall w c w' c' is, table c -> surfaces_of H uuid o p w c l = GOk (w', c', is) ->
  table c' /\ extends c c' /\ Forall2 (holds c') (surfs l) is.
Proof.
  induction l as [|x l IH]; intros w c w' c' is T; cbn [surfaces_of].
  - intros E. assert (c' = c /\ is = []) as [-> ->] by (split; congruence).
    split; [exact T|]. split; [apply extends_refl|constructor].
  - destruct x as [s|].
    + destruct (one_surface _ _ _ _ _ _ _) as [[[w1 c1] i]|] eqn:E; cbn [gbind]; [|discriminate].
      destruct (surfaces_of _ _ _ _ _ _ _) as [[[w2 c2] is2]|] eqn:F; cbn [gbind]; [|discriminate].
      intros G. assert (c' = c2 /\ is = i :: is2) as [-> ->] by (split; congruence).
      destruct (one_surface_spec _ _ _ _ _ _ _ _ T E) as (T1 & X1 & H1).
      destruct (IH _ _ _ _ _ T1 F) as (T2 & X2 & H2).
      split; [exact T2|]. split; [eapply extends_trans; eassumption|].
      constructor; [eapply holds_extends; eassumption|exact H2].
    + intros E. exact (IH _ _ _ _ _ T E).
Qed.

Lemma Forall2_holds c c' l is : extends c c' -> Forall2 (holds c) l is -> Forall2 (holds c') l is.
Proof. intros X. induction 1; constructor; [eapply holds_extends; eassumption|assumption]. Qed.

Lemma voids_of_spec o p l : forall w c w' c' is, table c -> voids_of H uuid o p w c l = GOk (w', c', is) ->
  table c' /\ extends c c' /\ Forall2 (Forall2 (holds c')) (void_surfs l) is.
Proof.
  induction l as [|[v|] l IH]; intros w c w' c' is T; cbn [voids_of]; [| |discriminate].
  - intros E. assert (c' = c /\ is = []) as [-> ->] by (split; congruence).
    split; [exact T|]. split; [apply extends_refl|constructor].
  - destruct (surfaces_of _ _ _ _ _ _ _) as [[[w1 c1] i]|] eqn:E; cbn [gbind]; [|discriminate].
    destruct (voids_of _ _ _ _ _ _ _) as [[[w2 c2] is2]|] eqn:F; cbn [gbind]; [|discriminate].
    intros G. assert (c' = c2 /\ is = i :: is2) as [-> ->] by (split; congruence).
    destruct (surfaces_of_spec _ _ _ _ _ _ _ _ T E) as (T1 & X1 & H1).
    destruct (IH _ _ _ _ _ T1 F) as (T2 & X2 & H2).
    split; [exact T2|]. split; [eapply extends_trans; eassumption|].
    cbn. constructor; [eapply Forall2_holds; eassumption|exact H2].
Qed.

(** The entry of a solid refers to its surfaces, in the table. *)
Definition refers (c : cache) (s : gsolid) (e : entry) : Prop :=
  exists i sh vs, e = ESolid i (g_smeta s) sh vs /\ Forall2 (holds c) (surfs (g_shell s)) sh /\
    Forall2 (Forall2 (holds c)) (void_surfs (g_second s)) vs.
Lemma refers_extends c c' s e : extends c c' -> refers c s e -> refers c' s e.
Proof.
  intros X (i & sh & vs & -> & A & B). exists i, sh, vs. split; [reflexivity|].
  split; [eapply Forall2_holds; eassumption|].
  clear A. induction B; constructor; [eapply Forall2_holds; eassumption|assumption].
Qed.
Lemma serialize_solid_spec w c s o w' c' e : table c -> serialize_solid H uuid w c s o = GOk (w', c', e) ->
  table c' /\ extends c c' /\ refers c' s e.
Proof.
  intros T. unfold serialize_solid.
  destruct (surfaces_of _ _ _ _ _ _ _) as [[[w1 c1] sh]|] eqn:E; cbn [gbind]; [|discriminate].
  destruct (voids_of _ _ _ _ _ _ _) as [[[w2 c2] vs]|] eqn:F; cbn [gbind]; [|discriminate].
  destruct (id_text _) as [i|]; cbn [gbind]; [|discriminate].
  intros G. assert (c' = c2 /\ e = ESolid i (g_smeta s) sh vs) as [-> ->] by (split; congruence).
  destruct (surfaces_of_spec _ _ _ _ _ _ _ _ T E) as (T1 & X1 & H1).
  destruct (voids_of_spec _ _ _ _ _ _ _ _ T1 F) as (T2 & X2 & H2).
  split; [exact T2|]. split; [eapply extends_trans; eassumption|].
  exists i, sh, vs. split; [reflexivity|]. split; [eapply Forall2_holds; eassumption|exact H2].
Qed.

(** The entries written for solids and sketches *)
Definition solid_entries (es : list entry) : list entry := filter (fun e => match e with ESolid _ _ _ _ => true | _ => false end) es.
Definition sketch_prims (es : list entry) : list (list prim) := flat_map (fun e => match e with ESketch _ _ p => [p] | _ => [] end) es.
Definition no_surface (es : list entry) : Prop := Forall (fun e => match e with ESurf _ _ _ _ _ => False | _ => True end) es.
Definition drawn (g : list gelem) (ps : list prim) : Prop := exists pss, gmap primitive g = GOk pss /\ ps = concat pss.

Lemma serialize_sketch_spec w g o w' e : serialize_sketch uuid drawable w g o = GOk (w', e) ->
  exists i d ps, e = ESketch i d ps /\ drawn g ps.
Proof.
  unfold serialize_sketch. destruct (gmap primitive g) as [pss|] eqn:E; cbn [gbind]; [|discriminate].
  destruct (existsb _ _); [discriminate|]. destruct (negb _); [discriminate|].
  destruct (id_text _) as [i|]; cbn [gbind]; [|discriminate].
  intros G. eexists i, _, (concat pss). split; [injection G; intros <- _; reflexivity|]. exists pss. now split.
Qed.

Lemma save_all_spec l : forall w c es w' doc, table c -> save_all H uuid drawable w c es l = GOk (w', doc) ->
  exists es' c', doc = es ++ es' ++ map snd c' /\ table c' /\ extends c c' /\ no_surface es' /\
    Forall2 (refers c') (solids_in l) (solid_entries es') /\ Forall2 drawn (sketches_in l) (sketch_prims es') /\
    (forall s, In s (surfaces_in l) -> exists i, dget teq i c' <> None).
Proof.
  induction l as [|[x o] l IH]; intros w c es w' doc T; cbn [save_all].
  - intros E. exists [], c. split; [cbn; congruence|]. split; [exact T|]. split; [apply extends_refl|].
    split; [constructor|]. split; [constructor|]. split; [constructor|]. intros s [].
  - destruct x as [s|s|g|]; [| | |discriminate].
    + destruct (serialize_solid _ _ _ _ _ _) as [[[w1 c1] e]|] eqn:E; cbn [gbind]; [|discriminate].
      intros F. destruct (serialize_solid_spec _ _ _ _ _ _ _ T E) as (T1 & X1 & R).
      destruct (IH _ _ _ _ _ T1 F) as (es' & c' & D & T2 & X2 & NS & A & B & C).
      exists (e :: es'), c'. split; [rewrite D, <- app_assoc; reflexivity|].
      split; [exact T2|]. split; [eapply extends_trans; eassumption|].
      pose proof (refers_extends _ _ _ _ X2 R) as R'.
      destruct R as (i & sh & vs & -> & _). split; [constructor; [exact I|exact NS]|].
      split; [cbn; constructor; assumption|]. split; [exact B|exact C].
    + destruct (serialize_surface _ _ _ _ _) as [[w1 e]|] eqn:E; cbn [gbind]; [|discriminate].
      destruct (serialize_surface_entry _ _ _ _ _ E) as [i ->]. cbn [entry_id entry_for].
      intros F.
      set (c1 := if dmem teq i c then c else dset teq i (entry_for i s) c) in *.
      assert (X : table c1 /\ extends c c1 /\ dget teq i c1 <> None).
      { unfold c1. destruct (dmem teq i c) eqn:M.
        - split; [exact T|]. split; [apply extends_refl|]. intros N. unfold dmem in M. rewrite N in M. discriminate.
        - destruct (table_add c i s T M) as [A B]. split; [exact A|]. split; [exact B|].
          rewrite (dget_set_same _ teq_spec). discriminate. }
      destruct X as (T1 & X1 & M).
      destruct (IH _ _ _ _ _ T1 F) as (es' & c' & D & T2 & X2 & NS & A & B & C).
      exists es', c'. split; [exact D|]. split; [exact T2|]. split; [eapply extends_trans; eassumption|].
      split; [exact NS|]. split; [exact A|]. split; [exact B|].
      intros s0 [<-|I0]; [|exact (C s0 I0)]. exists i. destruct (dget teq i c1) as [e|] eqn:G; [|congruence].
      rewrite (X2 _ _ G). discriminate.
    + destruct (serialize_sketch _ _ _ _ _) as [[w1 e]|] eqn:E; cbn [gbind]; [|discriminate].
      destruct (serialize_sketch_spec _ _ _ _ _ E) as (i & d & ps & -> & Dr).
      intros F. destruct (IH _ _ _ _ _ T F) as (es' & c' & D & T2 & X2 & NS & A & B & C).
      exists (ESketch i d ps :: es'), c'. split; [rewrite D, <- app_assoc; reflexivity|].
      split; [exact T2|]. split; [exact X2|]. split; [constructor; [exact I|exact NS]|].
      split; [exact A|]. split; [cbn; constructor; assumption|exact C].
Qed.

Lemma table_nil : table []. Proof. split; [constructor|]. intros i e E. discriminate. Qed.

(** Loading *)
Lemma listed_app a : forall b s, listed (a ++ b) s = listed b (listed a s).
Proof. induction a as [|e a IH]; intros b s; cbn; [reflexivity|apply IH]. Qed.
Lemma listed_none es : forall s, no_surface es -> listed es s = s.
Proof.
  induction es as [|e es IH]; intros s N; cbn; [reflexivity|]. inversion N as [|? ? A B]; subst.
  destruct e; [contradiction| |]; apply IH; exact B.
Qed.
Lemma listed_table c : forall s, NoDup (keys c) -> (forall i e, In (i, e) c -> exists s, e = entry_for i s) ->
  (forall i, In i (keys c) -> dmem teq i s = false) ->
  listed (map snd c) s = s ++ map (fun kv => (fst kv, rehydrate (snd kv))) c.
Proof.
  induction c as [|(i, e) c IH]; intros s N T D; cbn; [now rewrite app_nil_r|].
  destruct (T i e (or_introl eq_refl)) as [x ->]. cbn [entry_for].
  inversion N as [|? ? NI N']; subst.
  rewrite dset_new; [|apply D; left; reflexivity].
  rewrite IH.
  - rewrite <- app_assoc. reflexivity.
  - exact N'.
  - intros j e0 I0. apply T. right. exact I0.
  - intros j J. destruct (dmem teq j (s ++ _)) eqn:M; [|reflexivity]. exfalso.
    apply (dmem_in _ teq_spec) in M. unfold keys in M. rewrite map_app in M. apply in_app_or in M.
    destruct M as [M|[<-|[]]].
    + assert (Y : dmem teq j s = true) by (now apply (dmem_in _ teq_spec)).
      rewrite (D j) in Y; [discriminate|right; exact J].
    + apply NI. exact J.
Qed.
Lemma dget_map c i : dget teq i (map (fun kv => (fst kv, rehydrate (snd kv))) c) = option_map rehydrate (dget teq i c).
Proof. induction c as [|(j, e) c IH]; cbn; [reflexivity|]. destruct (teq i j); [reflexivity|apply IH]. Qed.

Lemma find_held doc c s i : holds c s i ->
  find_surface doc (map (fun kv => (fst kv, rehydrate (snd kv))) c) i = GOk (mkgs (g_verts s) (g_norms s) (g_faces s) [] [] (g_meta s)).
Proof. intros E. unfold find_surface. rewrite dget_map, E. reflexivity. Qed.

Lemma gmap_forall2 {A B C} (f : B -> gres C) (R : A -> C -> Prop) (Q : A -> B -> Prop) l l' :
  (forall a b, Q a b -> exists c, f b = GOk c /\ R a c) -> Forall2 Q l l' -> exists r, gmap f l' = GOk r /\ Forall2 R l r.
Proof.
  intros F. induction 1 as [|a b l l' Q0 _ (r & E & G)]; [now exists []|].
  destruct (F a b Q0) as (c & E0 & R0). exists (c :: r). cbn. rewrite E0. cbn. rewrite E. cbn. split; [reflexivity|]. now constructor.
Qed.
Lemma load_refers doc c s e : refers c s e ->
  exists b, load_solid doc (map (fun kv => (fst kv, rehydrate (snd kv))) c) e = GOk [b] /\ solid_back s b.
Proof.
  intros (i & sh & vs & -> & A & B). unfold load_solid.
  destruct (gmap_forall2 (find_surface doc (map (fun kv => (fst kv, rehydrate (snd kv))) c)) same_mesh (holds c) (surfs (g_shell s)) sh) as (r & E & F); [|exact A|].
  { intros a b Q. eexists. split; [apply find_held; exact Q|]. now repeat split. }
  rewrite E. cbn [gbind].
  destruct (gmap_forall2 (gmap (find_surface doc (map (fun kv => (fst kv, rehydrate (snd kv))) c))) (Forall2 same_mesh) (Forall2 (holds c)) (void_surfs (g_second s)) vs) as (r2 & E2 & F2); [|exact B|].
  { intros a b Q. apply (gmap_forall2 _ same_mesh (holds c)); [|exact Q].
    intros x y Q'. eexists. split; [apply find_held; exact Q'|]. now repeat split. }
  rewrite E2. cbn [gbind]. eexists. split; [reflexivity|]. now repeat split.
Qed.
Lemma load_solids doc c es : forall ss, Forall2 (refers c) ss (solid_entries es) ->
  exists ls, gmap (load_solid doc (map (fun kv => (fst kv, rehydrate (snd kv))) c)) es = GOk ls /\ Forall2 solid_back ss (concat ls).
Proof.
  induction es as [|e es IH]; intros ss F; cbn in F.
  - inversion F; subst. exists []. split; [reflexivity|constructor].
  - destruct e as [i m vs ns fs|i m sh vs|i d ps].
    + destruct (IH _ F) as (ls & E & G). exists ([] :: ls). cbn. rewrite E. now split.
    + inversion F as [|s x ss' y R F']; subst. destruct (IH _ F') as (ls & E & G).
      destruct (load_refers doc c _ _ R) as (b & Eb & B). exists ([b] :: ls). cbn [gmap]. rewrite Eb. cbn [gbind]. rewrite E.
      cbn. split; [reflexivity|]. constructor; assumption.
    + destruct (IH _ F) as (ls & E & G). exists ([] :: ls). cbn. rewrite E. now split.
Qed.

Lemma solid_entries_app a b : solid_entries (a ++ b) = solid_entries a ++ solid_entries b.
Proof. apply filter_app. Qed.
Lemma sketch_prims_app a b : sketch_prims (a ++ b) = sketch_prims a ++ sketch_prims b.
Proof. apply flat_map_app. Qed.
Lemma table_in c i e : table c -> In (i, e) c -> exists s, e = entry_for i s.
Proof. intros [N T] I0. apply T. apply in_dget; [exact teq_spec|exact N|exact I0]. Qed.
Lemma table_plain c : table c -> solid_entries (map snd c) = [] /\ sketch_prims (map snd c) = [].
Proof.
  intros T. assert (F : forall i e, In (i, e) c -> exists s, e = entry_for i s) by (intros i e; apply table_in; exact T).
  clear T. induction c as [|(i, e) c IH]; [now split|]. destruct (F i e (or_introl eq_refl)) as [s ->]. cbn.
  apply IH. intros j x I0. apply F. right. exact I0.
Qed.

(** The document of a list of things, and what a loader finds in it *)
Lemma saved w l w' doc : geometry_to_json H uuid drawable w l = GOk (w', doc) ->
  exists c, table c /\ listed doc [] = map (fun kv => (fst kv, rehydrate (snd kv))) c /\
    Forall2 (refers c) (solids_in l) (solid_entries doc) /\ Forall2 drawn (sketches_in l) (sketch_prims doc).
Proof.
  intros E. destruct (save_all_spec _ _ _ _ _ _ table_nil E) as (es & c & D & T & _ & NS & A & B & _).
  cbn in D. exists c. split; [exact T|].
  destruct (table_plain c T) as [P1 P2].
  rewrite D. split; [|split].
  - rewrite listed_app, (listed_none es _ NS). rewrite listed_table; [reflexivity|exact (proj1 T)| |reflexivity].
    intros i e. apply table_in. exact T.
  - rewrite solid_entries_app, P1, app_nil_r. exact A.
  - rewrite sketch_prims_app, P2, app_nil_r. exact B.
Qed.

Definition named (doc : document) : Prop := forall e, In e doc -> entry_id e <> [].
Lemma named_exists doc : named doc -> existsb (fun e => teq (entry_id e) []) doc = false.
Proof.
  intros N. destruct (existsb _ _) eqn:E; [|reflexivity]. apply existsb_exists in E. destruct E as (e & I0 & T).
  apply teq_spec in T. exfalso. exact (N e I0 T).
Qed.
Theorem solids_come_back w l w' doc : geometry_to_json H uuid drawable w l = GOk (w', doc) -> named doc ->
  solids_in l <> [] -> exists ls, geometry_from_json doc = GOk (Solids ls) /\ Forall2 solid_back (solids_in l) ls.
Proof.
  intros E N S. destruct (saved _ _ _ _ E) as (c & T & L & A & _).
  unfold geometry_from_json. rewrite (named_exists doc N), L.
  destruct (load_solids doc c doc _ A) as (ls & G & B). cbn zeta. rewrite G. cbn [gbind].
  destruct (concat ls) as [|b r] eqn:K; [inversion B; congruence|]. eexists. split; [reflexivity|]. exact B.
Qed.
End S.
