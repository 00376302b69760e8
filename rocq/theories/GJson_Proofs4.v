(** Documents of surfaces; ids and metadata agree. *)
From Coq Require Import Reals ZArith String List Bool Lia.
From Verif Require Import Dict Xform_Model Json_Model Meta_Model Meta_Proofs GJson_Model GJson_Spec GJson_Proofs GJson_Proofs2 GJson_Proofs3.
Import ListNotations.
Open Scope list_scope.

Section S.
Variables (H : host) (uuid : nat -> text) (drawable : gelem -> bool).

Definition agrees (w : world) (e : entry) : Prop := get (t "entityId") (entry_meta w e) = Some (JStr (entry_id e)).
Definition eref (e : entry) : list nat := match e with ESurf _ m _ _ _ | ESolid _ m _ _ => [m] | ESketch _ _ _ => [] end.
Definition all_agree (w : world) (es : list entry) (done : list nat) : Prop :=
  forall e, In e es -> agrees w e /\ incl (eref e) done.
Lemma agrees_step w w' rs out e : step H rs out w w' -> (forall r, In r (eref e) -> ~ In r rs) -> agrees w e -> agrees w' e.
Proof.
  intros S D. unfold agrees. destruct e; cbn [entry_meta entry_id eref] in *; [| |tauto];
  rewrite (st_frame _ _ _ _ _ S); try tauto; apply D; now left.
Qed.
Lemma all_agree_step w w' rs out es done : step H rs out w w' -> (forall r, In r done -> ~ In r rs) -> all_agree w es done -> all_agree w' es done.
Proof.
  intros S D A e I0. destruct (A e I0) as [X Y]. split; [|exact Y]. eapply agrees_step; [exact S| |exact X].
  intros r R. apply D, Y, R.
Qed.
Lemma serialize_id w s o w' e : serialize_surface H uuid w s o = GOk (w', e) -> agrees w' e.
Proof.
  unfold serialize_surface, id_text. destruct (get _ _) as [[]|] eqn:G; cbn [gbind]; try discriminate. intros X.
  match type of X with GOk (?a, ?b) = _ => assert (w' = a /\ e = b) as [-> ->] by (split; congruence) end.
  unfold agrees. cbn [entry_meta entry_id]. rewrite put_same. exact G.
Qed.
Lemma rename_id fuel : forall c w r i w' i', rename uuid fuel c w r i = GOk (w', i') ->
  get (t "entityId") (metas w r) = Some (JStr i) -> get (t "entityId") (metas w' r) = Some (JStr i').
Proof.
  induction fuel as [|f IH]; intros c w r i w' i'; cbn [rename]; destruct (dmem teq i c) eqn:M; try discriminate.
  1, 3: intros E; assert (w' = w /\ i' = i) as [-> ->] by (split; congruence); tauto.
  intros E _. apply (IH _ _ _ _ _ _ E). rewrite put_same. rewrite get_put_other by discriminate. apply get_put_same.
Qed.
Lemma one_surface_agree o p w c s w' c' i done : one_surface H uuid o p w c s = GOk (w', c', i) ->
  all_agree w (map snd c) done -> ~ In (g_meta s) done -> all_agree w' (map snd c') (g_meta s :: done).
Proof.
  intros E0 A N. pose proof (one_surface_step H uuid _ _ _ _ _ _ _ _ (keys o) (incl_refl _) E0) as St.
  revert E0. unfold one_surface.
  destruct (serialize_surface _ _ _ _ _) as [[w1 e]|] eqn:E; cbn [gbind]; [|discriminate].
  destruct (serialize_surface_entry _ _ _ _ _ _ _ E) as [i0 ->]. pose proof (serialize_id _ _ _ _ _ E) as Ag.
  destruct (rename _ _ _ _ _ _) as [[w2 i2]|] eqn:F; cbn [gbind]; [|discriminate].
  cbn [entry_id entry_for with_id] in *. intros G.
  assert (w' = w2 /\ c' = dset teq i2 (ESurf i2 (g_meta s) (g_verts s) (g_norms s) (g_faces s)) c) as [-> ->] by (split; congruence).
  intros e I0. apply in_map_iff in I0. destruct I0 as ((j, x) & <- & I0). apply in_dset in I0. cbn [snd]. destruct I0 as [[-> ->]|I0].
  - split; [|intros r [<-|[]]; now left]. unfold agrees. cbn [entry_meta entry_id]. apply (rename_id _ _ _ _ _ _ _ F). exact Ag.
  - assert (I1 : In x (map snd c)) by (apply in_map_iff; now exists (j, x)). destruct (A x I1) as [X Y]. split.
    + eapply agrees_step; [exact St| |exact X]. intros r R [<-|[]]. apply N, Y, R.
    + intros r R. right. apply Y, R.
Qed.
Lemma NoDup_cons_app {A} (x : A) l done : NoDup (x :: l) -> (forall y, In y (x :: l) -> ~ In y done) ->
  ~ In x done /\ NoDup l /\ forall y, In y l -> ~ In y (x :: done).
Proof.
  intros N D. inversion N; subst. split; [apply D; now left|]. split; [assumption|].
  intros y Y [<-|Z]; [contradiction|]. apply (D y); [now right|exact Z].
Qed.
Lemma all_agree_incl w es a b : incl a b -> all_agree w es a -> all_agree w es b.
Proof. intros I0 A e E. destruct (A e E) as [X Y]. split; [exact X|]. intros r R. apply I0, Y, R. Qed.
Lemma surfaces_of_agree o p l : forall w c w' c' is done, surfaces_of H uuid o p w c l = GOk (w', c', is) ->
  all_agree w (map snd c) done -> NoDup (map g_meta (surfs l)) -> (forall r, In r (map g_meta (surfs l)) -> ~ In r done) ->
  all_agree w' (map snd c') (map g_meta (surfs l) ++ done).
Proof.
  induction l as [|[s|] l IH]; intros w c w' c' is done; cbn [surfaces_of].
  - intros E A _ _. assert (w' = w /\ c' = c) as [-> ->] by (split; congruence). exact A.
  - destruct (one_surface _ _ _ _ _ _ _) as [[[w1 c1] i]|] eqn:E; cbn [gbind]; [|discriminate].
    destruct (surfaces_of _ _ _ _ _ _ _) as [[[w2 c2] is2]|] eqn:F; cbn [gbind]; [|discriminate].
    intros G A N D. assert (w' = w2 /\ c' = c2) as [-> ->] by (split; congruence).
    cbn [surfs flat_map app map] in N, D |- *. destruct (NoDup_cons_app _ _ _ N D) as (N1 & N2 & D2).
    pose proof (one_surface_agree _ _ _ _ _ _ _ _ _ E A N1) as A1.
    eapply all_agree_incl; [|exact (IH _ _ _ _ _ _ F A1 N2 D2)].
    intros r R. apply in_app_or in R. destruct R as [R|[<-|R]]; [right; apply in_or_app; now left|now left|right; apply in_or_app; now right].
  - apply IH.
Qed.
Lemma NoDup_split {A} (a b : list A) : NoDup (a ++ b) -> NoDup a /\ NoDup b /\ forall x, In x a -> ~ In x b.
Proof.
  induction a as [|x a IH]; cbn; [intros N; repeat split; [constructor|exact N|intros x []]|].
  intros N. inversion N as [|? ? NI N']; subst. destruct (IH N') as (A1 & A2 & A3). split; [|split].
  - constructor; [|exact A1]. intros X. apply NI, in_or_app. now left.
  - exact A2.
  - intros y [<-|Y]; [|now apply A3]. intros X. apply NI, in_or_app. now right.
Qed.
Lemma voids_of_agree o p l : forall w c w' c' is done, voids_of H uuid o p w c l = GOk (w', c', is) ->
  all_agree w (map snd c) done -> NoDup (map g_meta (concat (void_surfs l))) ->
  (forall r, In r (map g_meta (concat (void_surfs l))) -> ~ In r done) ->
  all_agree w' (map snd c') (map g_meta (concat (void_surfs l)) ++ done).
Proof.
  induction l as [|[v|] l IH]; intros w c w' c' is done; cbn [voids_of]; [| |discriminate].
  - intros E A _ _. assert (w' = w /\ c' = c) as [-> ->] by (split; congruence). exact A.
  - destruct (surfaces_of _ _ _ _ _ _ _) as [[[w1 c1] i]|] eqn:E; cbn [gbind]; [|discriminate].
    destruct (voids_of _ _ _ _ _ _ _) as [[[w2 c2] is2]|] eqn:F; cbn [gbind]; [|discriminate].
    intros G A N D. assert (w' = w2 /\ c' = c2) as [-> ->] by (split; congruence).
    change (concat (void_surfs (VIter v :: l))) with (surfs v ++ concat (void_surfs l)) in *. rewrite map_app in N, D |- *.
    destruct (NoDup_split _ _ N) as (N1 & N2 & N3).
    assert (A1 := surfaces_of_agree _ _ _ _ _ _ _ _ _ E A N1 (fun r R => D r (in_or_app _ _ r (or_introl R)))).
    eapply all_agree_incl; [|eapply IH; [exact F|exact A1|exact N2|]].
    + intros r R. apply in_app_or in R. rewrite <- app_assoc. apply in_or_app. destruct R as [R|R]; [right; apply in_or_app; now left|].
      apply in_app_or in R. destruct R as [R|R]; [now left|right; apply in_or_app; now right].
    + intros r R X. apply in_app_or in X. destruct X as [X|X]; [exact (N3 r X R)|]. apply (D r); [apply in_or_app; now right|exact X].
Qed.
Lemma serialize_solid_agree w c s o w' c' e done : serialize_solid H uuid w c s o = GOk (w', c', e) ->
  all_agree w (map snd c) done -> NoDup (refs_of (TSolid s, o)) -> (forall r, In r (refs_of (TSolid s, o)) -> ~ In r done) ->
  all_agree w' (e :: map snd c') (refs_of (TSolid s, o) ++ done).
Proof.
  intros E0 A N D. cbn [refs_of fst] in *. revert E0. unfold serialize_solid.
  destruct (surfaces_of _ _ _ _ _ _ _) as [[[w1 c1] sh]|] eqn:E; cbn [gbind]; [|discriminate].
  destruct (voids_of _ _ _ _ _ _ _) as [[[w2 c2] vs]|] eqn:F; cbn [gbind]; [|discriminate].
  destruct (id_text _) as [i|] eqn:Ei; cbn [gbind]; [|discriminate].
  intros G. assert (w' = w2 /\ c' = c2 /\ e = ESolid i (g_smeta s) sh vs) as (-> & -> & ->) by (repeat split; congruence).
  inversion N as [|? ? NI N']; subst. destruct (NoDup_split _ _ N') as (N1 & N2 & N3).
  set (w0 := meta_put (get_meta H uuid w (g_smeta s)) (g_smeta s) (default_layer H (update (metas (get_meta H uuid w (g_smeta s)) (g_smeta s)) o))) in *.
  assert (A0 : all_agree w0 (map snd c) (g_smeta s :: done)).
  { eapply all_agree_incl with (a := done); [intros r R; now right|]. eapply all_agree_step; [| |exact A].
    - eapply step_trans with (r1 := [g_smeta s]) (r2 := [g_smeta s]) (rs := [g_smeta s]); [apply get_meta_step|apply update_layer_step; apply own_harmless|apply incl_refl|apply incl_refl].
    - intros r R [<-|[]]. apply (D (g_smeta s)); [now left|exact R]. }
  assert (A1 := surfaces_of_agree _ _ _ _ _ _ _ _ _ E A0 N1).
  assert (D1 : forall r, In r (map g_meta (surfs (g_shell s))) -> ~ In r (g_smeta s :: done)).
  { intros r R [<-|X]; [apply NI, in_or_app; now left|]. apply (D r); [right; apply in_or_app; now left|exact X]. }
  specialize (A1 D1).
  assert (A2 := voids_of_agree _ _ _ _ _ _ _ _ _ F A1 N2).
  assert (D2 : forall r, In r (map g_meta (concat (void_surfs (g_second s)))) -> ~ In r (map g_meta (surfs (g_shell s)) ++ g_smeta s :: done)).
  { intros r R X. apply in_app_or in X. destruct X as [X|[<-|X]]; [exact (N3 r X R)|apply NI, in_or_app; now right|].
    apply (D r); [right; apply in_or_app; now right|exact X]. }
  specialize (A2 D2).
  intros e [<-|I0].
  - split; [|intros r [<-|[]]; apply in_or_app; now left; left].
    unfold agrees. cbn [entry_meta entry_id]. revert Ei. unfold id_text. destruct (get _ _) as [[]|]; try discriminate. intros [= <-]. reflexivity.
  - destruct (A2 e I0) as [X Y]. split; [exact X|]. intros r R. apply Y in R.
    apply in_app_or in R. cbn [app]. rewrite <- app_assoc. destruct R as [R|R]; [right; apply in_or_app; right; apply in_or_app; now left|].
    apply in_app_or in R. destruct R as [R|[<-|R]]; [right; apply in_or_app; now left|now left|right; apply in_or_app; right; apply in_or_app; now right].
Qed.
Lemma save_all_agree l : forall w c es w' doc done, save_all H uuid drawable w c es l = GOk (w', doc) ->
  all_agree w (es ++ map snd c) done -> NoDup (flat_map refs_of l) -> (forall r, In r (flat_map refs_of l) -> ~ In r done) ->
  forall e, In e doc -> agrees w' e.
Proof.
  induction l as [|[x o] l IH]; intros w c es w' doc done; cbn [save_all].
  - intros E A _ _ e I0. assert (w' = w /\ doc = es ++ map snd c) as [-> ->] by (split; congruence). apply A, I0.
  - cbn [flat_map]. intros E A N D. destruct (NoDup_split _ _ N) as (N1 & N2 & N3). revert E.
    assert (D' : forall r, In r (flat_map refs_of l) -> ~ In r (refs_of (x, o) ++ done)).
    { intros r R X. apply in_app_or in X. destruct X as [X|X]; [exact (N3 r X R)|]. apply (D r); [apply in_or_app; now right|exact X]. }
    assert (D0 : forall r, In r (refs_of (x, o)) -> ~ In r done) by (intros r R; apply D, in_or_app; now left).
    destruct x as [s|s|g|]; [| | |discriminate].
    + destruct (serialize_solid _ _ _ _ _ _) as [[[w1 c1] e]|] eqn:E; cbn [gbind]; [|discriminate].
      intros F. eapply IH; [exact F| |exact N2|exact D'].
      pose proof (given_step H uuid w (g_smeta s) o) as St.
      assert (A0 : all_agree (given H uuid w (g_smeta s) o) (es ++ map snd c) done).
      { eapply all_agree_step; [exact St| |exact A]. intros r R [<-|[]]. apply (D0 (g_smeta s)); [now left|exact R]. }
      assert (A1 := serialize_solid_agree _ _ _ _ _ _ _ done E (fun e I0 => A0 e (in_or_app _ _ e (or_intror I0))) N1 D0).
      pose proof (serialize_solid_step H uuid _ _ _ _ _ _ _ E) as St2.
      intros e0 I0. rewrite <- app_assoc in I0. apply in_app_or in I0. destruct I0 as [I0|I0].
      * destruct (A0 e0 (in_or_app _ _ e0 (or_introl I0))) as [X Y]. split.
        -- eapply agrees_step; [exact St2| |exact X]. intros r R Z. apply (D0 r); [exact Z|apply Y, R].
        -- intros r R. apply in_or_app. right. apply Y, R.
      * apply A1. exact I0.
    + destruct (serialize_surface _ _ _ _ _) as [[w1 e]|] eqn:E; cbn [gbind]; [|discriminate].
      intros F. eapply IH; [exact F| |exact N2|exact D'].
      pose proof (given_step H uuid w (g_meta s) o) as St.
      assert (St2 : step H [g_meta s] (keys o) w w1).
      { eapply step_trans with (r1 := [g_meta s]) (r2 := [g_meta s]); [exact St|eapply serialize_surface_step; [exact E|apply own_harmless]|apply incl_refl|apply incl_refl]. }
      assert (A1 : all_agree w1 (es ++ map snd c) done).
      { eapply all_agree_step; [exact St2| |exact A]. intros r R [<-|[]]. apply (D0 (g_meta s)); [now left|exact R]. }
      destruct (serialize_surface_entry _ _ _ _ _ _ _ E) as [i ->]. pose proof (serialize_id _ _ _ _ _ E) as Ag.
      cbn [refs_of fst entry_id entry_for app].
      intros e0 I0. apply in_app_or in I0. destruct I0 as [I0|I0].
      * destruct (A1 e0 (in_or_app _ _ e0 (or_introl I0))) as [X Y]. split; [exact X|]. intros r R. right. apply Y, R.
      * destruct (dmem teq i c).
        -- destruct (A1 e0 (in_or_app _ _ e0 (or_intror I0))) as [X Y]. split; [exact X|]. intros r R. right. apply Y, R.
        -- apply in_map_iff in I0. destruct I0 as ((j, x) & <- & I0). apply in_dset in I0. cbn [snd]. destruct I0 as [[-> ->]|I0].
           ++ split; [exact Ag|]. intros r [<-|[]]. now left.
           ++ assert (I1 : In x (es ++ map snd c)) by (apply in_or_app; right; apply in_map_iff; now exists (j, x)).
              destruct (A1 x I1) as [X Y]. split; [exact X|]. intros r R. right. apply Y, R.
    + destruct (serialize_sketch _ _ _ _ _) as [[w1 e]|] eqn:E; cbn [gbind]; [|discriminate].
      intros F. eapply IH; [exact F| |exact N2|exact D'].
      revert E. unfold serialize_sketch, id_text. destruct (gmap primitive g); cbn [gbind]; [|discriminate].
      destruct (existsb _ _); [discriminate|]. destruct (negb _); [discriminate|].
      destruct (get _ _) as [[]|] eqn:Gt; cbn [gbind]; try discriminate. intros X.
      match type of X with GOk (?a, ?b) = _ => assert (w1 = a /\ e = b) as [-> ->] by (split; congruence) end.
      intros e0 I0. rewrite <- app_assoc in I0. apply in_app_or in I0. cbn [app] in I0.
      assert (K : forall e1, In e1 (es ++ map snd c) -> agrees (next w) e1 /\ incl (eref e1) (refs_of (TSketch g, o) ++ done)) by (intros e1 J; exact (A e1 J)).
      destruct I0 as [I0|[<-|I0]]; [apply K, in_or_app; now left| |apply K, in_or_app; now right].
      split; [exact Gt|]. intros r [].
Qed.
Theorem ids_agree w l w' doc : geometry_to_json H uuid drawable w l = GOk (w', doc) -> NoDup (flat_map refs_of l) ->
  forall e, In e doc -> agrees w' e.
Proof. intros E N. refine (save_all_agree l w [] [] w' doc [] E _ N _); [intros e []|intros r R []]. Qed.

(** * Documents of surfaces only *)
Definition final_id (w : world) (s : gsurf) : json := arg (t "entityId") (metas w (g_meta s)).
Lemma surfaces_saved l : forall w c es w' doc, solids_in l = [] -> table c ->
  save_all H uuid drawable w c es l = GOk (w', doc) -> NoDup (map (final_id w') (surfaces_in l)) ->
  (forall s i, In s (surfaces_in l) -> final_id w' s = JStr i -> dmem teq i c = false) ->
  exists c', doc = es ++ filter (fun e => match e with ESketch _ _ _ => true | _ => false end) (skipn (length es) doc) ++ map snd (c ++ c') /\
    table (c ++ c') /\ Forall2 (fun s ie => snd ie = entry_for (fst ie) s /\ final_id w' s = JStr (fst ie)) (surfaces_in l) c'.
Proof.
  induction l as [|[x o] l IH]; intros w c es w' doc S0 T E N D; cbn [save_all] in E.
  - exists []. assert (doc = es ++ map snd c) as -> by congruence. rewrite app_nil_r. split; [|split; [exact T|constructor]].
    rewrite skipn_app, skipn_all, Nat.sub_diag. cbn [skipn app].
    replace (filter _ (map snd c)) with (@nil entry); [reflexivity|].
    assert (F : forall i e, In (i, e) c -> exists s, e = entry_for i s) by (intros i e; apply table_in; exact T).
    clear - F. induction c as [|(i, e) c IH]; [reflexivity|]. destruct (F i e (or_introl eq_refl)) as [s ->]. cbn. apply IH.
    intros j x I0. apply F. now right.
  - destruct x as [s|s|g|]; [discriminate| | |discriminate].
    + destruct (serialize_surface _ _ _ _ _) as [[w1 e]|] eqn:E1; cbn [gbind] in E; [|discriminate].
      destruct (serialize_surface_entry _ _ _ _ _ _ _ E1) as [i ->]. pose proof (serialize_id _ _ _ _ _ E1) as Ag.
      cbn [surfaces_in flat_map fst app] in N, D |- *. change (flat_map _ l) with (surfaces_in l) in *.
      cbn [map] in N. inversion N as [|? ? NI N']; subst.
      cbn [entry_id entry_for] in E.
      (* later surfaces have other dictionaries *)
      assert (Fin : get (t "entityId") (metas w' (g_meta s)) = Some (JStr i)).
      { pose proof (save_all_step H uuid drawable _ _ _ _ _ _ E) as St. rewrite (st_frame _ _ _ _ _ St); [exact Ag|].
        intros I0. apply in_flat_map in I0. destruct I0 as ((y, oy) & Iy & R).
        destruct y as [sy|sy|gy|]; cbn [refs_of fst] in R.
        - assert (X : In sy (solids_in l)) by (apply in_flat_map; exists (TSolid sy, oy); split; [exact Iy|now left]).
          cbn in S0. change (flat_map _ l) with (solids_in l) in S0. rewrite S0 in X. destruct X.
        - destruct R as [R|[]]. apply NI. apply in_map_iff. exists sy. split; [unfold final_id; now rewrite R|].
          apply in_flat_map. exists (TSurface sy, oy). split; [exact Iy|now left].
        - destruct R.
        - destruct R. }
      assert (Fi : final_id w' s = JStr i) by (unfold final_id, arg; now rewrite Fin).
      rewrite (D s i (or_introl eq_refl) Fi) in E.
      rewrite dset_new in E by (apply (D s i (or_introl eq_refl) Fi)).
      destruct (table_add c i s T (D s i (or_introl eq_refl) Fi)) as [T1 _].
      rewrite dset_new in T1 by (apply (D s i (or_introl eq_refl) Fi)).
      destruct (IH w1 (c ++ [(i, entry_for i s)]) es w' doc S0 T1 E N') as (c' & A & B & C).
      { intros s0 i0 I0 F0. destruct (dmem teq i0 (c ++ [(i, entry_for i s)])) eqn:M; [|reflexivity]. exfalso.
        apply (dmem_in _ teq_spec) in M. unfold keys in M. rewrite map_app in M. apply in_app_or in M. destruct M as [M|[M|[]]].
        - assert (X : dmem teq i0 c = true) by (apply (dmem_in _ teq_spec); exact M). rewrite (D s0 i0 (or_intror I0) F0) in X. discriminate.
        - cbn in M. subst i0. apply NI. rewrite Fi, <- F0. now apply in_map. }
      exists ((i, entry_for i s) :: c'). rewrite <- app_assoc in A, B. cbn [app] in A, B.
      split; [exact A|]. split; [exact B|]. constructor; [|exact C]. split; [reflexivity|exact Fi].
    + destruct (serialize_sketch _ _ _ _ _) as [[w1 e]|] eqn:E1; cbn [gbind] in E; [|discriminate].
      destruct (serialize_sketch_spec _ _ _ _ _ _ _ E1) as (i & d & ps & -> & _).
      destruct (IH w1 c (es ++ [ESketch i d ps]) w' doc S0 T E N D) as (c' & A & B & C).
      exists c'. split; [|split; [exact B|exact C]].
      rewrite <- app_assoc in A. cbn [app] in A.
      rewrite A at 1. f_equal. rewrite A at 2. rewrite skipn_app, skipn_all, Nat.sub_diag. cbn [skipn app filter].
      f_equal. rewrite filter_app. rewrite app_length, Nat.add_comm. cbn [length Nat.add].
      set (rest := filter _ (skipn (S (length es)) doc)). 
      assert (Z : filter (fun e => match e with ESketch _ _ _ => true | _ => false end) (map snd (c ++ c')) = []).
      { assert (F : forall i e, In (i, e) (c ++ c') -> exists s, e = entry_for i s) by (intros j e; apply table_in; exact B).
        clear - F. induction (c ++ c') as [|(i, e) l IH]; [reflexivity|]. destruct (F i e (or_introl eq_refl)) as [s ->]. cbn. apply IH.
        intros j x I0. apply F. now right. }
      rewrite Z, app_nil_r. f_equal. unfold rest. clear.
      set (l := skipn (S (length es)) doc). induction l as [|e l IH]; [reflexivity|]. cbn. destruct e; cbn; [exact IH|exact IH|now rewrite <- IH].
Qed.
Theorem surfaces_come_back w l w' doc : geometry_to_json H uuid drawable w l = GOk (w', doc) -> named doc ->
  solids_in l = [] -> sketches_in l = [] -> NoDup (map (final_id w') (surfaces_in l)) ->
  exists ls, geometry_from_json doc = GOk (Surfaces ls) /\ Forall2 same_mesh (surfaces_in l) ls.
Proof.
  intros E N S0 S1 D. destruct (saved _ _ _ _ _ _ _ E) as (c0 & T0 & L0 & A & B). rewrite S0 in A. rewrite S1 in B.
  assert (A0 : solid_entries doc = []) by (inversion A; reflexivity). assert (B0 : sketch_prims doc = []) by (inversion B; reflexivity).
  destruct (surfaces_saved l w [] [] w' doc S0 table_nil E D (fun _ _ _ _ => eq_refl)) as (c & X & T & C).
  cbn [app length skipn] in X, T. 
  assert (Y : filter (fun e => match e with ESketch _ _ _ => true | _ => false end) doc = []).
  { clear - B0. induction doc as [|e doc IH]; [reflexivity|]. destruct e; cbn in *; [now apply IH|now apply IH|discriminate]. }
  rewrite Y in X. cbn [app] in X.
  unfold geometry_from_json. rewrite (named_exists doc N). cbn zeta.
  destruct (load_none doc (listed doc []) A0) as (ls & G & Z). rewrite G. cbn [gbind]. rewrite Z.
  assert (K : exists ls, gmap load_sketch doc = GOk ls /\ concat ls = []).
  { clear - B0. induction doc as [|e doc IH]; [now exists []|]. destruct e; cbn in B0; try discriminate;
    (destruct (IH B0) as (ls & P & Q); exists ([] :: ls); cbn; rewrite P; now split). }
  destruct K as (ls2 & G2 & Z2). rewrite G2. cbn [gbind]. rewrite Z2.
  exists (map snd (listed doc [])). split; [reflexivity|]. rewrite X.
  rewrite listed_table; [|exact (proj1 T)|intros i e; apply table_in; exact T|reflexivity]. cbn [app].
  rewrite map_map. cbn [snd]. clear - C. induction C as [|s (i, e) ss c (X & _) _ IH]; cbn; constructor; [|exact IH].
  cbn in X. subst e. now repeat split.
Qed.
End S.
