(** Saving does not fail, and what it does to metadata. *)
From Coq Require Import Reals ZArith String List Bool Lia.
From Verif Require Import Dict Xform_Model Json_Model Meta_Model Meta_Proofs GJson_Model GJson_Spec GJson_Proofs.
Import ListNotations.
Open Scope list_scope.

Section S.
Variables (H : host) (uuid : nat -> text) (drawable : gelem -> bool).

(** * One dictionary *)
Lemma get_update k o : forall d, NoDup (keys o) -> get k (update d o) = match get k o with Some v => Some v | None => get k d end.
Proof.
  induction o as [|(k', v) o IH]; intros d N; [reflexivity|]. cbn [update fold_left fst snd].
  inversion N as [|? ? NI N']; subst. change (fold_left _ o (put k' v d)) with (update (put k' v d) o).
  rewrite IH by exact N'. unfold get at 3. cbn [dget]. rewrite get_put.
  destruct (teq k k') eqn:E.
  - apply teq_spec in E. subst k'. change (get k o) with (dget teq k o). destruct (dget teq k o) eqn:G; [|reflexivity].
    exfalso. apply NI. apply (dget_some_key _ teq_spec). now exists j.
  - reflexivity.
Qed.
Lemma get_update_out k o : forall d, ~ In k (keys o) -> get k (update d o) = get k d.
Proof.
  induction o as [|(k', v) o IH]; intros d N; [reflexivity|]. cbn [update fold_left fst snd].
  change (fold_left _ o (put k' v d)) with (update (put k' v d) o). rewrite IH.
  - apply get_put_other. intros ->. apply N. now left.
  - intros I0. apply N. now right.
Qed.
Lemma get_default_layer k d : k <> t "layer" -> get k (default_layer H d) = get k d.
Proof. intros N. unfold default_layer. destruct (get (t "layer") d) as [v|]; [destruct (truthy H v)|]; try reflexivity; now apply get_put_other. Qed.
Lemma get_meta_same w r : metas (get_meta H uuid w r) r = ensure_root H (ensure_id H (metas w r) (uuid (made w))) None.
Proof. unfold get_meta. cbn. now rewrite Nat.eqb_refl. Qed.
Lemma get_meta_other w r r' : r' <> r -> metas (get_meta H uuid w r) r' = metas w r'.
Proof. intros N. unfold get_meta. cbn. destruct (Nat.eqb_spec r' r); [congruence|reflexivity]. Qed.
Lemma put_same w r d : metas (meta_put w r d) r = d.
Proof. cbn. now rewrite Nat.eqb_refl. Qed.
Lemma put_other w r d r' : r' <> r -> metas (meta_put w r d) r' = metas w r'.
Proof. intros N. cbn. destruct (Nat.eqb_spec r' r); [congruence|reflexivity]. Qed.

Lemma get_ensure_id k d fresh : get k (ensure_id H d fresh) =
  match get k (ensure_root H d None) with
  | Some v => Some v
  | None => if teq k (t "entityId") then Some (JStr fresh)
            else if teq k (t "id") then Some (match get (t "entityId") d with Some v => v | None => JStr fresh end) else None
  end.
Proof.
  unfold ensure_id. rewrite !get_set_default. destruct (get k (ensure_root H d None)) as [v|] eqn:E; [reflexivity|].
  destruct (teq k (t "entityId")); [reflexivity|]. destruct (teq k (t "id")); [|reflexivity].
  f_equal. unfold arg. rewrite get_set_default, get_root. change (teq (t "entityId") (t "layer")) with false.
  change (teq (t "entityId") (t "tags")) with false. change (teq (t "entityId") (t "schema")) with false. cbn iota.
  destruct (get (t "entityId") d); reflexivity.
Qed.
Lemma get_meta_entity w r : get (t "entityId") (metas (get_meta H uuid w r) r) =
  match get (t "entityId") (metas w r) with Some v => Some v | None => Some (JStr (uuid (made w))) end.
Proof.
  rewrite get_meta_same, get_root. change (teq (t "entityId") (t "layer")) with false. cbn iota.
  rewrite get_ensure_id, get_root. change (teq (t "entityId") (t "layer")) with false.
  change (teq (t "entityId") (t "tags")) with false. change (teq (t "entityId") (t "schema")) with false.
  change (teq (t "entityId") (t "entityId")) with true. cbn iota.
  destruct (get (t "entityId") (metas w r)); reflexivity.
Qed.

(** What survives: [stays k v] for keys that saving leaves alone *)
Definition plain_key (k : text) : Prop := k <> t "layer" /\ k <> t "entityId" /\ k <> t "id".
Definition own_layer (v : json) : Prop := truthy H v = true /\ v <> JStr (t "default").
Definition stays (k : text) (v : json) : Prop := plain_key k \/ (k = t "layer" /\ own_layer v).
Definition new_key (k : text) : Prop := plain_key k /\ k <> t "schema" /\ k <> t "tags".

Lemma root_keeps k v d : stays k v -> get k d = Some v -> get k (ensure_root H d None) = Some v.
Proof.
  intros S G. rewrite get_root. destruct (teq k (t "layer")) eqn:E.
  - apply teq_spec in E. subst k. rewrite G. destruct S as [(N & _)|(_ & T & _)]; [congruence|]. now rewrite T.
  - now rewrite G.
Qed.
Lemma root_none k d : new_key k -> get k d = None -> get k (ensure_root H d None) = None.
Proof.
  intros ((N1 & N2 & N3) & N4 & N5) G. rewrite get_root, (teq_neq _ _ N1), G, (teq_neq _ _ N4), (teq_neq _ _ N5). reflexivity.
Qed.
Lemma id_keeps k v d i : stays k v -> get k d = Some v -> get k (ensure_id H d i) = Some v.
Proof. intros S G. rewrite get_ensure_id, (root_keeps k v d S G). reflexivity. Qed.
Lemma id_none k d i : new_key k -> get k d = None -> get k (ensure_id H d i) = None.
Proof.
  intros S G. rewrite get_ensure_id, (root_none k d S G). destruct S as ((N1 & N2 & N3) & _).
  now rewrite (teq_neq _ _ N2), (teq_neq _ _ N3).
Qed.
Lemma default_keeps k v d : stays k v -> get k d = Some v -> get k (default_layer H d) = Some v.
Proof.
  intros S G. destruct (list_eq_dec Z.eq_dec k (t "layer")) as [->|N]; [|now rewrite (get_default_layer k d N)].
  unfold default_layer. rewrite G. destruct S as [(N & _)|(_ & T & _)]; [congruence|]. now rewrite T.
Qed.

(** * Relation between worlds: what every step of saving respects.
    [touched] are the dictionaries it may change, [out] the keys of its overrides. *)
Record step (touched : list nat) (out : list text) (w w' : world) : Prop := mkstep {
  st_frame : forall r, ~ In r touched -> metas w' r = metas w r;
  st_keeps : forall r k v, ~ In k out -> stays k v -> get k (metas w r) = Some v -> get k (metas w' r) = Some v;
  st_none : forall r k, ~ In k out -> new_key k -> get k (metas w r) = None -> get k (metas w' r) = None }.
Lemma step_refl w rs out : step rs out w w. Proof. now split. Qed.
Lemma step_trans r1 r2 rs out w1 w2 w3 : step r1 out w1 w2 -> step r2 out w2 w3 -> incl r1 rs -> incl r2 rs -> step rs out w1 w3.
Proof.
  intros [A1 A2 A3] [B1 B2 B3] I1 I2. split.
  - intros r N. rewrite B1, A1; [reflexivity| |]; intros X; apply N; [apply I1|apply I2]; exact X.
  - intros r k v N S G. apply B2; [exact N|exact S|]. now apply A2.
  - intros r k N S G. apply B3; [exact N|exact S|]. now apply A3.
Qed.
Lemma step_one w w' r d out : (forall r', metas w' r' = if Nat.eqb r' r then d else metas w r') ->
  (forall k v, ~ In k out -> stays k v -> get k (metas w r) = Some v -> get k d = Some v) ->
  (forall k, ~ In k out -> new_key k -> get k (metas w r) = None -> get k d = None) -> step [r] out w w'.
Proof.
  intros M A B. split.
  - intros r' N. rewrite M. destruct (Nat.eqb_spec r' r) as [->|]; [exfalso; apply N; now left|reflexivity].
  - intros r' k v N S G. rewrite M. destruct (Nat.eqb_spec r' r) as [->|]; [now apply A|exact G].
  - intros r' k N S G. rewrite M. destruct (Nat.eqb_spec r' r) as [->|]; [now apply B|exact G].
Qed.

Lemma get_meta_step w r out : step [r] out w (get_meta H uuid w r).
Proof.
  apply step_one with (d := ensure_root H (ensure_id H (metas w r) (uuid (made w))) None).
  - reflexivity.
  - intros k v N S G. apply root_keeps; [exact S|]. now apply id_keeps.
  - intros k N S G. apply root_none; [exact S|]. now apply id_none.
Qed.
Lemma get_meta_root w r k v : stays k v -> get k (metas w r) = Some v -> get k (metas (get_meta H uuid w r) r) = Some v.
Proof. intros S G. apply (st_keeps [r] [] w); [apply get_meta_step|now intros []|exact S|exact G]. Qed.

(** an override is harmless if its keys are among [out], or it sets the layer of a
    dictionary that has none of its own *)
Definition harmless (out : list text) (d o : dict) : Prop :=
  forall k, In k (keys o) -> In k out \/ (k = t "layer" /\ forall v, get k d = Some v -> ~ own_layer v).
Lemma update_layer_step w r o out : harmless out (metas w r) o ->
  step [r] out w (meta_put w r (default_layer H (update (metas w r) o))).
Proof.
  intros F. apply step_one with (d := default_layer H (update (metas w r) o)); [reflexivity| |].
  - intros k v N S G. apply default_keeps; [exact S|]. rewrite get_update_out; [exact G|].
    intros I0. destruct (F k I0) as [I1|(-> & O)]; [contradiction|].
    destruct S as [(N1 & _)|(_ & O1)]; [congruence|]. exact (O v G O1).
  - intros k N S G. rewrite get_default_layer by apply S. rewrite get_update_out; [exact G|].
    intros I0. destruct (F k I0) as [I1|(-> & _)]; [contradiction|]. destruct S as ((X & _) & _). congruence.
Qed.
Lemma serialize_surface_step w s o w' e out : serialize_surface H uuid w s o = GOk (w', e) ->
  harmless out (metas (get_meta H uuid w (g_meta s)) (g_meta s)) o -> step [g_meta s] out w w'.
Proof.
  unfold serialize_surface. destruct (id_text _) as [i|]; cbn [gbind]; [|discriminate]. intros G F.
  assert (X : w' = meta_put (get_meta H uuid w (g_meta s)) (g_meta s)
     (default_layer H (update (metas (get_meta H uuid w (g_meta s)) (g_meta s)) o))) by congruence.
  rewrite X. eapply step_trans; [apply get_meta_step|apply update_layer_step; exact F| |]; apply incl_refl.
Qed.

Lemma inherited_harmless d o p out : incl (keys o) out -> harmless out d (inherited H d o p).
Proof.
  intros I0 k K. unfold inherited in K. destruct (get (t "layer") d) as [v|] eqn:G.
  - destruct (_ || _) eqn:B.
    + apply (in_keys_set _ teq_spec) in K. destruct K as [->|K]; [|left; apply I0; exact K].
      right. split; [reflexivity|]. intros v' G' (T & D). assert (v' = v) as -> by congruence.
      rewrite T in B. cbn in B. destruct v; try discriminate. apply teq_spec in B. apply D. now rewrite B.
    + left. apply I0, K.
  - apply (in_keys_set _ teq_spec) in K. destruct K as [->|K]; [|left; apply I0; exact K].
    right. split; [reflexivity|]. intros v' G'. congruence.
Qed.

Lemma rename_step fuel : forall c w r i w' i' out, rename uuid fuel c w r i = GOk (w', i') -> step [r] out w w'.
Proof.
  induction fuel as [|f IH]; intros c w r i w' i' out; cbn [rename]; destruct (dmem teq i c) eqn:M; try discriminate.
  1, 3: intros E; assert (w' = w) as -> by congruence; apply step_refl.
  intros E. apply (IH _ _ _ _ _ _ out) in E. eapply step_trans; [|exact E| |]; [|apply incl_refl|apply incl_refl].
  apply step_one with (d := put (t "id") (JStr (uuid (made w))) (put (t "entityId") (JStr (uuid (made w))) (metas w r))).
  - reflexivity.
  - intros k v N S G. rewrite !get_put_other; [exact G| |]; destruct S as [(A & B & C)|(-> & _)]; try assumption; intros X; discriminate X.
  - intros k N ((A & B & C) & _) G. rewrite !get_put_other; assumption.
Qed.

Lemma one_surface_step o p w c s w' c' i out : incl (keys o) out -> one_surface H uuid o p w c s = GOk (w', c', i) -> step [g_meta s] out w w'.
Proof.
  intros I0. unfold one_surface.
  destruct (serialize_surface _ _ _ _ _) as [[w1 e]|] eqn:E; cbn [gbind]; [|discriminate].
  destruct (rename _ _ _ _ _ _) as [[w2 i2]|] eqn:F; cbn [gbind]; [|discriminate].
  intros G. assert (w' = w2) as -> by congruence.
  eapply step_trans with (r1 := [g_meta s]) (r2 := [g_meta s]); [apply get_meta_step| |apply incl_refl|apply incl_refl].
  eapply step_trans with (r1 := [g_meta s]) (r2 := [g_meta s]); [|eapply rename_step; exact F|apply incl_refl|apply incl_refl].
  eapply serialize_surface_step; [exact E|].
  intros k K. destruct (inherited_harmless _ _ _ out I0 k K) as [L|(-> & O)]; [now left|right].
  split; [reflexivity|]. intros v G1 O1. apply (O v); [|exact O1].
  (* a second get_meta changes no layer of its own *)
  destruct (get (t "layer") (metas (get_meta H uuid w (g_meta s)) (g_meta s))) as [v2|] eqn:G2.
  - revert G1. rewrite get_meta_same, get_root. change (teq (t "layer") (t "layer")) with true. cbn iota.
    rewrite get_ensure_id, get_root. change (teq (t "layer") (t "layer")) with true. cbn iota. rewrite G2.
    assert (T : truthy H v2 = true).
    { revert G2. rewrite get_meta_same, get_root. change (teq (t "layer") (t "layer")) with true. cbn iota.
      destruct (get (t "layer") (ensure_id H (metas w (g_meta s)) (uuid (made w)))) as [y|]; [destruct (truthy H y) eqn:Ty|]; intros [= <-]; [exact Ty| |]; reflexivity. }
    rewrite !T. tauto.
  - exfalso. revert G2. rewrite get_meta_same, get_root. change (teq (t "layer") (t "layer")) with true. cbn iota.
    destruct (get (t "layer") (ensure_id H (metas w (g_meta s)) (uuid (made w)))) as [y|]; [destruct (truthy H y)|]; discriminate.
Qed.

Lemma surfaces_of_step o p out l : incl (keys o) out -> forall w c w' c' is, surfaces_of H uuid o p w c l = GOk (w', c', is) ->
  step (map g_meta (surfs l)) out w w'.
Proof.
  intros I0. induction l as [|x l IH]; intros w c w' c' is; cbn [surfaces_of].
  - intros E. assert (w' = w) as -> by congruence. apply step_refl.
  - destruct x as [s|]; [|intros E; exact (IH _ _ _ _ _ E)].
    destruct (one_surface _ _ _ _ _ _ _) as [[[w1 c1] i]|] eqn:E; cbn [gbind]; [|discriminate].
    destruct (surfaces_of _ _ _ _ _ _ _) as [[[w2 c2] is2]|] eqn:F; cbn [gbind]; [|discriminate].
    intros G. assert (w' = w2) as -> by congruence.
    eapply step_trans; [eapply one_surface_step; [exact I0|exact E]|eapply IH; exact F| |]; intros r; cbn; intros X; [left; destruct X as [X|[]]; exact X|right; exact X].
Qed.
Lemma voids_of_step o p out l : incl (keys o) out -> forall w c w' c' is, voids_of H uuid o p w c l = GOk (w', c', is) ->
  step (map g_meta (concat (void_surfs l))) out w w'.
Proof.
  intros I0. induction l as [|[v|] l IH]; intros w c w' c' is; cbn [voids_of]; [| |discriminate].
  - intros E. assert (w' = w) as -> by congruence. apply step_refl.
  - destruct (surfaces_of _ _ _ _ _ _ _) as [[[w1 c1] i]|] eqn:E; cbn [gbind]; [|discriminate].
    destruct (voids_of _ _ _ _ _ _ _) as [[[w2 c2] is2]|] eqn:F; cbn [gbind]; [|discriminate].
    intros G. assert (w' = w2) as -> by congruence.
    change (concat (void_surfs (VIter v :: l))) with (surfs v ++ concat (void_surfs l)). rewrite map_app.
    eapply step_trans; [eapply surfaces_of_step; [exact I0|exact E]|eapply IH; exact F| |]; intros r X; apply in_or_app; [now left|now right].
Qed.
Lemma own_harmless o d : harmless (keys o) d o. Proof. intros k K. now left. Qed.
Lemma serialize_solid_step w c s o w' c' e : serialize_solid H uuid w c s o = GOk (w', c', e) ->
  step (g_smeta s :: map g_meta (surfs (g_shell s)) ++ map g_meta (concat (void_surfs (g_second s)))) (keys o) w w'.
Proof.
  unfold serialize_solid.
  destruct (surfaces_of _ _ _ _ _ _ _) as [[[w1 c1] sh]|] eqn:E; cbn [gbind]; [|discriminate].
  destruct (voids_of _ _ _ _ _ _ _) as [[[w2 c2] vs]|] eqn:F; cbn [gbind]; [|discriminate].
  destruct (id_text _) as [i|]; cbn [gbind]; [|discriminate].
  intros G. assert (w' = w2) as -> by congruence.
  eapply step_trans with (r1 := [g_smeta s]); [apply get_meta_step| |intros r [<-|[]]; now left|apply incl_refl].
  eapply step_trans with (r1 := [g_smeta s]); [apply update_layer_step; apply own_harmless| |intros r [<-|[]]; now left|apply incl_refl].
  eapply step_trans; [eapply surfaces_of_step; [apply incl_refl|exact E]|eapply voids_of_step; [apply incl_refl|exact F]| |]; intros r X; right; apply in_or_app; [now left|now right].
Qed.

Lemma given_step w r o : step [r] (keys o) w (given H uuid w r o).
Proof.
  unfold given. destruct (nonempty_dict o); [|apply step_refl].
  eapply step_trans with (r1 := [r]) (r2 := [r]); [apply get_meta_step| |apply incl_refl|apply incl_refl].
  set (w1 := get_meta H uuid w r).
  set (d := match get (t "layer") o with Some v => if truthy H v then set_layer H (metas w1 r) v else metas w1 r | None => metas w1 r end).
  apply step_one with (d := update d (filter (fun kv => negb (teq (fst kv) (t "layer"))) o)); [reflexivity| |].
  - assert (FK : forall k, ~ In k (keys o) -> ~ In k (keys (filter (fun kv => negb (teq (fst kv) (t "layer"))) o))).
    { intros k N I0. apply N. unfold keys in *. apply in_map_iff in I0. destruct I0 as (x & X & Y). apply filter_In in Y. apply in_map_iff. exists x. tauto. }
    intros k v N S G. rewrite get_update_out by (apply FK; exact N).
    unfold d. destruct (get (t "layer") o) as [lv|] eqn:L; [|exact G]. destruct (truthy H lv); [|exact G].
    unfold set_layer. assert (k <> t "layer").
    { intros ->. apply N. apply (dget_some_key _ teq_spec). now exists lv. }
    rewrite get_put_other by assumption. now apply root_keeps.
  - intros k N S G. rewrite get_update_out.
    2:{ intros I0. apply N. unfold keys in *. apply in_map_iff in I0. destruct I0 as (x & X & Y). apply filter_In in Y. apply in_map_iff. exists x. tauto. }
    unfold d. destruct (get (t "layer") o) as [lv|] eqn:L; [|exact G]. destruct (truthy H lv); [|exact G].
    unfold set_layer. rewrite get_put_other by apply S. now apply root_none.
Qed.

Lemma step_out rs out out' w w' : step rs out w w' -> incl out out' -> step rs out' w w'.
Proof.
  intros [A B C] I0. split; [exact A| |].
  - intros r k v N. apply B. intros X. apply N, I0, X.
  - intros r k N. apply C. intros X. apply N, I0, X.
Qed.
Definition overrides (l : list (thing * dict)) : list text := flat_map (fun x => keys (snd x)) l.
Lemma save_all_step l : forall w c es w' doc, save_all H uuid drawable w c es l = GOk (w', doc) ->
  step (flat_map refs_of l) (overrides l) w w'.
Proof.
  induction l as [|[x o] l IH]; intros w c es w' doc; cbn [save_all].
  - intros E. assert (w' = w) as -> by congruence. apply step_refl.
  - destruct x as [s|s|g|]; [| | |discriminate].
    + destruct (serialize_solid _ _ _ _ _ _) as [[[w1 c1] e]|] eqn:E; cbn [gbind]; [|discriminate].
      intros F. cbn [flat_map overrides snd refs_of fst].
      eapply step_trans with (r1 := refs_of (TSolid s, o)) (r2 := flat_map refs_of l);
        [|eapply step_out; [exact (IH _ _ _ _ _ F)|apply incl_appr, incl_refl]|apply incl_appl, incl_refl|apply incl_appr, incl_refl].
      eapply step_out; [|apply incl_appl, incl_refl].
      eapply step_trans with (r1 := [g_smeta s]); [apply given_step|exact (serialize_solid_step _ _ _ _ _ _ _ E)| |apply incl_refl].
      intros r [<-|[]]. now left.
    + destruct (serialize_surface _ _ _ _ _) as [[w1 e]|] eqn:E; cbn [gbind]; [|discriminate].
      intros F. cbn [flat_map overrides snd refs_of fst].
      eapply step_trans with (r1 := refs_of (TSurface s, o)) (r2 := flat_map refs_of l);
        [|eapply step_out; [exact (IH _ _ _ _ _ F)|apply incl_appr, incl_refl]|apply incl_appl, incl_refl|apply incl_appr, incl_refl].
      eapply step_out; [|apply incl_appl, incl_refl].
      eapply step_trans with (r1 := [g_meta s]); [apply given_step|eapply serialize_surface_step; [exact E|apply own_harmless]|apply incl_refl|apply incl_refl].
    + destruct (serialize_sketch _ _ _ _ _) as [[w1 e]|] eqn:E; cbn [gbind]; [|discriminate].
      assert (W : metas w1 = metas w).
      { revert E. unfold serialize_sketch. destruct (gmap primitive g); cbn [gbind]; [|discriminate].
        destruct (existsb _ _); [discriminate|]. destruct (negb _); [discriminate|].
        destruct (id_text _); cbn [gbind]; [|discriminate]. intros X. assert (w1 = next w) as -> by congruence. reflexivity. }
      intros F. cbn [flat_map overrides snd refs_of fst app].
      apply (step_out _ (overrides l)); [|apply incl_appr, incl_refl].
      destruct (IH _ _ _ _ _ F) as [A B C]. rewrite W in A, B, C. split; assumption.
Qed.
End S.
