(** Metadata of solids and surfaces: helpers, hints and the metadata transform. *)
From Coq Require Import ZArith String List Bool.
From Verif Require Import Dict Json_Model Meta_Model Meta_Spec Meta_Proofs Meta_Proofs2 Meta_Proofs3 Meta_Proofs4.
Import ListNotations.
Open Scope list_scope.

(** A host to compute with: floats are ×10 integers, "x" is not a number, str(str) is the string. *)
Definition demo : host := mkhost
  (fun v => match v with JFloat f => Ok f | JInt z => Ok (z * 10)%Z | JStr [] => Err ValueErr | JStr (c :: _) => if (c =? 120)%Z then Err ValueErr else Ok 10%Z | _ => Err TypeErr end)
  (fun v => match v with JInt z => Ok z | JStr _ => Err ValueErr | _ => Err TypeErr end)
  (fun v => match v with JStr s => s | JInt z => [(48 + z)%Z] | _ => t "?" end)
  (fun f => (f =? 0)%Z) (fun s => s) (fun c => (c =? 32)%Z).
Example demo_honest : honest demo.
Proof. split; reflexivity. Qed.

(** ** C147: a helper touches its namespace and the fields it is given *)
Theorem c147_other_keys : forall H m c k, k <> namespace c -> ~ (namespace c = [] /\ In k (named c)) ->
  kept H k m (fst (run_call H m c)).
Proof. intros H m c k. exact (frame_keys H c m k). Qed.
Print Assumptions c147_other_keys.
Theorem c147_other_fields : forall H m c f, namespace c <> [] -> ~ In f (named c) ->
  get f (section (namespace c) (fst (run_call H m c))) = get f (section (namespace c) m).
Proof. intros H m c f N. destruct (frame H c m N) as [_ F]. apply F. Qed.
Print Assumptions c147_other_fields.
Theorem c147_operation_stored : forall H m kw m', set_operation H m kw = (m', None) ->
  get (t "kind") (section (t "operation") m') = Some (arg (t "kind") kw) /\
  forall k conv, In (k, conv) [(t "target_filter", cstrs H); (t "priority", cfloat H); (t "through", cbool H);
     (t "consume", cbool H); (t "policy", csame); (t "feature_id", cstr H); (t "feature_kind", csame); (t "stage", cstr H)] ->
  arg k kw <> JNull -> exists c, conv (arg k kw) = Ok c /\ get k (section (t "operation") m') = Some c.
Proof. exact set_operation_stored. Qed.
Print Assumptions c147_operation_stored.
Theorem c147_material_stored : forall H m kw m', set_material H m kw = (m', None) ->
  forall k conv, In (k, conv) [(t "name", csame); (t "standard", csame); (t "grade", csame);
     (t "density_kg_m3", cfloat H); (t "source", csame)] ->
  arg k kw <> JNull -> exists c, conv (arg k kw) = Ok c /\ get k (section (t "material") m') = Some c.
Proof. exact set_material_stored. Qed.
Print Assumptions c147_material_stored.
Theorem c147_assembly_stored : forall H m kw m', set_assembly H m kw = (m', None) ->
  (arg (t "joint_kind") kw <> JNull -> get (t "joint_kind") (section (t "assembly") m') = Some (arg (t "joint_kind") kw)) /\
  (arg (t "no_cut") kw <> JNull -> get (t "no_cut") (section (t "assembly") m') = Some (JBool (truthy H (arg (t "no_cut") kw)))).
Proof.
  intros H m kw m' E. unfold set_assembly in E. destruct (negb _); [discriminate|]. destruct (validate_enum _ _); [discriminate|].
  assert (E' : m' = match arg (t "no_cut") kw with JNull => match arg (t "joint_kind") kw with JNull => ensure_namespace (ensure_root H m None) (t "assembly") | v => write (t "assembly") (t "joint_kind") v (ensure_namespace (ensure_root H m None) (t "assembly")) end
     | v => write (t "assembly") (t "no_cut") (JBool (truthy H v)) match arg (t "joint_kind") kw with JNull => ensure_namespace (ensure_root H m None) (t "assembly") | v => write (t "assembly") (t "joint_kind") v (ensure_namespace (ensure_root H m None) (t "assembly")) end end)
    by exact (eq_sym (f_equal fst E)).
  clear E. set (m0 := ensure_namespace _ _) in E'.
  destruct (arg (t "joint_kind") kw) eqn:J; destruct (arg (t "no_cut") kw) eqn:C; subst m'; split; intros N; try congruence;
  repeat (rewrite section_write; first [rewrite get_put_same; reflexivity | rewrite get_put_other by discriminate]).
Qed.
Print Assumptions c147_assembly_stored.
(** an add_* call that succeeds puts one new entry, with the values given, at the end of its list *)
Theorem c147_bolt_added : forall H m kw, snd (add_bolt_pattern H m kw) = None -> exists e,
  added (t "assembly") (t "bolt_patterns") m (add_bolt_pattern H m kw) e /\
  get (t "id") e = Some (JStr (to_str H (arg (t "id") kw))) /\ get (t "ring") e = Some (arg (t "ring") kw) /\
  (exists r, to_float H (arg (t "R_mm") kw) = Ok r /\ get (t "R_mm") e = Some (JFloat r)) /\
  (exists z, to_float H (arg (t "z_mm") kw) = Ok z /\ get (t "z_mm") e = Some (JFloat z)) /\
  (exists n, to_int H (arg (t "count") kw) = Ok n /\ get (t "count") e = Some (JInt n)).
Proof.
  intros H m kw S. unfold add_bolt_pattern in *. destruct (negb _); [discriminate|]. destruct (negb _); [discriminate|].
  destruct (validate_enum _ _); [discriminate|].
  destruct (finish_cases H (t "assembly") (t "bolt_patterns") m (bolt_entry H kw) asm_root) as [(e & B & A)|[X _]]; [|contradiction].
  exists e. split; [exact A|]. now apply bolt_entry_fields.
Qed.
Print Assumptions c147_bolt_added.
Theorem c147_datum_added : forall H m kw, snd (add_datum H m kw) = None -> exists e,
  added (t "assembly") (t "datums") m (add_datum H m kw) e /\
  get (t "id") e = Some (JStr (to_str H (arg (t "id") kw))) /\ get (t "kind") e = Some (arg (t "kind") kw).
Proof.
  intros H m kw S. unfold add_datum in *. destruct (negb _); [discriminate|]. destruct (negb _); [discriminate|].
  destruct (validate_enum _ _); [discriminate|]. destruct (validate_enum _ _); [discriminate|].
  destruct (finish_cases H (t "assembly") (t "datums") m (datum_entry H kw) asm_root) as [(e & B & A)|[X _]]; [|contradiction].
  exists e. split; [exact A|]. destruct (datum_entry_fields H kw e B) as (X & Y & _). auto.
Qed.
Print Assumptions c147_datum_added.
Theorem c147_surface_added : forall H m kw, snd (add_surface H m kw) = None -> exists e,
  added (t "assembly") (t "surfaces") m (add_surface H m kw) e /\
  get (t "id") e = Some (JStr (to_str H (arg (t "id") kw))) /\ get (t "kind") e = Some (arg (t "kind") kw).
Proof.
  intros H m kw S. unfold add_surface in *. destruct (negb _); [discriminate|]. destruct (negb _); [discriminate|].
  destruct (validate_enum _ _); [discriminate|].
  destruct (finish_cases H (t "assembly") (t "surfaces") m (surface_entry H kw) asm_root) as [(e & B & A)|[X _]]; [|contradiction].
  exists e. split; [exact A|]. exact (surface_entry_fields H kw e B).
Qed.
Print Assumptions c147_surface_added.
Theorem c147_keepout_added : forall H m kw, snd (add_keepout H m kw) = None -> exists e,
  added (t "assembly") (t "keepouts") m (add_keepout H m kw) e /\
  get (t "id") e = Some (JStr (to_str H (arg (t "id") kw))) /\ get (t "kind") e = Some (arg (t "kind") kw).
Proof.
  intros H m kw S. unfold add_keepout in *. destruct (negb _); [discriminate|]. destruct (negb _); [discriminate|].
  destruct (validate_enum _ _); [discriminate|].
  destruct (finish_cases H (t "assembly") (t "keepouts") m (keepout_entry H kw) asm_root) as [(e & B & A)|[X _]]; [|contradiction].
  exists e. split; [exact A|]. exact (keepout_entry_fields H kw e B).
Qed.
Print Assumptions c147_keepout_added.
Definition demo_cut : kwargs := [(t "kind", JStr (t "subtract")); (t "priority", JInt 2); (t "policy", JStr (t "warn"))].
Definition demo_bolt : kwargs := [(t "id", JStr (t "b1")); (t "ring", JStr (t "axial")); (t "R_mm", JInt 40); (t "z_mm", JInt 0); (t "count", JInt 6)].
Example c147_nonvacuous : snd (set_operation demo [] demo_cut) = None /\ snd (add_bolt_pattern demo [] demo_bolt) = None /\
  section (t "operation") (fst (set_operation demo [] demo_cut)) =
    [(t "kind", JStr (t "subtract")); (t "priority", JFloat 20); (t "policy", JStr (t "warn"))].
Proof. repeat split. Qed.

(** ** C148: only allowed values are ever stored *)
Theorem c148_helpers : forall H cs, valid (history H [] cs).
Proof. intros H cs. apply valid_history. exact valid_empty. Qed.
Print Assumptions c148_helpers.
Theorem c148_helpers_from : forall H m cs, valid m -> valid (history H m cs).
Proof. intros H m cs. exact (valid_history H cs m). Qed.
Print Assumptions c148_helpers_from.
Theorem c148_hints : forall H m h, valid m -> namespaces_safe h -> valid (fst (apply_hint H m h)).
Proof. intros H m h V S. exact (valid_hint H h S m V). Qed.
Print Assumptions c148_hints.
(** a rejected enumerated value raises and changes nothing *)
Theorem c148_rejected : forall H m c k allowed, In (k, allowed) (enum_args c) -> ~ one_of_or_none (arg k (kw_of c)) allowed ->
  fst (run_call H m c) = m /\ snd (run_call H m c) <> None.
Proof. intros H m c k a. exact (enum_rejected H c m k a). Qed.
Print Assumptions c148_rejected.
Example c148_nonvacuous :
  one_of (arg (t "kind") (section (t "operation") (history demo [] [COperation demo_cut; CBolt demo_bolt]))) operation_kinds.
Proof. exists (t "subtract"). split; [reflexivity|now left]. Qed.

(** ** C151: kind=None is accepted as a kind *)
Theorem c151_kind_none_refuted : exists H m,
  set_operation H [] [(t "kind", JNull)] = (m, None) /\
  get (t "kind") (section (t "operation") m) = Some JNull.
Proof. exists demo. eexists. split; [reflexivity|reflexivity]. Qed.
Print Assumptions c151_kind_none_refuted.

(** ** C149: applying a hint twice *)
Theorem c149_idempotent : forall H h m m', scalar_hint H h -> apply_hint H m h = (m', None) -> apply_hint H m' h = (m', None).
Proof. exact apply_twice. Qed.
Print Assumptions c149_idempotent.
Definition demo_hint : dict := [(t "layer", JStr (t "parts")); (t "operation.kind", JStr (t "union"));
  (t "operation.through", JStr (t "yes")); (t "assembly.no_cut", JBool true); (t "cam.tool", JInt 3)].
Example c149_nonvacuous : scalar_hint demo demo_hint /\ snd (apply_hint demo [] demo_hint) = None.
Proof.
  split; [|reflexivity]. unfold scalar_hint. split; [|split].
  - repeat constructor; cbn; intuition discriminate.
  - intros k v I. cbn in I.
    destruct I as [I|[I|[I|[I|[I|[]]]]]]; inversion I; subst; (split; [discriminate|]); split; try discriminate;
    intros X; cbn in X; intuition discriminate.
  - intros k v k' v' ns f I I' P P' ->. cbn in I, I'.
    destruct I as [I|[I|[I|[I|[I|[]]]]]]; inversion I; subst; try discriminate P;
    destruct I' as [I'|[I'|[I'|[I'|[I'|[]]]]]]; inversion I'; subst; cbn in P'; discriminate.
Qed.

(** ** C152: tags and list fields are appended again *)
Theorem c152_reapply_refuted : exists H h m m' m'',
  apply_hint H m h = (m', None) /\ apply_hint H m' h = (m'', None) /\
  get (t "tags") m' = Some (JList [JStr (t "a")]) /\ get (t "tags") m'' = Some (JList [JStr (t "a"); JStr (t "a")]) /\
  (exists e, get (t "bolt_patterns") (section (t "assembly") m') = Some (JList [e]) /\
             get (t "bolt_patterns") (section (t "assembly") m'') = Some (JList [e; e])).
Proof.
  exists demo, [(t "tags", JList [JStr (t "a")]); (t "assembly.bolt_patterns", JList [JObj demo_bolt])], [].
  eexists. eexists. split; [reflexivity|]. split; [reflexivity|]. split; [reflexivity|]. split; [reflexivity|].
  eexists. split; reflexivity.
Qed.
Print Assumptions c152_reapply_refuted.

(** ** C150: the metadata transform *)
Theorem c150_idempotent : forall H h h' ds, honest H -> normalise H h = Ok (h', ds) -> normalise H h' = Ok (h', ds).
Proof. intros H h h' ds HH. exact (normalise_again H HH h h' ds). Qed.
Print Assumptions c150_idempotent.
Theorem c150_keys : forall H h h' ds, normalise H h = Ok (h', ds) -> map fst h' = map fst h.
Proof. exact normalise_keys. Qed.
Print Assumptions c150_keys.
Theorem c150_then_apply : forall H m h h' ds, honest H -> normalise H h = Ok (h', ds) -> no_errors ds ->
  (forall v, In (t "operation.target_filter", v) h -> strings_only v) -> apply_hint H m h' = apply_hint H m h.
Proof. intros H m h h' ds HH. exact (normalise_apply H HH m h h' ds). Qed.
Print Assumptions c150_then_apply.
Example c150_nonvacuous : exists h' ds, normalise demo demo_hint = Ok (h', ds) /\ h' <> demo_hint /\
  get (t "operation.through") h' = Some (JBool true) /\ no_errors ds.
Proof.
  eexists. eexists. split; [reflexivity|]. split; [discriminate|]. split; [reflexivity|].
  intros d [<-|[<-|[]]]; discriminate.
Qed.

(** ** C153: what the transform accepts, the runtime rejects *)
Theorem c153_joint_kinds_refuted : forall H m s, In s t_joint_kinds ->
  let h := [(t "assembly.joint_kind", JStr s)] in
  normalise H h = Ok (h, []) /\ apply_hint H m h = (m, Some ValueErr).
Proof.
  intros H m s I h. unfold h. cbn in I.
  destruct I as [<-|[<-|[<-|[<-|[<-|[<-|[<-|[]]]]]]]]; split; reflexivity.
Qed.
Print Assumptions c153_joint_kinds_refuted.
Theorem c153_runtime_kinds_refuted : forall H s, In s joint_kinds ->
  exists ds, normalise H [(t "assembly.joint_kind", JStr s)] = Ok ([(t "assembly.joint_kind", JStr s)], ds) /\ ~ no_errors ds /\
             snd (apply_hint H [] [(t "assembly.joint_kind", JStr s)]) = None.
Proof.
  intros H s I. cbn in I.
  destruct I as [<-|[<-|[<-|[<-|[]]]]]; eexists; (split; [reflexivity|split; [|reflexivity]]);
  intros N; exact (N _ (or_introl eq_refl) eq_refl).
Qed.
Print Assumptions c153_runtime_kinds_refuted.
Theorem c153_feature_kinds_refuted : forall s, In s t_feature_kinds -> In s feature_kinds -> s = t "pocket".
Proof.
  intros s I J. cbn in I, J.
  destruct I as [<-|[<-|[<-|[<-|[<-|[<-|[<-|[<-|[<-|[<-|[<-|[]]]]]]]]]]]]; try reflexivity;
  exfalso; repeat destruct J as [J|J]; discriminate || exact J.
Qed.
Print Assumptions c153_feature_kinds_refuted.

(** ** C154: identifiers *)
Theorem c154_id_kept : forall H m c, get (t "entityId") (fst (run_call H m c)) = get (t "entityId") m.
Proof.
  intros H m c. destruct (frame_keys H c m (t "entityId")) as [E|[I _]]; [| |exact E|].
  - destruct c; discriminate.
  - intros [E I]. destruct c; cbn in *; try discriminate E; destruct I as [I|[]]; discriminate.
  - exfalso. cbn in I. intuition discriminate.
Qed.
Print Assumptions c154_id_kept.
Theorem c154_id_given_once : forall H x fresh, let y := get_metadata H x true fresh in
  get (t "entityId") (slot_dict y) = match get (t "entityId") (slot_dict x) with Some v => Some v | None => Some (JStr fresh) end /\
  forall fresh', get_metadata H y true fresh' = y.
Proof.
  intros H x fresh. cbv zeta. split; [|intros f'; apply get_metadata_again].
  destruct (ensure_id_facts H (slot_dict x) fresh) as (R & G & _). cbn [get_metadata slot_dict]. now rewrite (root_id H _ R).
Qed.
Print Assumptions c154_id_given_once.
Example c154_nonvacuous : get (t "id") (slot_dict (get_metadata demo None true (t "uuid-1"))) = Some (JStr (t "uuid-1")).
Proof. reflexivity. Qed.
(** ** C155: reading with create=False *)
Theorem c155_read_modifies_refuted : exists H x, get_metadata H x false [] <> x.
Proof. exists demo, None. discriminate. Qed.
Print Assumptions c155_read_modifies_refuted.

(** ** C156: failing calls *)
Theorem c156_failed_add : forall H m c,
  (match c with CBolt _ | CDatum _ | CSurface _ | CKeepout _ | CAssembly _ => True | _ => False end) ->
  snd (run_call H m c) <> None -> section (t "assembly") (fst (run_call H m c)) = section (t "assembly") m.
Proof. intros H m c. exact (failing_adds H c m). Qed.
Print Assumptions c156_failed_add.
Example c156_nonvacuous : snd (add_bolt_pattern demo [] (put (t "R_mm") (JStr (t "x")) demo_bolt)) = Some ValueErr.
Proof. reflexivity. Qed.
(** ** C157: but set_operation stores the first fields before a later one fails *)
Theorem c157_failed_operation_refuted : exists H kw m,
  set_operation H [] kw = (m, Some ValueErr) /\ get (t "kind") (section (t "operation") m) = Some (JStr (t "union")).
Proof.
  exists demo, [(t "kind", JStr (t "union")); (t "priority", JStr (t "x"))]. eexists. split; reflexivity.
Qed.
Print Assumptions c157_failed_operation_refuted.

(** ** C158: tags *)
Theorem c158_tags : forall H m l tags, get (t "tags") (ensure_root H m None) = Some (JList l) -> exists new,
  get (t "tags") (add_tags H m tags) = Some (JList (l ++ new)) /\
  (NoDup l -> NoDup (l ++ new)) /\ (forall s, In s tags -> s <> [] -> In (JStr s) (l ++ new)) /\
  (forall x, In x new -> exists s, x = JStr s /\ In s tags /\ s <> []).
Proof.
  intros H m l tags G. destruct (add_new_spec tags l) as (new & E & R). exists new. split; [|exact R].
  unfold add_tags. rewrite (tags_fold tags _ l G), E. reflexivity.
Qed.
Print Assumptions c158_tags.
Theorem c158_tags_start : forall H m, get (t "tags") m = None -> get (t "tags") (ensure_root H m None) = Some (JList []).
Proof. intros H m G. rewrite get_root. change (teq (t "tags") (t "layer")) with false. cbv beta iota. now rewrite G. Qed.
Print Assumptions c158_tags_start.
Example c158_nonvacuous : get (t "tags") (add_tags demo [] [t "a"; []; t "b"; t "a"]) = Some (JList [JStr (t "a"); JStr (t "b")]).
Proof. reflexivity. Qed.
