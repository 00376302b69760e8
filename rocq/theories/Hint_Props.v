(** What hints are normalised to, and what the helpers store. *)
From Coq Require Import ZArith String List Bool.
From Verif Require Import Dict Json_Model Meta_Model Meta_Spec Meta_Proofs Meta_Proofs2 Meta_Props Hint_Spec Hint_Proofs Hint_Proofs2.
Import ListNotations.
Open Scope list_scope.

(** ** C319: the metadata transform, key by key *)
Theorem c319_fields : forall H h h' ds, h <> [] -> normalise H h = Ok (h', ds) -> exists dss tail,
  ds = List.concat dss ++ tail /\ length h' = length h /\ length dss = length h /\
  (forall n k v, nth_error h n = Some (k, v) -> exists v' d, nth_error h' n = Some (k, v') /\ nth_error dss n = Some d /\ treated H k v v' d) /\
  (forall d, In d tail <-> remark h' d).
Proof.
  intros H [|[k0 v0] h] h' ds N E; [congruence|]. unfold normalise in E. apply bind_inv in E as ([h1 ds1] & C & E).
  cbn [fst snd] in E. apply (f_equal (fun x => match x with Ok y => y | Err _ => (h1, ds1) end)) in E.
  pose proof (f_equal fst E) as E1. pose proof (f_equal snd E) as E2. cbn [fst snd] in E1, E2. subst h' ds.
  destruct (fields_treated H _ _ _ C) as (dss & -> & L1 & L2 & T). exists dss, (cross_check h1).
  split; [reflexivity|]. split; [exact L1|]. split; [exact L2|]. split; [exact T|]. intros d. apply cross_iff.
Qed.
Print Assumptions c319_fields.
Theorem c319_raises : forall H h e, normalise H h = Err e <->
  (exists v, In (t "operation.priority", v) h /\ to_float H v = Err OverflowErr) /\ e = OverflowErr.
Proof.
  intros H [|kv h] e; [split; [discriminate|intros ((v & [] & _) & _)]|]. rewrite <- (fields_fail H (kv :: h) e). unfold normalise.
  destruct (check_fields H (kv :: h)) as [y|]; cbn [bind]; split; intros X; try discriminate X; injection X as ->; reflexivity.
Qed.
Print Assumptions c319_raises.
Theorem c319_layer : forall H m v, get (t "layer") (set_layer H m v) = Some (if truthy H v then v else JStr (t "default")).
Proof. intros H m v. apply get_put_same. Qed.
Print Assumptions c319_layer.
(** the optional arguments of the add_* helpers *)
Theorem c319_datum : forall H m kw, snd (add_datum H m kw) = None -> exists e,
  added (t "assembly") (t "datums") m (add_datum H m kw) e /\ forall k r, In (k, r) datum_options -> stored H kw e k r.
Proof.
  intros H m kw S. unfold add_datum in *. destruct (negb _); [discriminate|]. destruct (negb _); [discriminate|].
  destruct (validate_enum _ _); [discriminate|]. destruct (validate_enum _ _); [discriminate|].
  destruct (finish_cases H (t "assembly") (t "datums") m (datum_entry H kw) asm_root) as [(e & B & A)|[X _]]; [|contradiction].
  exists e. split; [exact A|]. exact (datum_stored H kw e B).
Qed.
Print Assumptions c319_datum.
Theorem c319_surface : forall H m kw, snd (add_surface H m kw) = None -> exists e,
  added (t "assembly") (t "surfaces") m (add_surface H m kw) e /\ forall k r, In (k, r) surface_options -> stored H kw e k r.
Proof.
  intros H m kw S. unfold add_surface in *. destruct (negb _); [discriminate|]. destruct (negb _); [discriminate|].
  destruct (validate_enum _ _); [discriminate|].
  destruct (finish_cases H (t "assembly") (t "surfaces") m (surface_entry H kw) asm_root) as [(e & B & A)|[X _]]; [|contradiction].
  exists e. split; [exact A|]. exact (surface_stored H kw e B).
Qed.
Print Assumptions c319_surface.
Theorem c319_keepout : forall H m kw, snd (add_keepout H m kw) = None -> exists e,
  added (t "assembly") (t "keepouts") m (add_keepout H m kw) e /\ forall k r, In (k, r) keepout_options -> stored H kw e k r.
Proof.
  intros H m kw S. unfold add_keepout in *. destruct (negb _); [discriminate|]. destruct (negb _); [discriminate|].
  destruct (validate_enum _ _); [discriminate|].
  destruct (finish_cases H (t "assembly") (t "keepouts") m (keepout_entry H kw) asm_root) as [(e & B & A)|[X _]]; [|contradiction].
  exists e. split; [exact A|]. exact (keepout_stored H kw e B).
Qed.
Print Assumptions c319_keepout.
Theorem c319_bolt : forall H m kw, snd (add_bolt_pattern H m kw) = None -> exists e,
  added (t "assembly") (t "bolt_patterns") m (add_bolt_pattern H m kw) e /\
  (forall k r, In (k, r) bolt_options -> stored H kw e k r) /\
  ((arg (t "fastener") kw = JNull /\ get (t "fastener") e = None) \/
   (exists spec f, arg (t "fastener") kw = JObj spec /\ get (t "fastener") e = Some (JObj f) /\ fastener_of H spec f)).
Proof.
  intros H m kw S. unfold add_bolt_pattern in *. destruct (negb _); [discriminate|]. destruct (negb _); [discriminate|].
  destruct (validate_enum _ _); [discriminate|].
  destruct (finish_cases H (t "assembly") (t "bolt_patterns") m (bolt_entry H kw) asm_root) as [(e & B & A)|[X _]]; [|contradiction].
  exists e. split; [exact A|]. exact (bolt_stored H kw e B).
Qed.
Print Assumptions c319_bolt.
Definition c319_hint : dict := [(t "operation.through", JStr (t "1")); (t "operation.target_filter", JStr (t "a, b")); (t "assembly.datums", JList [JInt 1])].
Definition c319_bolts : kwargs := demo_bolt ++ [(t "fastener", JObj [(t "thread", JStr (t "tap")); (t "head", JStr (t "hex"))])].
Example c319_nonvacuous :
  (exists ds, normalise demo c319_hint = Ok ([(t "operation.through", JBool true); (t "operation.target_filter", JList [JStr (t "a"); JStr (t "b")]); (t "assembly.datums", JList [JInt 1])], ds) /\
     In (mkdiag LError (t "assembly.datums") (Some (JList [JInt 1]))) ds /\ In (mkdiag LError (t "operation.kind") None) ds) /\
  words demo (t "a, b") [t "a"; t "b"] /\ snd (add_bolt_pattern demo [] c319_bolts) = None /\
  snd (add_datum demo [] [(t "id", JStr (t "d")); (t "kind", JStr (t "plane")); (t "origin_mm", JList [JInt 1; JInt 2; JInt 3])]) = None.
Proof.
  split; [eexists; split; [reflexivity|]; split; [left|right; left]; reflexivity|]. split; [|split; reflexivity].
  exists [t "a"; t " b"], [t "a"; t "b"]. split; [discriminate|]. split; [reflexivity|]. split.
  { repeat constructor; cbn; intuition discriminate. }
  split; [|reflexivity]. constructor; [|constructor; [|constructor]].
  - exists [], []. repeat split; try constructor; intros; cbn in *; [injection H as <- <-; reflexivity|]. destruct r as [|? [|]]; try discriminate. injection H as <-. reflexivity.
  - exists [32%Z], []. repeat split; try constructor; try constructor; intros; cbn in *; [injection H as <- <-; reflexivity|]. destruct r as [|? [|]]; try discriminate. injection H as <-. reflexivity.
Qed.
