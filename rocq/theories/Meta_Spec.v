(** Vocabulary for metadata properties. *)
From Coq Require Import ZArith String List Bool.
From Verif Require Import Dict Json_Model Meta_Model.
Import ListNotations.
Open Scope list_scope.

(** One call of a helper of metadata.py. *)
Inductive call :=
| CAssembly (kw : kwargs) | CBolt (kw : kwargs) | CDatum (kw : kwargs) | CSurface (kw : kwargs)
| CKeepout (kw : kwargs) | COperation (kw : kwargs) | CMaterial (kw : kwargs)
| CTags (l : list text) | CLayer (v : json).
Definition run_call (H : host) (m : dict) (c : call) : outcome :=
  match c with
  | CAssembly kw => set_assembly H m kw | CBolt kw => add_bolt_pattern H m kw | CDatum kw => add_datum H m kw
  | CSurface kw => add_surface H m kw | CKeepout kw => add_keepout H m kw | COperation kw => set_operation H m kw
  | CMaterial kw => set_material H m kw | CTags l => (add_tags H m l, None) | CLayer v => (set_layer H m v, None)
  end.
(** The namespace a call is about; "" for the two root fields. *)
Definition namespace (c : call) : text :=
  match c with
  | CAssembly _ | CBolt _ | CDatum _ | CSurface _ | CKeepout _ => t "assembly"
  | COperation _ => t "operation" | CMaterial _ => t "material" | CTags _ | CLayer _ => []
  end.
(** The fields a call names. *)
Definition named (c : call) : list text :=
  match c with
  | CAssembly kw | COperation kw | CMaterial kw => map fst kw
  | CBolt _ => [t "bolt_patterns"] | CDatum _ => [t "datums"] | CSurface _ => [t "surfaces"] | CKeepout _ => [t "keepouts"]
  | CTags _ => [t "tags"] | CLayer _ => [t "layer"]
  end.
(** A history of calls; a failing call leaves what it leaves and the next one follows. *)
Definition history (H : host) (m : dict) (cs : list call) : dict := fold_left (fun m c => fst (run_call H m c)) cs m.

Definition root_fields := [t "schema"; t "tags"; t "layer"].
(** Key k of m' is as in m, or it is a root field that m lacked (or a falsy layer). *)
Definition kept (H : host) (k : text) (m m' : dict) : Prop :=
  get k m' = get k m \/
  (In k root_fields /\ match get k m with None => True | Some v => k = t "layer" /\ truthy H v = false end).

Definition one_of (v : json) (allowed : list text) : Prop := exists s, v = JStr s /\ In s allowed.
Definition one_of_or_none (v : json) (allowed : list text) : Prop := v = JNull \/ one_of v allowed.
Definition field_ok (d : dict) (k : string) (allowed : list text) : Prop :=
  forall v, get (t k) d = Some v -> one_of_or_none v allowed.
Definition is_float (d : dict) (k : string) : Prop := exists f, get (t k) d = Some (JFloat f).
Definition bolt_ok (d : dict) : Prop :=
  field_ok d "ring" bolt_rings /\ is_float d "R_mm" /\ is_float d "z_mm" /\
  (exists n, get (t "count") d = Some (JInt n)) /\ (exists s, get (t "id") d = Some (JStr s)).
Definition datum_ok (d : dict) : Prop := field_ok d "kind" datum_kinds /\ field_ok d "ring" bolt_rings.
Definition surface_ok (d : dict) : Prop := field_ok d "kind" surface_kinds.
Definition keepout_ok (d : dict) : Prop := field_ok d "kind" keepout_kinds.
(** Every entry of list field k is a dictionary that satisfies P. *)
Definition entries (sec : dict) (k : string) (P : dict -> Prop) : Prop :=
  forall l e, get (t k) sec = Some (JList l) -> In e l -> exists d, e = JObj d /\ P d.
Definition valid (m : dict) : Prop :=
  let a := section (t "assembly") m in
  let o := section (t "operation") m in
  (forall v, get (t "joint_kind") a = Some v -> one_of v joint_kinds) /\
  entries a "bolt_patterns" bolt_ok /\ entries a "datums" datum_ok /\
  entries a "surfaces" surface_ok /\ entries a "keepouts" keepout_ok /\
  field_ok o "kind" operation_kinds /\ field_ok o "policy" operation_policies /\ field_ok o "feature_kind" feature_kinds.

(** Hints that only set single values, no key being a prefix of another's path. *)
Definition list_keys := [t "assembly.bolt_patterns"; t "assembly.datums"; t "assembly.surfaces"; t "assembly.keepouts"].
Definition scalar_hint (H : host) (h : dict) : Prop :=
  NoDup (map fst h) /\
  (forall k v, In (k, v) h -> k <> t "tags" /\ ~ In k list_keys /\ (k = t "layer" -> to_str H v <> [])) /\
  (forall k v k' v' ns f, In (k, v) h -> In (k', v') h -> partition k = None -> partition k' = Some (ns, f) -> k <> ns).
Definition no_errors (ds : list diag) : Prop := forall d, In d ds -> d_level d <> LError.
(** No plain key overwrites a whole namespace. *)
Definition namespaces_safe (h : dict) : Prop := forall v, ~ In (t "assembly", v) h /\ ~ In (t "operation", v) h.
