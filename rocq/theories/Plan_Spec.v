(** What a validation plan and a validation result should look like, issue by issue. *)
From Coq Require Import ZArith String List Bool.
From Verif Require Import Dict Json_Model Meta_Model Plan_Model.
Import ListNotations.
Open Scope list_scope.

Definition has_field (d : dict) (k : text) : Prop := exists v, get k d = Some v.
Definition one_of (v : json) (l : list text) : Prop := exists s, v = JStr s /\ In s l.
Definition a_mapping (v : json) : Prop := exists d, v = JObj d.
Definition a_list (v : json) : Prop := exists l, v = JList l.
(** Lists and dictionaries cannot be looked up in a set. *)
Definition hashable (v : json) : Prop := ~ a_list v /\ ~ a_mapping v.
Definition a_name (H : host) (v : json) : Prop := exists s, v = JStr s /\ Exists (fun c => space H c = false) s.
(** m are the names, in order, that d lacks. *)
Inductive lacking (d : dict) : list text -> list text -> Prop :=
| L_nil : lacking d [] []
| L_has k l m : has_field d k -> lacking d l m -> lacking d (k :: l) m
| L_lacks k l m : ~ has_field d k -> lacking d l m -> lacking d (k :: l) (k :: m).

(** One acceptance criterion c, at path p. *)
Definition criterion_error (p : text) (c : dict) (e : issue) : Prop :=
  (~ has_field c (t "limit") /\ e = (p, NoField (t "limit"))) \/
  (exists v, get (t "comparison") c = Some v /\ ~ one_of v comparisons /\ e = (dot p (t "comparison"), NotAllowed v)).
Definition criterion_warning (p : text) (c : dict) (e : issue) : Prop :=
  get (t "comparison") c = Some (JStr (t "~=")) /\ ~ has_field c (t "tolerance") /\ e = (p, NoTolerance).
Definition acceptance_error (d : dict) (e : issue) : Prop :=
  exists v, get (t "acceptance") d = Some v /\
  ((~ a_mapping v /\ e = (t "acceptance", WrongType v)) \/
   exists l k c, v = JObj l /\ In (k, c) l /\
     ((~ a_mapping c /\ e = (dot (t "acceptance") k, WrongType c)) \/ exists r, c = JObj r /\ criterion_error (dot (t "acceptance") k) r e)).
Definition acceptance_warning (d : dict) (e : issue) : Prop :=
  exists l k r, get (t "acceptance") d = Some (JObj l) /\ In (k, JObj r) l /\ criterion_warning (dot (t "acceptance") k) r e.

(** One load or boundary condition. *)
Definition item_error (types : list text) (p : text) (d : dict) (e : issue) : Prop :=
  (~ has_field d (t "type") /\ e = (p, NoField (t "type"))) \/
  (exists v, get (t "type") d = Some v /\ ~ one_of v types /\ e = (dot p (t "type"), NotAllowed v)).
Definition item_warning (p : text) (d : dict) (e : issue) : Prop :=
  (~ has_field d (t "id") /\ e = (p, NoField (t "id"))) \/
  (~ has_field d (t "surfaces") /\ ~ has_field d (t "strategy") /\ e = (p, NoRegion)).
Definition list_error (types : list text) (k : text) (d : dict) (e : issue) : Prop :=
  exists v, get k d = Some v /\
  ((~ a_list v /\ e = (k, WrongType v)) \/
   exists l i x, v = JList l /\ nth_error l i = Some x /\
     ((~ a_mapping x /\ e = (at_index k i, WrongType x)) \/ exists r, x = JObj r /\ item_error types (at_index k i) r e)).
Definition list_warning (k : text) (d : dict) (e : issue) : Prop :=
  exists l i r, get k d = Some (JList l) /\ nth_error l i = Some (JObj r) /\ item_warning (at_index k i) r e.
(** Boundary conditions are under either name, the first one first. *)
Definition conditions_under (d : dict) (k : text) : Prop :=
  (has_field d (t "boundaryConditions") /\ k = t "boundaryConditions") \/
  (~ has_field d (t "boundaryConditions") /\ k = t "boundary_conditions").

Definition mapping_error (k : text) (d : dict) (e : issue) : Prop :=
  exists v, get k d = Some v /\ ~ a_mapping v /\ e = (k, WrongType v).
Definition geometry_error (d : dict) (e : issue) : Prop :=
  mapping_error (t "geometry") d e \/
  (exists g v, get (t "geometry") d = Some (JObj g) /\ get (t "entities") g = Some v /\ ~ a_list v /\ e = (t "geometry.entities", WrongType v)).
Definition geometry_warning (d : dict) (e : issue) : Prop :=
  exists g, get (t "geometry") d = Some (JObj g) /\ ~ has_field g (t "source") /\ e = (t "geometry", NoField (t "source")).
Definition check_error (kind : text) (d : dict) (e : issue) : Prop :=
  (~ has_field d (t "check") /\ e = ([], NoField (t "check"))) \/ mapping_error (t "check") d e \/
  exists c, get (t "check") d = Some (JObj c) /\
   ((~ has_field c (t "property") /\ e = (t "check", NoField (t "property"))) \/
    exists v, get (t "property") c = Some v /\ ~ one_of v (check_properties kind) /\ e = (t "check.property", NotAllowed v)).
Definition name_error (H : host) (k : text) (d : dict) (e : issue) : Prop :=
  exists v, get k d = Some v /\ ~ a_name H v /\ e = (k, Blank).
Definition unknown_field (known : list text) (d : dict) (e : issue) : Prop :=
  exists k, has_field d k /\ ~ In k known /\ e = (k, Unknown).

(** A plan with everything that is required and a kind of the list. *)
Definition plan_of_kind (d : dict) (kind : text) : Prop :=
  (forall k, In k plan_required -> has_field d k) /\ get (t "kind") d = Some (JStr kind) /\ In kind plan_kinds.
Definition simulation (kind : text) : Prop := ~ In kind check_kinds.
Inductive plan_error (H : host) (d : dict) : issue -> Prop :=
| PE_missing m : lacking d plan_required m -> m <> [] -> plan_error H d ([], Missing m)
| PE_kind v : (forall k, In k plan_required -> has_field d k) -> get (t "kind") d = Some v -> ~ one_of v plan_kinds -> plan_error H d (t "kind", NotAllowed v)
| PE_id kind e : plan_of_kind d kind -> name_error H (t "id") d e -> plan_error H d e
| PE_backend kind e : plan_of_kind d kind -> name_error H (t "backend") d e -> plan_error H d e
| PE_geometry kind e : plan_of_kind d kind -> geometry_error d e -> plan_error H d e
| PE_acceptance kind e : plan_of_kind d kind -> acceptance_error d e -> plan_error H d e
| PE_check kind e : plan_of_kind d kind -> In kind check_kinds -> check_error kind d e -> plan_error H d e
| PE_materials kind e : plan_of_kind d kind -> simulation kind -> mapping_error (t "materials") d e -> plan_error H d e
| PE_loads kind e : plan_of_kind d kind -> simulation kind -> list_error load_types (t "loads") d e -> plan_error H d e
| PE_conditions kind k e : plan_of_kind d kind -> simulation kind -> conditions_under d k -> list_error bc_types k d e -> plan_error H d e.
Definition known_fields (kind : text) : list text := t "attachments" :: plan_required ++ plan_common ++ kind_fields kind.
Inductive plan_warning (d : dict) : issue -> Prop :=
| PW_geometry kind e : plan_of_kind d kind -> geometry_warning d e -> plan_warning d e
| PW_acceptance kind e : plan_of_kind d kind -> acceptance_warning d e -> plan_warning d e
| PW_loads kind e : plan_of_kind d kind -> simulation kind -> list_warning (t "loads") d e -> plan_warning d e
| PW_conditions kind k e : plan_of_kind d kind -> simulation kind -> conditions_under d k -> list_warning k d e -> plan_warning d e
| PW_materials kind : plan_of_kind d kind -> kind = t "structural" \/ kind = t "thermal" -> ~ has_field d (t "materials") -> plan_warning d ([], NoField (t "materials"))
| PW_unknown kind e : plan_of_kind d kind -> unknown_field (known_fields kind) d e -> plan_warning d e.
(** A choice that cannot be looked up. *)
Definition odd_choice (k : text) (d : dict) : Prop := exists v, get k d = Some v /\ ~ hashable v.
Definition odd_item (k : text) (d : dict) : Prop := exists l r, get k d = Some (JList l) /\ In (JObj r) l /\ odd_choice (t "type") r.
Inductive plan_unhashable (d : dict) : Prop :=
| PU_kind : (forall k, In k plan_required -> has_field d k) -> odd_choice (t "kind") d -> plan_unhashable d
| PU_comparison kind l k r : plan_of_kind d kind -> get (t "acceptance") d = Some (JObj l) -> In (k, JObj r) l -> odd_choice (t "comparison") r -> plan_unhashable d
| PU_property kind c : plan_of_kind d kind -> In kind check_kinds -> get (t "check") d = Some (JObj c) -> odd_choice (t "property") c -> plan_unhashable d
| PU_load kind : plan_of_kind d kind -> simulation kind -> odd_item (t "loads") d -> plan_unhashable d
| PU_condition kind k : plan_of_kind d kind -> simulation kind -> conditions_under d k -> odd_item k d -> plan_unhashable d.

(** Results. *)
Definition result_started (d : dict) : Prop := forall k, In k result_required -> has_field d k.
Inductive result_error (H : host) (d : dict) : issue -> Prop :=
| RE_missing m : lacking d result_required m -> m <> [] -> result_error H d ([], Missing m)
| RE_status v : result_started d -> get (t "status") d = Some v -> ~ one_of v statuses -> result_error H d (t "status", NotAllowed v)
| RE_plan e : result_started d -> name_error H (t "plan_id") d e -> result_error H d e
| RE_metrics e : result_started d -> mapping_error (t "metrics") d e -> result_error H d e
| RE_outcomes e : result_started d -> mapping_error (t "acceptance_results") d e -> result_error H d e
| RE_outcome l k v : result_started d -> get (t "acceptance_results") d = Some (JObj l) -> In (k, v) l -> ~ a_mapping v ->
    result_error H d (dot (t "acceptance_results") k, WrongType v)
| RE_artifacts v : result_started d -> get (t "artifacts") d = Some v -> ~ a_list v -> result_error H d (t "artifacts", WrongType v)
| RE_artifact l i v : result_started d -> get (t "artifacts") d = Some (JList l) -> nth_error l i = Some v -> ~ a_mapping v ->
    result_error H d (at_index (t "artifacts") i, WrongType v).
Inductive result_warning (d : dict) : issue -> Prop :=
| RW_outcome l k r f : result_started d -> get (t "acceptance_results") d = Some (JObj l) -> In (k, JObj r) l ->
    f = t "value" \/ f = t "passed" -> ~ has_field r f -> result_warning d (dot (t "acceptance_results") k, NoField f)
| RW_artifact l i r : result_started d -> get (t "artifacts") d = Some (JList l) -> nth_error l i = Some (JObj r) -> ~ has_field r (t "path") ->
    result_warning d (at_index (t "artifacts") i, NoField (t "path"))
| RW_unknown e : result_started d -> unknown_field (result_required ++ result_optional) d e -> result_warning d e.

(** A history of analyses. *)
Definition analyses (os : list outcome) (results : list dict) : list dict := fold_left (fun l o => record_result o l) os results.
Definition entries_of (p : text) (l : list dict) : list dict := filter (about p) l.
(** What one run has to say under key k of its entry. *)
Inductive told (o : outcome) : text -> json -> Prop :=
| T_plan : told o (t "plan") (JStr (o_plan o))
| T_status : told o (t "status") (JStr (o_status o))
| T_path : told o (t "path") (JStr (o_path o))
| T_backend s : o_backend o = Some s -> s <> [] -> told o (t "backend") (JStr s)
| T_time s : o_time o = Some s -> s <> [] -> told o (t "timestamp") (JStr s)
| T_notes s : o_notes o = Some s -> s <> [] -> told o (t "notes") (JStr s)
| T_metrics : o_metrics o <> [] -> told o (t "metrics") (JObj (o_metrics o))
| T_artifacts : o_artifacts o <> [] -> told o (t "artifacts") (JList (o_artifacts o))
| T_summary : o_summary o <> [] -> told o (t "summary") (JObj (o_summary o)).
(** The entry says what the run has to say, and keeps x's other fields. *)
Definition refreshed (o : outcome) (x e : dict) : Prop :=
  forall k v, get k e = Some v <-> told o k v \/ ((forall w, ~ told o k w) /\ get k x = Some v).
