(** Model of yapcad/metadata.py, yapcad/dsl/meta_apply.py and
    yapcad/dsl/transforms/metadata.py.
    Metadata is JSON-like data ([Json_Model.json], string keys).  Python's float(),
    int(), str(), str.lower and the whitespace of str.strip are parameters (record
    [host]).  Messages and logging are dropped: a diagnostic keeps its level, its
    field and the value it complains about.  Sharing of mutable lists and
    dictionaries between hint and metadata is not modelled.  [JOpaque] objects are
    hashable, truthy and not iterable. *)
From Coq Require Import ZArith String List Bool.
From Verif Require Import Dict Json_Model.
Import ListNotations.
Open Scope Z_scope.
Open Scope list_scope.

Inductive err := ValueErr | TypeErr | AttrErr | OverflowErr.
Inductive res (A : Type) := Ok (a : A) | Err (e : err).
Arguments Ok {A}. Arguments Err {A}.

Record host := mkhost {
  to_float : json -> res Z;      (* float(v) *)
  to_int : json -> res Z;        (* int(v) *)
  to_str : json -> text;         (* str(v) *)
  zero_float : Z -> bool;        (* f == 0.0 *)
  lower : text -> text;
  space : Z -> bool              (* str.isspace of one character *)
}.
(** What is used of them: float of a float, str of a str. *)
Definition honest (H : host) : Prop :=
  (forall f, to_float H (JFloat f) = Ok f) /\ (forall s, to_str H (JStr s) = s).

Definition get (k : text) (d : dict) : option json := dget teq k d.
Definition put (k : text) (v : json) (d : dict) : dict := dset teq k v d.
Definition has (k : text) (d : dict) : bool := dmem teq k d.
Definition mem (s : text) (l : list text) : bool := existsb (teq s) l.

(** metadata.py:26-38 *)
Definition joint_kinds := [t "axial"; t "radial"; t "mixed"; t "none"].
Definition bolt_rings := [t "axial"; t "radial"].
Definition datum_kinds := [t "bolt_circle"; t "axis"; t "plane"; t "point"; t "edge"].
Definition surface_kinds := [t "mating"; t "bearing"; t "sealing"; t "datum"; t "wear"].
Definition keepout_kinds := [t "volume"; t "axis"; t "ring"].
Definition operation_kinds := [t "subtract"; t "intersect"; t "union"].
Definition operation_policies := [t "strict"; t "warn"; t "ignore"].
Definition feature_kinds := [t "access_panel"; t "vent"; t "parachute_door"; t "fastener_through";
                             t "wire_pass"; t "channel"; t "pocket"; t "other"].
Definition fastener_threads := [t "tap"; t "clearance"; t "heat-set"; t "through"].
Definition fastener_heads := [t "SHCS"; t "FHCS"; t "BHCS"; t "hex"; t "stud"; t "none"].

Section Helpers.
Variable H : host.

(** bool(v) *)
Definition truthy (v : json) : bool :=
  match v with
  | JNull => false | JBool b => b | JInt z => negb (z =? 0) | JFloat f => negb (zero_float H f)
  | JStr s => match s with [] => false | _ => true end
  | JList l => match l with [] => false | _ => true end
  | JObj d => match d with [] => false | _ => true end
  | JOpaque _ => true
  end.
(** list(v) *)
Definition to_list (v : json) : res (list json) :=
  match v with
  | JList l => Ok l
  | JStr s => Ok (map (fun c => JStr [c]) s)
  | JObj d => Ok (map (fun kv => JStr (fst kv)) d)
  | _ => Err TypeErr
  end.
Fixpoint floats (l : list json) : res (list json) :=
  match l with
  | [] => Ok []
  | v :: r => match to_float H v with
              | Ok f => match floats r with Ok fs => Ok (JFloat f :: fs) | Err e => Err e end
              | Err e => Err e
              end
  end.

(** metadata.py:41-47 _validate_enum: None passes; a list or dict is not hashable *)
Definition validate_enum (v : json) (allowed : list text) : option err :=
  match v with
  | JNull => None
  | JStr s => if mem s allowed then None else Some ValueErr
  | JList _ | JObj _ => Some TypeErr
  | _ => Some ValueErr
  end.

Definition set_default (k : text) (v : json) (d : dict) : dict := if has k d then d else put k v d.
(** metadata.py:61-75 _ensure_root *)
Definition ensure_root (meta : dict) (entity : option text) : dict :=
  let m := set_default (t "schema") (JStr (t "metadata-namespace-v1.1")) meta in
  let m := match entity with
           | Some ((_ :: _) as i) => set_default (t "entityId") (JStr i) m
           | _ => m
           end in
  let m := set_default (t "tags") (JList []) m in
  match get (t "layer") m with
  | Some v => if truthy v then m else put (t "layer") (JStr (t "default")) m
  | None => put (t "layer") (JStr (t "default")) m
  end.
Definition section (ns : text) (m : dict) : dict :=
  match get ns m with Some (JObj d) => d | _ => [] end.
(** metadata.py:78-81 _ensure_namespace *)
Definition ensure_namespace (m : dict) (ns : text) : dict := put ns (JObj (section ns m)) m.
(** metadata.py:348-362, 525-534 get_assembly_metadata, get_operation_metadata with create=True *)
Definition open_ns (ns : text) (m : dict) : dict :=
  match get ns m with Some (JObj _) => m | _ => ensure_namespace (ensure_root m None) ns end.
(** section[k] = v *)
Definition write (ns k : text) (v : json) (m : dict) : dict := put ns (JObj (put k v (section ns m))) m.

(** metadata.py:84-89 _append_tag, for strings *)
Definition append_tag (m : dict) (tag : text) : dict :=
  match tag with
  | [] => m
  | _ => match get (t "tags") m with
         | None => put (t "tags") (JList [JStr tag]) m
         | Some (JList l) => if existsb (fun x => match x with JStr s => teq s tag | _ => false end) l then m
                             else put (t "tags") (JList (l ++ [JStr tag])) m
         | Some _ => m
         end
  end.
(** metadata.py:220-224 add_tags *)
Definition add_tags (m : dict) (tags : list text) : dict := fold_left append_tag tags (ensure_root m None).
(** metadata.py:209-214 set_layer *)
Definition set_layer (m : dict) (layer : json) : dict :=
  put (t "layer") (if truthy layer then layer else JStr (t "default")) (ensure_root m None).

(** Keyword arguments: what a call with **kw binds; TypeErr on an unexpected or a
    missing name. *)
Definition kwargs := dict.
Definition accepts (req opt : list text) (kw : kwargs) : bool :=
  forallb (fun kv => mem (fst kv) req || mem (fst kv) opt) kw && forallb (fun r => has r kw) req.
(** a parameter whose default is None *)
Definition arg (k : text) (kw : kwargs) : json := match get k kw with Some v => v | None => JNull end.

(** A helper's outcome: the metadata it leaves and the exception, if any. *)
Definition outcome := (dict * option err)%type.
(** Building an entry: conversions one after the other, the first failure raises. *)
Definition build := res dict.
Definition bind {A B} (r : res A) (f : A -> res B) : res B := match r with Ok a => f a | Err e => Err e end.
Definition opt_field (k : text) (v : json) (conv : json -> res json) (e : dict) : build :=
  match v with JNull => Ok e | _ => bind (conv v) (fun c => Ok (put k c e)) end.
Definition cfloat (v : json) : res json := bind (to_float H v) (fun f => Ok (JFloat f)).
Definition cint (v : json) : res json := bind (to_int H v) (fun z => Ok (JInt z)).
Definition cstr (v : json) : res json := Ok (JStr (to_str H v)).
Definition cbool (v : json) : res json := Ok (JBool (truthy v)).
Definition csame (v : json) : res json := Ok v.
Definition cvec (v : json) : res json :=
  bind (to_list v) (fun l => if Nat.eqb (length l) 3 then bind (floats l) (fun fs => Ok (JList fs)) else Err ValueErr).
Definition cstrs (v : json) : res json :=
  bind (to_list v) (fun l => Ok (JList (map (fun x => JStr (to_str H x)) l))).
Definition cdict (v : json) : res json := match v with JObj _ => Ok v | _ => Err ValueErr end.

(** section.setdefault(k, []).append(entry) *)
Definition append_entry (ns k : text) (entry : dict) (m : dict) : outcome :=
  match get k (section ns m) with
  | None => (write ns k (JList [JObj entry]) m, None)
  | Some (JList l) => (write ns k (JList (l ++ [JObj entry])) m, None)
  | Some _ => (m, Some AttrErr)
  end.
Definition finish (ns k : text) (m : dict) (b : build) : outcome :=
  match b with Ok e => append_entry ns k e m | Err e => (m, Some e) end.

(** metadata.py:365-376 set_assembly *)
Definition set_assembly (m : dict) (kw : kwargs) : outcome :=
  if negb (accepts [] [t "joint_kind"; t "no_cut"] kw) then (m, Some TypeErr)
  else match validate_enum (arg (t "joint_kind") kw) joint_kinds with
  | Some e => (m, Some e)
  | None =>
      let m := ensure_namespace (ensure_root m None) (t "assembly") in
      let m := match arg (t "joint_kind") kw with JNull => m | v => write (t "assembly") (t "joint_kind") v m end in
      let m := match arg (t "no_cut") kw with
               | JNull => m | v => write (t "assembly") (t "no_cut") (JBool (truthy v)) m end in
      (m, None)
  end.

(** metadata.py:379-395 _build_fastener *)
Definition build_fastener (v : json) : res (option json) :=
  match v with
  | JNull => Ok None
  | JObj spec =>
      let out := match arg (t "designation") spec with
                 | JNull => [] | d => [(t "designation", JStr (to_str H d))] end in
      let thread := arg (t "thread") spec in
      match validate_enum thread fastener_threads with
      | Some e => Err e
      | None =>
          let out := match thread with JNull => out | _ => put (t "thread") thread out end in
          let head := arg (t "head") spec in
          match validate_enum head fastener_heads with
          | Some e => Err e
          | None => Ok (Some (JObj (match head with JNull => out | _ => put (t "head") head out end)))
          end
      end
  | _ => Err ValueErr
  end.

(** metadata.py:398-427 add_bolt_pattern *)
Definition bolt_req := [t "id"; t "ring"; t "R_mm"; t "z_mm"; t "count"].
Definition bolt_opt := [t "theta0_deg"; t "fastener"; t "tolerance_mm"].
Definition bolt_entry (kw : kwargs) : build :=
  bind (to_float H (arg (t "R_mm") kw)) (fun r =>
  bind (to_float H (arg (t "z_mm") kw)) (fun z =>
  bind (to_int H (arg (t "count") kw)) (fun c =>
  bind (opt_field (t "theta0_deg") (arg (t "theta0_deg") kw) cfloat
    [(t "id", JStr (to_str H (arg (t "id") kw))); (t "ring", arg (t "ring") kw);
     (t "R_mm", JFloat r); (t "z_mm", JFloat z); (t "count", JInt c)]) (fun e =>
  bind (build_fastener (arg (t "fastener") kw)) (fun f =>
  opt_field (t "tolerance_mm") (arg (t "tolerance_mm") kw) cfloat
    (match f with Some j => put (t "fastener") j e | None => e end)))))).
Definition add_bolt_pattern (m : dict) (kw : kwargs) : outcome :=
  if negb (accepts bolt_req bolt_opt kw) then (m, Some TypeErr)
  else if negb (truthy (arg (t "id") kw)) then (m, Some ValueErr)
  else match validate_enum (arg (t "ring") kw) bolt_rings with
  | Some e => (m, Some e)
  | None => finish (t "assembly") (t "bolt_patterns") (open_ns (t "assembly") m) (bolt_entry kw)
  end.

(** metadata.py:430-476 add_datum *)
Definition datum_entry (kw : kwargs) : build :=
  bind (opt_field (t "ring") (arg (t "ring") kw) csame
    [(t "id", JStr (to_str H (arg (t "id") kw))); (t "kind", arg (t "kind") kw)]) (fun e =>
  bind (opt_field (t "R_mm") (arg (t "R_mm") kw) cfloat e) (fun e =>
  bind (opt_field (t "z_mm") (arg (t "z_mm") kw) cfloat e) (fun e =>
  bind (opt_field (t "origin_mm") (arg (t "origin_mm") kw) cvec e) (fun e =>
  opt_field (t "direction") (arg (t "direction") kw) cvec e)))).
Definition add_datum (m : dict) (kw : kwargs) : outcome :=
  if negb (accepts [t "id"; t "kind"] [t "ring"; t "R_mm"; t "z_mm"; t "origin_mm"; t "direction"] kw)
  then (m, Some TypeErr)
  else if negb (truthy (arg (t "id") kw)) then (m, Some ValueErr)
  else match validate_enum (arg (t "kind") kw) datum_kinds with
  | Some e => (m, Some e)
  | None =>
      match validate_enum (arg (t "ring") kw) bolt_rings with
      | Some e => (m, Some e)
      | None => finish (t "assembly") (t "datums") (open_ns (t "assembly") m) (datum_entry kw)
      end
  end.

(** metadata.py:479-498 add_surface *)
Definition surface_entry (kw : kwargs) : build :=
  bind (opt_field (t "mate_to") (arg (t "mate_to") kw) cstr
    [(t "id", JStr (to_str H (arg (t "id") kw))); (t "kind", arg (t "kind") kw)]) (fun e =>
  bind (opt_field (t "finish") (arg (t "finish") kw) cstr e) (fun e =>
  opt_field (t "tolerance_mm") (arg (t "tolerance_mm") kw) cfloat e)).
Definition add_surface (m : dict) (kw : kwargs) : outcome :=
  if negb (accepts [t "id"; t "kind"] [t "mate_to"; t "finish"; t "tolerance_mm"] kw) then (m, Some TypeErr)
  else if negb (truthy (arg (t "id") kw)) then (m, Some ValueErr)
  else match validate_enum (arg (t "kind") kw) surface_kinds with
  | Some e => (m, Some e)
  | None => finish (t "assembly") (t "surfaces") (open_ns (t "assembly") m) (surface_entry kw)
  end.

(** metadata.py:501-519 add_keepout *)
Definition keepout_entry (kw : kwargs) : build :=
  bind (opt_field (t "shape") (arg (t "shape") kw) cdict
    [(t "id", JStr (to_str H (arg (t "id") kw))); (t "kind", arg (t "kind") kw)]) (fun e =>
  opt_field (t "reason") (arg (t "reason") kw) cstr e).
Definition add_keepout (m : dict) (kw : kwargs) : outcome :=
  if negb (accepts [t "id"; t "kind"] [t "shape"; t "reason"] kw) then (m, Some TypeErr)
  else if negb (truthy (arg (t "id") kw)) then (m, Some ValueErr)
  else match validate_enum (arg (t "kind") kw) keepout_kinds with
  | Some e => (m, Some e)
  | None => finish (t "assembly") (t "keepouts") (open_ns (t "assembly") m) (keepout_entry kw)
  end.

(** if arg is not None: section[k] = conv(arg) *)
Definition field_of (ns k : text) (kw : kwargs) (conv : json -> res json) (x : outcome) : outcome :=
  match x with
  | (m, Some e) => (m, Some e)
  | (m, None) => match arg k kw with
                 | JNull => (m, None)
                 | v => match conv v with
                        | Ok c => (write ns k c m, None)
                        | Err e => (m, Some e)
                        end
                 end
  end.
(** metadata.py:227-243 set_material *)
Definition set_material (m : dict) (kw : kwargs) : outcome :=
  let f k := field_of (t "material") (t k) kw in
  if negb (accepts [] [t "name"; t "standard"; t "grade"; t "density_kg_m3"; t "source"] kw) then (m, Some TypeErr)
  else f "source"%string csame (f "density_kg_m3"%string cfloat (f "grade"%string csame
       (f "standard"%string csame (f "name"%string csame
       (ensure_namespace (ensure_root m None) (t "material"), None))))).

(** metadata.py:537-569 set_operation *)
Definition set_operation (m : dict) (kw : kwargs) : outcome :=
  if negb (accepts [t "kind"] [t "target_filter"; t "priority"; t "through"; t "consume"; t "policy";
                               t "feature_id"; t "feature_kind"; t "stage"] kw) then (m, Some TypeErr)
  else match validate_enum (arg (t "kind") kw) operation_kinds with
  | Some e => (m, Some e)
  | None =>
  match validate_enum (arg (t "policy") kw) operation_policies with
  | Some e => (m, Some e)
  | None =>
  match validate_enum (arg (t "feature_kind") kw) feature_kinds with
  | Some e => (m, Some e)
  | None =>
      let m := write (t "operation") (t "kind") (arg (t "kind") kw) (open_ns (t "operation") m) in
      field_of (t "operation") (t "stage") kw cstr (field_of (t "operation") (t "feature_kind") kw csame (field_of (t "operation") (t "feature_id") kw cstr
      (field_of (t "operation") (t "policy") kw csame (field_of (t "operation") (t "consume") kw cbool (field_of (t "operation") (t "through") kw cbool
      (field_of (t "operation") (t "priority") kw cfloat (field_of (t "operation") (t "target_filter") kw cstrs (m, None))))))))
  end end end.

(** * The metadata slot of a solid: absent (a list of four) or the fifth element.
    Surfaces do the same with their seventh (metadata.py:107-145). *)
Definition slot := option json.
Definition slot_dict (x : slot) : dict := match x with Some (JObj d) => d | _ => [] end.
(** metadata.py:187-198 ensure_solid_id; [fresh] is str(uuid.uuid4()) *)
Definition ensure_id (d : dict) (fresh : text) : dict :=
  let d := ensure_root d None in
  let d := set_default (t "entityId") (JStr fresh) d in
  set_default (t "id") (arg (t "entityId") d) d.
(** metadata.py:160-172 get_solid_metadata (92-104 _ensure_metadata): the slot it
    leaves, whose dictionary is returned.  The id that ensure_solid_id returns is
    handed to _ensure_root, which ignores it: entityId is there by then. *)
Definition get_metadata (x : slot) (create : bool) (fresh : text) : slot :=
  if create then Some (JObj (ensure_root (ensure_id (slot_dict x) fresh) None))
  else Some (JObj (ensure_root (slot_dict x) None)).

(** * yapcad/dsl/meta_apply.py *)
(** s.split(",") *)
Fixpoint split_comma (s : text) : list text :=
  match s with
  | [] => [[]]
  | c :: r => if c =? 44 then [] :: split_comma r
              else match split_comma r with h :: q => (c :: h) :: q | [] => [[c]] end
  end.
Fixpoint lstrip (s : text) : text := match s with c :: r => if space H c then lstrip r else s | [] => [] end.
Definition strip (s : text) : text := rev (lstrip (rev (lstrip s))).
(** [v.strip() for v in s.split(",") if v.strip()] *)
Definition comma_list (s : text) : list json :=
  map JStr (filter (fun x => match x with [] => false | _ => true end) (map strip (split_comma s))).
(** value.lower() in ("true", "1", "yes") *)
Definition yes (s : text) : bool := mem (lower H s) [t "true"; t "1"; t "yes"].
Definition no (s : text) : bool := mem (lower H s) [t "false"; t "0"; t "no"].

Definition helper := dict -> kwargs -> outcome.
Fixpoint each_entry (f : helper) (l : list json) (m : dict) : outcome :=
  match l with
  | [] => (m, None)
  | JObj kw :: r => match f m kw with (m', None) => each_entry f r m' | x => x end
  | _ :: _ => (m, Some TypeErr)
  end.
(** meta_apply.py:83-134 _apply_assembly_list_field *)
Definition list_helper (field : text) : option helper :=
  if teq field (t "bolt_patterns") then Some add_bolt_pattern
  else if teq field (t "datums") then Some add_datum
  else if teq field (t "surfaces") then Some add_surface
  else if teq field (t "keepouts") then Some add_keepout
  else None.
(** meta_apply.py:137-150 _apply_assembly *)
Definition apply_assembly (m : dict) (field : text) (v : json) : outcome :=
  if mem field [t "joint_kind"; t "no_cut"] then
    let v := match v with JStr s => if teq field (t "no_cut") then JBool (yes s) else v | _ => v end in
    set_assembly m [(field, v)]
  else match list_helper field with
  | Some f => match v with JList l => each_entry f l m | _ => (m, Some TypeErr) end
  | None => (write (t "assembly") field v (open_ns (t "assembly") m), None)
  end.
(** meta_apply.py:158-210 _apply_operation *)
Definition apply_operation (m : dict) (field : text) (v : json) : outcome :=
  let store v := (write (t "operation") field v (open_ns (t "operation") m), None) in
  let checked allowed := match validate_enum v allowed with Some e => (m, Some e) | None => store v end in
  if teq field (t "target_filter") then
    store (match v with JStr s => JList (comma_list s) | JList _ => v | _ => JList [JStr (to_str H v)] end)
  else if teq field (t "kind") then checked operation_kinds
  else if teq field (t "policy") then checked operation_policies
  else if teq field (t "feature_kind") then checked feature_kinds
  else if mem field [t "through"; t "consume"] then
    store (JBool (match v with JStr s => yes s | _ => truthy v end))
  else if teq field (t "priority") then
    match to_float H v with
    | Ok f => store (JFloat f)
    | Err e => (open_ns (t "operation") m, Some e)
    end
  else if mem field [t "feature_id"; t "stage"] then store (JStr (to_str H v))
  else store v.
(** meta_apply.py:217-231 _apply_root *)
Definition apply_root (m : dict) (field : text) (v : json) : outcome :=
  let root := ensure_root m None in
  if teq field (t "layer") then (put (t "layer") (JStr (to_str H v)) root, None)
  else if teq field (t "tags") then
    match get (t "tags") root with
    | Some (JList tags) =>
        (put (t "tags") (JList (tags ++ match v with
                                        | JList l => map (fun x => JStr (to_str H x)) l
                                        | _ => [JStr (to_str H v)]
                                        end)) root, None)
    | _ => (root, Some AttrErr)
    end
  else (put field v root, None).
(** key.partition(".") when "." in key *)
Fixpoint partition (k : text) : option (text * text) :=
  match k with
  | [] => None
  | c :: r => if c =? 46 then Some ([], r)
              else match partition r with Some (a, b) => Some (c :: a, b) | None => None end
  end.
(** meta_apply.py:271-287, 303-318: one hint *)
Definition apply_one (m : dict) (key : text) (v : json) : outcome :=
  match key with
  | [] => (m, None)
  | _ =>
      match partition key with
      | Some (ns, field) =>
          if teq ns (t "assembly") then apply_assembly m field v
          else if teq ns (t "operation") then apply_operation m field v
          else
            let root := set_default ns (JObj []) (ensure_root m None) in
            match get ns root with
            | Some (JObj d) => (put ns (JObj (put field v d)) root, None)
            | _ => (root, Some TypeErr)
            end
      | None => apply_root m key v
      end
  end.
(** apply_meta_hint_to_raw; apply_meta_hint does the same to the solid's metadata *)
Fixpoint apply_hint (m : dict) (hint : dict) : outcome :=
  match hint with
  | [] => (m, None)
  | (k, v) :: r => match apply_one m k v with (m', None) => apply_hint m' r | x => x end
  end.

(** * yapcad/dsl/transforms/metadata.py *)
(** transforms/metadata.py:83-91 *)
Definition t_feature_kinds := [t "pocket"; t "slot"; t "boss"; t "hole"; t "through_hole"; t "counterbore";
  t "countersink"; t "fillet"; t "chamfer"; t "rib"; t "draft"].
Definition t_joint_kinds := [t "revolute"; t "prismatic"; t "spherical"; t "fixed"; t "planar"; t "cylindrical"; t "universal"].

Inductive level := LError | LWarning | LInfo.
Record diag := mkdiag { d_level : level; d_field : text; d_value : option json }.

(** transforms/metadata.py:144-149 _check_enum: no error *)
Definition in_enum (v : json) (valid : list text) : bool := match v with JStr s => mem s valid | _ => false end.
(** transforms/metadata.py:152-161 _coerce_bool *)
Definition coerce_bool (v : json) : option json :=
  match v with
  | JBool b => Some v
  | JStr s => if yes s then Some (JBool true) else if no s then Some (JBool false) else None
  | _ => None
  end.
(** transforms/metadata.py:164-169 _coerce_float; only TypeError and ValueError are caught *)
Definition coerce_float (v : json) : res (option json) :=
  match to_float H v with Ok f => Ok (Some (JFloat f)) | Err OverflowErr => Err OverflowErr | Err _ => Ok None end.
(** transforms/metadata.py:172-179 _coerce_string_list *)
Definition coerce_strings (v : json) : option json :=
  match v with
  | JStr s => Some (JList (comma_list s))
  | JList l => Some (JList (map (fun x => JStr (to_str H x)) l))
  | _ => None
  end.
Definition err_at (key : text) (v : json) : list diag := [mkdiag LError key (Some v)].
Definition coerced (key : text) (v : json) (c : option json) : json * list diag :=
  match c with Some c => (c, []) | None => (v, err_at key v) end.
Definition is_dict (v : json) : bool := match v with JObj _ => true | _ => false end.

(** transforms/metadata.py:186-239 _validate_assembly_field *)
Definition check_assembly (key field : text) (v : json) : json * list diag :=
  if teq field (t "joint_kind") then (v, if in_enum v t_joint_kinds then [] else err_at key v)
  else if teq field (t "no_cut") then coerced key v (coerce_bool v)
  else if mem field [t "bolt_patterns"; t "datums"; t "surfaces"; t "keepouts"] then
    (v, match v with JList l => if forallb is_dict l then [] else err_at key v | _ => err_at key v end)
  else (v, [mkdiag LWarning key None]).
(** transforms/metadata.py:242-302 _validate_operation_field *)
Definition check_operation (key field : text) (v : json) : res (json * list diag) :=
  if teq field (t "kind") then Ok (v, if in_enum v operation_kinds then [] else err_at key v)
  else if teq field (t "policy") then Ok (v, if in_enum v operation_policies then [] else err_at key v)
  else if teq field (t "feature_kind") then Ok (v, if in_enum v t_feature_kinds then [] else err_at key v)
  else if mem field [t "through"; t "consume"] then Ok (coerced key v (coerce_bool v))
  else if teq field (t "priority") then
    match coerce_float v with Ok c => Ok (coerced key v c) | Err e => Err e end
  else if teq field (t "target_filter") then Ok (coerced key v (coerce_strings v))
  else if mem field [t "feature_id"; t "stage"] then Ok (JStr (to_str H v), [])
  else Ok (v, [mkdiag LWarning key None]).
(** transforms/metadata.py:392-428: one hint *)
Definition check_one (key : text) (v : json) : res (json * list diag) :=
  match key with
  | [] => Ok (v, [])
  | _ =>
      match partition key with
      | Some (ns, field) =>
          if teq ns (t "assembly") then Ok (check_assembly key field v)
          else if teq ns (t "operation") then check_operation key field v
          else Ok (v, [mkdiag LWarning key None])
      | None => if mem key [t "layer"; t "tags"] then Ok (v, []) else Ok (v, [mkdiag LWarning key None])
      end
  end.
(** the loop at transforms/metadata.py:392 and the write-back at 434: values are replaced under their keys *)
Fixpoint check_fields (hint : dict) : res (dict * list diag) :=
  match hint with
  | [] => Ok ([], [])
  | (k, v) :: r =>
      bind (check_one k v) (fun x =>
      bind (check_fields r) (fun y => Ok ((k, fst x) :: fst y, snd x ++ snd y)))
  end.
(** transforms/metadata.py:309-350 _cross_check *)
Definition starts (p s : text) : bool := teq (firstn (length p) s) p.
Definition cross_check (h : dict) : list diag :=
  let has_op := existsb (fun kv => starts (t "operation.") (fst kv)) h in
  (if has_op && negb (has (t "operation.kind") h) then [mkdiag LError (t "operation.kind") None] else []) ++
  (match get (t "assembly.no_cut") h, get (t "operation.kind") h with
   | Some (JBool true), Some (JStr s) => if teq s (t "subtract") then [mkdiag LWarning (t "assembly.no_cut") None] else []
   | _, _ => []
   end) ++
  (if has_op && negb (has (t "operation.target_filter") h) then [mkdiag LInfo (t "operation.target_filter") None] else []).
(** MetadataTransform.transform on one command's hint: the hint it leaves and its diagnostics *)
Definition normalise (hint : dict) : res (dict * list diag) :=
  match hint with
  | [] => Ok ([], [])
  | _ => bind (check_fields hint) (fun x => Ok (fst x, snd x ++ cross_check (fst x)))
  end.
End Helpers.
