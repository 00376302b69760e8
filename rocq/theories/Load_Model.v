(** Model of yapcad/assembly/load_case.py, of the registries of load cases and bolt patterns in
    assembly/assembly.py:453-509 and of how assembly/mechatron_export.py:463-471, 523-567 groups
    mates and writes both.  The fields of a load case are Python values ([json]); mates are left
    abstract except for the two parts they join. *)
From Coq Require Import Reals ZArith String List Bool.
From Verif Require Import Dict Json_Model Meta_Model.
Import ListNotations.
Open Scope Z_scope.
Open Scope string_scope.
Open Scope list_scope.

(** KeyError, ValueError, TypeError *)
Inductive fault := Missing (k : text) | BadValue | BadType.
Inductive got (A : Type) := Got (a : A) | Fault (f : fault).
Arguments Got {A} _.
Arguments Fault {A} _.
Definition gbind {A B} (x : got A) (f : A -> got B) : got B := match x with Got a => f a | Fault e => Fault e end.

(** load_case.py:31-48 *)
Definition valid_frames := [t "vehicle"; t "mesh"].
Definition valid_statuses := [t "confirmed"; t "estimated"; t "tribal"; t "placeholder"].
Definition valid_groups := [t "inertial"; t "recovery"; t "pressure"; t "handling"; t "custom"].
(** v in (s1, s2, ...) *)
Definition one_of (l : list text) (v : json) : bool := match v with JStr s => mem s l | _ => false end.
(** the entries list(v) would have; len(v) is their number; None is TypeError *)
Definition entries (v : json) : option (list json) :=
  match v with
  | JList l => Some l
  | JStr s => Some (map (fun c => JStr [c]) s)
  | JObj d => Some (map (fun e => JStr (fst e)) d)
  | _ => None
  end.
Definition is_none (v : json) : bool := match v with JNull => true | _ => false end.

(** load_case.py:51-83 LoadAttach *)
Record attach := mkattach { a_part : json; a_position : json; a_interface : json; a_clock : json; a_bolt : json }.
Definition attach_dict (a : attach) : got json :=
  match entries (a_position a) with
  | None => Fault BadType
  | Some l => Got (JObj [(t "part", a_part a); (t "position", JList l); (t "interface", a_interface a);
                         (t "clock_deg", a_clock a); (t "bolt_index", a_bolt a)])
  end.
(** load_case.py:86-126 LoadCase and its __post_init__ *)
Record load := mkload {
  l_id : json; l_name : json; l_group : json; l_direction : json; l_attach : attach;
  l_n : json; l_g : json; l_frame : json; l_description : json; l_source : json; l_status : json; l_warn : json }.
Definition post_init (x : load) : got load :=
  if negb (one_of valid_groups (l_group x)) then Fault BadValue
  else if negb (one_of valid_frames (l_frame x)) then Fault BadValue
  else if negb (one_of valid_statuses (l_status x)) then Fault BadValue
  else if (is_none (l_n x) && is_none (l_g x))%bool then Fault BadValue
  else match entries (l_direction x) with
       | None => Fault BadType
       | Some l => if Nat.eqb (length l) 3 then Got x else Fault BadValue
       end.
(** load_case.py:128-147 LoadCase.to_dict *)
Definition to_dict (H : host) (x : load) : got dict :=
  match entries (l_direction x) with
  | None => Fault BadType
  | Some l =>
      gbind (attach_dict (l_attach x)) (fun a =>
        let d := [(t "id", l_id x); (t "name", l_name x); (t "group", l_group x); (t "direction", JList l); (t "attach", a);
                  (t "coordinate_frame", l_frame x); (t "description", l_description x); (t "source", l_source x);
                  (t "status", l_status x)] in
        let d := if is_none (l_n x) then d else put (t "magnitude_n") (l_n x) d in
        let d := if is_none (l_g x) then d else put (t "magnitude_g") (l_g x) d in
        Got (if truthy H (l_warn x) then put (t "warn") (JBool true) d else d))
  end.
(** data[k], data.get(k, v) *)
Definition need (k : text) (d : dict) : got json := match get k d with Some v => Got v | None => Fault (Missing k) end.
Definition or_else (k : text) (v : json) (d : dict) : json := match get k d with Some w => w | None => v end.
Definition origin : json := JList [JFloat 0; JFloat 0; JFloat 0].
(** load_case.py:149-173 LoadCase.from_dict; the reals 0.0 are [JFloat 0] *)
Definition from_dict (data : dict) : got load :=
  match or_else (t "attach") (JObj []) data with
  | JObj a =>
      gbind (need (t "part") a) (fun part =>
      let at' := mkattach part (or_else (t "position") origin a) (arg (t "interface") a) (arg (t "clock_deg") a) (arg (t "bolt_index") a) in
      gbind (need (t "id") data) (fun i => gbind (need (t "name") data) (fun n => gbind (need (t "group") data) (fun g =>
      gbind (need (t "direction") data) (fun dir =>
        post_init (mkload i n g dir at' (arg (t "magnitude_n") data) (arg (t "magnitude_g") data)
                     (or_else (t "coordinate_frame") (JStr (t "vehicle")) data) (or_else (t "description") (JStr []) data)
                     (or_else (t "source") (JStr []) data) (or_else (t "status") (JStr (t "estimated")) data)
                     (or_else (t "warn") (JBool false) data)))))))
  | _ => Fault BadType
  end.

(** load_case.py:176-213 BoltPattern with finite numbers; int() of a positive number drops its fraction *)
Record bolts := mkbolts { b_pcd : R; b_n : R; b_spec : text; b_access : list R }.
Definition Rpos (x : R) : bool := if Rlt_dec 0 x then true else false.
Definition bolt_pattern (b : bolts) : got bolts :=
  if negb (Rpos (b_pcd b)) then Fault BadValue
  else if negb (Rpos (b_n b)) then Fault BadValue
  else if negb (Nat.eqb (length (b_access b)) 3) then Fault BadValue
  else Got b.
(** to_dict and from_dict of the four entries *)
Definition written (b : bolts) : R * Z * text * list R := (b_pcd b, Int_part (b_n b), b_spec b, b_access b).
Definition reread (w : R * Z * text * list R) : got bolts :=
  let '(p, n, s, a) := w in bolt_pattern (mkbolts p (IZR n) s a).

(** assembly.py:453-509: the registries; [None] is AssemblyError.  The ids of load cases are texts here. *)
Section Registry.
  Variable L B : Type.
  Record registry := mkreg { parts : list text; loads : list (text * L); patterns : list ((text * text) * B) }.
  Definition pair_eqb (a b : text * text) : bool := (teq (fst a) (fst b) && teq (snd a) (snd b))%bool.
  Definition add_load_case (part id : text) (x : L) (r : registry) : option registry :=
    if (negb (teq part (t "_assembly")) && negb (mem part (parts r)))%bool then None
    else if dmem teq id (loads r) then None
    else Some (mkreg (parts r) (dset teq id x (loads r)) (patterns r)).
  Definition get_load_case (id : text) (r : registry) : option L := dget teq id (loads r).
  Definition add_bolt_pattern (parent child : text) (b : B) (r : registry) : option registry :=
    if negb (mem parent (parts r)) then None
    else if negb (mem child (parts r)) then None
    else if dmem pair_eqb (parent, child) (patterns r) then None
    else Some (mkreg (parts r) (loads r) (dset pair_eqb (parent, child) b (patterns r))).
  Definition get_bolt_pattern (parent child : text) (r : registry) : option B := dget pair_eqb (parent, child) (patterns r).

  (** mechatron_export.py:523-540: mates grouped by the pair of parts (the list of groups with its
      index is one insertion-ordered dictionary) *)
  Variable M : Type.
  Variable ends : M -> text * text.
  Definition group_mate (g : list ((text * text) * list M)) (m : M) : list ((text * text) * list M) :=
    dset pair_eqb (ends m) (match dget pair_eqb (ends m) g with Some ms => ms ++ [m] | None => [m] end) g.
  Definition group_mates (ms : list M) : list ((text * text) * list M) := fold_left group_mate ms [].
  (** mechatron_export.py:463-471: an interface with its mates and its bolt pattern *)
  Definition interfaces (ms : list M) (r : registry) : list ((text * text) * list M * option B) :=
    map (fun g => (fst g, snd g, dget pair_eqb (fst g) (patterns r))) (group_mates ms).
  (** mechatron_export.py:549-553: the load cases in the order of the registry *)
  Definition exported_loads (r : registry) : list L := map snd (loads r).
End Registry.
