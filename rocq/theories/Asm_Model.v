(** Model of yapcad/assembly/assembly.py: class Assembly.  PartDefinition objects are
    shared by reference: they live in [heap] and an assembly holds their positions.
    The private flag _solved (never read), the names inside error messages and the
    text reports are not modelled. *)
From Coq Require Import Reals String List Bool ZArith.
From Verif Require Import Dict Xform_Model Datum_Model Constr_Model Mate_Model.
Import ListNotations.
Open Scope R_scope.
Open Scope list_scope.

(** A 4x4 transform as the caller may hold it: a numpy array, a list of four lists of
    four numbers, or a yapcad.xform.Matrix *)
Inductive tform := TArray (m : rows) | TLists (m : rows) | TMatrix (m : matrix).
(** np.eye(4) *)
Definition eye : rows := mkrows (mkv 1 0 0 0) (mkv 0 1 0 0) (mkv 0 0 1 0) (mkv 0 0 0 1).
(** datum.py:321-323 "if not isinstance(matrix, Matrix): matrix = Matrix(matrix)" with
    xform.py:51-92: Matrix.__init__ copies a Matrix, a tuple or a list; any other
    object, a numpy array among them, leaves the identity it starts from. *)
Definition as_Matrix (t : tform) : matrix :=
  match t with TMatrix m => m | TLists m => mkmat m false | TArray _ => mkmat eye false end.

(** datum.py:358-421 PartDefinition: its name and its datums dictionary *)
Record partdef := PartDef { pd_name : string; pd_datums : list (string * datum) }.
(** load_case.py:88-105: the fields Assembly looks at *)
Record loadcase := LoadCase { lc_id : string; lc_part : string }.
(** assembly.py:287-306 *)
Record asm := Asm {
  heap : list partdef;
  a_parts : list (string * nat);
  a_transforms : list (string * tform);
  a_mates : list mate;
  a_constraints : list constraint;
  a_loads : list (string * loadcase);
  a_bolts : list ((string * string) * nat) }.
Definition empty : asm := Asm [] [] [] [] [] [] [].

(** What a call can end with *)
Inductive exn := AssemblyError | AttributeErr | KeyErr | ValueErr.
Inductive outcome (A : Type) := Done (a : A) | Raised (e : exn).
Arguments Done {A} a. Arguments Raised {A} e.
Definition call : Type := asm * option exn.      (* the state after the call, and the exception if one was raised *)
Definition good (s : asm) : call := (s, None).
Definition bad (s : asm) (e : exn) : call := (s, Some e).

Definition part_at (s : asm) (i : nat) : partdef := nth i (heap s) (PartDef "" []).
(** self.parts[name] *)
Definition find_part (s : asm) (n : string) : option partdef := option_map (part_at s) (dget String.eqb n (a_parts s)).
(** part.datums[d] *)
Definition find_datum (s : asm) (n d : string) : option datum := match find_part s n with Some p => dget String.eqb d (pd_datums p) | None => None end.

(** PartDefinition(name) *)
Definition new_part (s : asm) (n : string) : call :=
  good (Asm (heap s ++ [PartDef n []]) (a_parts s) (a_transforms s) (a_mates s) (a_constraints s) (a_loads s) (a_bolts s)).
Fixpoint update {A} (l : list A) (i : nat) (a : A) : list A :=
  match l, i with [], _ => [] | _ :: r, O => a :: r | x :: r, S j => x :: update r j a end.
(** part.add_datum(Datum(...)): datum.py:186-291 (the constructor validates) and 423-446 add_datum *)
Definition add_datum (s : asm) (i : nat) (n : string) (raw : datum) : call :=
  match post_init raw with None => bad s ValueErr | Some d =>
  let p := part_at s i in
  if dmem String.eqb n (pd_datums p) then bad s ValueErr else
  good (Asm (update (heap s) i (PartDef (pd_name p) (dset String.eqb n d (pd_datums p)))) (a_parts s) (a_transforms s) (a_mates s) (a_constraints s) (a_loads s) (a_bolts s))
  end.

(** assembly.py:308-341 add_part: self.parts is set before transform.copy() is called; numpy
    arrays and lists have a copy method, Matrix has none *)
Definition add_part (s : asm) (i : nat) (name : option string) (t : option tform) : call :=
  let n := match name with Some n => n | None => pd_name (part_at s i) end in
  if dmem String.eqb n (a_parts s) then bad s AssemblyError else
  let s1 := Asm (heap s) (dset String.eqb n i (a_parts s)) (a_transforms s) (a_mates s) (a_constraints s) (a_loads s) (a_bolts s) in
  let put t := good (Asm (heap s1) (a_parts s1) (dset String.eqb n t (a_transforms s1)) (a_mates s1) (a_constraints s1) (a_loads s1) (a_bolts s1)) in
  match t with
  | None => put (TArray eye)
  | Some (TArray m) => put (TArray m)
  | Some (TLists m) => put (TLists m)
  | Some (TMatrix _) => bad s1 AttributeErr
  end.

(** assembly.py:343-407 add_mate *)
Definition add_mate (s : asm) (m : mate) : call :=
  match find_part s (part_a m), find_part s (part_b m) with
  | Some _, Some _ =>
    match find_datum s (part_a m) (datum_a m), find_datum s (part_b m) (datum_b m) with
    | Some d1, Some d2 =>
      match mate_validate m d1 d2 with
      | [] => good (Asm (heap s) (a_parts s) (a_transforms s) (a_mates s ++ [m]) (a_constraints s) (a_loads s) (a_bolts s))
      | _ :: _ => bad s AssemblyError
      end
    | _, _ => bad s AssemblyError
    end
  | _, _ => bad s AssemblyError
  end.

(** assembly.py:409-447 add_constraint *)
Definition add_constraint (s : asm) (k : constraint) : call :=
  match find_datum s (c_part k) (c_datum k) with
  | Some _ => good (Asm (heap s) (a_parts s) (a_transforms s) (a_mates s) (a_constraints s ++ [k]) (a_loads s) (a_bolts s))
  | None => bad s AssemblyError
  end.

(** assembly.py:453-476 add_load_case *)
Definition add_load_case (s : asm) (l : loadcase) : call :=
  if negb (String.eqb (lc_part l) "_assembly") && negb (dmem String.eqb (lc_part l) (a_parts s)) then bad s AssemblyError else
  if dmem String.eqb (lc_id l) (a_loads s) then bad s AssemblyError else
  good (Asm (heap s) (a_parts s) (a_transforms s) (a_mates s) (a_constraints s) (dset String.eqb (lc_id l) l (a_loads s)) (a_bolts s)).
(** assembly.py:478-480 get_load_case *)
Definition get_load_case (s : asm) (i : string) : option loadcase := dget String.eqb i (a_loads s).

Definition pair_eqb (a b : string * string) : bool := String.eqb (fst a) (fst b) && String.eqb (snd a) (snd b).
(** assembly.py:485-508 add_bolt_pattern (a pattern is a number here; the code only stores it) *)
Definition add_bolt_pattern (s : asm) (p c : string) (b : nat) : call :=
  if negb (dmem String.eqb p (a_parts s)) then bad s AssemblyError else
  if negb (dmem String.eqb c (a_parts s)) then bad s AssemblyError else
  if dmem pair_eqb (p, c) (a_bolts s) then bad s AssemblyError else
  good (Asm (heap s) (a_parts s) (a_transforms s) (a_mates s) (a_constraints s) (a_loads s) (dset pair_eqb (p, c) b (a_bolts s))).
(** assembly.py:510-512 get_bolt_pattern *)
Definition get_bolt_pattern (s : asm) (p c : string) : option nat := dget pair_eqb (p, c) (a_bolts s).

(** assembly.transforms[name] = t (a public attribute) *)
Definition set_transform (s : asm) (n : string) (t : tform) : call :=
  good (Asm (heap s) (a_parts s) (dset String.eqb n t (a_transforms s)) (a_mates s) (a_constraints s) (a_loads s) (a_bolts s)).

(** assembly.py:514-555 get_transformed_datum *)
Definition get_transformed_datum (s : asm) (n d : string) : outcome datum :=
  match find_datum s n d with
  | None => Raised AssemblyError
  | Some dl =>
    match dget String.eqb n (a_transforms s) with
    | None => Raised KeyErr
    | Some t => match transform (as_Matrix t) dl with Some w => Done w | None => Raised ValueErr end
    end
  end.

(** assembly.py:148-168, 557-602 validate.  A warning message is represented by the constraint's name. *)
Record vresult := VResult { is_valid : bool; constraint_results : list (string * cresult); failed_constraints : list string; warnings : list string }.
Fixpoint validate_loop (s : asm) (ks : list constraint) (rs : list (string * cresult)) (fs ws : list string) : outcome vresult :=
  match ks with
  | [] => Done (VResult (Nat.eqb (length fs) 0) rs fs ws)
  | k :: r =>
    match get_transformed_datum s (c_part k) (c_datum k) with
    | Raised e => Raised e
    | Done d =>
      let c := evaluate k d in
      let rs' := dset String.eqb (c_name k) c rs in
      if passed c then validate_loop s r rs' fs ws
      else if String.eqb (c_severity k) "error" then validate_loop s r rs' (fs ++ [c_name k]) ws
      else if String.eqb (c_severity k) "warning" then validate_loop s r rs' fs (ws ++ [c_name k])
      else validate_loop s r rs' fs ws
    end
  end.
Definition validate (s : asm) : outcome vresult := validate_loop s (a_constraints s) [] [] [].

(** assembly.py:604-631 validate_and_raise: "cr.message" is read for every failed constraint,
    and ConstraintResult (constraint.py:90-104) has no attribute of that name *)
Definition cr_message (c : cresult) : outcome string := Raised AttributeErr.
Fixpoint messages (rs : list (string * cresult)) (fs : list string) : outcome (list string) :=
  match fs with
  | [] => Done []
  | f :: r =>
    match dget String.eqb f rs with
    | None => Raised KeyErr
    | Some c => match cr_message c with Raised e => Raised e | Done m => match messages rs r with Raised e => Raised e | Done ms => Done (m :: ms) end end
    end
  end.
Definition validate_and_raise (s : asm) : outcome Datatypes.unit :=
  match validate s with
  | Raised e => Raised e
  | Done v => if is_valid v then Done tt else match messages (constraint_results v) (failed_constraints v) with Raised e => Raised e | Done _ => Raised AssemblyError end
  end.

(** assembly.py:633-677 get_degrees_of_freedom.  The third comparison names MateType.FLUSH,
    which is not a member of MateType (mate.py:71-144): evaluating it raises AttributeError. *)
Fixpoint dof_loop (ms : list mate) (d : list (string * Z)) : outcome (list (string * Z)) :=
  match ms with
  | [] => Done d
  | m :: r =>
    let less k := match dget String.eqb (part_b m) d with Some x => dof_loop r (dset String.eqb (part_b m) (Z.max 0 (x - k)) d) | None => Raised KeyErr end in
    match mate_type m with
    | MCOINCIDENT => less 3%Z
    | MCONCENTRIC => less 2%Z
    | _ => Raised AttributeErr
    end
  end.
Definition get_degrees_of_freedom (s : asm) : outcome (list (string * Z)) := dof_loop (a_mates s) (map (fun p => (fst p, 6%Z)) (a_parts s)).

(** assembly.py:679-756 import_transforms_from_kinematic_chain.  A document is one that could not be
    read, one without the key "parts", or the entries of "parts" in order; an entry has no "transform",
    one that is not a list, a list of the wrong shape, or 16 numbers / 4 rows of 4 numbers (entries that
    are not numbers are not modelled). *)
Inductive jentry := JMissing | JNotList | JShape | JRows (m : rows).
Inductive jdoc := JUnreadable | JNoParts | JParts (l : list (string * jentry)).
Fixpoint import_loop (s : asm) (l : list (string * jentry)) : call :=
  match l with
  | [] => good s
  | (n, e) :: r =>
    if dmem String.eqb n (a_parts s) then
      match e with
      | JRows m => import_loop (Asm (heap s) (a_parts s) (dset String.eqb n (TArray m) (a_transforms s)) (a_mates s) (a_constraints s) (a_loads s) (a_bolts s)) r
      | _ => bad s AssemblyError
      end
    else import_loop s r
  end.
Definition import_transforms (s : asm) (j : jdoc) : call :=
  match j with JParts l => import_loop s l | _ => bad s AssemblyError end.

(** The calls a program can make on an assembly and on the parts it uses; [i] is the part
    object, and naming one that has not been created is no call at all *)
Inductive op :=
| NewPart (n : string) | AddDatum (i : nat) (n : string) (raw : datum)
| AddPart (i : nat) (name : option string) (t : option tform)
| AddMate (m : mate) | AddConstraint (k : constraint) | AddLoadCase (l : loadcase) | AddBoltPattern (p c : string) (b : nat)
| SetTransform (n : string) (t : tform) | Import (j : jdoc).
Definition step (s : asm) (o : op) : call :=
  match o with
  | NewPart n => new_part s n | AddDatum i n raw => if Nat.ltb i (length (heap s)) then add_datum s i n raw else good s
  | AddPart i n t => if Nat.ltb i (length (heap s)) then add_part s i n t else good s
  | AddMate m => add_mate s m | AddConstraint k => add_constraint s k | AddLoadCase l => add_load_case s l
  | AddBoltPattern p c b => add_bolt_pattern s p c b | SetTransform n t => set_transform s n t | Import j => import_transforms s j
  end.
(** a program that goes on after an exception *)
Definition run (ops : list op) : asm := fold_left (fun s o => fst (step s o)) ops empty.
