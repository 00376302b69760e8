(** Model of yapcad/collision: interface.py, gear_interface.py, thread_interface.py,
    registry.py, and of detector.py around the geometric test.
    Numbers are reals (numpy is present); interfaces are objects in a heap, because the registry
    keeps references and their fields can be assigned.  Not modelled: descriptions, metadata,
    volumes, clearances, texts of reasons; the geometric tests of detector.py (BREP, mesh, AABB)
    are a parameter.  What user-defined interfaces answer is a parameter. *)
From Coq Require Import Reals String List Bool.
From Verif Require Import Dict.
Import ListNotations.
Open Scope R_scope.
Open Scope string_scope.
Open Scope list_scope.

Definition lt (x y : R) : bool := if Rlt_dec x y then true else false.
Definition vec := (R * R * R)%type.
Definition sub (a b : vec) : vec := let '(x, y, z) := a in let '(u, v, w) := b in (x - u, y - v, z - w).
Definition scale (k : R) (a : vec) : vec := let '(x, y, z) := a in (k * x, k * y, k * z).
Definition dot (a b : vec) : R := let '(x, y, z) := a in let '(u, v, w) := b in x * u + y * v + z * w.
Definition norm (a : vec) : R := sqrt (dot a a).

(** interface.py:41-58, thread_interface.py:31-36 *)
Inductive itype := GEAR_MESH | THREAD | PRESS_FIT | BEARING | SPLINE | KEY | SNAP_FIT | CUSTOM.
Scheme Equality for itype.
Inductive ttype := ISO_METRIC | ISO_METRIC_FINE | UNC | UNF | ACME | T_CUSTOM.
(** gear_interface.py:62-68, thread_interface.py:99-105; [User]: any other subclass, with its
    get_bounding_cylinder *)
Inductive data :=
  | Gear (module teeth pressure_angle face_width helix_angle backlash : R)
  | Thread (pitch major_diameter : R) (kind : ttype) (engagement_length : R) (is_internal : bool)
  | User (ty : itype) (radius height : R).
(** interface.py:123-129 *)
Record iface := Iface { name : string; part_name : string; center : vec; axis : vec; kind_data : data }.
Definition interface_type (i : iface) : itype :=
  match kind_data i with Gear _ _ _ _ _ _ => GEAR_MESH | Thread _ _ _ _ _ => THREAD | User ty _ _ => ty end.
(** gear_interface.py:75-115, thread_interface.py:130-140 get_bounding_cylinder *)
Definition pitch_diameter (module teeth : R) : R := module * teeth.
Definition outside_diameter (module teeth : R) : R := pitch_diameter module teeth + 2 * module.
Definition bounding_cylinder (i : iface) : R * R :=
  match kind_data i with
  | Gear m n _ w _ _ => (outside_diameter m n / 2, w)
  | Thread _ d _ l _ => (d / 2, l)
  | User _ r h => (r, h)
  end.
(** gear_interface.py:138-159 get_center_distance; None: ValueError *)
Definition center_distance (m1 n1 m2 n2 : R) : option R :=
  if lt (m1 * (1 / 1000)) (Rabs (m1 - m2)) then None else Some ((pitch_diameter m1 n1 + pitch_diameter m2 n2) / 2).

(** interface.py:176-240 overlaps_with *)
Definition unit_axis (a : vec) : vec := if lt (1 / 10000000000) (norm a) then scale (/ norm a) a else a.
Definition overlaps (tolerance : R) (i j : iface) : bool :=
  let (r1, h1) := bounding_cylinder i in
  let (r2, h2) := bounding_cylinder j in
  let a1 := unit_axis (axis i) in
  let a2 := unit_axis (axis j) in
  let v := sub (center j) (center i) in
  if lt (Rabs (dot a1 a2)) (99 / 100) then lt (norm v) (r1 + r2 + tolerance)
  else lt (Rabs (dot v a1)) (h1 / 2 + h2 / 2 + tolerance) && lt (norm (sub v (scale (dot v a1) a1))) (r1 + r2 + tolerance).

Section Compat.
  Variable user : iface -> iface -> bool.       (* check_compatibility of other subclasses *)
  (** gear_interface.py:184-258, thread_interface.py:152-217 check_compatibility(...).is_compatible *)
  Definition compatible (i j : iface) : bool :=
    match kind_data i with
    | Gear m _ pa _ _ _ =>
      match kind_data j with
      | Gear m' _ pa' _ _ _ => negb (lt (m * (1 / 1000)) (Rabs (m - m'))) && negb (lt (1 / 2) (Rabs (pa - pa')))
      | _ => false
      end
    | Thread p d _ _ int =>
      match kind_data j with
      | Thread p' d' _ _ int' => negb (Bool.eqb int int') && negb (lt (d * (1 / 1000)) (Rabs (d - d'))) && negb (lt (p * (1 / 1000)) (Rabs (p - p')))
      | _ => false
      end
    | User _ _ _ => user i j
    end.

  (** registry.py:64-68.  Interfaces are numbered objects. *)
  Record registry := Registry {
    interfaces : list (string * nat); by_part : list (string * list string); by_type : list (itype * list string) }.
  Definition empty : registry := Registry [] [] [].
  Definition heap := nat -> iface.
  Inductive rres (A : Type) := ROk (a : A) | RValueError | RKeyError.
  Arguments ROk {A} a. Arguments RValueError {A}. Arguments RKeyError {A}.
  Definition at_key {K} (eqb : K -> K -> bool) (k : K) (d : list (K * list string)) : list string :=
    match dget eqb k d with Some l => l | None => [] end.

  (** registry.py:70-92 register *)
  Definition register (H : heap) (o : nat) (r : registry) : registry * rres unit :=
    let n := name (H o) in
    if dmem String.eqb n (interfaces r) then (r, RValueError) else
    (Registry (dset String.eqb n o (interfaces r))
              (dset String.eqb (part_name (H o)) (at_key String.eqb (part_name (H o)) (by_part r) ++ [n]) (by_part r))
              (dset itype_beq (interface_type (H o)) (at_key itype_beq (interface_type (H o)) (by_type r) ++ [n]) (by_type r)), ROk tt).
  (** registry.py:94-101 register_many: stops at the first error *)
  Fixpoint register_many (H : heap) (os : list nat) (r : registry) : registry * rres unit :=
    match os with
    | [] => (r, ROk tt)
    | o :: os => match register H o r with (r', ROk _) => register_many H os r' | e => e end
    end.
  (** list.remove *)
  Fixpoint lremove (n : string) (l : list string) : option (list string) :=
    match l with
    | [] => None
    | x :: r => if String.eqb x n then Some r else match lremove n r with Some r' => Some (x :: r') | None => None end
    end.
  (** registry.py:118-128: remove a name from an index, and the entry when it becomes empty *)
  Definition unindex {K} (eqb : K -> K -> bool) (k : K) (n : string) (d : list (K * list string)) : option (list (K * list string)) :=
    match dget eqb k d with
    | None => Some d
    | Some l => match lremove n l with None => None | Some [] => Some (ddel eqb k d) | Some l' => Some (dset eqb k l' d) end
    end.
  (** registry.py:103-130 unregister; the name is already gone from [interfaces] if list.remove raises *)
  Definition unregister (H : heap) (n : string) (r : registry) : registry * rres (option nat) :=
    match dget String.eqb n (interfaces r) with
    | None => (r, ROk None)
    | Some o =>
      let is := ddel String.eqb n (interfaces r) in
      match unindex String.eqb (part_name (H o)) n (by_part r) with
      | None => (Registry is (by_part r) (by_type r), RValueError)
      | Some bp =>
        match unindex itype_beq (interface_type (H o)) n (by_type r) with
        | None => (Registry is bp (by_type r), RValueError)
        | Some bt => (Registry is bp bt, ROk (Some o))
        end
      end
    end.
  (** registry.py:132-141 get, 143-153, 155-165, 167-176, 293-307 *)
  Definition get (n : string) (r : registry) : option nat := dget String.eqb n (interfaces r).
  Fixpoint lookup_all (r : registry) (l : list string) : rres (list nat) :=
    match l with
    | [] => ROk []
    | n :: l => match dget String.eqb n (interfaces r) with
                | None => RKeyError
                | Some o => match lookup_all r l with ROk os => ROk (o :: os) | e => e end
                end
    end.
  Definition for_part (p : string) (r : registry) : rres (list nat) := lookup_all r (at_key String.eqb p (by_part r)).
  Definition of_type (ty : itype) (r : registry) : rres (list nat) := lookup_all r (at_key itype_beq ty (by_type r)).
  Definition has_interfaces (p : string) (r : registry) : bool :=
    match dget String.eqb p (by_part r) with Some l => Nat.ltb 0 (length l) | None => false end.
  Definition all_interfaces (r : registry) : list nat := map snd (interfaces r).
  Definition all_parts (r : registry) : list string := map fst (by_part r).
  (** registry.py:309-313 clear *)
  Definition clear (r : registry) : registry := empty.
  (** registry.py:178-208 find_compatible_interfaces (candidates: all) *)
  Definition find_compatible (H : heap) (o : nat) (r : registry) : list nat :=
    filter (fun o' => negb (String.eqb (name (H o')) (name (H o))) && compatible (H o) (H o')) (all_interfaces r).

  (** registry.py:210-273 check_overlap_compatibility: verdict and the results, in order *)
  Definition check_overlap (H : heap) (pa pb : string) (r : registry) : rres (bool * list bool) :=
    match for_part pa r with ROk la =>
    match for_part pb r with ROk lb =>
      if (match la with [] => true | _ => false end) || (match lb with [] => true | _ => false end) then ROk (false, []) else
      let results := flat_map (fun a => map (fun b => compatible (H a) (H b)) (filter (fun b => overlaps (1 / 10) (H a) (H b)) lb)) la in
      ROk (existsb (fun x => x) results && forallb (fun x => x) results, results)
    | RValueError => RValueError | RKeyError => RKeyError end
    | RValueError => RValueError | RKeyError => RKeyError end.
  (** registry.py:275-309 get_compatible_interface_names, as a list with repetitions *)
  Definition compatible_names (H : heap) (pa pb : string) (r : registry) : rres (list string) :=
    match check_overlap H pa pb r with
    | ROk (true, _) =>
      match for_part pa r with ROk la =>
      match for_part pb r with ROk lb =>
        ROk (flat_map (fun a => flat_map (fun b => if overlaps (1 / 10) (H a) (H b) && compatible (H a) (H b) then [name (H a); name (H b)] else []) lb) la)
      | _ => RKeyError end
      | _ => RKeyError end
    | ROk (false, _) => ROk []
    | RValueError => RValueError | RKeyError => RKeyError
    end.

  (** What a program can do with a registry and its interfaces. *)
  Inductive op := Register (o : nat) | RegisterMany (os : list nat) | Unregister (n : string) | Clear | SetPart (o : nat) (p : string).
  Definition step (x : op) (s : heap * registry) : heap * registry :=
    let (H, r) := s in
    match x with
    | Register o => (H, fst (register H o r))
    | RegisterMany os => (H, fst (register_many H os r))
    | Unregister n => (H, fst (unregister H n r))
    | Clear => (H, clear r)
    | SetPart o p => (fun o' => if Nat.eqb o' o then Iface (name (H o)) p (center (H o)) (axis (H o)) (kind_data (H o)) else H o', r)
    end.
  Definition run (xs : list op) (s : heap * registry) : heap * registry := fold_left (fun s x => step x s) xs s.

  (** ** detector.py.  [G]: geometry, [T]: transforms; [detect] is the geometric test. *)
  Section Detector.
    Context {G T : Type}.
    (** result.py:82-92, the fields used; [failed]: error_message is not empty *)
    Record result := Result { part_a : string; part_b : string; collides : bool; compatible_interface : bool; interface_names : list string; failed : bool }.
    Variables (geometry : string -> option G) (usable : T -> bool)
      (detect : string -> G -> T -> string -> G -> T -> bool * bool).   (* collides, failed *)
    Definition is_error (x : result) : bool := collides x && negb (compatible_interface x).
    Definition is_interface_overlap (x : result) : bool := collides x && compatible_interface x.
    (** detector.py:196-272 check_collision (geometry cache: see [get_geometry]) *)
    Definition check_collision (H : heap) (r : registry) (a : string) (ta : T) (b : string) (tb : T) : rres result :=
      match geometry a, geometry b with
      | Some ga, Some gb =>
        if usable ta && usable tb then
          let (c, f) := detect a ga ta b gb tb in
          if c then
            match check_overlap H a b r with
            | ROk (true, _) => match compatible_names H a b r with ROk ns => ROk (Result a b c true ns f) | RValueError => RValueError | RKeyError => RKeyError end
            | ROk (false, _) => ROk (Result a b c false [] f)
            | RValueError => RValueError | RKeyError => RKeyError
            end
          else ROk (Result a b c false [] f)
        else ROk (Result a b false false [] true)
      | _, _ => ROk (Result a b false false [] true)
      end.
    (** detector.py:274-317 check_assembly: the pairs, then one check each *)
    Fixpoint pairs {A} (l : list A) : list (A * A) := match l with [] => [] | x :: r => map (pair x) r ++ pairs r end.
    Definition skipped (skip : list (string * string)) (a b : string) : bool :=
      existsb (fun s => (String.eqb (fst s) a && String.eqb (snd s) b) || (String.eqb (fst s) b && String.eqb (snd s) a)) skip.
    Fixpoint check_all (H : heap) (r : registry) (l : list ((string * T) * (string * T))) : rres (list result) :=
      match l with
      | [] => ROk []
      | ((a, ta), (b, tb)) :: l =>
        match check_collision H r a ta b tb with
        | ROk x => match check_all H r l with ROk xs => ROk (x :: xs) | e => e end
        | RValueError => RValueError | RKeyError => RKeyError
        end
      end.
    Definition check_assembly (H : heap) (r : registry) (transforms : list (string * T)) (skip : list (string * string)) : rres (list result) :=
      check_all H r (filter (fun p => negb (skipped skip (fst (fst p)) (fst (snd p)))) (pairs transforms)).
    (** detector.py:319-348 get_collision_summary *)
    Definition count {A} (f : A -> bool) (l : list A) : nat := length (filter f l).
    Record summary := Summary { total_pairs : nat; collisions_detected : nat; actual_errors : nat; expected_interfaces : nat; detection_failures : nat;
      error_pairs : list (string * string); interface_pairs : list (string * string) }.
    Definition collision_summary (rs : list result) : summary :=
      let cs := filter collides rs in
      Summary (length rs) (length cs) (count is_error cs) (count is_interface_overlap cs) (count failed rs)
        (map (fun x => (part_a x, part_b x)) (filter is_error cs)) (map (fun x => (part_a x, part_b x)) (filter is_interface_overlap cs)).
  End Detector.

  (** detector.py:130-165 __init__, 167-173 set_interface_registry: registries are objects too.
      [interface_registry or InterfaceRegistry()]: a registry has a length, an empty one counts
      as false. *)
  Definition registries := list registry.
  Definition rempty (r : registry) : bool := match interfaces r with [] => true | _ => false end.
  Definition new_detector (given : nat) (rs : registries) : nat * registries :=
    if rempty (nth given rs empty) then (length rs, rs ++ [empty]) else (given, rs).
End Compat.
Arguments ROk {A} a. Arguments RValueError {A}. Arguments RKeyError {A}.

(** detector.py:354-363 _get_geometry: the provider is asked once per part with geometry *)
Section Cache.
  Context {G : Type}.
  Definition get_geometry (provider : string -> option G) (p : string) (cache : list (string * G)) : option G * list (string * G) :=
    match dget String.eqb p cache with
    | Some g => (Some g, cache)
    | None => match provider p with Some g => (Some g, dset String.eqb p g cache) | None => (None, cache) end
    end.
End Cache.

(** gear_interface.py:325-435 create_planetary_gearbox_interfaces (the warning aside) *)
Fixpoint decimal_aux (fuel n : nat) (acc : string) : string :=
  match fuel with
  | O => acc
  | S f => let acc' := String (Ascii.ascii_of_nat (48 + n mod 10)) acc in if Nat.ltb n 10 then acc' else decimal_aux f (n / 10) acc'
  end.
Definition decimal (n : nat) : string := decimal_aux (S n) n "".
Definition gear (nm part : string) (m n pa w : R) (c : vec) : iface := Iface nm part c (0, 0, 1) (Gear m n pa w 0 0).
Definition planet (g : string) (m sun planet w pa z : R) (num i : nat) : iface :=
  let orbit := (sun + planet) * m / 2 in
  let angle := 2 * PI * INR i / INR num in
  gear (g ++ "_planet_" ++ decimal (S i) ++ "_teeth")%string (g ++ "_PLANET_GEAR_" ++ decimal (S i))%string m planet pa w (orbit * cos angle, orbit * sin angle, z).
Definition planetary (g : string) (m sun pl ring w : R) (num : nat) (pa z : R) : list iface :=
  gear (g ++ "_sun_teeth")%string (g ++ "_SUN_GEAR")%string m sun pa w (0, 0, z) ::
  gear (g ++ "_ring_teeth")%string (g ++ "_RING_HOUSING")%string m ring pa w (0, 0, z) ::
  map (planet g m sun pl w pa z num) (seq 0 num).
