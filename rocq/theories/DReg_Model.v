(** Model of yapcad/assembly/datum_registry.py: the registry of datums.
    Sources are objects (two names can share one), so they live in a heap.  What is on disk is a
    parameter: for search paths and a source name, what is found there.  Not modelled: logging,
    metadata, a file changing between two reads, errors other than those of json.load. *)
From Coq Require Import String List Bool.
From Verif Require Import Dict.
Import ListNotations.
Open Scope string_scope.
Open Scope list_scope.

Section Registry.
  Context {D : Type}.                                     (* Datum objects *)
  Definition table := list (string * D).
  (** datum_registry.py:298-322 _find_source_file with 282-290 and the parsing of 341-365, 393-413:
      what looking for a source gives.  [Readable]: datums that parse, and the part_name. *)
  Inductive found := NoFile | Readable (datums : table) (part : option string) | Unreadable | NoSidecar | UnknownType.
  Variable disk : list string -> string -> found.
  (** datum_registry.py:46-62 DatumSource, the fields used *)
  Record source := Source { datums : table; part_names : list string }.
  (** datum_registry.py:95-99; [loaded] is a set *)
  Record state := State { objects : list source; sources : list (string * nat); loaded : list string; search_paths : list string }.
  Definition empty : state := State [] [] [] [].
  Definition mem (s : string) (l : list string) : bool := existsb (String.eqb s) l.
  Definition add_loaded (s : string) (x : state) : state :=
    State (objects x) (sources x) (if mem s (loaded x) then loaded x else loaded x ++ [s]) (search_paths x).
  (** sources[s] = a new object *)
  Definition put (s : string) (o : source) (x : state) : state :=
    State (objects x ++ [o]) (dset String.eqb s (length (objects x)) (sources x)) (loaded x) (search_paths x).
  (** sources[s] = an object already there *)
  Definition alias (s : string) (i : nat) (x : state) : state := State (objects x) (dset String.eqb s i (sources x)) (loaded x) (search_paths x).
  Definition object (x : state) (i : nat) : source := nth i (objects x) (Source [] []).

  (** datum_registry.py:324-391 _load_surrogate_json *)
  Definition load_readable (s : string) (ds : table) (part : option string) (x : state) : state :=
    match part with
    | None => put s (Source ds [s]) x
    | Some p => let x' := put s (Source ds (if String.eqb p s then [s] else [s; p])) x in
                if String.eqb p s then x' else alias p (length (objects x)) x'
    end.
  (** datum_registry.py:415-429 _try_part_name_lookup *)
  Definition part_name_lookup (s : string) (x : state) : state :=
    match find (fun kv => mem s (part_names (object x (snd kv)))) (sources x) with
    | Some (_, i) => alias s i x
    | None => put s (Source [] []) x
    end.
  (** datum_registry.py:276-296 _load_source *)
  Definition load_source (s : string) (x : state) : state :=
    add_loaded s
      match disk (search_paths x) s with
      | Readable ds p => load_readable s ds p x
      | Unreadable | NoSidecar => put s (Source [] []) x
      | UnknownType => x
      | NoFile => part_name_lookup s x
      end.
  Definition ensure (s : string) (x : state) : state := if mem s (loaded x) then x else load_source s x.

  (** datum_registry.py:112-142 get_datum (None: KeyError), 144-162 get_datums_for_source,
      226-243 list_datums, 219-223 list_sources *)
  Definition get_datum (s n : string) (x : state) : state * option D :=
    let x' := ensure s x in
    (x', match dget String.eqb s (sources x') with Some i => dget String.eqb n (datums (object x' i)) | None => None end).
  Definition get_datums (s : string) (x : state) : state * option table :=
    let x' := ensure s x in
    (x', match dget String.eqb s (sources x') with Some i => Some (datums (object x' i)) | None => None end).
  Definition list_datums (s : string) (x : state) : state * list string :=
    let x' := ensure s x in
    (x', match dget String.eqb s (sources x') with Some i => keys (datums (object x' i)) | None => [] end).
  Definition list_sources (x : state) : list string := keys (sources x).
  (** datum_registry.py:164-187 register_source *)
  Definition register_source (s : string) (ds : table) (x : state) : state := add_loaded s (put s (Source ds [s]) x).
  (** objects[i].datums[n] = d *)
  Fixpoint update {A} (i : nat) (f : A -> A) (l : list A) : list A :=
    match l, i with [], _ => [] | a :: r, O => f a :: r | a :: r, S i => a :: update i f r end.
  Definition add_datum (i : nat) (n : string) (d : D) (x : state) : state :=
    State (update i (fun o => Source (dset String.eqb n d (datums o)) (part_names o)) (objects x)) (sources x) (loaded x) (search_paths x).
  (** datum_registry.py:189-211 register_datum *)
  Definition register_datum (s n : string) (d : D) (x : state) : state :=
    match dget String.eqb s (sources x) with
    | Some i => add_datum i n d x
    | None => add_datum (length (objects x)) n d (add_loaded s (put s (Source [] [s]) x))
    end.
  (** datum_registry.py:213-227 register_part: the comprehension iterates over the keys of the
      part's dictionary, which are strings without a [name] attribute: None is AttributeError *)
  Definition register_part (name : string) (ds : table) (x : state) : option state :=
    match ds with [] => Some (register_source name [] x) | _ :: _ => None end.
  (** datum_registry.py:245-255 add_search_path (of an absolute path), 257-262 clear *)
  Definition add_search_path (p : string) (x : state) : state :=
    State (objects x) (sources x) (loaded x) (if mem p (search_paths x) then search_paths x else search_paths x ++ [p]).
  Definition clear (x : state) : state := State (objects x) [] [] (search_paths x).

  Inductive op := RegisterSource (s : string) (ds : table) | RegisterDatum (s n : string) (d : D) | RegisterPart (s : string) (ds : table)
    | Get (s n : string) | GetAll (s : string) | ListDatums (s : string) | ListSources | AddPath (p : string) | Clear.
  Definition step (o : op) (x : state) : state :=
    match o with
    | RegisterSource s ds => register_source s ds x
    | RegisterDatum s n d => register_datum s n d x
    | RegisterPart s ds => match register_part s ds x with Some x' => x' | None => x end
    | Get s n => fst (get_datum s n x)
    | GetAll s => fst (get_datums s x)
    | ListDatums s => fst (list_datums s x)
    | ListSources => x
    | AddPath p => add_search_path p x
    | Clear => clear x
    end.
  Definition run (os : list op) (x : state) : state := fold_left (fun x o => step o x) os x.
End Registry.
