(** Model of src/yapcad/package/core.py and validator.py.
    The files of a package are a map from locations to bytes; [loc] is what the operating
    system makes of a path text inside the package (any function: distinct texts may name the
    same file).  Directories, permissions and symbolic links changing over time, I/O errors,
    and a path that names a directory are not modelled.  Hashing, YAML, parsing of geometry
    and comparison of floats are the operations of [host].  An exception is [Raise] with the
    name of its class.  Message texts give the path inside the package only. *)
From Coq Require Import ZArith String List Bool.
From Verif Require Import Dict Json_Model.
Import ListNotations.
Open Scope Z_scope.
Open Scope list_scope.

Inductive res (A : Type) := Ok (a : A) | Raise (e : string).
Arguments Ok {A} _. Arguments Raise {A} _.
Definition bind {A B} (r : res A) (f : A -> res B) : res B := match r with Ok a => f a | Raise e => Raise e end.
Notation "'let*' x ':=' m 'in' f" := (bind m (fun x => f)) (at level 61, x pattern, right associativity).

Definition bytes := list Z.
Definition files := list (text * bytes).
Record host := Host {
  loc : text -> text;
  known : text -> bool;                  (* hashlib.new accepts the algorithm *)
  digest : text -> bytes -> text;        (* hexdigest *)
  yaml_dump : json -> bytes;             (* on representable data *)
  yaml_load : bytes -> option json;      (* None: yaml or unicode error *)
  geometry_ok : bytes -> bool;           (* json.load and geometry_from_json succeed *)
  fzero : Z -> bool;                     (* float is 0.0 *)
  funit : Z -> bool }.                   (* 0 <= float <= 1 *)

(** bool(x) *)
Definition truthy (H : host) (j : json) : bool :=
  match j with
  | JNull => false | JBool b => b | JInt z => negb (z =? 0) | JFloat f => negb (fzero H f)
  | JStr s => negb (teq s []) | JList l => match l with [] => false | _ => true end
  | JObj d => match d with [] => false | _ => true end | JOpaque _ => true
  end.
(** str.lower, ASCII only (digests are ASCII) *)
Definition lower (s : text) : text := map (fun c => if (65 <=? c) && (c <=? 90) then c + 32 else c) s.

(** x.get(k): AttributeError unless x is a dict *)
Definition get (k : text) (j : json) : res (option json) :=
  match j with JObj d => Ok (dget teq k d) | _ => Raise "AttributeError" end.
(** x.get(k, default) *)
Definition get_or (k : text) (default : json) (j : json) : res json :=
  let* o := get k j in Ok (match o with Some v => v | None => default end).
(** x[k] where the result must be a path: KeyError, TypeError (x no dict; root / non-string) *)
Definition path_of (j : json) : res text :=
  match j with
  | JObj d => match dget teq (t "path") d with Some (JStr p) => Ok p | Some _ => Raise "TypeError" | None => Raise "KeyError" end
  | _ => Raise "TypeError"
  end.
(** (x or []) in a for loop: a non-empty string or dict is iterated too, and its items then
    fail at item["path"] with TypeError; other non-lists are not iterable. *)
Definition items (H : host) (j : json) : res (list json) :=
  if truthy H j then match j with JList l => Ok l | _ => Raise "TypeError" end else Ok [].

Section Pkg.
  Variable H : host.
  (** core.py:26-31 _compute_hash on existing contents *)
  Definition compute_hash (b : bytes) (algorithm : text) : text := algorithm ++ 58 :: digest H algorithm b.

  Inductive severity := ERROR | WARNING | OK_ | FAILED.
  Definition message := (severity * text)%type.
  Definition is_error (m : message) : bool := match fst m with ERROR => true | _ => false end.

  (** validator.py:16-27 _check_file *)
  Definition check_file (fs : files) (path : text) (expected : option json) : res (bool * list message) :=
    match dget teq (loc H path) fs with
    | None => Ok (false, [(ERROR, t "missing file " ++ path)])
    | Some b =>
      let actual := compute_hash b (t "sha256") in
      match expected with
      | None => Ok (true, [])
      | Some e =>
        if truthy H e then
          match e with
          | JStr s => if teq (lower s) (lower actual) then Ok (true, [])
                      else Ok (false, [(ERROR, t "hash mismatch for " ++ path)])
          | _ => Raise "AttributeError"
          end
        else Ok (true, [])
      end
    end.

  (** isinstance(x, (int, float)) and 0 <= x <= 1 *)
  Definition unit_number (j : json) : bool :=
    match j with JBool _ => true | JInt z => (0 <=? z) && (z <=? 1) | JFloat f => funit H f | _ => false end.
  Definition source_types : list text := [t "standard"; t "vendor"; t "custom"; t "tested"].
  Definition get_truthy (k : text) (j : json) : res bool :=
    let* o := get k j in Ok (match o with Some v => truthy H v | None => false end).
  (** validator.py:30-78 _validate_material *)
  Definition source_type_check (id : text) (source : json) : res (bool * list message) :=
    let* ty := get (t "type") source in
    match ty with
    | None => Ok (false, [(ERROR, t "missing source.type " ++ id)])
    | Some ty =>
      if negb (truthy H ty) then Ok (false, [(ERROR, t "missing source.type " ++ id)]) else
      match ty with
      | JList _ | JObj _ => Raise "TypeError"
      | JStr s =>
        if existsb (teq s) source_types then
          if teq s (t "standard") then
            let* std := get_or (t "standard") (JObj []) source in
            let* body := get_truthy (t "body") std in
            let* des := get_truthy (t "designation") std in
            Ok (true, (if body then [] else [(WARNING, t "missing body " ++ id)]) ++
                      (if des then [] else [(WARNING, t "missing designation " ++ id)]))
          else Ok (true, [])
        else Ok (false, [(ERROR, t "invalid source.type " ++ id)])
      | _ => Ok (false, [(ERROR, t "invalid source.type " ++ id)])
      end
    end.
  Definition color_check (id : text) (color : option json) : bool * list message :=
    match color with
    | None => (true, [])
    | Some c =>
      if negb (truthy H c) then (true, []) else
      match c with
      | JList [r; g; b] => (true, if forallb unit_number [r; g; b] then [] else [(WARNING, t "color " ++ id)])
      | _ => (false, [(ERROR, t "visual.color " ++ id)])
      end
    end.
  Definition range_check (what id : text) (o : option json) : list message :=
    match o with None | Some JNull => [] | Some v => if unit_number v then [] else [(WARNING, what ++ id)] end.
  Definition validate_material (strict : bool) (id : text) (m : json) : res (bool * list message) :=
    let* source := get (t "source") m in
    match source with
    | None => Ok (false, [(ERROR, t "missing source " ++ id)])
    | Some source =>
      if negb (truthy H source) then Ok (false, [(ERROR, t "missing source " ++ id)]) else
      let* (ok1, m1) := source_type_check id source in
      let* visual := get_or (t "visual") (JObj []) m in
      let* color := get (t "color") visual in
      let (ok2, m2) := color_check id color in
      let* metallic := get (t "metallic") visual in
      let* roughness := get (t "roughness") visual in
      let* props := get_truthy (t "properties") m in
      Ok (ok1 && ok2, m1 ++ m2 ++ range_check (t "metallic ") id metallic ++ range_check (t "roughness ") id roughness ++
                      (if strict && negb props then [(WARNING, t "no physical properties " ++ id)] else []))
    end.
  (** validator.py:81-100 _validate_materials *)
  Fixpoint validate_each (strict : bool) (d : dict) : res (bool * list message) :=
    match d with
    | [] => Ok (true, [])
    | (id, m) :: r =>
      let* (ok, ms) := match m with
                       | JObj _ => validate_material strict id m
                       | _ => Ok (false, [(ERROR, t "definition must be a dictionary " ++ id)]) end in
      let* (ok', ms') := validate_each strict r in Ok (ok && ok', ms ++ ms')
    end.
  Definition validate_materials (strict : bool) (m : json) : res (bool * list message) :=
    match m with JObj d => validate_each strict d | _ => Ok (false, [(ERROR, t "materials section must be a dictionary")]) end.

  (** core.py:143-147 geometry_primary_path; what it raises is caught by its caller *)
  Definition geometry_primary_path (data : json) : res text :=
    let* g := get_or (t "geometry") (JObj []) data in
    let* p := get (t "primary") g in
    match p with None => Raise "ValueError" | Some p => if truthy H p then path_of p else Raise "ValueError" end.

  (** validator.py:143-147 and 151-157: one listed file after the other *)
  Fixpoint check_entries (strict : bool) (fs : files) (l : list json) : res (bool * list message) :=
    match l with
    | [] => Ok (true, [])
    | e :: r =>
      let* p := path_of e in
      let* h := get (t "hash") e in
      let* (ok, ms) := check_file fs p h in
      let w := if strict then match h with None | Some JNull => [(WARNING, t "missing hash")] | _ => [] end else [] in
      let* (ok', ms') := check_entries strict fs r in Ok (ok && ok', ms ++ w ++ ms')
    end.

  Definition manifest_file : text := loc H (t "manifest.yaml").
  (** core.py:101-113 PackageManifest.load (yaml.safe_load(fp) or {}) *)
  Definition load (fs : files) : res json :=
    match dget teq manifest_file fs with
    | None => Raise "FileNotFoundError"
    | Some b => match yaml_load H b with None => Raise "YAMLError" | Some j => Ok (if truthy H j then j else JObj []) end
    end.

  (** validator.py:103-170 validate_package, after the manifest has been loaded *)
  Definition validate_data (strict : bool) (fs : files) (data : json) : res (bool * list message) :=
    let* schema := get (t "schema") data in
    let m0 := match schema with
              | Some (JStr s) => if teq s (t "ycpkg-spec-v0.1") then [] else [(ERROR, t "unsupported package schema")]
              | _ => [(ERROR, t "unsupported package schema")] end in
    match geometry_primary_path data with
    | Raise _ => Ok (false, m0 ++ [(ERROR, t "geometry.primary missing")])
    | Ok primary =>
      let* geometry := get_or (t "geometry") (JObj []) data in
      let* pr := get_or (t "primary") (JObj []) geometry in
      let* h := get (t "hash") pr in
      let* (ok1, m1) := check_file fs primary h in
      let ok1' := ok1 && match dget teq (loc H primary) fs with Some b => geometry_ok H b | None => false end in
      let m1' := if ok1 && negb ok1' then [(ERROR, t "invalid geometry JSON")] else [] in
      let overall := ok1' && negb (existsb is_error (m0 ++ m1 ++ m1')) in
      let* d := get_or (t "derived") (JList []) geometry in
      let* derived := items H d in
      let* (ok2, m2) := check_entries false fs derived in
      let* e := get_or (t "exports") (JList []) data in
      let* exports := items H e in
      let* (ok3, m3) := check_entries strict fs exports in
      let* a := get_or (t "attachments") (JList []) data in
      let* attachments := items H a in
      let* (ok4, m4) := check_entries strict fs attachments in
      let* mats := get (t "materials") data in
      let* (ok5, m5) := match mats with
                        | None => Ok (true, [])
                        | Some m => if truthy H m then validate_materials strict m else Ok (true, []) end in
      let ok := overall && ok2 && ok3 && ok4 && ok5 in
      let head := if ok then (OK_, t "passed validation") else (FAILED, t "has validation errors") in
      Ok (ok, head :: m0 ++ m1 ++ m1' ++ m2 ++ m3 ++ m4 ++ m5)
    end.
  Definition validate_package (strict : bool) (fs : files) : res (bool * list message) :=
    match load fs with
    | Raise _ => Ok (false, [(ERROR, t "failed to load manifest")])
    | Ok data => validate_data strict fs data
    end.

  (** * core.py: building packages.  A manifest object is its [data]; operations return the
      data and the files they leave behind, also when they raise. *)
  Definition state := (dict * files)%type.

  (** core.py:115-121 PackageManifest.save: the file is truncated before yaml.safe_dump, which
      raises on an object it cannot represent before it writes anything. *)
  Definition save (s : state) : state * res unit :=
    let data := match dget teq (t "schema") (fst s) with Some _ => fst s | None => dset teq (t "schema") (JStr (t "ycpkg-spec-v0.1")) (fst s) end in
    if representable (JObj data) then ((data, dset teq manifest_file (yaml_dump H (JObj data)) (snd s)), Ok tt)
    else ((data, dset teq manifest_file [] (snd s)), Raise "RepresenterError").

  (** core.py:123-141 recompute_hashes: info["hash"] = ... for files that exist *)
  Definition rehash (alg : text) (fs : files) (e : json) : res json :=
    let* p := path_of e in
    match dget teq (loc H p) fs with
    | None => Ok e
    | Some b =>
      if known H alg then match e with JObj d => Ok (JObj (dset teq (t "hash") (JStr (compute_hash b alg)) d)) | _ => Raise "TypeError" end
      else Raise "ValueError"
    end.
  (** a list, updated in place up to the first exception *)
  Fixpoint rehash_all (alg : text) (fs : files) (l : list json) : list json * res unit :=
    match l with
    | [] => ([], Ok tt)
    | e :: r => match rehash alg fs e with
                | Raise x => (e :: r, Raise x)
                | Ok e' => let (r', x) := rehash_all alg fs r in (e' :: r', x)
                end
    end.
  (** for info in d.get(key, []) or []: update the list stored under key *)
  Definition rehash_section (alg : text) (fs : files) (key : text) (d : dict) : dict * res unit :=
    match dget teq key d with
    | None => (d, Ok tt)
    | Some v => if truthy H v then
                  match v with
                  | JList l => let (l', x) := rehash_all alg fs l in (dset teq key (JList l') d, x)
                  | _ => (d, Raise "TypeError") end
                else (d, Ok tt)
    end.
  Definition recompute_hashes (alg : text) (s : state) : state * res unit :=
    let (data, fs) := s in
    let geometry := match dget teq (t "geometry") data with Some g => g | None => JObj [] end in
    match geometry with
    | JObj g =>
      let (g1, r1) := match dget teq (t "primary") g with
                      | Some p => if truthy H p then match rehash alg fs p with Ok p' => (dset teq (t "primary") p' g, Ok tt) | Raise e => (g, Raise e) end
                                  else (g, Ok tt)
                      | None => (g, Ok tt) end in
      let put g' := match dget teq (t "geometry") data with Some _ => dset teq (t "geometry") (JObj g') data | None => data end in
      match r1 with
      | Raise e => ((put g1, fs), Raise e)
      | Ok _ =>
        let (g2, r2) := rehash_section alg fs (t "derived") g1 in
        match r2 with
        | Raise e => ((put g2, fs), Raise e)
        | Ok _ =>
          let (d3, r3) := rehash_section alg fs (t "exports") (put g2) in
          match r3 with
          | Raise e => ((d3, fs), Raise e)
          | Ok _ => let (d4, r4) := rehash_section alg fs (t "attachments") d3 in ((d4, fs), r4)
          end
        end
      end
    | _ => (s, Raise "AttributeError")
    end.

  (** core.py:162-233 create_package_from_entities.  [doc]: the text geometry_to_json and
      json.dump produce from the entities (None: they raise); [extra]: id, name, version,
      description, created, generator, units, tags; [materials]: the materials section, given
      or made of placeholders, if any.  Entities are not empty. *)
  Definition primary_path : text := t "geometry/primary.json".
  Definition create (doc : option bytes) (ids : list json) (extra : dict) (materials : option json) (overwrite : bool) (alg : text) (fs : files) : state * res unit :=
    if negb overwrite && match fs with [] => false | _ => true end then (([], fs), Raise "FileExistsError") else
    match doc with
    | None => (([], fs), Raise "Exception")
    | Some b =>
      let fs1 := dset teq (loc H primary_path) b fs in
      if known H alg then
        let info := [(t "path", JStr primary_path); (t "schema", JStr (t "yapcad-geometry-json-v0.1")); (t "entities", JList ids); (t "hash", JStr (compute_hash b alg))] in
        let data := (t "schema", JStr (t "ycpkg-spec-v0.1")) :: extra ++ [(t "geometry", JObj [(t "primary", JObj info)])] ++
                    match materials with Some m => [(t "materials", m)] | None => [] end in
        save (data, fs1)
      else (([], fs1), Raise "ValueError")
    end.

  (** core.py:243-329 add_geometry_file.  [src]: contents of the source file, outside the package
      (None: it does not exist); [name], [format], [original], [stem]: the file name, lower-case
      suffix, full path text and stem derived from the paths; [dest]: dest_relative as
      Path(...).as_posix() gives it. *)
  Record source := Source { s_bytes : option bytes; s_name : text; s_format : text; s_original : text }.
  Definition is_absolute (p : text) : bool := match p with c :: _ => c =? 47 | [] => false end.
  Definition dupdate (d m : dict) : dict := fold_left (fun d kv => dset teq (fst kv) (snd kv) d) m d.
  (** item.get("path") != entry["path"] *)
  Definition other_path (p : json) (item : json) : res bool :=
    let* q := get (t "path") item in
    Ok (match p, q with JStr a, Some (JStr b) => negb (teq a b) | _, _ => true end).
  Fixpoint filter_items (p : json) (l : list json) : res (list json) :=
    match l with
    | [] => Ok []
    | i :: r => let* b := other_path p i in let* r' := filter_items p r in Ok (if b then i :: r' else r')
    end.
  Definition entry_of (src : source) (b : bytes) (dest : text) (purpose : text) (metadata : dict) : dict :=
    let e := [(t "path", JStr dest); (t "hash", JStr (compute_hash b (t "sha256"))); (t "format", JStr (s_format src));
              (t "source", JObj [(t "kind", JStr (t "import")); (t "original", JStr (s_original src))])] in
    let e := if teq purpose [] then e else dset teq (t "purpose") (JStr purpose) e in
    dupdate e metadata.
  (** d.setdefault(key, []), then the list without the items of the same path, plus the entry *)
  Definition put_entry (key : text) (e : dict) (d : dict) : dict * res unit :=
    let v := match dget teq key d with Some v => v | None => JList [] end in
    let d' := match dget teq key d with Some _ => d | None => dset teq key (JList []) d end in
    match v with
    | JList l =>
      match filter_items (match dget teq (t "path") e with Some p => p | None => JNull end) l with
      | Ok l' => (dset teq key (JList (l' ++ [JObj e])) d', Ok tt)
      | Raise x => (d', Raise x)
      end
    | _ => (d', Raise "TypeError")
    end.
  Definition add_geometry_file (src : source) (dest_relative : option text) (stem : text) (purpose : text) (category : text)
      (overwrite : bool) (metadata : dict) (s : state) : state * res unit :=
    let (data, fs) := s in
    match s_bytes src with
    | None => (s, Raise "FileNotFoundError")
    | Some b =>
      let dest := match dest_relative with
                  | Some d => d
                  | None => if teq category (t "derived") then t "geometry/derived/" ++ s_name src
                            else if teq category (t "attachments") then t "attachments/" ++ s_name src else s_name src end in
      if match dest_relative with Some d => is_absolute d | None => false end then (s, Raise "ValueError") else
      if negb overwrite && dmem teq (loc H dest) fs then (s, Raise "FileExistsError") else
      let fs' := dset teq (loc H dest) b fs in
      let e := entry_of src b dest purpose metadata in
      if teq category (t "derived") then
        let g := match dget teq (t "geometry") data with Some g => g | None => JObj [] end in
        match g with
        | JObj g => let (g', r) := put_entry (t "derived") e g in ((dset teq (t "geometry") (JObj g') data, fs'), r)
        | _ => ((data, fs'), Raise "AttributeError")
        end
      else if teq category (t "attachments") then
        let e' := match dget teq (t "id") e with Some _ => e | None => dset teq (t "id") (JStr stem) e end in
        let (data', r) := put_entry (t "attachments") e' data in ((data', fs'), r)
      else ((data, fs'), Raise "ValueError")
    end.

  (** Histories of operations on one manifest object; exceptions are caught by the user. *)
  Inductive op :=
    | Add (src : source) (dest : option text) (stem purpose category : text) (overwrite : bool) (metadata : dict)
    | Recompute (alg : text) | Save.
  Definition step (o : op) (s : state) : state :=
    match o with
    | Add src dest stem purpose category overwrite metadata => fst (add_geometry_file src dest stem purpose category overwrite metadata s)
    | Recompute alg => fst (recompute_hashes alg s)
    | Save => fst (save s)
    end.
  Definition run (ops : list op) (s : state) : state := fold_left (fun s o => step o s) ops s.
End Pkg.
