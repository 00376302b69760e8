(** Model of yapcad/package/analysis/schema.py (validate_plan, validate_result) and of the
    bookkeeping of yapcad/package/analysis/cli.py and base.py (plan entries and result entries).
    A plan or result is a dictionary with string keys ([Json_Model.json]).  A report keeps, for
    every error and warning, its path and what it says; the wording is dropped, and unknown
    fields are listed in the order of the dictionary instead of sorted.  Looking a value up in a
    set raises TypeError for a list or a dictionary (not hashable).  Reading the YAML and JSON
    files (validate_plan_file, validate_result_file) is not modelled. *)
From Coq Require Import ZArith String List Bool.
From Verif Require Import Dict Json_Model Meta_Model.
From Verif Require Coll_Model.
Import ListNotations.
Open Scope list_scope.

(** What an issue says (the message without its wording). *)
Inductive what :=
| Missing (fields : list text)   (* missing required fields *)
| NotAllowed (v : json)          (* a value that is not in its list *)
| WrongType (v : json)           (* expected mapping or list *)
| Blank                          (* must be a non-empty string *)
| NoField (f : text)             (* a field that should be there *)
| NoRegion                       (* neither surfaces nor strategy *)
| NoTolerance                    (* ~= without tolerance *)
| Unknown.                       (* unknown top-level field *)
Definition issue := (text * what)%type.
(** errors, warnings *)
Definition issues := (list issue * list issue)%type.
Definition none : issues := ([], []).
Definition error (p : text) (w : what) : issues := ([(p, w)], []).
Definition warning (p : text) (w : what) : issues := ([], [(p, w)]).
Definition both (a b : issues) : issues := (fst a ++ fst b, snd a ++ snd b).
(** f"{path}.{name}" and f"{path}[{i}]" *)
Definition dot (p n : text) : text := p ++ t "." ++ n.
Definition at_index (p : text) (i : nat) : text := p ++ t "[" ++ t (Coll_Model.decimal i) ++ t "]".

(** schema.py:16-46, 86-139: the enumerations and tables *)
Definition plan_kinds := [t "geometric"; t "measurement"; t "structural"; t "thermal"; t "cfd"; t "multiphysics"; t "assembly"].
Definition statuses := [t "passed"; t "failed"; t "error"; t "skipped"; t "pending"].
Definition comparisons := [t "<="; t ">="; t "<"; t ">"; t "=="; t "~="].
Definition plan_required := [t "backend"; t "id"; t "kind"].
Definition plan_common := [t "name"; t "description"; t "geometry"; t "acceptance"; t "execution"; t "metadata"].
Definition check_kinds := [t "geometric"; t "measurement"; t "assembly"].
Definition kind_fields (kind : text) : list text :=
  if mem kind check_kinds then [t "check"]
  else if teq kind (t "cfd") then [t "materials"; t "boundaryConditions"; t "boundary_conditions"; t "backendOptions"; t "faceNaming"]
  else [t "materials"; t "loads"; t "boundaryConditions"; t "boundary_conditions"; t "backendOptions"; t "faceNaming"].
Definition check_properties (kind : text) : list text :=
  if teq kind (t "geometric") then [t "volume"; t "area"; t "bbox"; t "centroid"; t "distance"; t "clearance"]
  else if teq kind (t "measurement") then [t "dimension"; t "mass"; t "centroid"; t "moment"]
  else [t "interference"; t "fit"; t "alignment"; t "clearance"].
Definition load_types := [t "pressure"; t "force"; t "moment"; t "gravity"; t "thermal"; t "displacement"].
Definition bc_types := [t "fixed"; t "pinned"; t "roller"; t "spring"; t "symmetry"; t "thermal"].
Definition result_required := [t "plan_id"; t "status"].
Definition result_optional := [t "timestamp"; t "backend"; t "backend_version"; t "execution_time_s"; t "metrics";
  t "acceptance_results"; t "artifacts"; t "errors"; t "warnings"; t "notes"].

(** v in {…strings…} *)
Definition in_set (v : json) (allowed : list text) : res bool :=
  match v with JStr s => Ok (mem s allowed) | JList _ | JObj _ => Err TypeErr | _ => Ok false end.

(** schema.py:149-163 _check_required_fields *)
Definition missing (required : list text) (d : dict) : list text := filter (fun k => negb (has k d)) required.

(** schema.py:202-238 validate_acceptance_criterion *)
Definition check_criterion (c : dict) (p : text) : res issues :=
  let a := if has (t "limit") c then none else error p (NoField (t "limit")) in
  match get (t "comparison") c with
  | None => Ok a
  | Some v =>
      bind (in_set v comparisons) (fun ok =>
      Ok (both a (both (if ok then none else error (dot p (t "comparison")) (NotAllowed v))
        (match v with
         | JStr s => if teq s (t "~=") && negb (has (t "tolerance") c) then warning p NoTolerance else none
         | _ => none
         end))))
  end.
(** schema.py:241-268 validate_acceptance_criteria *)
Fixpoint check_criteria (l : dict) (p : text) : res issues :=
  match l with
  | [] => Ok none
  | (k, JObj c) :: r => bind (check_criterion c (dot p k)) (fun a => bind (check_criteria r p) (fun b => Ok (both a b)))
  | (k, v) :: r => bind (check_criteria r p) (fun b => Ok (both (error (dot p k) (WrongType v)) b))
  end.
Definition check_acceptance (v : json) : res issues :=
  match v with JObj l => check_criteria l (t "acceptance") | _ => Ok (error (t "acceptance") (WrongType v)) end.

(** schema.py:271-360 validate_load and validate_boundary_condition, alike but for the list of types *)
Definition check_item (types : list text) (d : dict) (p : text) : res issues :=
  let rest := both (if has (t "id") d then none else warning p (NoField (t "id")))
                   (if has (t "surfaces") d || has (t "strategy") d then none else warning p NoRegion) in
  match get (t "type") d with
  | None => Ok (both (error p (NoField (t "type"))) rest)
  | Some v => bind (in_set v types) (fun ok => Ok (both (if ok then none else error (dot p (t "type")) (NotAllowed v)) rest))
  end.
(** schema.py:519-527, 541-549: the loops over loads and boundary conditions, from index i *)
Fixpoint check_items (types : list text) (p : text) (i : nat) (l : list json) : res issues :=
  match l with
  | [] => Ok none
  | JObj d :: r => bind (check_item types d (at_index p i)) (fun a => bind (check_items types p (S i) r) (fun b => Ok (both a b)))
  | v :: r => bind (check_items types p (S i) r) (fun b => Ok (both (error (at_index p i) (WrongType v)) b))
  end.
(** schema.py:512-527, 530-549 *)
Definition check_list (types : list text) (k : text) (d : dict) : res issues :=
  match get k d with
  | None => Ok none
  | Some (JList l) => check_items types k 0 l
  | Some v => Ok (error k (WrongType v))
  end.

(** schema.py:363-397 validate_geometry_section *)
Definition check_geometry (v : json) : issues :=
  match v with
  | JObj g =>
      both (if has (t "source") g then none else warning (t "geometry") (NoField (t "source")))
        (match get (t "entities") g with
         | None | Some (JList _) => none
         | Some e => error (t "geometry.entities") (WrongType e)
         end)
  | _ => error (t "geometry") (WrongType v)
  end.
(** schema.py:400-434 validate_check_section *)
Definition check_check (kind : text) (v : json) : res issues :=
  match v with
  | JObj c =>
      match get (t "property") c with
      | None => Ok (error (t "check") (NoField (t "property")))
      | Some p => bind (in_set p (check_properties kind)) (fun ok => Ok (if ok then none else error (t "check.property") (NotAllowed p)))
      end
  | _ => Ok (error (t "check") (WrongType v))
  end.

Section H.
Variable H : host.
(** schema.py:466-480: not isinstance(v, str) or not v.strip() *)
Definition blank (v : json) : bool := match v with JStr s => match strip H s with [] => true | _ => false end | _ => true end.
Definition check_text (k : text) (v : json) : issues := if blank v then error k Blank else none.
Definition optional (k : text) (d : dict) (f : json -> res issues) : res issues :=
  match get k d with Some v => f v | None => Ok none end.
Definition mapping (k : text) (d : dict) : issues :=
  match get k d with None | Some (JObj _) => none | Some v => error k (WrongType v) end.
(** schema.py:559-572: unknown top-level fields *)
Definition unknown (known : list text) (d : dict) : issues :=
  ([], map (fun k => (k, Unknown)) (filter (fun k => negb (mem k known)) (map fst d))).

(** schema.py:437-578 validate_plan: the errors and warnings of the report; it is valid when there are no errors *)
Definition bc_key (d : dict) : text := if has (t "boundaryConditions") d then t "boundaryConditions" else t "boundary_conditions".
Definition check_simulation (kind : text) (d : dict) : res issues :=
  bind (check_list load_types (t "loads") d) (fun a =>
  bind (check_list bc_types (bc_key d) d) (fun b =>
  Ok (both (mapping (t "materials") d) (both a (both b
    (if mem kind [t "structural"; t "thermal"] && negb (has (t "materials") d) then warning [] (NoField (t "materials")) else none)))))).
Definition validate_plan (d : dict) : res issues :=
  match missing plan_required d with
  | (_ :: _) as m => Ok (error [] (Missing m))
  | [] =>
      let kind := arg (t "kind") d in
      bind (in_set kind plan_kinds) (fun ok =>
      match ok, kind with
      | true, JStr k =>
          bind (optional (t "acceptance") d check_acceptance) (fun acc =>
          bind (if mem k check_kinds
                then match get (t "check") d with None => Ok (error [] (NoField (t "check"))) | Some c => check_check k c end
                else check_simulation k d) (fun own =>
          Ok (both (check_text (t "id") (arg (t "id") d)) (both (check_text (t "backend") (arg (t "backend") d))
             (both (match get (t "geometry") d with Some g => check_geometry g | None => none end) (both acc (both own
             (unknown (t "attachments" :: plan_required ++ plan_common ++ kind_fields k) d))))))))
      | _, _ => Ok (error (t "kind") (NotAllowed kind))
      end)
  end.

(** schema.py:625-653: one acceptance result *)
Definition check_outcome (kv : text * json) : issues :=
  let p := dot (t "acceptance_results") (fst kv) in
  match snd kv with
  | JObj r => both (if has (t "value") r then none else warning p (NoField (t "value")))
                   (if has (t "passed") r then none else warning p (NoField (t "passed")))
  | v => error p (WrongType v)
  end.
(** schema.py:656-676: the artifacts from index i *)
Fixpoint check_artifacts (i : nat) (l : list json) : issues :=
  match l with
  | [] => none
  | v :: r =>
      both (let p := at_index (t "artifacts") i in
            match v with JObj a => if has (t "path") a then none else warning p (NoField (t "path")) | _ => error p (WrongType v) end)
           (check_artifacts (S i) r)
  end.
(** schema.py:581-692 validate_result *)
Definition validate_result (d : dict) : res issues :=
  match missing result_required d with
  | (_ :: _) as m => Ok (error [] (Missing m))
  | [] =>
      let status := arg (t "status") d in
      bind (in_set status statuses) (fun ok =>
      Ok (both (if ok then none else error (t "status") (NotAllowed status))
         (both (check_text (t "plan_id") (arg (t "plan_id") d)) (both (mapping (t "metrics") d)
         (both (match get (t "acceptance_results") d with
                | None => none
                | Some (JObj l) => fold_right (fun kv acc => both (check_outcome kv) acc) none l
                | Some v => error (t "acceptance_results") (WrongType v)
                end)
         (both (match get (t "artifacts") d with
                | None => none | Some (JList l) => check_artifacts 0 l | Some v => error (t "artifacts") (WrongType v)
                end)
         (unknown (result_required ++ result_optional) d)))))))
  end.
End H.

(** base.py:66-90 AnalysisResult.to_manifest_entry followed by setdefault("path", …)
    (cli.py:130-131), with the fields of the result as JSON; [path] is the text that ends up
    under "path" *)
Record outcome := mkoutcome { o_plan : text; o_status : text; o_backend : option text; o_time : option text; o_path : text;
  o_metrics : dict; o_artifacts : list json; o_notes : option text; o_summary : dict }.
Definition opt_text (k : text) (o : option text) (e : dict) : dict :=
  match o with Some ((_ :: _) as s) => put k (JStr s) e | _ => e end.
Definition manifest_entry (o : outcome) : dict :=
  let e := [(t "plan", JStr (o_plan o)); (t "status", JStr (o_status o))] in
  let e := put (t "path") (JStr (o_path o)) (opt_text (t "timestamp") (o_time o) (opt_text (t "backend") (o_backend o) e)) in
  let e := match o_metrics o with [] => e | m => put (t "metrics") (JObj m) e end in
  let e := match o_artifacts o with [] => e | a => put (t "artifacts") (JList a) e end in
  let e := opt_text (t "notes") (o_notes o) e in
  match o_summary o with [] => e | s => put (t "summary") (JObj s) e end.
(** dict.update *)
Definition update (d e : dict) : dict := fold_left (fun d kv => put (fst kv) (snd kv) d) e d.
(** item.get("plan") == plan_id *)
Definition about (p : text) (e : dict) : bool := match get (t "plan") e with Some (JStr s) => teq s p | _ => false end.
(** cli.py:128-137: the first entry of the plan is updated, or a new one appended *)
Fixpoint update_first (p : text) (e : dict) (l : list dict) : option (list dict) :=
  match l with
  | [] => None
  | x :: r => if about p x then Some (update x e :: r) else option_map (cons x) (update_first p e r)
  end.
Definition record_result (o : outcome) (results : list dict) : list dict :=
  match update_first (o_plan o) (manifest_entry o) results with
  | Some l => l
  | None => results ++ [manifest_entry o]
  end.
(** cli.py:19-43 _ensure_plan_entry, for the entry it would add *)
Definition names (p : text) (e : dict) : bool := match get (t "id") e with Some (JStr s) => teq s p | _ => false end.
Definition ensure_plan (p : text) (entry : dict) (plans : list dict) : list dict :=
  if existsb (names p) plans then plans else plans ++ [entry].
