(** Model of yapcad/assembly/datum.py and of datum_registry.py: datum_to_transform_matrix.
    Real arithmetic; vectors are given with four components (as the documentation asks). *)
From Coq Require Import Reals String List Bool.
From Verif Require Import Xform_Model.
Import ListNotations.
Open Scope R_scope.
Open Scope list_scope.

(** datum.py:90-107, 110-156 (name, description and tags aside) *)
Inductive dtype := POINT | AXIS | PLANE | FRAME | CIRCLE.
Scheme Equality for dtype.
Record datum := Datum { datum_type : dtype; origin : vec; direction : option vec; normal : option vec; x_axis : option vec; y_axis : option vec; radius : option R }.
Definition as_point (v : vec) : vec := mkv (vx v) (vy v) (vz v) 1.
Definition as_direction (v : vec) : vec := mkv (vx v) (vy v) (vz v) 0.
Definition zero_length (v : vec) : bool := Rltb (mag v) epsilon.
(** datum.py:158-266 __post_init__; None: ValueError *)
Definition post_init (d : datum) : option datum :=
  let o := as_point (origin d) in
  match datum_type d with
  | POINT => Some (Datum POINT o (direction d) (normal d) (x_axis d) (y_axis d) (radius d))
  | AXIS =>
    match direction d with
    | None => None
    | Some v => if zero_length (as_direction v) then None else Some (Datum AXIS o (Some (as_direction v)) (normal d) (x_axis d) (y_axis d) (radius d))
    end
  | PLANE =>
    match normal d with
    | None => None
    | Some v => if zero_length (as_direction v) then None else Some (Datum PLANE o (direction d) (Some (as_direction v)) (x_axis d) (y_axis d) (radius d))
    end
  | CIRCLE =>
    match normal d, radius d with
    | Some v, Some r => if zero_length (as_direction v) then None else if Rleb r 0 then None else
        Some (Datum CIRCLE o (direction d) (Some (as_direction v)) (x_axis d) (y_axis d) (Some r))
    | _, _ => None
    end
  | FRAME =>
    match x_axis d, y_axis d with
    | Some v, Some w => if zero_length (as_direction v) then None else if zero_length (as_direction w) then None else
        Some (Datum FRAME o (direction d) (normal d) (Some (as_direction v)) (Some (as_direction w)) (radius d))
    | _, _ => None
    end
  end.
(** datum.py:301-309 transform_vector: scale3 gives the result w = 1 *)
Definition transform_vector (m : matrix) (v : vec) : vec :=
  let r := mulMV m v in if Rltb epsilon (mag r) then scale3 r (1 / mag r) else r.
(** datum.py:268-325 transform *)
Definition transform (m : matrix) (d : datum) : option datum :=
  post_init (Datum (datum_type d) (mulMV m (origin d)) (option_map (transform_vector m) (direction d)) (option_map (transform_vector m) (normal d))
    (option_map (transform_vector m) (x_axis d)) (option_map (transform_vector m) (y_axis d)) (radius d)).

(** datum.py:440-496 PartDefinition.validate_datums: the issues found, for pairs of names *)
Inductive issue := SameTypeAndOrigin (a b : string) | ParallelAtOrigin (a b : string).
Definition lined (d : datum) : bool := match datum_type d with AXIS | PLANE => true | _ => false end.
Definition line_of (d : datum) : option vec := match direction d with Some v => Some v | None => normal d end.
Definition pair_issues (a b : string * datum) : list issue :=
  if String.leb (fst b) (fst a) then [] else
  if Rltb (dist (origin (snd a)) (origin (snd b))) epsilon then
    (if dtype_beq (datum_type (snd a)) (datum_type (snd b)) then [SameTypeAndOrigin (fst a) (fst b)] else []) ++
    (if lined (snd a) && lined (snd b) then
       match line_of (snd a), line_of (snd b) with
       | Some u, Some v => if Rltb (1 - epsilon) (Rabs (dot u v)) then [ParallelAtOrigin (fst a) (fst b)] else []
       | _, _ => []
       end else [])
  else [].
Definition validate_datums (ds : list (string * datum)) : list issue := flat_map (fun a => flat_map (fun b => pair_issues a b) ds) ds.

(** datum_registry.py:500-570 datum_to_transform_matrix (numpy is present; the datum has been validated) *)
Definition unit (v : vec) : vec := scale3 v (1 / mag v).
Definition columns (x y z o : vec) : matrix :=
  mkmat (mkrows (mkv (vx x) (vx y) (vx z) (vx o)) (mkv (vy x) (vy y) (vy z) (vy o)) (mkv (vz x) (vz y) (vz z) (vz o)) (mkv 0 0 0 1)) false.
Definition frame_on (n o : vec) : matrix :=
  let z := unit n in
  let ref := if Rltb (Rabs (vx z)) (9 / 10) then mkv 1 0 0 0 else mkv 0 1 0 0 in
  let x := unit (cross z ref) in
  columns x (cross z x) z o.
Definition opt (d : vec) (o : option vec) : vec := match o with Some v => v | None => d end.
Definition transform_matrix (d : datum) : matrix :=
  match datum_type d with
  | FRAME => let x := opt (mkv 1 0 0 0) (x_axis d) in let y := opt (mkv 0 1 0 0) (y_axis d) in columns x y (unit (cross x y)) (origin d)
  | PLANE | CIRCLE => frame_on (opt (mkv 0 0 0 0) (normal d)) (origin d)
  | AXIS => frame_on (opt (mkv 0 0 0 0) (direction d)) (origin d)
  | POINT => columns (mkv 1 0 0 0) (mkv 0 1 0 0) (mkv 0 0 1 0) (origin d)
  end.
