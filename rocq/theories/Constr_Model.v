(** Model of yapcad/assembly/constraint.py: Constraint.evaluate and the module's
    geometric helpers.  Real arithmetic.  Messages and the details dictionary of a
    ConstraintResult are dropped; numpy is present.  A number that may be NaN is an
    [option R], None being NaN. *)
From Coq Require Import Reals String Ascii List Bool.
From Verif Require Import Xform_Model Datum_Model.
Import ListNotations.
Open Scope R_scope.

(** math.radians, math.degrees *)
Definition radians (d : R) : R := d * PI / 180.
Definition degrees (r : R) : R := r * 180 / PI.

(** v / np.linalg.norm(v): every component is NaN (0/0) when the norm is zero.  The
    fourth component is not part of the three-vectors built by constraint.py. *)
Definition nunit (v : vec) : option vec := if Reqb (mag v) 0 then None else Some (mkv (vx v / mag v) (vy v / mag v) (vz v / mag v) 0).
(** np.dot of vectors whose components may all be NaN *)
Definition ndot (u v : option vec) : option R := match u, v with Some a, Some b => Some (dot a b) | _, _ => None end.
Definition nabs (x : option R) : option R := option_map Rabs x.
(** Python's min(1.0, x): the first argument is kept unless x < 1.0, so NaN gives 1.0 *)
Definition pmin1 (x : option R) : R := match x with Some r => if Rltb r 1 then r else 1 | None => 1 end.
(** min(1.0, max(-1.0, x)): NaN gives -1.0 *)
Definition pclamp (x : option R) : R := pmin1 (Some (match x with Some r => if Rltb (-1) r then r else -1 | None => -1 end)).
(** x > c and x < c: false for NaN *)
Definition ngt (x : option R) (c : R) : bool := match x with Some r => Rltb c r | None => false end.
Definition nlt (x : option R) (c : R) : bool := match x with Some r => Rltb r c | None => false end.

(** constraint.py:53-87 *)
Inductive ctype := FACING | TANGENT_TO_CIRCLE | RADIAL_FROM_CENTER | PARALLEL_TO | PERPENDICULAR_TO | AT_RADIUS | ON_CIRCLE | IN_PLANE | MIN_DISTANCE | NO_INTERFERENCE | CUSTOM.
(** constraint.py:90-102 ConstraintResult: passed and error_value *)
Record cresult := CResult { passed : bool; error_value : R }.
Definition failed : cresult := CResult false 0.
(** constraint.py:115-217 (the unused reference_datum, plane_normal, min_value, max_value
    and the description are dropped).  A custom validator is any function of the datum
    that returns a bool or raises (None). *)
Record constraint := Constraint {
  c_name : string; c_type : ctype; c_part : string; c_datum : string;
  c_center : option vec; c_radius : option R; c_direction : option string; c_axis : option vec;
  c_validator : option (datum -> option bool); tolerance_deg : R; tolerance_mm : R; c_severity : string }.

(** radial = origin - center; radial[2] = 0.0 *)
Definition flat (v : vec) : vec := mkv (vx v) (vy v) 0 0.
Definition radial_of (d : datum) (c : vec) : vec := flat (sub (origin d) c).
(** 1e-10 *)
Definition tiny : R := 1 / 10000000000.
(** datum.direction, else datum.normal *)
Definition dir_or_normal (d : datum) : option vec := match direction d with Some v => Some v | None => normal d end.
(** datum.normal, else datum.direction *)
Definition normal_or_dir (d : datum) : option vec := match normal d with Some v => Some v | None => direction d end.

(** constraint.py:275-353 _check_tangent_to_circle *)
Definition check_tangent (k : constraint) (d : datum) : cresult :=
  match c_center k, c_radius k with
  | Some c, Some _ =>
    let radial := radial_of d c in
    if Rltb (mag radial) tiny then failed else
    match dir_or_normal d with
    | None => failed
    | Some w =>
      let xy := flat w in
      if Rltb (mag xy) tiny then CResult true 0 else
      let a := degrees (asin (pmin1 (nabs (ndot (nunit radial) (nunit xy))))) in
      CResult (Rleb a (tolerance_deg k)) a
    end
  | _, _ => failed
  end.

(** constraint.py:355-441 _check_radial *)
Definition check_radial (k : constraint) (d : datum) : cresult :=
  match c_center k with
  | None => failed
  | Some c =>
    let go (outward : bool) :=
      let radial := radial_of d c in
      if Rltb (mag radial) tiny then failed else
      match normal_or_dir d with
      | None => failed
      | Some w =>
        let dt := ndot (nunit radial) (nunit w) in
        let cos_tolerance := cos (radians (tolerance_deg k)) in
        let satisfied := if outward then ngt dt cos_tolerance else nlt dt (- cos_tolerance) in
        let a := degrees (acos (pmin1 (nabs dt))) in
        let a' := if outward then (if nlt dt 0 then 180 - a else a) else (if ngt dt 0 then 180 - a else a) in
        CResult satisfied (if satisfied then 0 else a')
      end in
    match c_direction k with
    | Some s => if String.eqb s "outward" then go true else if String.eqb s "inward" then go false else failed
    | None => failed
    end
  end.

(** str.lower on the letters A-Z (no other character lowers to one of the keys below) *)
Definition lower_ascii (a : ascii) : ascii :=
  let n := nat_of_ascii a in if Nat.leb 65 n && Nat.leb n 90 then ascii_of_nat (n + 32) else a.
Fixpoint lower (s : string) : string := match s with EmptyString => EmptyString | String a r => String (lower_ascii a) (lower r) end.
(** constraint.py:626-648 _parse_direction *)
Definition parse_direction (s : option string) : option vec :=
  match s with
  | None => None
  | Some s => let k := lower s in
    if String.eqb k "+x" then Some (mkv 1 0 0 0) else if String.eqb k "-x" then Some (mkv (-1) 0 0 0) else
    if String.eqb k "+y" then Some (mkv 0 1 0 0) else if String.eqb k "-y" then Some (mkv 0 (-1) 0 0) else
    if String.eqb k "+z" then Some (mkv 0 0 1 0) else if String.eqb k "-z" then Some (mkv 0 0 (-1) 0) else None
  end.

(** constraint.py:443-487 _check_facing *)
Definition check_facing (k : constraint) (d : datum) : cresult :=
  match normal d, parse_direction (c_direction k) with
  | Some n, Some target =>
    let a := degrees (acos (pclamp (ndot (nunit n) (Some target)))) in
    CResult (Rleb a (tolerance_deg k)) a
  | _, _ => failed
  end.

(** constraint.py:489-528 _check_at_radius *)
Definition check_at_radius (k : constraint) (d : datum) : cresult :=
  match c_center k, c_radius k with
  | Some c, Some r => let e := Rabs (mag (radial_of d c) - r) in CResult (Rleb e (tolerance_mm k)) e
  | _, _ => failed
  end.

(** constraint.py:530-576 _check_parallel *)
Definition check_parallel (k : constraint) (d : datum) : cresult :=
  match c_axis k, dir_or_normal d with
  | Some r, Some w => let a := degrees (acos (pmin1 (nabs (ndot (nunit r) (nunit w))))) in CResult (Rleb a (tolerance_deg k)) a
  | _, _ => failed
  end.

(** constraint.py:578-624 _check_perpendicular *)
Definition check_perpendicular (k : constraint) (d : datum) : cresult :=
  match c_axis k, dir_or_normal d with
  | Some r, Some w => let a := degrees (asin (pmin1 (nabs (ndot (nunit r) (nunit w))))) in CResult (Rleb a (tolerance_deg k)) a
  | _, _ => failed
  end.

(** constraint.py:220-273 evaluate *)
Definition evaluate (k : constraint) (d : datum) : cresult :=
  match c_type k with
  | TANGENT_TO_CIRCLE => check_tangent k d
  | RADIAL_FROM_CENTER => check_radial k d
  | FACING => check_facing k d
  | AT_RADIUS => check_at_radius k d
  | PARALLEL_TO => check_parallel k d
  | PERPENDICULAR_TO => check_perpendicular k d
  | CUSTOM => match c_validator k with Some f => match f d with Some b => CResult b 0 | None => failed end | None => failed end
  | ON_CIRCLE | IN_PLANE | MIN_DISTANCE | NO_INTERFERENCE => failed
  end.

(** constraint.py:651-687 angle_between_vectors *)
Definition angle_between_vectors (u v : vec) : R :=
  if Rltb (mag u) tiny || Rltb (mag v) tiny then 0 else degrees (acos (pclamp (ndot (nunit u) (nunit v)))).
(** constraint.py:738-794 is_tangent_to_circle (the radius is not used) *)
Definition is_tangent_to_circle (o w c : vec) (r tol : R) : bool :=
  let radial := flat (sub o c) in
  if Rltb (mag radial) tiny then false else
  if Rltb (mag (flat w)) tiny then true else
  Rleb (degrees (asin (pmin1 (nabs (ndot (nunit radial) (nunit (flat w))))))) tol.
(** constraint.py:797-847 is_radial_from_center; None: ValueError *)
Definition is_radial_from_center (p n c : vec) (dir : string) (tol : R) : option bool :=
  if String.eqb dir "outward" || String.eqb dir "inward" then
    let radial := flat (sub p c) in
    Some (if Rltb (mag radial) tiny then false else
      let dt := ndot (nunit radial) (nunit n) in
      if String.eqb dir "outward" then ngt dt (cos (radians tol)) else nlt dt (- cos (radians tol)))
  else None.
