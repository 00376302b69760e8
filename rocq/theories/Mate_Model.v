(** Model of yapcad/assembly/mate.py: Mate.validate, degrees_of_freedom, evaluate,
    compute_coupled_motion, to_dict/from_dict, evaluate_coincident and
    check_bolt_circle_alignment.  Real arithmetic; messages and details dropped. *)
From Coq Require Import Reals String List Bool ZArith.
From Verif Require Import Dict Xform_Model Datum_Model Constr_Model.
Import ListNotations.
Open Scope R_scope.

(** mate.py:71-144 *)
Inductive mtype := MCOINCIDENT | MCONCENTRIC | MPARALLEL | MPERPENDICULAR | MTANGENT | MDISTANCE | MANGLE
  | MRIGID | MREVOLUTE | MPRISMATIC | MCYLINDRICAL | MSPHERICAL | MPLANAR | MPIN_SLOT | MUNIVERSAL | MSCREW
  | MGEAR | MRACK_PINION | MCAM | MSLOT.
Scheme Equality for mtype.
(** mate.py:148-211 MateLimits *)
Record limits := MateLimits { min_value : option R; max_value : option R; min_velocity : option R; max_velocity : option R;
  min_effort : option R; max_effort : option R; min_secondary : option R; max_secondary : option R;
  limit_stiffness : R; limit_damping : R; restitution : R }.
(** mate.py:214-262 MateDynamics *)
Record dynamics := MateDynamics { friction_static : R; friction_kinetic : R; friction_viscous : R; damping : R; stiffness : R; rest_position : R }.
(** mate.py:265-354 Mate.  [metadata] is a dictionary of strings to numbers here (the
    code never looks inside it); part1, part2, datum1, datum2 (357-376) are the fields
    part_a, part_b, datum_a, datum_b. *)
Record mate := Mate { m_name : string; mate_type : mtype; part_a : string; datum_a : string; part_b : string; datum_b : string;
  m_offset : R; m_angle : R; m_axis : list R; m_secondary : list R; m_limits : option limits; m_dynamics : option dynamics;
  coupling_ratio : R; coupling_offset : R; coupling_reverse : bool; coupling_pitch : option R; metadata : list (string * R) }.

(** mate.py:377-459 Mate.validate: the list of issues; true stands for an issue with
    datum_a (or with the pair), false for one with datum_b *)
Definition inset (t : dtype) (l : list dtype) : bool := existsb (dtype_beq t) l.
Definition both (a b : datum) (l : list dtype) : list bool :=
  (if inset (datum_type a) l then [] else [true]) ++ (if inset (datum_type b) l then [] else [false]).
Definition mate_validate (m : mate) (a b : datum) : list bool :=
  match mate_type m with
  | MCOINCIDENT => both a b [POINT; PLANE; CIRCLE; AXIS; FRAME]
  | MCONCENTRIC => both a b [AXIS; CIRCLE]
  | MPARALLEL | MPERPENDICULAR => both a b [AXIS; PLANE]
  | MTANGENT => if negb (inset (datum_type a) [PLANE; CIRCLE]) && negb (inset (datum_type b) [PLANE; CIRCLE]) then [true] else []
  | _ => []
  end.

(** mate.py:461-516 degrees_of_freedom *)
Definition mate_dof (m : mate) : Z :=
  match mate_type m with
  | MRIGID => 0 | MREVOLUTE => 1 | MPRISMATIC => 1 | MCYLINDRICAL => 2 | MSPHERICAL => 3 | MPLANAR => 3
  | MPIN_SLOT => 2 | MUNIVERSAL => 2 | MSCREW => 1
  | MCOINCIDENT => 3 | MCONCENTRIC => 2 | MPARALLEL => 4 | MPERPENDICULAR => 5 | MTANGENT => 5 | MDISTANCE => 5 | MANGLE => 5
  | MGEAR => -1 | MRACK_PINION => -1 | MCAM => -1 | MSLOT => 4
  end%Z.

(** mate.py:518-597 evaluate: the numbers; each violation is named *)
Inductive violation := Vmin_value | Vmax_value | Vmin_velocity | Vmax_velocity | Vmin_effort | Vmax_effort.
Record mresult := MResult { dof_remaining : Z; m_error : R; satisfied : bool; limit_violations : list violation; dynamics_active : bool }.
Definition below (x : R) (lim : option R) : bool := match lim with Some l => Rltb x l | None => false end.
Definition above (x : R) (lim : option R) : bool := match lim with Some l => Rltb l x | None => false end.
Definition theval (o : option R) : R := match o with Some r => r | None => 0 end.
Definition mate_evaluate (m : mate) (pos vel eff : option R) : mresult :=
  let r0 := MResult (mate_dof m) 0 true [] (match m_dynamics m with Some _ => true | None => false end) in
  match m_limits m with
  | None => r0
  | Some l =>
    let r1 := match pos with
      | None => r0
      | Some p =>
        let r := if below p (min_value l) then MResult (dof_remaining r0) (m_error r0 + Rabs (theval (min_value l) - p)) false (limit_violations r0 ++ [Vmin_value]) (dynamics_active r0) else r0 in
        if above p (max_value l) then MResult (dof_remaining r) (m_error r + Rabs (p - theval (max_value l))) false (limit_violations r ++ [Vmax_value]) (dynamics_active r) else r
      end in
    let note r v := MResult (dof_remaining r) (m_error r) (satisfied r) (limit_violations r ++ [v]) (dynamics_active r) in
    let r2 := match vel with
      | None => r1
      | Some v => let r := if below v (min_velocity l) then note r1 Vmin_velocity else r1 in if above (Rabs v) (max_velocity l) then note r Vmax_velocity else r
      end in
    match eff with
    | None => r2
    | Some v => let r := if below v (min_effort l) then note r2 Vmin_effort else r2 in if above (Rabs v) (max_effort l) then note r Vmax_effort else r
    end
  end.

(** mate.py:599-618 is_coupled *)
Definition is_coupled (m : mate) : bool := match mate_type m with MGEAR | MRACK_PINION | MCAM | MSCREW => true | _ => false end.
(** mate.py:620-662 compute_coupled_motion; None: ValueError *)
Definition compute_coupled_motion (m : mate) (driver : R) : option R :=
  if is_coupled m then
    let driven := driver * coupling_ratio m + coupling_offset m in
    let driven := if coupling_reverse m then - driven else driven in
    match mate_type m, coupling_pitch m with
    | MSCREW, Some p => Some (driver / (2 * PI) * p)
    | _, _ => Some driven
    end
  else None.

(** The dictionaries of to_dict: JSON-like values *)
Inductive mval := MNone | MNum (r : R) | MStr (s : string) | MBool (b : bool) | MList (l : list R) | MDict (d : list (string * R)) | MOpts (d : list (string * option R)).
Definition mdict := list (string * mval).
(** MateType.value, mate.py:112-140 *)
Definition mtype_value (t : mtype) : string :=
  match t with
  | MCOINCIDENT => "coincident" | MCONCENTRIC => "concentric" | MPARALLEL => "parallel" | MPERPENDICULAR => "perpendicular" | MTANGENT => "tangent"
  | MDISTANCE => "distance" | MANGLE => "angle" | MRIGID => "rigid" | MREVOLUTE => "revolute" | MPRISMATIC => "prismatic" | MCYLINDRICAL => "cylindrical"
  | MSPHERICAL => "spherical" | MPLANAR => "planar" | MPIN_SLOT => "pin_slot" | MUNIVERSAL => "universal" | MSCREW => "screw"
  | MGEAR => "gear" | MRACK_PINION => "rack_pinion" | MCAM => "cam" | MSLOT => "slot"
  end%string.
Definition all_mtypes := [MCOINCIDENT; MCONCENTRIC; MPARALLEL; MPERPENDICULAR; MTANGENT; MDISTANCE; MANGLE; MRIGID; MREVOLUTE; MPRISMATIC; MCYLINDRICAL; MSPHERICAL; MPLANAR; MPIN_SLOT; MUNIVERSAL; MSCREW; MGEAR; MRACK_PINION; MCAM; MSLOT].
(** MateType(value); None: ValueError *)
Definition mtype_of (s : string) : option mtype := find (fun t => String.eqb (mtype_value t) s) all_mtypes.
Definition optnum (o : option R) : mval := match o with Some r => MNum r | None => MNone end.
(** mate.py:664-713 to_dict (the axis lists and the metadata dictionary are the mate's own objects) *)
Definition limits_dict (l : limits) : list (string * option R) :=
  [("min_value", min_value l); ("max_value", max_value l); ("min_velocity", min_velocity l); ("max_velocity", max_velocity l);
   ("min_effort", min_effort l); ("max_effort", max_effort l); ("min_secondary", min_secondary l); ("max_secondary", max_secondary l);
   ("limit_stiffness", Some (limit_stiffness l)); ("limit_damping", Some (limit_damping l)); ("restitution", Some (restitution l))]%string.
Definition dynamics_dict (y : dynamics) : list (string * option R) :=
  [("friction_static", Some (friction_static y)); ("friction_kinetic", Some (friction_kinetic y)); ("friction_viscous", Some (friction_viscous y));
   ("damping", Some (damping y)); ("stiffness", Some (stiffness y)); ("rest_position", Some (rest_position y))]%string.
Definition mate_to_dict (m : mate) : mdict :=
  [("name", MStr (m_name m)); ("mate_type", MStr (mtype_value (mate_type m))); ("part_a", MStr (part_a m)); ("datum_a", MStr (datum_a m));
   ("part_b", MStr (part_b m)); ("datum_b", MStr (datum_b m)); ("offset", MNum (m_offset m)); ("angle", MNum (m_angle m));
   ("axis", MList (m_axis m)); ("secondary_axis", MList (m_secondary m));
   ("limits", match m_limits m with Some l => MOpts (limits_dict l) | None => MNone end);
   ("dynamics", match m_dynamics m with Some y => MOpts (dynamics_dict y) | None => MNone end);
   ("coupling_ratio", MNum (coupling_ratio m)); ("coupling_offset", MNum (coupling_offset m)); ("coupling_reverse", MBool (coupling_reverse m));
   ("coupling_pitch", optnum (coupling_pitch m)); ("metadata", MDict (metadata m))]%string.
(** MateLimits( ** d), MateDynamics( ** d): an unknown key is a TypeError (None); a missing one gets the default *)
Definition fld (d : list (string * option R)) (k : string) (def : option R) : option R := match dget String.eqb k d with Some v => v | None => def end.
Definition known (names : list string) (d : list (string * option R)) : bool := forallb (fun kv => existsb (String.eqb (fst kv)) names) d.
(** a field annotated float may still be given None by the caller; such dictionaries are refused here (None) *)
Definition limits_of (d : list (string * option R)) : option limits :=
  if known ["min_value"; "max_value"; "min_velocity"; "max_velocity"; "min_effort"; "max_effort"; "min_secondary"; "max_secondary"; "limit_stiffness"; "limit_damping"; "restitution"]%string d then
    match fld d "limit_stiffness" (Some 1000000), fld d "limit_damping" (Some 1000), fld d "restitution" (Some 0) with
    | Some s, Some g, Some r => Some (MateLimits (fld d "min_value" None) (fld d "max_value" None) (fld d "min_velocity" None) (fld d "max_velocity" None)
        (fld d "min_effort" None) (fld d "max_effort" None) (fld d "min_secondary" None) (fld d "max_secondary" None) s g r)
    | _, _, _ => None
    end else None.
Definition dynamics_of (d : list (string * option R)) : option dynamics :=
  if known ["friction_static"; "friction_kinetic"; "friction_viscous"; "damping"; "stiffness"; "rest_position"]%string d then
    match fld d "friction_static" (Some 0), fld d "friction_kinetic" (Some 0), fld d "friction_viscous" (Some 0), fld d "damping" (Some 0), fld d "stiffness" (Some 0), fld d "rest_position" (Some 0) with
    | Some a, Some b, Some c, Some e, Some f, Some g => Some (MateDynamics a b c e f g)
    | _, _, _, _, _, _ => None
    end else None.
(** mate.py:716-762 from_dict; None: KeyError, ValueError or TypeError, and fields whose
    value has an unexpected type (the code would store them unchecked) *)
Definition getstr (d : mdict) (k : string) : option string := match dget String.eqb k d with Some (MStr s) => Some s | _ => None end.
Definition getnum (d : mdict) (k : string) (def : R) : option R := match dget String.eqb k d with Some (MNum r) => Some r | Some _ => None | None => Some def end.
Definition getlist (d : mdict) (k : string) (def : list R) : option (list R) := match dget String.eqb k d with Some (MList l) => Some l | Some _ => None | None => Some def end.
Definition obnd {A B} (o : option A) (f : A -> option B) : option B := match o with Some a => f a | None => None end.
Definition mate_from_dict (d : mdict) : option mate :=
  obnd (getstr d "mate_type") (fun tv => obnd (mtype_of tv) (fun t =>
  obnd (match dget String.eqb "limits"%string d with
        | Some (MOpts []) | Some MNone | None => Some None
        | Some (MOpts x) => option_map Some (limits_of x)
        | Some _ => None end) (fun lim =>
  obnd (match dget String.eqb "dynamics"%string d with
        | Some (MOpts []) | Some MNone | None => Some None
        | Some (MOpts x) => option_map Some (dynamics_of x)
        | Some _ => None end) (fun dyn =>
  obnd (getstr d "name") (fun nm => obnd (getstr d "part_a") (fun pa => obnd (getstr d "datum_a") (fun da =>
  obnd (getstr d "part_b") (fun pb => obnd (getstr d "datum_b") (fun db =>
  obnd (getnum d "offset" 0) (fun off => obnd (getnum d "angle" 0) (fun an =>
  obnd (getlist d "axis" [0; 0; 1; 0]) (fun ax => obnd (getlist d "secondary_axis" [1; 0; 0; 0]) (fun sx =>
  obnd (getnum d "coupling_ratio" 1) (fun cr => obnd (getnum d "coupling_offset" 0) (fun co =>
  obnd (match dget String.eqb "coupling_reverse"%string d with Some (MBool b) => Some b | Some _ => None | None => Some false end) (fun rv =>
  obnd (match dget String.eqb "coupling_pitch"%string d with Some (MNum r) => Some (Some r) | Some MNone | None => Some None | Some _ => None end) (fun pt =>
  obnd (match dget String.eqb "metadata"%string d with Some (MDict x) => Some x | Some _ => None | None => Some [] end) (fun md =>
  Some (Mate nm t pa da pb db off an ax sx lim dyn cr co rv pt md))))))))))))))))))).

(** mate.py:985-999 CoincidentResult (satisfied, error_distance, error_angle) *)
Record coinc := Coinc { co_satisfied : bool; error_distance : R; error_angle : R }.
(** the angle between two lines given by vectors, in degrees (as computed in each branch of
    evaluate_coincident): math.degrees(math.acos(min(1.0, abs(dot)))) *)
Definition line_angle (u v : vec) : R := degrees (acos (pmin1 (nabs (ndot (nunit u) (nunit v))))).
(** abs(np.dot(unit normal, p - p0)); the distances below compare with the tolerance, and NaN is never within it *)
Definition plane_dist (n p p0 : vec) : option R := nabs (ndot (nunit n) (Some (sub p p0))).
(** norm of v - (v . dir) dir *)
Definition axis_dist (w p p0 : vec) : option R :=
  match nunit w with
  | None => None
  | Some u => let v := sub p p0 in let s := dot v u in Some (mag (mkv (vx v - s * vx u) (vy v - s * vy u) (vz v - s * vz u) 0))
  end.
Definition nle (x : option R) (c : R) : bool := match x with Some r => Rleb r c | None => false end.
(** the recorded error_distance; NaN is shown as 0 here *)
Definition nshow (x : option R) : R := match x with Some r => r | None => 0 end.
Definition ovec (o : option vec) : vec := match o with Some v => v | None => mkv 0 0 0 0 end.
(** mate.py:1013-1253 evaluate_coincident.  A datum of type PLANE or CIRCLE has a normal and one
    of type AXIS a direction (Datum.__post_init__), so datum.normal[:3] does not raise. *)
Definition evaluate_coincident (a b : datum) (tol_mm tol_deg : R) : coinc :=
  let distance := mag (sub (origin b) (origin a)) in
  let default := Coinc (Rleb distance tol_mm) distance 0 in
  match datum_type a, datum_type b with
  | POINT, POINT => default
  | CIRCLE, CIRCLE => let an := line_angle (ovec (normal a)) (ovec (normal b)) in Coinc (Rleb distance tol_mm && Rleb an tol_deg) distance an
  | PLANE, PLANE =>
    let an := line_angle (ovec (normal a)) (ovec (normal b)) in
    let pd := plane_dist (ovec (normal a)) (origin b) (origin a) in Coinc (nle pd tol_mm && Rleb an tol_deg) (nshow pd) an
  | AXIS, AXIS =>
    let an := line_angle (ovec (direction a)) (ovec (direction b)) in
    let pd := axis_dist (ovec (direction a)) (origin b) (origin a) in Coinc (nle pd tol_mm && Rleb an tol_deg) (nshow pd) an
  | POINT, PLANE => let pd := plane_dist (ovec (normal b)) (origin a) (origin b) in Coinc (nle pd tol_mm) (nshow pd) 0
  | PLANE, POINT => let pd := plane_dist (ovec (normal a)) (origin b) (origin a) in Coinc (nle pd tol_mm) (nshow pd) 0
  | _, _ => default
  end.

(** mate.py:1324-1364 the hole positions; [u], [v] are the basis of the circle's plane *)
Definition circle_basis (n : vec) : vec * vec :=
  let z := unit n in
  let ref := if Rltb (Rabs (vx z)) (9 / 10) then mkv 1 0 0 0 else mkv 0 1 0 0 in
  let u := unit (cross z ref) in (u, unit (cross z u)).
Definition hole (c : vec) (r : R) (uv : vec * vec) (t : R) : vec :=
  let (u, v) := uv in mkv (vx c + r * (cos t * vx u + sin t * vx v)) (vy c + r * (cos t * vy u + sin t * vy v)) (vz c + r * (cos t * vz u + sin t * vz v)) 1.
Definition hole_error (a b : datum) (ra rb : R) (n : nat) (off : R) (i : nat) : R :=
  let uv := circle_basis (ovec (normal a)) in
  let t := radians (INR i * (360 / INR n)) in
  mag (sub (hole (origin b) rb uv (t + radians off)) (hole (origin a) ra uv t)).
(** mate.py:1256-1388 check_bolt_circle_alignment: None is the ZeroDivisionError of 360.0 / 0
    (a negative hole_count, which skips the loop, is not modelled) *)
Definition check_bolt_circle_alignment (a b : datum) (n : nat) (tol off : R) : option coinc :=
  match datum_type a, datum_type b with
  | CIRCLE, CIRCLE =>
    let basic := evaluate_coincident a b tol 1 in
    if negb (co_satisfied basic) then Some basic else
    let ra := theval (radius a) in let rb := theval (radius b) in
    if Rltb tol (Rabs (ra - rb)) then Some (Coinc false (Rabs (ra - rb)) 0) else
    if Nat.eqb n 0 then None else
    let e := fold_left Rmax (map (hole_error a b ra rb n off) (seq 0 n)) 0 in
    Some (Coinc (Rleb e tol) e 0)
  | _, _ => Some (Coinc false 0 0)
  end.
