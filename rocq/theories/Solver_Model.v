(** Model of yapcad/assembly/solver.py (MateConstraintSolver, solve_mate_chain) and of
    yapcad/assembly/face_mate.py.  Real arithmetic; numpy is present.  Datums have been
    validated, so the vectors that get normalised are not zero (numpy would give nan).
    Messages, details and logging are dropped. *)
From Coq Require Import String Reals List Bool.
From Verif Require Import Dict Xform_Model Datum_Model Mate_Model.
Import ListNotations.
Open Scope string_scope.
Open Scope R_scope.
Open Scope list_scope.

(** 3x3 numpy arrays *)
Record mat3 := Mat3 { a00 : R; a01 : R; a02 : R; a10 : R; a11 : R; a12 : R; a20 : R; a21 : R; a22 : R }.
Definition eye3 : mat3 := Mat3 1 0 0 0 1 0 0 0 1.
Definition add3m (a b : mat3) : mat3 := Mat3 (a00 a + a00 b) (a01 a + a01 b) (a02 a + a02 b) (a10 a + a10 b) (a11 a + a11 b) (a12 a + a12 b) (a20 a + a20 b) (a21 a + a21 b) (a22 a + a22 b).
Definition smul (k : R) (a : mat3) : mat3 := Mat3 (k * a00 a) (k * a01 a) (k * a02 a) (k * a10 a) (k * a11 a) (k * a12 a) (k * a20 a) (k * a21 a) (k * a22 a).
Definition mmul (a b : mat3) : mat3 :=
  Mat3 (a00 a * a00 b + a01 a * a10 b + a02 a * a20 b) (a00 a * a01 b + a01 a * a11 b + a02 a * a21 b) (a00 a * a02 b + a01 a * a12 b + a02 a * a22 b)
       (a10 a * a00 b + a11 a * a10 b + a12 a * a20 b) (a10 a * a01 b + a11 a * a11 b + a12 a * a21 b) (a10 a * a02 b + a11 a * a12 b + a12 a * a22 b)
       (a20 a * a00 b + a21 a * a10 b + a22 a * a20 b) (a20 a * a01 b + a21 a * a11 b + a22 a * a21 b) (a20 a * a02 b + a21 a * a12 b + a22 a * a22 b).
(** R @ v, v / norm(v), 3-vectors being [vec]s whose w is not looked at (0 here) *)
Definition mvec (a : mat3) (v : vec) : vec :=
  mkv (a00 a * vx v + a01 a * vy v + a02 a * vz v) (a10 a * vx v + a11 a * vy v + a12 a * vz v) (a20 a * vx v + a21 a * vy v + a22 a * vz v) 0.
Definition vdiv (v : vec) (k : R) : vec := mkv (vx v / k) (vy v / k) (vz v / k) 0.
Definition normed (v : vec) : vec := vdiv v (mag v).
Definition vneg (v : vec) : vec := mkv (- vx v) (- vy v) (- vz v) 0.
Definition outer (u v : vec) : mat3 := Mat3 (vx u * vx v) (vx u * vy v) (vx u * vz v) (vy u * vx v) (vy u * vy v) (vy u * vz v) (vz u * vx v) (vz u * vy v) (vz u * vz v).
(** the skew-symmetric matrix written out in both files *)
Definition skew (n : vec) : mat3 := Mat3 0 (- vz n) (vy n) (vz n) 0 (- vx n) (- vy n) (vx n) 0.
(** T = np.eye(4); T[:3, :3] = R; T[:3, 3] = t *)
Definition build (r : mat3) (t : vec) : matrix :=
  mkmat (mkrows (mkv (a00 r) (a01 r) (a02 r) (vx t)) (mkv (a10 r) (a11 r) (a12 r) (vy t)) (mkv (a20 r) (a21 r) (a22 r) (vz t)) (mkv 0 0 0 1)) false.
Definition tenth10 : R := 1 / 10000000000.
Definition e_x : vec := mkv 1 0 0 0.
Definition e_y : vec := mkv 0 1 0 0.
Definition e_z : vec := mkv 0 0 1 0.

(** face_mate.py:492-536 _rotation_between_vectors *)
Definition half_turn_axis (v : vec) : vec := normed (if Rltb (Rabs (vx v)) (9 / 10) then cross v e_x else cross v e_y).
Definition rotation_between (v1 v2 : vec) : mat3 :=
  let v1 := normed v1 in let v2 := normed v2 in
  let v := cross v1 v2 in
  let s := mag v in let c := dot v1 v2 in
  if Rltb s tenth10 then
    if Rltb 0 c then eye3 else let p := half_turn_axis v1 in add3m (smul 2 (outer p p)) (smul (-1) eye3)
  else let k := skew (vdiv v s) in add3m (add3m eye3 (smul s k)) (smul (1 - c) (mmul k k)).
(** face_mate.py:539-574 _apply_rotation_about_axis *)
Definition rotation_about (t : matrix) (axis p : vec) (deg : R) : matrix :=
  let th := deg * PI / 180 in
  let n := normed axis in
  let r := add3m (add3m (smul (cos th) eye3) (smul (sin th) (skew n))) (smul (1 - cos th) (outer n n)) in
  mulMM (mulMM (mulMM (build eye3 p) (build r (mkv 0 0 0 0))) (build eye3 (vneg p))) t.
(** face_mate.py:336-350 the direction compute_flush_transform uses *)
Definition flush_dir (d : datum) : vec :=
  match datum_type d with AXIS => opt e_z (direction d) | _ => opt e_z (normal d) end.
(** face_mate.py:307-382 compute_flush_transform *)
Definition vminus (a b : vec) : vec := mkv (vx a - vx b) (vy a - vy b) (vz a - vz b) 0.
Definition vplus (a b : vec) : vec := mkv (vx a + vx b) (vy a + vy b) (vz a + vz b) 0.
Definition vtimes (k : R) (a : vec) : vec := mkv (k * vx a) (k * vy a) (k * vz a) 0.
Definition flush (p c : datum) (offset rot : R) (flip : bool) : matrix :=
  let pn := normed (flush_dir p) in let cn := normed (flush_dir c) in
  let r := rotation_between cn (if flip then vneg pn else pn) in
  let t := vminus (origin p) (mvec r (origin c)) in
  let t := if Reqb offset 0 then t else vplus t (vtimes offset pn) in
  let T := build r t in
  if Reqb rot 0 then T else rotation_about T pn (origin p) rot.
(** face_mate.py:385-442 compute_concentric_transform *)
Definition axis_dir (d : datum) : vec := match direction d with Some v => v | None => opt e_z (normal d) end.
Definition concentric (p c : datum) (offset : R) : matrix :=
  let pa := normed (axis_dir p) in let ca := normed (axis_dir c) in
  let r := rotation_between ca pa in
  build r (vplus (vminus (origin p) (mvec r (origin c))) (vtimes offset pa)).
(** face_mate.py:445-485 compute_parallel_transform *)
Definition parallel (p c : datum) (offset : R) : matrix :=
  let pn := normed (opt e_z (normal p)) in let cn := normed (opt e_z (normal c)) in
  let r := rotation_between cn pn in
  build r (vplus (vminus (origin c) (mvec r (origin c))) (vtimes offset pn)).

(** face_mate.py:88-210 FaceToFaceMate.compute_transform, on a fresh object.
    MateType has no member ALIGNED (mate.py:118-143), so building the tuple
    (MateType.COINCIDENT, MateType.ALIGNED) at line 184 raises AttributeError
    before any branch is taken; [aligned_member] is that attribute lookup. *)
Inductive fetched := FKeyError | FAttributeError | FValueError | FTransform (t : matrix).
Record facemate := FaceMate { fm_parent : string; fm_parent_datum : string; fm_parent_source : option string;
  fm_child : string; fm_child_datum : string; fm_child_source : option string; fm_constraint : mtype; fm_offset : R; fm_rotation : R }.
Definition aligned_member : option mtype := find (fun t => String.eqb (mtype_value t) "aligned") all_mtypes.
Definition source_or (s : option string) (p : string) : string := match s with Some s => if String.eqb s "" then p else s | None => p end.
Definition registry := string -> string -> option datum.
Definition face_compute (reg : registry) (m : facemate) (parent : option matrix) : fetched :=
  match reg (source_or (fm_parent_source m) (fm_parent m)) (fm_parent_datum m) with
  | None => FKeyError
  | Some p =>
    match reg (source_or (fm_child_source m) (fm_child m)) (fm_child_datum m) with
    | None => FKeyError
    | Some c =>
      match aligned_member with
      | None => FAttributeError
      | Some al =>
        let tf := if mtype_beq (fm_constraint m) MCOINCIDENT || mtype_beq (fm_constraint m) al
                  then Some (flush p c (fm_offset m) (fm_rotation m) (mtype_beq (fm_constraint m) MCOINCIDENT))
                  else match fm_constraint m with
                       | MCONCENTRIC => Some (concentric p c (fm_offset m))
                       | MPARALLEL => Some (parallel p c (fm_offset m))
                       | _ => None end in
        match tf with None => FValueError | Some t => FTransform (match parent with Some w => mulMM w t | None => t end) end
      end
    end
  end.

(** solver.py:583-601 _get_datum_direction *)
Definition unit_or_z (v : vec) : vec := if Rltb tenth10 (mag v) then normed v else e_z.
Definition datum_direction (d : datum) : vec :=
  match normal d with Some n => unit_or_z n | None => match direction d with Some v => unit_or_z v | None => e_z end end.
(** solver.py:635-651 _rodrigues_rotation *)
Definition rodrigues (axis : vec) (a : R) : mat3 :=
  let k := skew (normed axis) in add3m (add3m eye3 (smul (sin a) k)) (smul (1 - cos a) (mmul k k)).
(** solver.py:603-633 _rotation_between_vectors *)
Definition clip1 (x : R) : R := Rmin 1 (Rmax (-1) x).
Definition srotation (v1 v2 : vec) : mat3 :=
  let v1 := normed v1 in let v2 := normed v2 in
  let d := dot v1 v2 in
  if Rltb (9999 / 10000) d then eye3
  else if Rltb d (- (9999 / 10000)) then rodrigues (half_turn_axis v1) PI
  else rodrigues (normed (cross v1 v2)) (acos (clip1 d)).
(** solver.py:480-498 _solve_concentric; 500-510 _solve_parallel; 512-535 _solve_perpendicular;
    537-546 _solve_distance; 548-559 _solve_angle; 561-564 _solve_revolute.
    (_solve_coincident, 449-478, is not reached: face_mate is importable.) *)
Definition s_concentric (a b : datum) : matrix :=
  let r := srotation (datum_direction b) (datum_direction a) in build r (vminus (origin a) (mvec r (origin b))).
Definition s_parallel (a b : datum) : matrix := build (srotation (datum_direction b) (datum_direction a)) (mkv 0 0 0 0).
Definition s_perp (da db : vec) : vec :=
  let c := cross db da in
  if Rltb (mag c) tenth10 then normed (if Rltb (Rabs (vx da)) (9 / 10) then cross da e_x else cross da e_y) else vdiv c (mag c).
Definition s_perpendicular (a b : datum) : matrix :=
  let da := datum_direction a in let db := datum_direction b in build (srotation db (s_perp da db)) (mkv 0 0 0 0).
Definition s_distance (a b : datum) (offset : R) : matrix := build eye3 (vplus (origin a) (vtimes offset (datum_direction a))).
Definition s_angle (a b : datum) (deg : R) : matrix := build (rodrigues (datum_direction a) (deg * PI / 180)) (mkv 0 0 0 0).
(** solver.py:409-447 _solve_constraint; None: ValueError *)
Definition solve_constraint (m : mate) (a b : datum) : option matrix :=
  match mate_type m with
  | MCOINCIDENT | MRIGID => Some (flush a b 0 0 true)
  | MCONCENTRIC => Some (concentric a b 0)
  | MPARALLEL => Some (s_parallel a b)
  | MPERPENDICULAR => Some (s_perpendicular a b)
  | MDISTANCE => Some (s_distance a b (m_offset m))
  | MANGLE => Some (s_angle a b (m_angle m))
  | MREVOLUTE => Some (s_concentric a b)
  | _ => None
  end.
(** solver.py:96-130 MATE_AXIS_ROTATIONS *)
Definition axis_rotations : list (string * mat3) :=
  [("X", Mat3 0 0 (-1) 0 1 0 1 0 0); ("Y", Mat3 1 0 0 0 0 (-1) 0 1 0); ("Z", eye3);
   ("-X", Mat3 0 0 1 0 1 0 (-1) 0 0); ("-Y", Mat3 1 0 0 0 0 1 0 (-1) 0); ("-Z", Mat3 1 0 0 0 (-1) 0 0 0 (-1))].
(** T[:3, :3] of a 4x4 array *)
Definition rot3 (t : matrix) : mat3 :=
  Mat3 (vx (getrow t 0)) (vy (getrow t 0)) (vz (getrow t 0)) (vx (getrow t 1)) (vy (getrow t 1)) (vz (getrow t 1)) (vx (getrow t 2)) (vy (getrow t 2)) (vz (getrow t 2)).
(** solver.py:653-668 _apply_mate_axis_rotation and 675-693 apply_mate_axis_rotation *)
Definition set_rot3 (t : matrix) (r : mat3) : matrix :=
  mkmat (mkrows (mkv (a00 r) (a01 r) (a02 r) (vw (getrow t 0))) (mkv (a10 r) (a11 r) (a12 r) (vw (getrow t 1)))
    (mkv (a20 r) (a21 r) (a22 r) (vw (getrow t 2))) (getrow t 3)) false.
Definition apply_axis (t : matrix) (axis : string) : matrix :=
  match dget String.eqb axis axis_rotations with None => t | Some r => set_rot3 t (mmul (rot3 t) r) end.

(** solver.py:132-152 MateMateSolveResult: success and transform *)
Inductive outcome := Failed | Solved (t : matrix).
(** solver.py:243-312 solve_mate: the cache afterwards and the result; the registry is
    what it holds when the call is made (DReg_Model) *)
Definition cache := list (string * outcome).
Definition cache_key (m : mate) (axis : string) : string := (m_name m ++ ":" ++ axis)%string.
Definition compute (reg : registry) (m : mate) (parent : option matrix) (axis : string) : outcome :=
  match reg (part_a m) (datum_a m), reg (part_b m) (datum_b m) with
  | Some a, Some b =>
    match solve_constraint m a b with
    | None => Failed
    | Some t =>
      let t := if String.eqb axis "Z" then t else apply_axis t axis in
      Solved (match parent with Some w => mulMM w t | None => t end)
    end
  | _, _ => Failed
  end.
Definition solve_mate (use_cache : bool) (reg : registry) (k : cache) (m : mate) (parent : option matrix) (axis : string) : cache * outcome :=
  match (if use_cache then dget String.eqb (cache_key m axis) k else None) with
  | Some r => (k, r)
  | None =>
    match compute reg m parent axis with
    | Failed => (k, Failed)
    | Solved t => (if use_cache then dset String.eqb (cache_key m axis) (Solved t) k else k, Solved t)
    end
  end.
(** solver.py:314-332 solve_all: the results, keyed by mate name *)
Fixpoint solve_all (use_cache : bool) (reg : registry) (k : cache) (ms : list mate) (parents : list (string * matrix)) (acc : list (string * outcome)) : cache * list (string * outcome) :=
  match ms with
  | [] => (k, acc)
  | m :: ms =>
    let (k, r) := solve_mate use_cache reg k m (dget String.eqb (part_a m) parents) "Z" in
    solve_all use_cache reg k ms parents (dset String.eqb (m_name m) r acc)
  end.
(** solver.py:392-403 invalidate_cache *)
Definition invalidate (name : option string) (k : cache) : cache :=
  match name with None => [] | Some n => filter (fun kv => negb (String.prefix n (fst kv))) k end.
(** solver.py:696-735 solve_mate_chain: transforms by part name *)
Fixpoint chain (use_cache : bool) (reg : registry) (k : cache) (ms : list mate) (cur : matrix) (acc : list (string * matrix)) : cache * list (string * matrix) :=
  match ms with
  | [] => (k, acc)
  | m :: ms =>
    let (k, r) := solve_mate use_cache reg k m (Some cur) "Z" in
    match r with
    | Solved t => chain use_cache reg k ms t (dset String.eqb (part_b m) t acc)
    | Failed => (k, acc)
    end
  end.
Definition solve_mate_chain (reg : registry) (ms : list mate) (base : option matrix) : list (string * matrix) :=
  snd (chain true reg [] ms (match base with Some b => b | None => build eye3 (mkv 0 0 0 0) end) []).

(** solver.py:334-390 validate_transform of a 4x4 array (valid, is_rigid, is_orthonormal).
    np.allclose has rtol 1e-5 besides the atol given. *)
Definition det3 (r : mat3) : R :=
  a00 r * (a11 r * a22 r - a12 r * a21 r) - a01 r * (a10 r * a22 r - a12 r * a20 r) + a02 r * (a10 r * a21 r - a11 r * a20 r).
Definition transpose3 (r : mat3) : mat3 := Mat3 (a00 r) (a10 r) (a20 r) (a01 r) (a11 r) (a21 r) (a02 r) (a12 r) (a22 r).
Definition entries (r : mat3) : list R := [a00 r; a01 r; a02 r; a10 r; a11 r; a12 r; a20 r; a21 r; a22 r].
Definition max_abs (r : mat3) : R := fold_right Rmax 0 (map Rabs (entries r)).
Definition npclose (a b : R) : bool := Rleb (Rabs (a - b)) (tenth10 + 1 / 100000 * Rabs b).
Definition validate_transform (t : matrix) (tol : R) : bool * bool * bool :=
  let b := getrow t 3 in
  let bottom := npclose (vx b) 0 && npclose (vy b) 0 && npclose (vz b) 0 && npclose (vw b) 1 in
  let r := rot3 t in
  let ortho := Rltb (max_abs (add3m (mmul (transpose3 r) r) (smul (-1) eye3))) (1 / 1000000) in
  let rigid := Rltb (Rabs (det3 r - 1)) tol in
  (bottom && ortho && rigid, rigid, ortho).
