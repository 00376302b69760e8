(** Model of yapcad/manufacturing/path_utils.py: evaluating, cutting and measuring
    path3d dictionaries.  Real arithmetic.  A three element list is a [vec] with w = 0;
    a path3d is the list under 'segments'; an arc without 'normal' is given its default
    [0, 0, 1]; missing 'start', 'end' or 'center' keys (KeyError) are not modelled. *)
From Coq Require Import Reals List Bool ZArith.
From Verif Require Import Xform_Model.
Import ListNotations.
Open Scope R_scope.

Inductive seg := Line (s e : vec) | Arc (c s e n : vec) | Other.

Definition tiny10 : R := 1 / 10000000000.
(** path_utils.py:11-16 _normalize_vector *)
Definition pnorm (v : vec) : vec :=
  let l := mag v in if Rltb l tiny10 then mkv 0 0 1 0 else mkv (vx v / l) (vy v / l) (vz v / l) 0.
(** path_utils.py:19-31 _vector_subtract, _vector_add, _vector_scale *)
Definition psub (a b : vec) : vec := mkv (vx a - vx b) (vy a - vy b) (vz a - vz b) 0.
Definition padd (a b : vec) : vec := mkv (vx a + vx b) (vy a + vy b) (vz a + vz b) 0.
Definition pscale (v : vec) (k : R) : vec := mkv (vx v * k) (vy v * k) (vz v * k) 0.
(** path_utils.py:34-40 _cross_product *)
Definition pcross (a b : vec) : vec :=
  mkv (vy a * vz b - vz a * vy b) (vz a * vx b - vx a * vz b) (vx a * vy b - vy a * vx b) 0.
(** path_utils.py:43-49 _lerp_point *)
Definition lerp (a b : vec) (t : R) : vec :=
  mkv (vx a + t * (vx b - vx a)) (vy a + t * (vy b - vy a)) (vz a + t * (vz b - vz a)) 0.
(** path_utils.py:52-69 _evaluate_line_segment *)
Definition eval_line (s e : vec) (t : R) : vec * vec := (lerp s e t, pnorm (psub e s)).
(** path_utils.py:91-115 (and 326-342, the same code): the total angle of an arc *)
Definition arc_angle (c s e n : vec) : R :=
  let u := pnorm (psub s c) in let w := pnorm (psub e c) in
  let a := acos (Rmax (-1) (Rmin 1 (dot u w))) in
  if Rltb (dot (pcross u w) (pnorm n)) 0 then 2 * PI - a else a.
(** path_utils.py:72-146 _evaluate_arc_segment *)
Definition eval_arc (c s e n : vec) (t : R) : vec * vec :=
  let u := pnorm (psub s c) in
  let radius := mag (psub s c) in
  let k := pnorm n in
  let a := t * arc_angle c s e n in
  let kr := pcross k u in let kd := dot k u in
  let rot := mkv (vx u * cos a + vx kr * sin a + vx k * kd * (1 - cos a))
                 (vy u * cos a + vy kr * sin a + vy k * kd * (1 - cos a))
                 (vz u * cos a + vz kr * sin a + vz k * kd * (1 - cos a)) 0 in
  (padd c (pscale rot radius), pnorm (pcross k rot)).
(** path_utils.py:190-202 the dispatch on seg['type'] *)
Definition eval_seg (g : seg) (t : R) : res (vec * vec) :=
  match g with
  | Line s e => Ok (eval_line s e t)
  | Arc c s e n => Ok (eval_arc c s e n t)
  | Other => ValueError
  end.
(** max(0.0, min(1.0, t)) *)
Definition clamp (t : R) : R := Rmax 0 (Rmin 1 t).
(** int(x) for x >= 0 *)
Definition trunc (x : R) : nat := Z.to_nat (Int_part x).
(** path_utils.py:175-187 the segment index and the local parameter *)
Definition locate (n : nat) (t : R) : nat * R :=
  if Rleb 1 t then ((n - 1)%nat, 1) else let sc := t * INR n in (trunc sc, sc - INR (trunc sc)).
(** path_utils.py:149-202 evaluate_path3d_at_t; the index is always in range, so the
    default [Other] of [nth] is not met *)
Definition evaluate (p : list seg) (t : R) : res (vec * vec) :=
  match p with
  | [] => ValueError
  | _ => let '(i, u) := locate (length p) (clamp t) in eval_seg (nth i p Other) u
  end.
(** path_utils.py:205-225 compute_cut_plane *)
Definition compute_cut_plane (p : list seg) (t : R) : res (vec * vec) := evaluate p t.
(** path_utils.py:286-314 the piece of one segment *)
Definition cut_seg (g : seg) (lo hi : R) : list seg :=
  match g with
  | Line s e => [Line (lerp s e lo) (lerp s e hi)]
  | Arc c s e n => [Arc c (fst (eval_arc c s e n lo)) (fst (eval_arc c s e n hi)) n]
  | Other => []
  end.
(** path_utils.py:228-316 extract_sub_path *)
Definition extract (p : list seg) (a b : R) : res (list seg) :=
  if Rleb b a then ValueError else
  let a := clamp a in let b := clamp b in
  match p with
  | [] => Ok []
  | _ =>
    let n := length p in
    let s := a * INR n in let e := b * INR n in
    let i0 := trunc s in let i1 := Nat.min (trunc e) (n - 1) in
    let l0 := s - INR i0 in
    let l1 := if Nat.ltb i1 n then e - INR i1 else 1 in
    Ok (flat_map (fun i =>
          let lo := if Nat.eqb i i0 then l0 else 0 in
          let hi := if Nat.eqb i i1 then l1 else 1 in
          if Rleb hi lo then [] else cut_seg (nth i p Other) lo hi) (seq i0 (S i1 - i0)))
  end.
(** path_utils.py:319-357 path_length *)
Definition seg_length (g : seg) : R :=
  match g with
  | Line s e => mag (psub e s)
  | Arc c s e n => mag (psub s c) * arc_angle c s e n
  | Other => 0
  end.
Definition path_length (p : list seg) : R := fold_left (fun t g => t + seg_length g) p 0.
(** path_utils.py:360-373 length_to_parameter *)
Definition length_to_parameter (p : list seg) (len : R) : R :=
  let total := path_length p in if Rltb total tiny10 then 0 else Rmin 1 (Rmax 0 (len / total)).
(** path_utils.py:376-389 parameter_to_length *)
Definition parameter_to_length (p : list seg) (t : R) : res R :=
  match extract p 0 t with Ok q => Ok (path_length q) | _ => ValueError end.
