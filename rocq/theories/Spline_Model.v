(** Model of yapcad.spline (Bezier, B-spline, Catmull-Rom and NURBS curves) and
    of the constructors bezier/bspline/nurbs/catmullrom of yapcad.geom.

    Floats are reals (no rounding).  Control points are yapCAD points: to_vec3
    (geometry_utils.py:23-28) keeps x, y, z, and point(x, y, z) makes w = 1.
    Not modelled: the type checks is_bezier/is_bspline/... on malformed curve
    lists, degrees that are not natural numbers, NaN and infinities. *)
From Coq Require Import Reals List Bool ZArith.
From Verif Require Import Xform_Model.
Import ListNotations.
Open Scope R_scope.

(** Outcome of a call: a value or one of the two exceptions these functions raise. *)
Inductive out (A : Type) : Type :=
| Val : A -> out A
| Value_Error : out A
| Index_Error : out A.
Arguments Val {A} _.
Arguments Value_Error {A}.
Arguments Index_Error {A}.

Definition obind {A B} (m : out A) (f : A -> out B) : out B :=
  match m with Val a => f a | Value_Error => Value_Error | Index_Error => Index_Error end.

(** A list comprehension / append loop whose body can raise: the first
    exception ends it. *)
Fixpoint collect {A B} (f : A -> out B) (l : list A) : out (list B) :=
  match l with
  | [] => Val []
  | a :: r => obind (f a) (fun b => obind (collect f r) (fun bs => Val (b :: bs)))
  end.

(** l[i] for i >= 0 *)
Definition at_ {A} (l : list A) (i : nat) : out A :=
  match nth_error l i with Some a => Val a | None => Index_Error end.

(** point(v[0], v[1], v[2]) of to_vec3(point(p)) *)
Definition pt3 (p : vec) : vec := point (vx p) (vy p) (vz p).

(** spline.py:81, 337, 519, 549: max(0.0, min(1.0, float(t))) *)
Definition clamp01 (t : R) : R := Rmax 0 (Rmin 1 t).

(** spline.py:88-90 one affine combination *)
Definition lerp3 (t : R) (a b : vec) : vec :=
  point ((1 - t) * vx a + t * vx b) ((1 - t) * vy a + t * vy b) ((1 - t) * vz a + t * vz b).

(** spline.py:86-92 one level: new_work has [level] entries *)
Definition new_work (t : R) (work : list vec) (level : nat) : list vec :=
  map (fun i => lerp3 t (nth i work (point 0 0 0)) (nth (S i) work (point 0 0 0))) (seq 0 level).

(** spline.py:85-93 for level in range(n - 1, 0, -1) *)
Fixpoint casteljau (t : R) (level : nat) (work : list vec) : list vec :=
  match level with
  | O => work
  | S l => casteljau t l (new_work t work level)
  end.

(** spline.py:56-95 bezier_point *)
Definition bezier_point (control_points : list vec) (t : R) : out vec :=
  let pts := map pt3 control_points in
  match pts with
  | [] => Value_Error
  | [p] => Val (pt3 p)
  | _ =>
    match casteljau (clamp01 t) (length pts - 1) pts with
    | w :: _ => Val (pt3 w)
    | [] => Index_Error
    end
  end.

(** spline.py:118-161 bezier_tangent: (x, y, z) with w = 0 *)
Definition bezier_tangent (control_points : list vec) (t : R) : out vec :=
  let pts := map pt3 control_points in
  let n := length pts in
  if Nat.ltb n 2 then Val (mkv 0 0 0 0)
  else
    let degree := (n - 1)%nat in
    let deriv_pts := map (fun i =>
      let a := nth i pts (point 0 0 0) in let b := nth (S i) pts (point 0 0 0) in
      point (INR degree * (vx b - vx a)) (INR degree * (vy b - vy a)) (INR degree * (vz b - vz a)))
      (seq 0 degree) in
    obind (bezier_point deriv_pts t) (fun tang => Val (mkv (vx tang) (vy tang) (vz tang) 0)).

(** spline.py:164-194 bezier_curve *)
Definition bezier_curve (control_points : list vec) (segments : nat) : out (list vec) :=
  if Nat.ltb segments 1 then Value_Error
  else collect (fun i => bezier_point control_points (INR i / INR segments)) (seq 0 (segments + 1)).

(** spline.py:248-250, 253-263 _uniform_knot_vector *)
Definition uniform_knot_vector (n degree : nat) (closed : bool) : list R :=
  let m := (n + degree + 1)%nat in
  if closed then map (fun i => (INR i - INR degree) / INR n) (seq 0 m)
  else map (fun i =>
         if Nat.ltb i (degree + 1) then 0
         else if Nat.leb (m - degree - 1) i then 1
         else (INR i - INR degree) / (INR n - INR degree)) (seq 0 m).

(** The literal 1e-12 *)
Definition tiny : R := 1 / 1000000000000.

(** spline.py:266-309 _bspline_basis *)
Fixpoint bspline_basis (i p : nat) (u : R) (knots : list R) : out R :=
  match p with
  | O =>
    if Nat.leb (length knots) (i + 1) then Val 0
    else obind (at_ knots i) (fun ki => obind (at_ knots (i + 1)) (fun kj =>
      if Rleb ki u && Rltb u kj then Val 1
      else if Reqb u (last knots 0) && (Rleb ki u && Rleb u kj) then Val 1
      else Val 0))
  | S q =>
    obind (at_ knots (i + p)) (fun kp => obind (at_ knots i) (fun ki =>
    let denom1 := kp - ki in
    obind (if Rltb tiny denom1
           then obind (bspline_basis i q u knots) (fun b => Val ((u - ki) / denom1 * b))
           else Val 0) (fun left =>
    obind (if Nat.ltb (i + p + 1) (length knots)
           then obind (at_ knots (i + p + 1)) (fun kr => obind (at_ knots (i + 1)) (fun kl =>
                let denom2 := kr - kl in
                if Rltb tiny denom2
                then obind (bspline_basis (i + 1) q u knots) (fun b => Val ((kr - u) / denom2 * b))
                else Val 0))
           else Val 0) (fun right => Val (left + right)))))
  end.

(** spline.py:346-351, 357-362: the accumulation loop
    x += basis * pts[i][0]; ... over the control points from index i on. *)
Fixpoint weigh (basis : nat -> out R) (i : nat) (pts : list vec) (acc : vec) : out vec :=
  match pts with
  | [] => Val acc
  | p :: r => obind (basis i) (fun b =>
      weigh basis (S i) r (point (vx acc + b * vx p) (vy acc + b * vy p) (vz acc + b * vz p)))
  end.

(** spline.py:312-364 bspline_point *)
Definition bspline_point (control_points : list vec) (t : R) (degree : nat) (closed : bool) : out vec :=
  let pts := map pt3 control_points in
  let n := length pts in
  if Nat.ltb n (degree + 1) then Value_Error
  else
    let t := clamp01 t in
    if closed then
      let extended := pts ++ firstn degree pts in
      let knots := uniform_knot_vector n degree true in
      obind (at_ knots degree) (fun u_min => obind (at_ knots n) (fun u_max =>
      let u := u_min + t * (u_max - u_min) in
      weigh (fun i => bspline_basis i degree u knots) 0 extended (point 0 0 0)))
    else
      let knots := uniform_knot_vector n degree false in
      weigh (fun i => bspline_basis i degree t knots) 0 pts (point 0 0 0).

(** spline.py:390-424 bspline_curve: a closed curve's last sample is replaced
    by its first. *)
Definition bspline_curve (control_points : list vec) (degree : nat) (closed : bool) (segments : nat)
  : out (list vec) :=
  if Nat.ltb segments 1 then Value_Error
  else obind (collect (fun i => bspline_point control_points (INR i / INR segments) degree closed)
                      (seq 0 (segments + 1)))
         (fun samples =>
            if closed then Val (removelast samples ++ firstn 1 samples) else Val samples).

(** spline.py:635-646 _catmull_blend on one coordinate triple *)
Definition catmull_blend (a b : vec) (t0 t1 t : R) : vec :=
  let denom := t1 - t0 in
  if Rltb (Rabs denom) tiny then b
  else let w0 := (t1 - t) / denom in let w1 := (t - t0) / denom in
       point (vx a * w0 + vx b * w1) (vy a * w0 + vy b * w1) (vz a * w0 + vz b * w1).

(** math.pow(delta, alpha) for delta >= 0 (it raises ValueError for 0 to a
    negative power) *)
Definition pypow (delta alpha : R) : out R :=
  if Reqb delta 0 then
    (if Rltb 0 alpha then Val 0 else if Reqb alpha 0 then Val 1 else Value_Error)
  else Val (Rpower delta alpha).

(** spline.py:606-608 tj *)
Definition tj (ti : R) (pa pb : vec) (alpha : R) : out R :=
  let delta := sqrt ((vx pb - vx pa) ^ 2 + (vy pb - vy pa) ^ 2 + (vz pb - vz pa) ^ 2) in
  obind (pypow delta alpha) (fun d => Val (ti + d)).

(** spline.py:600-632 _catmullrom_point *)
Definition catmullrom_point (p0 p1 p2 p3 : vec) (alpha tau : R) : out vec :=
  let v0 := pt3 p0 in let v1 := pt3 p1 in let v2 := pt3 p2 in let v3 := pt3 p3 in
  let t0 := 0 in
  obind (tj t0 v0 v1 alpha) (fun t1 =>
  obind (tj t1 v1 v2 alpha) (fun t2 =>
  obind (tj t2 v2 v3 alpha) (fun t3 =>
  if Rltb (t2 - t1) tiny then Val v2
  else
    let t := t1 + (t2 - t1) * tau in
    let A1 := catmull_blend v0 v1 t0 t1 t in
    let A2 := catmull_blend v1 v2 t1 t2 t in
    let A3 := catmull_blend v2 v3 t2 t3 t in
    let B1 := catmull_blend A1 A2 t0 t2 t in
    let B2 := catmull_blend A2 A3 t1 t3 t in
    Val (pt3 (catmull_blend B1 B2 t1 t2 t))))).

(** spline.py:527-530, 577-580: the four neighbours of span idx.  Python's
    (idx - 1) % count is count - 1 for idx = 0. *)
Definition neighbours (ctrl : list vec) (closed : bool) (idx : nat) : vec * vec * vec * vec :=
  let count := length ctrl in
  let get i := nth i ctrl (point 0 0 0) in
  if closed then
    (get ((idx + (count - 1)) mod count)%nat, get (idx mod count)%nat,
     get ((idx + 1) mod count)%nat, get ((idx + 2) mod count)%nat)
  else
    (get (idx - 1)%nat, get (idx mod count)%nat,
     get (Nat.min (idx + 1) (count - 1)), get (Nat.min (idx + 2) (count - 1))).

Definition span_point (ctrl : list vec) (closed : bool) (alpha : R) (idx : nat) (tau : R) : out vec :=
  match neighbours ctrl closed idx with
  | (p0, p1, p2, p3) => catmullrom_point p0 p1 p2 p3 alpha tau
  end.

(** spline.py:500-533 evaluate_catmullrom *)
Definition evaluate_catmullrom (ctrl : list vec) (closed : bool) (alpha : R) (u : R) : out vec :=
  let count := length ctrl in
  match ctrl with
  | [] => Value_Error
  | [p] => Val p
  | _ =>
    let segment_count := if closed then count else (count - 1)%nat in
    let span := clamp01 u * INR segment_count in
    let idx := Z.to_nat (Int_part span) in
    if Nat.leb segment_count idx
    then span_point ctrl closed alpha (segment_count - 1) 1
    else span_point ctrl closed alpha idx (span - INR idx)
  end.

(** spline.py:553-597 sample_catmullrom: the first point of the first span, then
    [segments_per_span] points for every span. *)
Definition sample_catmullrom (ctrl : list vec) (closed : bool) (alpha : R) (segments_per_span : nat)
  : out (list vec) :=
  if Nat.ltb segments_per_span 1 then Value_Error
  else
    let count := length ctrl in
    if Nat.ltb count 2 then Value_Error
    else
      let segment_count := if closed then count else (count - 1)%nat in
      obind (collect (fun i =>
               collect (fun step => span_point ctrl closed alpha i (INR step / INR segments_per_span))
                       (seq 1 segments_per_span))
             (seq 0 segment_count))
        (fun spans => Val (nth 0 ctrl (point 0 0 0) :: concat spans)).

(** geom.py:1580-1595 _open_uniform_knot_vector *)
Definition open_uniform_knot_vector (count degree : nat) : list R :=
  firstn (count + degree + 1)
    (repeat 0 (degree + 1)
     ++ (if Nat.ltb 0 (count - degree - 1)
         then map (fun j => INR j / INR (count - degree)) (seq 1 (count - degree - 1)) else [])
     ++ repeat 1 (degree + 1)).

Record nurbs_curve := mknurbs {
  n_ctrl : list vec; n_degree : nat; n_weights : list R; n_knots : list R }.

(** geom.py:536-558 nurbs *)
Definition nurbs (ctrl : list vec) (degree : nat) (weights knots : option (list R)) : out nurbs_curve :=
  let n := length ctrl in
  if Nat.eqb n 0 then Value_Error
  else if Nat.ltb degree 1 then Value_Error
  else if Nat.ltb n (degree + 1) then Value_Error
  else
    obind (match weights with
           | None => Val (repeat 1 n)
           | Some w => if Nat.eqb (length w) n then Val w else Value_Error
           end) (fun wts =>
    obind (match knots with
           | None => Val (open_uniform_knot_vector n degree)
           | Some k => if Nat.eqb (length k) (n + degree + 1) then Val k else Value_Error
           end) (fun ks => Val (mknurbs ctrl degree wts ks))).

(** spline.py:702-718 _nip *)
Fixpoint nip (i p : nat) (u : R) (knots : list R) : out R :=
  match p with
  | O =>
    obind (at_ knots i) (fun ki => obind (at_ knots (i + 1)) (fun kj =>
      if (Rleb ki u && Rltb u kj) || (Reqb u (last knots 0) && Rltb ki kj) then Val 1 else Val 0))
  | S q =>
    obind (at_ knots (i + p)) (fun kp => obind (at_ knots i) (fun ki =>
    let denom := kp - ki in
    obind (if Reqb denom 0 then Val 0
           else obind (nip i q u knots) (fun b => Val ((u - ki) / denom * b))) (fun left =>
    obind (at_ knots (i + p + 1)) (fun kr => obind (at_ knots (i + 1)) (fun kl =>
    let denom := kr - kl in
    obind (if Reqb denom 0 then Val 0
           else obind (nip (i + 1) q u knots) (fun b => Val ((kr - u) / denom * b))) (fun right =>
    Val (left + right)))))))
  end.

(** spline.py:684-697 the loop of _nurbs_point: numerator and denominator *)
Fixpoint nurbs_sum (basis : nat -> out R) (i : nat) (ctrl : list vec) (weights : list R)
                   (num : vec) (den : R) : out (vec * R) :=
  match ctrl with
  | [] => Val (num, den)
  | p :: r =>
    obind (basis i) (fun b =>
    if Reqb b 0 then nurbs_sum basis (S i) r weights num den
    else obind (at_ weights i) (fun wi =>
      let w := wi * b in
      nurbs_sum basis (S i) r weights
        (point (vx num + w * vx p) (vy num + w * vy p) (vz num + w * vz p)) (den + w)))
  end.

(** spline.py:681-699 _nurbs_point *)
Definition nurbs_point (ctrl : list vec) (weights knots : list R) (degree : nat) (u : R) : out vec :=
  obind (nurbs_sum (fun i => nip i degree u knots) 0 ctrl weights (point 0 0 0) 0) (fun nd =>
  let (num, den) := nd in
  if Reqb den 0 then at_ ctrl 0
  else Val (point (vx num / den) (vy num / den) (vz num / den))).

(** spline.py:536-551 evaluate_nurbs *)
Definition evaluate_nurbs (c : nurbs_curve) (u : R) : out vec :=
  let knots := n_knots c in
  let degree := n_degree c in
  obind (at_ knots degree) (fun u_start =>
  obind (at_ knots (length knots - (degree + 1))) (fun u_end =>
  nurbs_point (n_ctrl c) (n_weights c) knots degree (u_start + (u_end - u_start) * clamp01 u))).

(** spline.py:655-679 sample_nurbs *)
Definition sample_nurbs (c : nurbs_curve) (samples : nat) : out (list vec) :=
  if Nat.ltb samples 2 then Value_Error
  else
    let knots := n_knots c in
    let degree := n_degree c in
    obind (at_ knots degree) (fun u_start =>
    obind (at_ knots (length knots - (degree + 1))) (fun u_end =>
    collect (fun i =>
      let u := if Nat.eqb i (samples - 1) then u_end
               else u_start + (u_end - u_start) * (INR i / INR (samples - 1)) in
      nurbs_point (n_ctrl c) (n_weights c) knots degree u) (seq 0 samples))).
