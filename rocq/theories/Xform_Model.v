(** Real-number model of yapcad.geom's vector helpers, of yapcad.xform.Matrix
    and of the matrix-based figure operations.  Floats are modelled by Coq's
    reals (no rounding).  Python lists of four numbers are the record [vec]. *)
From Coq Require Import Reals List Bool ZArith.
Import ListNotations.
Open Scope R_scope.

(** Python exceptions are values. *)
Inductive res (A : Type) : Type :=
| Ok : A -> res A
| ValueError : res A
| AttributeError : res A
| ZeroDivisionError : res A
| NotImplementedError : res A
| TypeError : res A.
Arguments Ok {A} _.
Arguments ValueError {A}.
Arguments AttributeError {A}.
Arguments ZeroDivisionError {A}.
Arguments NotImplementedError {A}.
Arguments TypeError {A}.

Record vec := mkv { vx : R; vy : R; vz : R; vw : R }.

(** geom.py:1604  epsilon=0.000005 *)
Definition epsilon : R := 5 / 1000000.
(** geom.py:1605  pi2 = 2.0*pi *)
Definition pi2 : R := 2 * PI.

(** Boolean comparisons on reals (Python <, <=). *)
Definition Rltb (a b : R) : bool := if Rlt_dec a b then true else false.
Definition Rleb (a b : R) : bool := if Rle_dec a b then true else false.
Definition Reqb (a b : R) : bool := if Req_EM_T a b then true else false.

(** geom.py:1622-1625 close *)
Definition close (a b : R) : bool := Rltb (Rabs (a - b)) epsilon.

(** geom.py:1674-1690 add, sub, scale3, mul: the result always has w = 1.0 *)
Definition add (a b : vec) : vec := mkv (vx a + vx b) (vy a + vy b) (vz a + vz b) 1.
Definition sub (a b : vec) : vec := mkv (vx a - vx b) (vy a - vy b) (vz a - vz b) 1.
Definition scale3 (a : vec) (c : R) : vec := mkv (vx a * c) (vy a * c) (vz a * c) 1.
Definition mul3 (a b : vec) : vec := mkv (vx a * vx b) (vy a * vy b) (vz a * vz b) 1.
(** geom.py:1693-1697 orthoXY *)
Definition orthoXY (a : vec) : vec := mkv (vy a) (- vx a) 0 1.
(** geom.py:1701-1710 cross *)
Definition cross (a b : vec) : vec :=
  mkv (vy a * vz b - vz a * vy b) (vz a * vx b - vx a * vz b) (vx a * vy b - vy a * vx b) 1.
(** geom.py:1713-1730 scale4, mul4 *)
Definition scale4 (a : vec) (c : R) : vec := mkv (vx a * c) (vy a * c) (vz a * c) (vw a * c).
Definition mul4 (a b : vec) : vec := mkv (vx a * vx b) (vy a * vy b) (vz a * vz b) (vw a * vw b).
(** geom.py:1742-1752 dot, mag, dist *)
Definition dot (a b : vec) : R := vx a * vx b + vy a * vy b + vz a * vz b.
Definition mag (a : vec) : R := sqrt (vx a * vx a + vy a * vy a + vz a * vz a).
Definition dist (a b : vec) : R := mag (sub a b).
(** geom.py:1811-1813 dot4 *)
Definition dot4 (a b : vec) : R := vx a * vx b + vy a * vy b + vz a * vz b + vw a * vw b.
(** geom.py:1653-1654 vclose *)
Definition vclose (a b : vec) : bool := close (mag (sub a b)) 0.
(** geom.py:1907-1923 point(x,y,z) for numeric arguments *)
Definition point (x y z : R) : vec := mkv x y z 1.

(** Python's float modulo [x % m] for m > 0: x - m*floor(x/m). *)
Definition pymod (x m : R) : R := x - m * IZR (Int_part (x / m)).

(** xform.py:49-55,83 a Matrix: four rows and the transpose flag. *)
Record rows := mkrows { row0 : vec; row1 : vec; row2 : vec; row3 : vec }.
Record matrix := mkmat { mm : rows; trans : bool }.

Definition vget (v : vec) (j : nat) : R :=
  match j with 0%nat => vx v | 1%nat => vy v | 2%nat => vz v | _ => vw v end.
Definition vset (v : vec) (j : nat) (x : R) : vec :=
  match j with
  | 0%nat => mkv x (vy v) (vz v) (vw v) | 1%nat => mkv (vx v) x (vz v) (vw v)
  | 2%nat => mkv (vx v) (vy v) x (vw v) | _ => mkv (vx v) (vy v) (vz v) x end.
Definition rget (r : rows) (i : nat) : vec :=
  match i with 0%nat => row0 r | 1%nat => row1 r | 2%nat => row2 r | _ => row3 r end.
Definition rset (r : rows) (i : nat) (v : vec) : rows :=
  match i with
  | 0%nat => mkrows v (row1 r) (row2 r) (row3 r) | 1%nat => mkrows (row0 r) v (row2 r) (row3 r)
  | 2%nat => mkrows (row0 r) (row1 r) v (row3 r) | _ => mkrows (row0 r) (row1 r) (row2 r) v end.
Definition rcol (r : rows) (j : nat) : vec :=
  mkv (vget (row0 r) j) (vget (row1 r) j) (vget (row2 r) j) (vget (row3 r) j).
Definition rsetcol (r : rows) (j : nat) (v : vec) : rows :=
  mkrows (vset (row0 r) j (vx v)) (vset (row1 r) j (vy v))
         (vset (row2 r) j (vz v)) (vset (row3 r) j (vw v)).

(** xform.py:50-53 Matrix() *)
Definition ident_rows : rows :=
  mkrows (mkv 1 0 0 0) (mkv 0 1 0 0) (mkv 0 0 1 0) (mkv 0 0 0 1).
Definition Matrix0 : matrix := mkmat ident_rows false.

(** xform.py:90-97 get; the index check is [i < 4, j < 4] (indices are nat here). *)
Definition get (m : matrix) (i j : nat) : res R :=
  if (Nat.ltb 3 i || Nat.ltb 3 j)%bool then ValueError
  else Ok (if trans m then vget (rget (mm m) j) i else vget (rget (mm m) i) j).
(** xform.py:99-110 set (the value is a number) *)
Definition set (m : matrix) (i j : nat) (x : R) : res matrix :=
  if (Nat.ltb 3 i || Nat.ltb 3 j)%bool then ValueError
  else Ok (if trans m then mkmat (rset (mm m) j (vset (rget (mm m) j) i x)) true
           else mkmat (rset (mm m) i (vset (rget (mm m) i) j x)) false).
(** xform.py:112-132 getrow, getcol (value level; aliasing is in Alias_Model) *)
Definition getrow (m : matrix) (i : nat) : vec :=
  if trans m then rcol (mm m) i else rget (mm m) i.
Definition getcol (m : matrix) (j : nat) : vec :=
  if trans m then rget (mm m) j else rcol (mm m) j.
(** xform.py:134-158 setrow, setcol *)
Definition setrow (m : matrix) (i : nat) (v : vec) : matrix :=
  if trans m then mkmat (rsetcol (mm m) i v) true else mkmat (rset (mm m) i v) false.
Definition setcol (m : matrix) (j : nat) (v : vec) : matrix :=
  if trans m then mkmat (rset (mm m) j v) true else mkmat (rsetcol (mm m) j v) false.

(** xform.py:171-193 mul: matrix-matrix.  The double loop with result.set on a
    fresh (untransposed) Matrix fills entry i,j with row i . column j. *)
Definition mulMM (a b : matrix) : matrix :=
  let e i j := dot4 (getrow a i) (getcol b j) in
  let r i := mkv (e i 0%nat) (e i 1%nat) (e i 2%nat) (e i 3%nat) in
  mkmat (mkrows (r 0%nat) (r 1%nat) (r 2%nat) (r 3%nat)) false.
(** xform.py:185-189 mul: matrix-vector *)
Definition mulMV (a : matrix) (v : vec) : vec :=
  mkv (dot4 (getrow a 0) v) (dot4 (getrow a 1) v) (dot4 (getrow a 2) v) (dot4 (getrow a 3) v).
(** xform.py:190-194 mul: scalar *)
Definition mulMS (a : matrix) (c : R) : matrix :=
  let r i := scale4 (getrow a i) c in
  mkmat (mkrows (r 0%nat) (r 1%nat) (r 2%nat) (r 3%nat)) false.

(** xform.py:200-241 Rotation(axis,angle,inverse).  Line 206 evaluates
    [geom.geom.scale3], and module yapcad.geom has no attribute [geom]: any axis
    that is not of unit length within epsilon raises AttributeError. *)
Definition rot_rows (u : vec) (c s : R) : rows :=
  let ux := vx u in let uy := vy u in let uz := vz u in
  let cm := 1 - c in
  mkrows (mkv (c + ux*ux*cm) (ux*uy*cm - uz*s) (ux*uz*cm + uy*s) 0)
         (mkv (uy*ux*cm + uz*s) (c + uy*uy*cm) (uy*uz*cm - ux*s) 0)
         (mkv (uz*ux*cm - uy*s) (uz*uy*cm + ux*s) (c + uz*uz*cm) 0)
         (mkv 0 0 0 1).
Definition Rotation (axis : vec) (angle : R) (inverse : bool) : res matrix :=
  let m := mag axis in
  if Rltb m epsilon then ValueError
  else if negb (close m 1) then AttributeError
  else
    let angle := if inverse then angle * -1 else angle in
    let rad := pymod angle 360 * pi2 / 360 in
    Ok (mkmat (rot_rows axis (cos rad) (sin rad)) false).

(** xform.py:243-252 Translation *)
Definition Translation (delta : vec) (inverse : bool) : matrix :=
  let d := if inverse then scale3 delta (-1) else delta in
  mkmat (mkrows (mkv 1 0 0 (vx d)) (mkv 0 1 0 (vy d)) (mkv 0 0 1 (vz d)) (mkv 0 0 0 1)) false.

(** xform.py:254-277 Scale(x,y,z).  [None] stands for Python's False (argument
    not given); unless both y and z are given, x is used for all axes. *)
Definition Scale (x : R) (y z : option R) (inverse : bool) : res matrix :=
  let '(sx, sy, sz) := match y, z with
                       | Some y, Some z => (x, y, z)
                       | _, _ => (x, x, x)
                       end in
  let m a b c := mkmat (mkrows (mkv a 0 0 0) (mkv 0 b 0 0) (mkv 0 0 c 0) (mkv 0 0 0 1)) false in
  if inverse then
    if (Reqb sx 0 || Reqb sy 0 || Reqb sz 0)%bool then ZeroDivisionError
    else Ok (m (1 / sx) (1 / sy) (1 / sz))
  else Ok (m sx sy sz).

(** geom.py:4107-4110 translate, on a point *)
Definition translate_pt (x delta : vec) : vec := add x delta.

(** geom.py:4130-4146 scale, on a point.  [sy == False] in Python also holds
    for the number 0. *)
Definition isFalse (o : option R) : bool :=
  match o with None => true | Some r => Reqb r 0 end.
Definition scale_args (sx : R) (sy sz : option R) : option R * option R :=
  if (isFalse sy && isFalse sz)%bool then (Some sx, Some sx) else (sy, sz).
(** Python number value of an argument: False counts as 0 (only used inside
    [point(sx,sy,sz)], which ignores it and stops at the first non-number). *)
Definition scale_as_point (sx : R) (sy sz : option R) : vec :=
  match sy with
  | None => point sx 0 0
  | Some y => match sz with None => point sx y 0 | Some z => point sx y z end
  end.
(** geom.py:4134-4143: the matrix used by scale; [None] means "return a copy". *)
Definition scale_matrix (sx : R) (sy0 sz0 : option R) (cent : vec) : option (res matrix) :=
  let '(sy, sz) := scale_args sx sy0 sz0 in
  if vclose (scale_as_point sx sy sz) (point 1 1 1) then None
  else Some
    match Scale sx sy sz false with
    | Ok sm =>
        if vclose cent (point 0 0 0) then Ok sm
        else Ok (mulMM (mulMM (Translation cent true) sm) (Translation cent false))
    | e => e
    end.
Definition scale_pt (x : vec) (sx : R) (sy sz : option R) (cent : vec) : res vec :=
  match scale_matrix sx sy sz cent with
  | None => Ok x
  | Some (Ok m) => Ok (mulMV m x)
  | Some ValueError => ValueError
  | Some AttributeError => AttributeError
  | Some ZeroDivisionError => ZeroDivisionError
  | Some NotImplementedError => NotImplementedError
  | Some TypeError => TypeError
  end.

(** geom.py:4206-4222 rotate: the matrix, and its action on a point. *)
Definition rotate_pt (x : vec) (ang : R) (cent axis : vec) : res vec :=
  if close ang 0 then Ok x
  else match Rotation axis ang false with
       | Ok r =>
           let m := if vclose cent (point 0 0 0) then r
                    else mulMM (mulMM (Translation cent false) r) (Translation cent true) in
           Ok (mulMV m x)
       | ValueError => ValueError
       | AttributeError => AttributeError
       | ZeroDivisionError => ZeroDivisionError
       | NotImplementedError => NotImplementedError
       | TypeError => TypeError
       end.

(** geom.py:4248-4270 mirror, on a vector; the three legal planes. *)
Inductive plane := XZ | YZ | XY.
Definition flip (p : plane) : vec :=
  match p with XZ => mkv 1 (-1) 1 1 | YZ => mkv (-1) 1 1 1 | XY => mkv 1 1 (-1) 1 end.
Definition mirror_pt (x : vec) (p : plane) : vec := mul4 x (flip p).
