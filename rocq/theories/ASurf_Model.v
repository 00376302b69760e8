(** Real-number model of yapcad.analytic_surfaces and of the surface part of
    yapcad.native_brep's transformations.  A surface dictionary is a record; the
    lists given to the constructors have at least three numbers.  Directions have
    fourth coordinate 0, points 1. *)
From Coq Require Import Reals List Bool ZArith.
From Verif Require Import Xform_Model Fig_Model.
Import ListNotations.
Open Scope R_scope.

Inductive asurf :=
| Plane (origin normal u_axis v_axis : vec) (ur vr : R * R)
| Sphere (center : vec) (radius : R) (ur vr : R * R)
| Cylinder (origin axis ref : vec) (radius : R) (ur vr : R * R)
| Cone (apex axis ref : vec) (half_angle : R) (ur vr : R * R)
| Torus (center axis ref : vec) (major minor : R) (ur vr : R * R)
| BSpline (cps : list (list vec)) (u_knots v_knots : list R) (u_degree v_degree : nat)
    (weights : list (list R)) (n_u n_v : nat) (ur vr : R * R)
| Tessellated (verts normals : list vec) (faces : list (Z * Z * Z)) (ur vr : R * R).

Definition vect (x y z : R) : vec := mkv x y z 0.
Definition over (a : vec) (m : R) : vec := vect (vx a / m) (vy a / m) (vz a / m).
(** analytic_surfaces.py:59-63, 269-273, 412-416, 562-566 the given direction, normalized *)
Definition direction (a : vec) : res vec :=
  if Rltb (mag a) epsilon then ValueError else Ok (over a (mag a)).
(** analytic_surfaces.py:65-72, 278-284, 421-427, 573-579 a unit vector perpendicular to it *)
Definition reference (a : vec) : vec :=
  let r := if Rltb (Rabs (vz a)) (9 / 10) then vect (vy a) (- vx a) 0 else vect 0 (vz a) (- vy a) in
  over r (mag r).
Definition as_point (p : vec) : vec := point (vx p) (vy p) (vz p).
Definition cross0 (a b : vec) : vec :=
  vect (vy a * vz b - vz a * vy b) (vz a * vx b - vx a * vz b) (vx a * vy b - vy a * vx b).

(** analytic_surfaces.py:35-91 *)
Definition plane_surface (origin normal : vec) (ur vr : R * R) : res asurf :=
  bind (direction normal) (fun n =>
    let u := reference n in Ok (Plane (as_point origin) n u (cross0 n u) ur vr)).
(** analytic_surfaces.py:144-181 *)
Definition sphere_surface (center : vec) (radius : R) (ur vr : R * R) : res asurf :=
  if Rleb radius 0 then ValueError else Ok (Sphere (as_point center) radius ur vr).
(** analytic_surfaces.py:239-296 *)
Definition cylinder_surface (origin axis : vec) (radius : R) (ur vr : R * R) : res asurf :=
  bind (direction axis) (fun a =>
    if Rleb radius 0 then ValueError else Ok (Cylinder (as_point origin) a (reference a) radius ur vr)).
(** analytic_surfaces.py:381-438 *)
Definition cone_surface (apex axis : vec) (half_angle : R) (ur vr : R * R) : res asurf :=
  bind (direction axis) (fun a =>
    if Rleb half_angle 0 || Rleb (PI / 2) half_angle then ValueError
    else Ok (Cone (as_point apex) a (reference a) half_angle ur vr)).
(** analytic_surfaces.py:528-590 *)
Definition torus_surface (center axis : vec) (major minor : R) (ur vr : R * R) : res asurf :=
  bind (direction axis) (fun a =>
    if Rleb major 0 || Rleb minor 0 then ValueError
    else if Rleb major minor then ValueError
    else Ok (Torus (as_point center) a (reference a) major minor ur vr)).
(** analytic_surfaces.py:691-779; weights given as rows, [None] for the default.
    (A missing weight raises IndexError, written TypeError.) *)
Definition rect (n_u : nat) (rows : list (list vec)) : bool := forallb (fun r => Nat.eqb (length r) n_u) rows.
Definition bspline_surface (cps : list (list vec)) (u_knots v_knots : list R) (p q : nat)
    (weights : option (list (list R))) (ur vr : option (R * R)) : res asurf :=
  let n_v := length cps in
  let n_u := length (hd [] cps) in
  if Nat.ltb n_v 2 || Nat.ltb n_u 2 || negb (rect n_u cps) then ValueError
  else if negb (Nat.eqb (length u_knots) (n_u + p + 1)) then ValueError
  else if negb (Nat.eqb (length v_knots) (n_v + q + 1)) then ValueError
  else
    let ur := match ur with Some x => x | None => (nth p u_knots 0, nth n_u u_knots 0) end in
    let vr := match vr with Some x => x | None => (nth q v_knots 0, nth n_v v_knots 0) end in
    match weights with
    | None => Ok (BSpline (map (map as_point) cps) u_knots v_knots p q (repeat (repeat 1 n_u) n_v) n_u n_v ur vr)
    | Some w =>
        if Nat.ltb (length w) n_v || existsb (fun r => Nat.ltb (length r) n_u) (firstn n_v w) then TypeError
        else Ok (BSpline (map (map as_point) cps) u_knots v_knots p q (map (firstn n_u) (firstn n_v w)) n_u n_v ur vr)
    end.

(** analytic_surfaces.py:331-342 etc.: ref cos u + (axis x ref) sin u *)
Definition around (axis ref : vec) (u : R) : vec :=
  let c := cross0 axis ref in
  vect (vx ref * cos u + vx c * sin u) (vy ref * cos u + vy c * sin u) (vz ref * cos u + vz c * sin u).

(** analytic_surfaces.py:789-828 _bspline_basis *)
Fixpoint basis (knots : list R) (p i : nat) (u : R) : R :=
  match p with
  | O =>
      if Rleb (nth i knots 0) u && Rltb u (nth (i + 1) knots 0) then 1
      else if Nat.eqb (i + 1) (length knots - 1) && Reqb u (nth (i + 1) knots 0) then 1
      else 0
  | S q =>
      let d1 := nth (i + p) knots 0 - nth i knots 0 in
      let n1 := if Rltb (1 / 1000000000000) d1 then (u - nth i knots 0) / d1 * basis knots q i u else 0 in
      let d2 := nth (i + p + 1) knots 0 - nth (i + 1) knots 0 in
      let n2 := if Rltb (1 / 1000000000000) d2 then (nth (i + p + 1) knots 0 - u) / d2 * basis knots q (i + 1) u else 0 in
      n1 + n2
  end.
(** analytic_surfaces.py:860-878 the loops; the accumulator is (x, y, z, w_sum) as a [vec] *)
Definition at2 {A} (d : A) (rows : list (list A)) (j i : nat) : A := nth i (nth j rows []) d.
Definition term (cps : list (list vec)) (w : list (list R)) (nv nu : R) (j i : nat) (acc : vec) : vec :=
  let b := nu * nv * at2 0 w j i in
  let c := at2 (point 0 0 0) cps j i in
  mkv (vx acc + b * vx c) (vy acc + b * vy c) (vz acc + b * vz c) (vw acc + b).
Definition inner (cps : list (list vec)) (w : list (list R)) (uk : list R) (p : nat) (u nv : R) (j : nat) (is : list nat) (acc : vec) : vec :=
  fold_left (fun acc i => let nu := basis uk p i u in if Reqb nu 0 then acc else term cps w nv nu j i acc) is acc.
Definition outer (cps : list (list vec)) (w : list (list R)) (uk vk : list R) (p q n_u : nat) (u v : R) (js : list nat) (acc : vec) : vec :=
  fold_left (fun acc j => let nv := basis vk q j v in if Reqb nv 0 then acc else inner cps w uk p u nv j (seq 0 n_u) acc) js acc.
(** analytic_surfaces.py:831-882 *)
Definition evaluate_bspline (cps : list (list vec)) (uk vk : list R) (p q : nat) (w : list (list R)) (n_u n_v : nat) (u v : R) : vec :=
  let s := outer cps w uk vk p q n_u u v (seq 0 n_v) (mkv 0 0 0 0) in
  if Rltb (vw s) (1 / 1000000000000) then as_point (at2 (point 0 0 0) cps 0 0)
  else point (vx s / vw s) (vy s / vw s) (vz s / vw s).

(** analytic_surfaces.py:984-1019: bounds of the vertices, u and v mapped to x and y *)
Definition bound (f : R -> R -> R) (xs : list R) : R := match xs with [] => 0 | x :: r => fold_left f r x end.
Definition evaluate_tessellated (vs : list vec) (ur vr : R * R) (u v : R) : res vec :=
  match vs with
  | [] => ValueError
  | _ =>
      let lo f := bound Rmin (map f vs) in
      let hi f := bound Rmax (map f vs) in
      let t (x : R) (r : R * R) := if Reqb (snd r) (fst r) then 1 / 2 else (x - fst r) / (snd r - fst r) in
      Ok (point (lo vx + t u ur * (hi vx - lo vx)) (lo vy + t v vr * (hi vy - lo vy)) ((lo vz + hi vz) / 2))
  end.

(** analytic_surfaces.py:100-127, 190-219, 305-347, 447-490, 600-650 and the
    dispatcher 1061-1081 *)
Definition evaluate_surface (s : asurf) (u v : R) : res vec :=
  match s with
  | Plane o _ ua va _ _ =>
      Ok (point (vx o + u * vx ua + v * vx va) (vy o + u * vy ua + v * vy va) (vz o + u * vz ua + v * vz va))
  | Sphere c r _ _ =>
      Ok (point (vx c + r * cos v * cos u) (vy c + r * cos v * sin u) (vz c + r * sin v))
  | Cylinder o a ref r _ _ =>
      let d := around a ref u in
      Ok (point (vx o + v * vx a + r * vx d) (vy o + v * vy a + r * vy d) (vz o + v * vz a + r * vz d))
  | Cone p a ref h _ _ =>
      let d := around a ref u in
      Ok (point (vx p + v * (cos h * vx a + sin h * vx d)) (vy p + v * (cos h * vy a + sin h * vy d))
                (vz p + v * (cos h * vz a + sin h * vz d)))
  | Torus c a ref R0 r _ _ =>
      let d := around a ref u in
      let f := R0 + r * cos v in
      Ok (point (vx c + f * vx d + r * sin v * vx a) (vy c + f * vy d + r * sin v * vy a) (vz c + f * vz d + r * sin v * vz a))
  | BSpline cps uk vk p q w n_u n_v _ _ => Ok (evaluate_bspline cps uk vk p q w n_u n_v u v)
  | Tessellated vs _ _ ur vr => evaluate_tessellated vs ur vr u v
  end.

(** analytic_surfaces.py:885-920 the finite-difference normal (delta = 1e-6) *)
Definition unit_or_up (n : vec) : vec :=
  if Rltb (mag n) (1 / 1000000000000) then vect 0 0 1 else over n (mag n).
Definition bspline_normal (eval : R -> R -> vec) (ur vr : R * R) (u v : R) : res vec :=
  let du := Rmin (1 / 1000000) ((snd ur - fst ur) * (1 / 100)) in
  let dv := Rmin (1 / 1000000) ((snd vr - fst vr) * (1 / 100)) in
  let p0 := eval u v in
  let pu := eval (Rmin (u + du) (snd ur)) v in
  let pv := eval u (Rmin (v + dv) (snd vr)) in
  if Reqb du 0 || Reqb dv 0 then ZeroDivisionError
  else
    let tu := over (sub pu p0) du in
    let tv := over (sub pv p0) dv in
    Ok (unit_or_up (cross0 tu tv)).
(** analytic_surfaces.py:1022-1050 the average of the stored normals *)
Definition tessellated_normal (ns : list vec) : vec :=
  match ns with
  | [] => vect 0 0 1
  | _ => unit_or_up (fold_left (fun a n => vect (vx a + vx n) (vy a + vy n) (vz a + vz n)) ns (vect 0 0 0))
  end.
(** analytic_surfaces.py:130-137, 222-232, 350-374, 493-521, 653-684 and 1084-1104 *)
Definition surface_normal (s : asurf) (u v : R) : res vec :=
  match s with
  | Plane _ n _ _ _ _ => Ok n
  | Sphere _ _ _ _ => Ok (vect (cos v * cos u) (cos v * sin u) (sin v))
  | Cylinder _ a ref _ _ _ => Ok (around a ref u)
  | Cone _ a ref h _ _ =>
      let d := around a ref u in
      Ok (vect (sin h * vx a - cos h * vx d) (sin h * vy a - cos h * vy d) (sin h * vz a - cos h * vz d))
  | Torus _ a ref _ _ _ _ =>
      let d := around a ref u in
      Ok (vect (cos v * vx d + sin v * vx a) (cos v * vy d + sin v * vy a) (cos v * vz d + sin v * vz a))
  | BSpline cps uk vk p q w n_u n_v ur vr => bspline_normal (evaluate_bspline cps uk vk p q w n_u n_v) ur vr u v
  | Tessellated _ ns _ _ _ => Ok (tessellated_normal ns)
  end.

(** analytic_surfaces.py:1107-1182 tessellate_surface of a parametric surface:
    (vertices, normals, triangles, boundary), the holes being empty.  A division
    count of 0 divides by zero. *)
Definition ranges (s : asurf) : (R * R) * (R * R) :=
  match s with
  | Plane _ _ _ _ ur vr | Sphere _ _ ur vr | Cylinder _ _ _ _ ur vr | Cone _ _ _ _ ur vr
  | Torus _ _ _ _ _ ur vr | BSpline _ _ _ _ _ _ _ _ ur vr | Tessellated _ _ _ ur vr => (ur, vr)
  end.
Definition grid_at (r : R * R) (n i : nat) : R := fst r + (snd r - fst r) * INR i / INR n.
Fixpoint all {A} (xs : list (res A)) : res (list A) :=
  match xs with
  | [] => Ok []
  | x :: r => bind x (fun a => bind (all r) (fun l => Ok (a :: l)))
  end.
Definition grid (nu nv : nat) : list (nat * nat) :=
  flat_map (fun j => map (fun i => (i, j)) (seq 0 (nu + 1))) (seq 0 (nv + 1)).
Definition tile (nu : nat) (i j : nat) : list (nat * nat * nat) :=
  let i00 := (j * (nu + 1) + i)%nat in
  let i10 := (i00 + 1)%nat in
  let i01 := (i00 + (nu + 1))%nat in
  let i11 := (i01 + 1)%nat in
  [(i00, i10, i11); (i00, i11, i01)].
Definition tiles (nu nv : nat) : list (nat * nat * nat) :=
  flat_map (fun j => flat_map (fun i => tile nu i j) (seq 0 nu)) (seq 0 nv).
Definition rim (nu nv : nat) : list nat :=
  seq 0 (nu + 1) ++ map (fun j => (j * (nu + 1) + nu)%nat) (seq 1 nv)
  ++ map (fun i => (nv * (nu + 1) + i)%nat) (rev (seq 0 nu))
  ++ map (fun j => (j * (nu + 1))%nat) (rev (seq 1 (nv - 1))).
Record mesh := mkmesh { m_verts : list vec; m_norms : list vec; m_tris : list (nat * nat * nat); m_rim : list nat }.
Definition tessellate (s : asurf) (nu nv : nat) : res mesh :=
  match nu, nv with
  | O, _ | _, O => ZeroDivisionError
  | _, _ =>
      let (ur, vr) := ranges s in
      let at_ f := all (map (fun ij => f s (grid_at ur nu (fst ij)) (grid_at vr nv (snd ij))) (grid nu nv)) in
      bind (at_ evaluate_surface) (fun vs => bind (at_ surface_normal) (fun ns =>
        Ok (mkmesh vs ns (tiles nu nv) (rim nu nv))))
  end.

(** native_brep.py:2424-2449 _transform_point, _transform_vector *)
Definition transform_point (f : vec -> vec) (p : vec) : vec := as_point (f p).
Definition transform_vector (f : vec -> vec) (v : vec) : vec :=
  let e := f (as_point v) in
  let o := f (point 0 0 0) in
  let r := vect (vx e - vx o) (vy e - vy o) (vz e - vz o) in
  if Rltb epsilon (mag r) then over r (mag r) else r.
(** native_brep.py:2500-2545 _transform_surface_inplace *)
Definition transform_surface (f : vec -> vec) (s : asurf) : asurf :=
  match s with
  | Plane o n ua va ur vr =>
      Plane (transform_point f o) (transform_vector f n) (transform_vector f ua) (transform_vector f va) ur vr
  | Sphere c r ur vr => Sphere (transform_point f c) r ur vr
  | Cylinder o a ref r ur vr => Cylinder (transform_point f o) (transform_vector f a) ref r ur vr
  | Cone p a ref h ur vr => Cone (transform_point f p) (transform_vector f a) ref h ur vr
  | Torus c a ref R0 r ur vr => Torus (transform_point f c) (transform_vector f a) ref R0 r ur vr
  | BSpline cps uk vk p q w n_u n_v ur vr => BSpline (map (map (transform_point f)) cps) uk vk p q w n_u n_v ur vr
  | Tessellated vs ns fs ur vr => Tessellated (map (transform_point f) vs) (map (transform_vector f) ns) fs ur vr
  end.
(** native_brep.py:2649-2665 the radii in scale_native_brep *)
Definition scale_radii (k : R) (s : asurf) : asurf :=
  match s with
  | Sphere c r ur vr => Sphere c (r * k) ur vr
  | Cylinder o a ref r ur vr => Cylinder o a ref (r * k) ur vr
  | Torus c a ref R0 r ur vr => Torus c a ref (R0 * k) (r * k) ur vr
  | _ => s
  end.
(** native_brep.py:1980-2144 _deserialize_surface (_serialize_surface s): the
    surface rebuilt by its constructor from what was stored *)
Definition reload (s : asurf) : res asurf :=
  match s with
  | Plane o n _ _ ur vr => plane_surface o n ur vr
  | Sphere c r ur vr => sphere_surface c r ur vr
  | Cylinder o a _ r ur vr => cylinder_surface o a r ur vr
  | Cone p a _ h ur vr => cone_surface p a h ur vr
  | Torus c a _ R0 r ur vr => torus_surface c a R0 r ur vr
  | BSpline cps uk vk p q w _ _ ur vr => bspline_surface cps uk vk p q (Some w) (Some ur) (Some vr)
  | Tessellated vs ns fs ur vr => Ok (Tessellated (map as_point vs) (map (fun n => vect (vx n) (vy n) (vz n)) ns) fs ur vr)
  end.
