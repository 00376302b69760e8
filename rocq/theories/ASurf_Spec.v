(** What the analytic surfaces are, independently of their parametrization. *)
From Coq Require Import Reals List Bool.
From Verif Require Import Xform_Model ASurf_Model.
Import ListNotations.
Open Scope R_scope.

Definition unit_vec (a : vec) : Prop := dot a a = 1 /\ vw a = 0.
Definition frame (a b : vec) : Prop := unit_vec a /\ unit_vec b /\ dot a b = 0.
(** surfaces with sound data: unit directions, perpendicular references, positive
    radii, angles between 0 and a right angle, points with fourth coordinate 1 *)
Definition sound_surface (s : asurf) : Prop :=
  match s with
  | Plane o n ua va _ _ => vw o = 1 /\ frame n ua /\ va = cross0 n ua
  | Sphere c r _ _ => vw c = 1 /\ 0 < r
  | Cylinder o a ref r _ _ => vw o = 1 /\ frame a ref /\ 0 < r
  | Cone p a ref h _ _ => vw p = 1 /\ frame a ref /\ 0 < h < PI / 2
  | Torus c a ref R0 r _ _ => vw c = 1 /\ frame a ref /\ 0 < r < R0
  | BSpline _ _ _ _ _ _ _ _ _ _ | Tessellated _ _ _ _ _ => False
  end.
(** the surface as a set of points *)
Definition on_surface (s : asurf) (p : vec) : Prop :=
  vw p = 1 /\
  match s with
  | Plane o n _ _ _ _ => dot (sub p o) n = 0
  | Sphere c r _ _ => dist p c = r
  | Cylinder o a _ r _ _ => exists h, let foot := add o (scale3 a h) in dot (sub p foot) a = 0 /\ dist p foot = r
  | Cone q a _ h _ _ => dot (sub p q) a = cos h * dist p q
  | Torus c a _ R0 r _ _ =>
      exists q, vw q = 1 /\ dist q c = R0 /\ dot (sub q c) a = 0 /\ dist p q = r /\ dot (sub p q) (cross a (sub q c)) = 0
  | BSpline _ _ _ _ _ _ _ _ _ _ | Tessellated _ _ _ _ _ => False
  end.
(** the parameters that name points of the surface: distances along a cone are not negative *)
Definition in_domain (s : asurf) (v : R) : Prop :=
  match s with Cone _ _ _ _ _ _ => 0 <= v | _ => True end.
(** the point at (u,v), for surfaces that can be evaluated *)
Definition pt_at (s : asurf) (u v : R) : vec :=
  match evaluate_surface s u v with Ok p => p | _ => point 0 0 0 end.
(** derivative of a curve in space *)
Definition velocity (f : R -> vec) (x : R) (t : vec) : Prop :=
  derivable_pt_lim (fun y => vx (f y)) x (vx t) /\ derivable_pt_lim (fun y => vy (f y)) x (vy t) /\
  derivable_pt_lim (fun y => vz (f y)) x (vz t).
Definition tangents (s : asurf) (u v : R) (tu tv : vec) : Prop :=
  velocity (fun x => pt_at s x v) u tu /\ velocity (fun y => pt_at s u y) v tv.
(** the edges of a triangle, in its direction of travel *)
Definition sides (t : nat * nat * nat) : list (nat * nat) :=
  match t with (a, b, c) => [(a, b); (b, c); (c, a)] end.
(** consecutive elements of a list, and going round it *)
Fixpoint steps (l : list nat) : list (nat * nat) :=
  match l with a :: ((b :: _) as r) => (a, b) :: steps r | _ => [] end.
Definition round (l : list nat) : list (nat * nat) :=
  match l with [] => [] | a :: _ => steps (l ++ [a]) end.
(** knots in order; control points in a box *)
Definition sorted (ks : list R) : Prop := forall i j, (i <= j)%nat -> (j < length ks)%nat -> nth i ks 0 <= nth j ks 0.
Definition all_points (rows : list (list vec)) (P : vec -> Prop) : Prop := Forall (Forall P) rows.
Definition positive (w : list (list R)) : Prop := Forall (Forall (fun x => 0 < x)) w.
(** knots that start (end) with degree + 1 equal values, the others clearly apart *)
Definition clamped_start (ks : list R) (p : nat) : Prop :=
  (p + 1 < length ks)%nat /\ (forall i, (i <= p)%nat -> nth i ks 0 = nth 0 ks 0) /\
  (forall i, (p < i < length ks)%nat -> nth 0 ks 0 + 1 / 1000000000000 < nth i ks 0).
Definition clamped_end (ks : list R) (p : nat) (b : R) : Prop :=
  (p + 1 < length ks)%nat /\ (forall i, (length ks - p - 1 <= i < length ks)%nat -> nth i ks 0 = b) /\
  (forall i, (i < length ks - p - 1)%nat -> nth i ks 0 < b).
(** similarities: an orthonormal frame scaled by k, then a shift; k = 1 gives the rigid motions *)
Definition lin (k : R) (e1 e2 e3 v : vec) : vec :=
  vect (k * (vx v * vx e1 + vy v * vx e2 + vz v * vx e3)) (k * (vx v * vy e1 + vy v * vy e2 + vz v * vy e3))
       (k * (vx v * vz e1 + vy v * vz e2 + vz v * vz e3)).
Definition orthonormal (e1 e2 e3 : vec) : Prop :=
  dot e1 e1 = 1 /\ dot e2 e2 = 1 /\ dot e3 e3 = 1 /\ dot e1 e2 = 0 /\ dot e1 e3 = 0 /\ dot e2 e3 = 0.
Definition similarity (k : R) (f : vec -> vec) : Prop :=
  exists e1 e2 e3 t, orthonormal e1 e2 e3 /\
    forall p, f p = let l := lin k e1 e2 e3 p in point (vx t + vx l) (vy t + vy l) (vz t + vz l).
(** surfaces made by the constructors *)
Definition constructed (s : asurf) : Prop :=
  (exists o n ur vr, plane_surface o n ur vr = Ok s) \/ (exists c r ur vr, sphere_surface c r ur vr = Ok s) \/
  (exists o a r ur vr, cylinder_surface o a r ur vr = Ok s) \/ (exists p a h ur vr, cone_surface p a h ur vr = Ok s) \/
  (exists c a R0 r ur vr, torus_surface c a R0 r ur vr = Ok s).
