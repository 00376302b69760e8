(** Distances to points, lines and planes; allowed positions. *)
From Coq Require Import Reals List Bool.
From Verif Require Import Xform_Model Datum_Model Constr_Spec Mate_Model.
Import ListNotations.
Open Scope R_scope.

(** [e] is the distance from [p] to the nearest point of the set [S]. *)
Definition nearest (S : vec -> Prop) (p : vec) (e : R) : Prop := (exists q, S q /\ dist p q = e) /\ forall q, S q -> e <= dist p q.
Definition plane_of (p0 n q : vec) : Prop := vx n * (vx q - vx p0) + vy n * (vy q - vy p0) + vz n * (vz q - vz p0) = 0.
Definition line_through (p0 w q : vec) : Prop := exists s, vx q = vx p0 + s * vx w /\ vy q = vy p0 + s * vy w /\ vz q = vz p0 + s * vz w.
(** The lines along [u] and [v] are within [tol] degrees of each other, whichever way they point. *)
Definition aligned (u v : vec) (tol : R) : Prop := exists t, angle u v t /\ (t <= tol \/ 180 - t <= tol).
(** A position respects optional bounds. *)
Definition within (lo hi : option R) (x : R) : Prop := (forall l, lo = Some l -> l <= x) /\ (forall h, hi = Some h -> x <= h).

(** Which limit a measured position, velocity or effort breaks. *)
Definition broken (l : limits) (pos vel eff : option R) (v : violation) : Prop :=
  match v with
  | Vmin_value => exists x b, pos = Some x /\ min_value l = Some b /\ x < b
  | Vmax_value => exists x b, pos = Some x /\ max_value l = Some b /\ b < x
  | Vmin_velocity => exists x b, vel = Some x /\ min_velocity l = Some b /\ x < b
  | Vmax_velocity => exists x b, vel = Some x /\ max_velocity l = Some b /\ b < Rabs x
  | Vmin_effort => exists x b, eff = Some x /\ min_effort l = Some b /\ x < b
  | Vmax_effort => exists x b, eff = Some x /\ max_effort l = Some b /\ b < Rabs x
  end.
(** The points of a datum that has points: a point, the plane through it, or the line along it. *)
Definition points (d : datum) (q : vec) : Prop :=
  match datum_type d with
  | PLANE => exists n, normal d = Some n /\ plane_of (origin d) n q
  | AXIS => exists w, direction d = Some w /\ line_through (origin d) w q
  | _ => vx q = vx (origin d) /\ vy q = vy (origin d) /\ vz q = vz (origin d)
  end.
(** Its direction, when it has one. *)
Definition heading (d : datum) (v : vec) : Prop :=
  match datum_type d with AXIS => direction d = Some v | PLANE | CIRCLE => normal d = Some v | _ => False end.
(** Two datums whose coincidence is the distance of the second's origin from the first's points. *)
Definition same_kind (a b : datum) : Prop := datum_type a = datum_type b \/ (datum_type a = PLANE /\ datum_type b = POINT).
(** The [i]-th of [n] holes evenly spaced on a circle in the plane spanned by [u], [v], turned by [off] degrees. *)
Definition nth_hole (c : vec) (r : R) (u v : vec) (n : nat) (off : R) (i : nat) : vec :=
  let t := (INR i * 360 / INR n + off) * PI / 180 in
  mkv (vx c + r * (cos t * vx u + sin t * vx v)) (vy c + r * (cos t * vy u + sin t * vy v)) (vz c + r * (cos t * vz u + sin t * vz v)) 1.
