(** Vocabulary for the statements about primitive solids. *)
From Coq Require Import Reals List ZArith.
From Verif Require Import Xform_Model Fig_Model Solid_Model Solid_Spec.
Import ListNotations.
Open Scope R_scope.

(** The axis-parallel box of the given size around [c]. *)
Definition box_around (l w h : R) (c : vec) : vec * vec :=
  (point (vx c - l / 2) (vy c - w / 2) (vz c - h / 2), point (vx c + l / 2) (vy c + w / 2) (vz c + h / 2)).
Definition box_corner (l w h : R) (c p : vec) : Prop :=
  Rabs (vx p - vx c) = l / 2 /\ Rabs (vy p - vy c) = w / 2 /\ Rabs (vz p - vz c) = h / 2 /\ vw p = 1.
(** Where a primitive asked for at [c] is put: at [c], except that a centre within
    the tolerance of the origin counts as the origin. *)
Definition placed (c c' : vec) : Prop := ~ near c (point 0 0 0) /\ c' = c \/ near c (point 0 0 0) /\ c' = point 0 0 0.
(** A full turn is cut into [n] parts: the integer nearest 360/a, ties to even. *)
Definition sectors (a : R) (n : nat) : Prop :=
  1 <= a <= 45 /\ (Rabs (INR n - 360 / a) < 1 / 2 \/ Rabs (INR n - 360 / a) = 1 / 2 /\ Nat.Even n).
Definition on_circle (c : vec) (r : R) (p : vec) : Prop :=
  vw p = 1 /\ vz p = vz c /\ (vx p - vx c) * (vx p - vx c) + (vy p - vy c) * (vy p - vy c) = r * r.
Definition above (c : vec) (h : R) : vec := point (vx c) (vy c) (vz c + h).
(** Area of the regular n-gon inscribed in a circle of radius r. *)
Definition polygon_area (n : nat) (r : R) : R := INR n / 2 * r * r * sin (2 * PI / INR n).
(** Volume of a frustum between parallel similar n-gons: (h/3)(A0 + sqrt(A0 A1) + A1). *)
Definition frustum_volume (n : nat) (r0 r1 h : R) : R :=
  h / 3 * (INR n / 2 * sin (2 * PI / INR n)) * (r0 * r0 + r0 * r1 + r1 * r1).
(** Every stored normal is a unit vector leaning away from the vertical axis through [c]. *)
Definition faces_out (c : vec) (vs ns : list vec) : Prop :=
  Forall2 (fun v m => vw m = 0 /\ vx m * vx m + vy m * vy m + vz m * vz m = 1 /\
                      0 < (vx v - vx c) * vx m + (vy v - vy c) * vy m) vs ns.
