(** Vocabulary for the statements about spheres. *)
From Coq Require Import Reals List ZArith.
From Verif Require Import Xform_Model Fig_Model Solid_Model Solid_Spec Prim_Model Sphere_Model.
Import ListNotations.
Open Scope R_scope.

(** Contents the process-wide vertex hash can have: empty, or left behind by any
    sequence of additions to any vertex lists (a list that reuses the address of a
    freed one finds the contents the freed one left). *)
Inductive hash_history : vhash -> Prop :=
| hh_empty : hash_history []
| hh_add nv nn m H i m' H' : hash_history H -> addVertex nv nn m H = (i, m', H') -> hash_history H'.

Definition on_sphere (c : vec) (r : R) (p : vec) : Prop :=
  vw p = 1 /\ (vx p - vx c) * (vx p - vx c) + (vy p - vy c) * (vy p - vy c) + (vz p - vz c) * (vz p - vz c) = r * r.
(** the outer unit normal of the sphere at p *)
Definition sphere_normal (c : vec) (r : R) (p n : vec) : Prop :=
  vx n = (vx p - vx c) / r /\ vy n = (vy p - vy c) / r /\ vz n = (vz p - vz c) / r /\ vw n = 0.
(** the corners run counter-clockwise seen from outside of c *)
Definition outward (c : vec) (t : tri) : Prop :=
  let '(p, q, r) := t in 0 < det3 (sub p c) (sub q c) (sub r c).
Definition on_spheroid (c : vec) (a b : R) (p : vec) : Prop :=
  vw p = 1 /\ (vx p - vx c) * (vx p - vx c) / (a * a) + (vy p - vy c) * (vy p - vy c) / (a * a) + (vz p - vz c) * (vz p - vz c) / (b * b) = 1.
(** a unit vector along the outer normal of the spheroid at p *)
Definition spheroid_normal (c : vec) (a b : R) (p n : vec) : Prop :=
  vw n = 0 /\ vx n * vx n + vy n * vy n + vz n * vz n = 1 /\
  exists k, 0 < k /\ vx n = k * ((vx p - vx c) / (a * a)) /\ vy n = k * ((vy p - vy c) / (a * a)) /\ vz n = k * ((vz p - vz c) / (b * b)).
