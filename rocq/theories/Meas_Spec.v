(** Vocabulary for the statements about measurements: the centre of mass of the body that a mesh
    bounds, told without a preferred origin.  Nothing here refers to Meas_Model. *)
From Coq Require Import Reals List.
From Verif Require Import Xform_Model Solid_Model Solid_Spec.
Import ListNotations.
Open Scope R_scope.

(** Six times the signed volume of the tetrahedron with apex [o] over the triangle [p q r]. *)
Definition tet6 (o p q r : vec) : R :=
  let m (a : vec) := mkv (vx a - vx o) (vy a - vy o) (vz a - vz o) 1 in det3 (m p) (m q) (m r).
(** The mean of a coordinate over the four corners of that tetrahedron: its centre. *)
Definition tet_mean (f : vec -> R) (o p q r : vec) : R := (f o + f p + f q + f r) / 4.
(** [c] is the mean of the centres of the tetrahedra with apex [o] over the triangles, weighted
    with their signed volumes. *)
Definition mean_from (f : vec -> R) (o : vec) (ts : list tri) (c : R) : Prop :=
  Rsum (fun t => let '(p, q, r) := t in tet6 o p q r) ts * c =
  Rsum (fun t => let '(p, q, r) := t in tet6 o p q r * tet_mean f o p q r) ts.
Definition centre_from (o : vec) (ts : list tri) (c : vec) : Prop :=
  mean_from vx o ts (vx c) /\ mean_from vy o ts (vy c) /\ mean_from vz o ts (vz c).
(** Every triangle is seen from [o] from the same side: [o] sees the whole mesh. *)
Definition sees (o : vec) (ts : list tri) : Prop :=
  (forall p q r, In (p, q, r) ts -> 0 <= tet6 o p q r) \/ (forall p q r, In (p, q, r) ts -> tet6 o p q r <= 0).
(** A half-space a x + b y + c z <= d. *)
Definition in_half (a b c d : R) (p : vec) : Prop := a * vx p + b * vy p + c * vz p <= d.
(** the four triangles of a tetrahedron *)
Definition tetrahedron (p q r s : vec) : list tri := [(p, r, q); (p, q, s); (p, s, r); (q, r, s)].
