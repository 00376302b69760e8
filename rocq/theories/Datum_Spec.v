(** Rigid motions and what a datum looks like after one. *)
From Coq Require Import Reals List Bool.
From Verif Require Import Xform_Model Datum_Model.
Import ListNotations.
Open Scope R_scope.

(** Points stay points, directions stay directions, and lengths and angles are kept. *)
Definition rigid (m : matrix) : Prop :=
  (forall v, vw (mulMV m v) = vw v) /\ (forall u v, vw u = 0 -> vw v = 0 -> dot (mulMV m u) (mulMV m v) = dot u v).
(** A datum that could be constructed. *)
Definition valid (d : datum) : Prop := exists raw, post_init raw = Some d.
(** It has no vectors besides those of its kind. *)
Definition clean (d : datum) : Prop :=
  match datum_type d with
  | POINT => direction d = None /\ normal d = None /\ x_axis d = None /\ y_axis d = None
  | AXIS => normal d = None /\ x_axis d = None /\ y_axis d = None
  | PLANE | CIRCLE => direction d = None /\ x_axis d = None /\ y_axis d = None
  | FRAME => direction d = None /\ normal d = None
  end.
(** The vectors of its kind. *)
Definition own (d : datum) : list vec :=
  match datum_type d, direction d, normal d, x_axis d, y_axis d with
  | AXIS, Some v, _, _, _ => [v]
  | PLANE, _, Some v, _, _ | CIRCLE, _, Some v, _, _ => [v]
  | FRAME, _, _, Some v, Some w => [v; w]
  | _, _, _, _, _ => []
  end.
(** Two directions point the same way. *)
Definition same_way (u v : vec) : Prop := exists k, 0 < k /\ u = scale4 v k.
