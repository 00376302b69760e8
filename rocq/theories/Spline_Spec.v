(** Textbook vocabulary for spline curves, independent of the evaluation code. *)
From Coq Require Import Reals List.
From Verif Require Import Xform_Model.
Import ListNotations.
Open Scope R_scope.

(** Every half-space that contains all of [pts] contains [q]: q lies in the
    (closed) convex hull of pts.  Taking the half-spaces x <= d, -x <= d, ...
    this bounds each coordinate by the control coordinates. *)
Definition in_hull (pts : list vec) (q : vec) : Prop :=
  forall a b c d : R,
    (forall p, In p pts -> a * vx p + b * vy p + c * vz p <= d) ->
    a * vx q + b * vy q + c * vz q <= d.

(** The same position in space (the homogeneous coordinate is ignored). *)
Definition same_place (p q : vec) : Prop := vx p = vx q /\ vy p = vy q /\ vz p = vz q.

(** Sum of w(i) * coordinate of the i-th point. *)
Fixpoint weighted (f : vec -> R) (w : nat -> R) (i : nat) (pts : list vec) : R :=
  match pts with
  | [] => 0
  | p :: r => w i * f p + weighted f w (S i) r
  end.
Fixpoint total (w : nat -> R) (n : nat) : R :=
  match n with O => 0 | S m => total w m + w m end.

Definition is_combination (q : vec) (w : nat -> R) (pts : list vec) : Prop :=
  vx q = weighted vx w 0 pts /\ vy q = weighted vy w 0 pts /\ vz q = weighted vz w 0 pts.

(** The Bernstein polynomial of degree n. *)
Definition bernstein (n : nat) (t : R) (i : nat) : R := C n i * t ^ i * (1 - t) ^ (n - i).

(** The Cox-de Boor basis functions for an infinite knot sequence, with 0/0 = 0. *)
Definition frac (a b : R) : R := if Req_EM_T b 0 then 0 else a / b.
Fixpoint cox (k : nat -> R) (i p : nat) (u : R) : R :=
  match p with
  | O => if Rle_dec (k i) u then if Rlt_dec u (k (S i)) then 1 else 0 else 0
  | S q => frac (u - k i) (k (i + p)%nat - k i) * cox k i q u
         + frac (k (S (i + p)) - u) (k (S (i + p)) - k (S i)) * cox k (S i) q u
  end.

(** A clamped knot vector for n control points of degree p: nondecreasing,
    the first p+1 knots equal (and no more), the last p+1 knots equal (and no more). *)
Definition clamped (k : nat -> R) (n p : nat) : Prop :=
  (forall i, (i < n + p)%nat -> k i <= k (S i)) /\
  (forall i, (i <= p)%nat -> k i = k 0%nat) /\
  (forall i, (n <= i <= n + p)%nat -> k i = k n) /\
  k p < k (S p) /\ k (n - 1)%nat < k n.

(** The rational weights of a NURBS curve with the given weights and knots. *)
Definition rational (weights : list R) (k : nat -> R) (n p : nat) (x : R) (i : nat) : R :=
  nth i weights 0 * cox k i p x / total (fun j => nth j weights 0 * cox k j p x) n.

(** Two consecutive control points of a Catmull-Rom curve either coincide or
    are apart: their distance to the power alpha is at least 1e-12. *)
Definition apart (alpha : R) (p q : vec) : Prop :=
  same_place p q \/ 1 / 1000000000000 <= Rpower (dist p q) alpha.

(** Number of spans of a Catmull-Rom curve, its control points (counted
    cyclically, so that a closed curve ends where it began), and the demand that
    neighbours be apart. *)
Definition seg_count (ctrl : list vec) (closed : bool) : nat := if closed then length ctrl else (length ctrl - 1)%nat.
Definition ctl (ctrl : list vec) (i : nat) : vec := nth (i mod length ctrl)%nat ctrl (mkv 0 0 0 1).
Definition all_apart (alpha : R) (ctrl : list vec) (closed : bool) : Prop :=
  forall i, (i < seg_count ctrl closed)%nat -> apart alpha (ctl ctrl i) (ctl ctrl (i + 1)).
