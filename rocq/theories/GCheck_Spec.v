(** Vocabulary for the geometry checks. *)
From Coq Require Import Reals ZArith List Bool.
From Verif Require Import Xform_Model Mesh_Model Mesh_Spec GCheck_Model.
Import ListNotations.
Open Scope list_scope.

(** The sides of a face, from corner to corner; a face that is no triangle counts for nothing. *)
Definition sides (face : list Z) : list (Z * Z) := match face with [a; b; c] => [(a, b); (b, c); (c, a)] | _ => [] end.
(** How many sides of faces join x and y, in whatever direction. *)
Inductive joined (x y : Z) : list (Z * Z) -> nat -> Prop :=
| J_nil : joined x y [] 0
| J_same l n : joined x y l n -> joined x y ((x, y) :: l) (S n)
| J_back l n : x <> y -> joined x y l n -> joined x y ((y, x) :: l) (S n)
| J_other e l n : e <> (x, y) -> e <> (y, x) -> joined x y l n -> joined x y (e :: l) n.
Definition used (fs : list (list Z)) (x y : Z) (n : nat) : Prop := joined x y (flat_map sides fs) n.
(** The n-th face is a triangle, of more than tolerance area, with these corners. *)
Definition proper (s : surface) (i : nat) (t : vec * vec * vec) : Prop :=
  exists f, nth_error (faces s) i = Some f /\ corners (vertices s) f = Some t /\ (epsilon < twice_area (fst (fst t)) (snd (fst t)) (snd t))%R.
Definition first_proper (s : surface) (i : nat) (t : vec * vec * vec) : Prop := proper s i t /\ forall j t', proper s j t' -> (i <= j)%nat.
(** Face i, which comes later, looks away from the first proper face. *)
Definition looks_away (s : surface) (i : nat) : Prop :=
  exists i0 t0 t n0 n, first_proper s i0 t0 /\ (i0 < i)%nat /\ proper s i t /\
    outward n0 (fst (fst t0)) (snd (fst t0)) (snd t0) /\ outward n (fst (fst t)) (snd (fst t)) (snd t) /\ (dot n0 n < - epsilon)%R.
(** Every triangle has corners. *)
Definition indexed (s : surface) : Prop := forall f i, In f (faces s) -> length f = 3%nat -> In i f -> index (vertices s) i <> None.
