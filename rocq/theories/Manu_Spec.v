(** Vocabulary for the manufacturing properties. *)
From Coq Require Import String Reals List Bool Permutation Sorted.
From Verif Require Import Xform_Model Path_Model Path_Spec Manu_Model.
Import ListNotations.
Open Scope R_scope.
Open Scope list_scope.

(** the ranges follow one another from a to b without gap or overlap *)
Fixpoint tiles (a : R) (rs : list (R * R)) (b : R) : Prop :=
  match rs with [] => a = b | (x, y) :: r => x = a /\ x <= y /\ tiles y r b end.
(** every segment mates with the segment before it and the one after it, and no other *)
Fixpoint neighbours {S} (before : list string) (l : list (segment S)) : Prop :=
  match l with
  | [] => True
  | s :: r => s_mates s = before ++ (match r with n :: _ => [s_id n] | [] => [] end) /\ neighbours [s_id s] r
  end.
(** which segments of a chain carry a tab, given the side chosen at each cut *)
Fixpoint tabs (carried : bool) (cuts : list cutpoint) : list bool :=
  match cuts with
  | [] => [carried]
  | c :: r => (carried || String.eqb (cp_with c) "a") :: tabs (String.eqb (cp_with c) "b") r
  end.
(** solids as sets of points, cut by exact half spaces *)
Definition exact_split (s : vec -> Prop) (plane : vec * vec) : split_result (vec -> Prop) :=
  SplitOk (fun x => s x /\ dot (psub x (fst plane)) (snd plane) <= 0) (fun x => s x /\ 0 <= dot (psub x (fst plane)) (snd plane)).
(** the same cut point with another connector length *)
Definition same_but_length (c d : cutpoint) : Prop :=
  cp_element c = cp_element d /\ cp_t c = cp_t d /\ cp_clear c = cp_clear d /\ cp_with c = cp_with d.
(** the unit normal of a ring tilted by the angle a (radians) about an axis *)
Definition ring_normal (ax : axis) (a : R) : vec :=
  match ax with AxX => mkv 0 (- sin a) (cos a) 0 | AxY => mkv (sin a) 0 (cos a) 0 | AxZ => mkv 0 0 1 0 end.
(** on the circle about c with the given radius and normal *)
Definition on_ring (c n : vec) (r : R) (q : vec) : Prop := dist q c = r /\ dot n (sub q c) = 0.
(** strictly increasing *)
Fixpoint increasing (a : R) (l : list R) : Prop := match l with [] => True | c :: r => a < c /\ increasing c r end.
