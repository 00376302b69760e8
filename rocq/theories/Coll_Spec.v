(** What a registry of interfaces holds, and what it means for interfaces to meet. *)
From Coq Require Import Reals String List Bool.
From Verif Require Import Coll_Model.
Import ListNotations.
Open Scope R_scope.
Open Scope list_scope.

(** The interfaces registered after a history, in order of registration. *)
Definition named (H : heap) (n : string) (o : nat) : bool := String.eqb (name (H o)) n.
Fixpoint add_all (H : heap) (os : list nat) (l : list nat) : list nat :=
  match os with [] => l | o :: os => if existsb (named H (name (H o))) l then l else add_all H os (l ++ [o]) end.
Definition effect (H : heap) (l : list nat) (x : op) : list nat :=
  match x with
  | Register o => if existsb (named H (name (H o))) l then l else l ++ [o]
  | RegisterMany os => add_all H os l
  | Unregister n => filter (fun o => negb (named H n o)) l
  | Clear => []
  | SetPart _ _ => l
  end.
Definition registered (H : heap) (xs : list op) : list nat := fold_left (effect H) xs [].
Definition no_mutation (xs : list op) : Prop := forall o p, ~ In (SetPart o p) xs.

(** A point of the bounding cylinder with axis direction [a] (of unit length). *)
Definition in_cylinder (c a : vec) (r h : R) (q : vec) : Prop :=
  Rabs (dot (sub q c) a) <= h / 2 /\ norm (sub (sub q c) (scale (dot (sub q c) a) a)) <= r.
Definition opposite (a : vec) : vec := scale (-1) a.
(** The two interfaces belong to different parts, meet, and fit; or meet and do not fit. *)
Section Verdict.
  Variables (user : iface -> iface -> bool) (H : heap) (l : list nat) (pa pb : string).
  Definition meet (a b : nat) : Prop :=
    In a l /\ In b l /\ part_name (H a) = pa /\ part_name (H b) = pb /\ overlaps (1 / 10) (H a) (H b) = true.
  Definition fits : Prop :=
    (exists a b, meet a b /\ compatible user (H a) (H b) = true) /\ (forall a b, meet a b -> compatible user (H a) (H b) = true).
End Verdict.
