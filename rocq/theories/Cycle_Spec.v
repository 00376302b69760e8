(** Cycles in a call graph. *)
From Coq Require Import List.
Import ListNotations.
Section Graph.
  Variable calls : nat -> nat -> Prop.
  (** Each element calls the next one. *)
  Fixpoint walk (l : list nat) : Prop :=
    match l with
    | a :: ((b :: _) as r) => calls a b /\ walk r
    | _ => True
    end.
  (** a -> b -> ... -> a: at least one call, back at the start. *)
  Definition is_cycle (l : list nat) : Prop :=
    walk l /\ exists a m, l = a :: m ++ [a].
  (** some command can reach itself through one or more calls *)
  Definition recursive : Prop := exists l, is_cycle l.
End Graph.
