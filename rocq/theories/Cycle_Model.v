(** Model of the recursion check: src/yapcad/dsl/checker.py:871-936 _check_recursion.
    Command names are [nat]s (only compared).  Python sets iterate in no particular
    order: the command names are a list [roots] in any order and the callees of each
    command a list [g n] in any order; the theorems hold for all of them.
    Warnings are reduced to the cycles they name (spans and texts dropped). *)
From Coq Require Import List Arith Bool.
Import ListNotations.

Definition mem (x : nat) (l : list nat) : bool := existsb (Nat.eqb x) l.
(** list.index (None: ValueError), path[i:]. *)
Fixpoint index (x : nat) (l : list nat) : option nat :=
  match l with
  | [] => None
  | y :: r => if Nat.eqb y x then Some 0 else option_map S (index x r)
  end.

(** The variables of the closure: visited, rec_stack, path, cycles_found. *)
Record dfs_st := DfsSt { visited : list nat; rec_stack : list nat; path : list nat; cycles : list (list nat) }.
(** set.remove; list.pop. *)
Definition set_remove (x : nat) (l : list nat) : list nat := filter (fun y => negb (Nat.eqb y x)) l.
Definition pop (l : list nat) : list nat := removelast l.

Section Dfs.
  Variable g : nat -> list nat.
  (** `for x in l: f(x)` over the state; None is fuel exhaustion or ValueError. *)
  Fixpoint for_each (f : nat -> dfs_st -> option dfs_st) (l : list nat) (s : dfs_st) : option dfs_st :=
    match l with
    | [] => Some s
    | x :: r => match f x s with Some s' => for_each f r s' | None => None end
    end.
  (** checker.py:882-901 find_cycles. *)
  Fixpoint find_cycles (fuel : nat) (node : nat) (s : dfs_st) : option dfs_st :=
    match fuel with
    | O => None
    | S k =>
        if mem node (rec_stack s) then
          match index node (path s) with
          | Some i => Some (DfsSt (visited s) (rec_stack s) (path s) (cycles s ++ [skipn i (path s) ++ [node]]))
          | None => None
          end
        else if mem node (visited s) then Some s
        else
          match for_each (find_cycles k) (g node)
                  (DfsSt (node :: visited s) (node :: rec_stack s) (path s ++ [node]) (cycles s)) with
          | Some s' => Some (DfsSt (visited s') (set_remove node (rec_stack s')) (pop (path s')) (cycles s'))
          | None => None
          end
    end.
  (** checker.py:903-906, the roots; each search starts with a fresh path. *)
  Definition start (fuel : nat) (x : nat) (s : dfs_st) : option dfs_st :=
    if mem x (visited s) then Some s
    else match find_cycles fuel x (DfsSt (visited s) (rec_stack s) [] (cycles s)) with
         | Some s' => Some s' | None => None end.
  Definition check_recursion (roots : list nat) : option (list (list nat)) :=
    option_map cycles (for_each (start (S (S (length roots)))) roots (DfsSt [] [] [] [])).
End Dfs.

(** checker.py:909-936: W301 for a command calling itself, W302 otherwise. *)
Inductive warning := W301 (command : nat) | W302 (cycle : list nat).
Definition warn (c : list nat) : warning :=
  match c with
  | [a; b] => if Nat.eqb a b then W301 a else W302 c
  | _ => W302 c
  end.
Definition warnings (g : nat -> list nat) (roots : list nat) : option (list warning) :=
  option_map (map warn) (check_recursion g roots).
