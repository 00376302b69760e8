(** Lines of a text, however their ends are spelled; surrounding blank space. *)
From Coq Require Import ZArith List.
Import ListNotations.
Open Scope Z_scope.

(** [reads t src]: src is the text t with each line end (10) spelled LF, CR or CR LF. *)
Inductive reads : list Z -> list Z -> Prop :=
  | rd_nil : reads [] []
  | rd_char c t s : c <> 10 -> c <> 13 -> reads t s -> reads (c :: t) (c :: s)
  | rd_lf t s : reads t s -> reads (10 :: t) (10 :: s)
  | rd_crlf t s : reads t s -> reads (10 :: t) (13 :: 10 :: s)
  | rd_cr t s : (forall r, s <> 10 :: r) -> reads t s -> reads (10 :: t) (13 :: s).

(** [core] is [t] without the blank space around it. *)
Definition trims_to (space : Z -> bool) (t core : list Z) : Prop :=
  exists pre post, t = pre ++ core ++ post /\ Forall (fun c => space c = true) (pre ++ post) /\
    (forall c r, core = c :: r -> space c = false) /\ (forall r c, core = r ++ [c] -> space c = false).
