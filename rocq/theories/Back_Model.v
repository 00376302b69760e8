(** The registry of analysis back ends: src/yapcad/package/analysis/base.py:103-118. *)
From Coq Require Import ZArith List Bool.
From Verif Require Import Dict Json_Model.
Import ListNotations.
Open Scope list_scope.

Section Registry.
(** Classes, issubclass(c, AnalysisAdapter), and str.lower. *)
Context {C : Type} (adapter : C -> bool) (lower : text -> text).
Definition registry := list (text * C).

(** base.py:106-110 register_backend; [None] is TypeError (the registry stays). *)
Definition register (name : text) (c : C) (r : registry) : option registry :=
  if adapter c then Some (dset teq (lower name) c r) else None.
(** base.py:113-114 get_backend. *)
Definition get_backend (name : text) (r : registry) : option C := dget teq (lower name) r.
(** base.py:117-118 available_backends: the sorted keys. *)
Definition available (r : registry) : list text := map fst (sort r).

(** A history of calls of register_backend, from an empty registry (base.py:103);
    calls that raise change nothing. *)
Definition step (r : registry) (call : text * C) : registry :=
  match register (fst call) (snd call) r with Some r' => r' | None => r end.
Definition run (calls : list (text * C)) : registry := fold_left step calls [].
End Registry.
