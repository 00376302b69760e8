(** Specification vocabulary for walking syntax trees. *)
From Coq Require Import ZArith List Bool.
From Verif Require Import Lex_Model Ast.
Import ListNotations.
Open Scope list_scope.

(** [part_of x e]: [x] is [e], or lies inside [e] at a place that walkers enter:
    operands, arguments given by position, elements, bounds, values, the condition
    of an if, the subject of a match, the body of a lambda. *)
Inductive part_of (x : expr) : expr -> Prop :=
  | po_self : part_of x x
  | po_left l op r : part_of x l -> part_of x (EBin l op r)
  | po_right l op r : part_of x r -> part_of x (EBin l op r)
  | po_un op a : part_of x a -> part_of x (EUn op a)
  | po_call f args named a : In a args -> part_of x a -> part_of x (ECall f args named)
  | po_object o m args named : part_of x o -> part_of x (EMethod o m args named)
  | po_marg o m args named a : In a args -> part_of x a -> part_of x (EMethod o m args named)
  | po_member o m : part_of x o -> part_of x (EMember o m)
  | po_iobj o i : part_of x o -> part_of x (EIndex o i)
  | po_index o i : part_of x i -> part_of x (EIndex o i)
  | po_elem l a : In a l -> part_of x a -> part_of x (EList l)
  | po_from a b : part_of x a -> part_of x (ERange a b)
  | po_to a b : part_of x b -> part_of x (ERange a b)
  | po_cond c t el e : part_of x c -> part_of x (EIf c t el e)
  | po_subj s arms : part_of x s -> part_of x (EMatch s arms)
  | po_body ps b : part_of x b -> part_of x (ELambda ps b)
  | po_value d k a : In (k, a) d -> part_of x a -> part_of x (EDict d).

(** Function calls and list comprehensions. *)
Definition call_or_comp (e : expr) : Prop :=
  match e with ECall _ _ _ | EComp _ _ => True | _ => False end.
(** Method calls with named arguments and if expressions with elif branches. *)
Definition lossy (e : expr) : Prop :=
  match e with EMethod _ _ _ (_ :: _) | EIf _ _ (_ :: _) _ => True | _ => False end.

(** The identifiers at the places that walkers enter, from left to right. *)
Fixpoint idents (e : expr) : list name :=
  match e with
  | EId n => [n]
  | EBin l _ r => idents l ++ idents r
  | EUn _ a => idents a
  | ECall _ args _ => concat (map idents args)
  | EMethod o _ args _ => idents o ++ concat (map idents args)
  | EMember o _ => idents o
  | EIndex o i => idents o ++ idents i
  | EList l => concat (map idents l)
  | ERange a b => idents a ++ idents b
  | EIf c _ _ _ => idents c
  | EMatch s _ => idents s
  | ELambda _ b => idents b
  | EDict d => concat (map (fun kv => idents (snd kv)) d)
  | ELit _ _ | EComp _ _ | ECond _ _ _ => []
  end.
