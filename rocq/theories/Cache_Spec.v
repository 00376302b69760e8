(** What a Geometry object should answer. *)
From Coq Require Import Reals List Bool.
From Verif Require Import Xform_Model Cache_Model.
Import ListNotations.

Section Spec.
Variable F : figures.
(** The figure after a history: every change that does not raise is applied. *)
Definition changed (e : elem F) (h : how) (a : arg F) : elem F :=
  let f := match kind_of F e, h with
           | KSolid, Transform => plain F | KSolid, _ => solid F | _, _ => plain F end in
  match f h a e with Some e' => e' | None => e end.
Definition next_figure (e : elem F) (x : act F) : elem F :=
  match x with Change h a => changed e h a | Assign e' => e' | _ => e end.
Definition figure_after (e : elem F) (xs : list (act F)) : elem F := fold_left next_figure xs e.

Definition is_query (x : act F) : bool :=
  match x with Change _ _ | Assign _ | Touch => false | _ => true end.
(** An assignment to elem is followed by an assignment to update before anything is asked. *)
Fixpoint disciplined (dirty : bool) (xs : list (act F)) : bool :=
  match xs with
  | [] => negb dirty
  | Assign _ :: r => disciplined true r
  | Touch :: r => disciplined false r
  | x :: r => (negb (is_query x) || negb dirty) && disciplined dirty r
  end.
(** No query of the history raises. *)
Definition quiet (o : obj F) (xs : list (act F)) : Prop :=
  forall ys x zs, xs = ys ++ x :: zs -> is_query x = true -> answer_to F o ys x <> Raised.
(** Nothing is changed once a surface has been asked for. *)
Fixpoint settled (asked : bool) (xs : list (act F)) : bool :=
  match xs with
  | [] => true
  | Change _ _ :: r | Assign _ :: r => negb asked && settled asked r
  | GetSurface _ _ :: r => settled true r
  | _ :: r => settled asked r
  end.
(** The answer of a new object around figure e. *)
Definition fresh (e : elem F) (closed : bool) (x : act F) : answer F := answer_to F (create F e closed) [] x.
End Spec.
