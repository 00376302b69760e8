(** Vocabulary for the spatial tree properties. *)
From Coq Require Import Reals List Bool Arith Permutation.
From Verif Require Import Xform_Model Oct_Model.
Import ListNotations.
Open Scope R_scope.
Open Scope list_scope.

(** the minimum is at most the maximum in each coordinate that counts *)
Definition proper (three : bool) (b : box) : Prop :=
  vx (lo b) <= vx (hi b) /\ vy (lo b) <= vy (hi b) /\ (three = true -> vz (lo b) <= vz (hi b)).
(** the boxes have a point in common, in the coordinates that count *)
Definition inside (three : bool) (b : box) (p : vec) : Prop :=
  vx (lo b) <= vx p <= vx (hi b) /\ vy (lo b) <= vy p <= vy (hi b) /\ (three = true -> vz (lo b) <= vz p <= vz (hi b)).
Definition overlap (three : bool) (b c : box) : Prop := exists p, inside three b p /\ inside three c p.

(** elements with a box: not an empty geometry list *)
Definition solid_element (e : element) : Prop := e <> Group [].
(** not a bare point *)
Definition bare (e : element) : Prop := exists p, e = Point p.

(** the calls that a user makes *)
Inductive call := Add (e : element) (tag : option nat) | Center (c : option vec) | Update | Get (q : box) | Maxdepth (d : nat) | Mindim (m : R).
Definition forget {A} (o : outcome A) : option ntree := match o with Done _ t => Some t | Raised _ => None end.
(** the object after a call that does not raise *)
Definition make (order : list nat -> list nat) (c : call) (t : ntree) : option ntree :=
  match c with
  | Add e tag => forget (addElement e tag t)
  | Center p => forget (updateCenter p t)
  | Update => forget (updateTree t)
  | Get q => forget (getElements order q t)
  | Maxdepth d => forget (setMaxdepth d t)
  | Mindim m => forget (setMindim m t)
  end.
(** the object after a history of calls none of which raised *)
Fixpoint history (order : list nat -> list nat) (cs : list call) (t : ntree) : option ntree :=
  match cs with [] => Some t | c :: cs => match make order c t with Some t => history order cs t | None => None end end.
Definition set_order (order : list nat -> list nat) : Prop := forall l, Permutation (order l) l.
(** elements that are neither bare points nor empty; calls without a centre of the user's *)
Definition plain (c : call) : Prop := match c with Add e _ => solid_element e | Center _ => False | _ => True end.
