(** Lengths of figures, places along a list, and being on a polyline. *)
From Coq Require Import Reals List Bool.
From Verif Require Import Xform_Model Fig_Model Isect_Spec.
Import ListNotations.
Open Scope R_scope.

(** the length of an element (0 if it has none), and of a list *)
Definition glen (g : geo) : R := match glength g with Ok l => l | _ => 0 end.
Definition total (gs : list geo) : R := fold_right (fun g s => glen g + s) 0 gs.
(** an element with a positive length *)
Definition long (g : geo) : Prop := exists l, glength g = Ok l /\ 0 < l.
(** an element that can be cut: a line, or an arc of less than a full turn with its
    angles in [0,360], at least epsilon long *)
Definition cuttable (g : geo) : Prop :=
  match g with
  | GLine l => epsilon <= linelength l
  | GArc c => plain_arc c /\ 0 < a_r c /\ epsilon <= arclength c
  | _ => False
  end.
(** distance [s] along the list is a joint between two elements *)
Definition joint (gs : list geo) (s : R) : Prop :=
  exists pre post, gs = pre ++ post /\ pre <> [] /\ post <> [] /\ s = total pre.
(** the corners of a polyline as distances along it *)
Definition corner (a : list vec) (s : R) : Prop :=
  exists pre post, lines_of a = pre ++ post /\ pre <> [] /\ post <> [] /\ s = total_length pre.
(** [p] is on an edge of the polyline *)
Definition on_poly (a : list vec) (p : vec) : Prop := exists l, In l (lines_of a) /\ on_segment l p.
(** a polyline of points (fourth coordinate 1) without degenerate edges *)
Definition good_poly (a : list vec) : Prop :=
  (3 <= length a)%nat /\ Forall (fun p => vw p = 1) a /\ Forall (fun l => 0 < linelength l) (lines_of a).
