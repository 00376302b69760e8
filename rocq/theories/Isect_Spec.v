(** What it means to lie on a line, a circle or an arc. *)
From Coq Require Import Reals List Bool.
From Verif Require Import Xform_Model Fig_Model.
Open Scope R_scope.

(** a point of the infinite line; of the segment between its end points *)
Definition on_line (l : line) (p : vec) : Prop := exists t, p = sampleline l t.
Definition on_segment (l : line) (p : vec) : Prop := exists t, 0 <= t <= 1 /\ p = sampleline l t.
(** a point of the circle that carries the arc *)
Definition on_circle (c : arc) (p : vec) : Prop :=
  dist p (a_c c) = a_r c /\ vz p = vz (a_c c).
(** a point of the arc itself *)
Definition on_arc (c : arc) (p : vec) : Prop := exists u, 0 <= u <= 1 /\ p = samplearc c u.
(** line and arc lie in the plane of height [z]; the line is not degenerate and
    ends in a point (fourth coordinate 1) *)
Definition level (z : R) (l : line) (c : arc) : Prop :=
  vz (fst l) = z /\ vz (snd l) = z /\ vz (a_c c) = z /\ epsilon <= linelength l /\ 0 <= a_r c /\
  vw (snd l) = 1.
(** [h] is the distance of the infinite line from a point *)
Definition line_distance_is (l : line) (x : vec) (h : R) : Prop :=
  (forall t, h <= dist x (sampleline l t)) /\ exists t, h = dist x (sampleline l t).
(** start and end are written in [0,360] and the arc is neither a full circle nor empty *)
Definition plain_arc (c : arc) : Prop :=
  0 <= a_start c < 360 /\ 0 <= a_end c <= 360 /\ a_start c <> a_end c /\
  ~ (a_start c = 0 /\ a_end c = 360).
(** the direction of an arc's point at [x] degrees *)
Definition at_degrees (c : arc) (x : R) : vec :=
  mkv (vx (a_c c) + a_r c * cos (x * PI / 180)) (vy (a_c c) + a_r c * sin (x * PI / 180)) (vz (a_c c)) 1.
(** arcs on which the angle tests are exact: circles, and plain arcs that do not end at 0 = 360 degrees *)
Definition fair_arc (c : arc) : Prop :=
  (a_start c = 0 /\ a_end c = 360) \/ (plain_arc c /\ a_end c <> 0 /\ a_end c <> 360).
(** the concentric arc of the same angles through [p] *)
Definition through (c : arc) (p : vec) : arc := mkarc (a_c c) (dist (a_c c) p) (a_start c) (a_end c) (a_rev c).
(** the line touches the circle at [p] and does not cross it *)
Definition tangent_at (l : line) (c : arc) (p : vec) : Prop :=
  on_circle c p /\ on_line l p /\ forall t, a_r c <= dist (a_c c) (sampleline l t).
(** the line runs from its contact with the first circle to its contact with the second *)
Definition both_tangent (c1 c2 : arc) (l : line) : Prop := tangent_at l c1 (fst l) /\ tangent_at l c2 (snd l).
