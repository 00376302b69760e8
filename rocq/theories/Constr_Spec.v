(** What the verdicts of constraints mean, in terms of angles and distances. *)
From Coq Require Import Reals String List Bool.
From Verif Require Import Xform_Model Datum_Model.
Import ListNotations.
Open Scope R_scope.

(** [t] is the angle between the directions [u] and [v], in degrees from 0 to 180. *)
Definition angle (u v : vec) (t : R) : Prop := 0 <= t <= 180 /\ dot u v = mag u * mag v * cos (t * PI / 180).
(** The part of a vector that lies in the XY plane. *)
Definition horizontal (v : vec) : vec := mkv (vx v) (vy v) 0 0.
(** From [c] to [p], seen from above. *)
Definition outwards (c p : vec) : vec := mkv (vx p - vx c) (vy p - vy c) 0 0.
Definition far (v : vec) : Prop := 1 / 10000000000 <= mag v.
(** The world directions a string can name. *)
Definition cardinal (s : string) (w : vec) : Prop :=
  In (s, w) [("+x"%string, mkv 1 0 0 0); ("+X"%string, mkv 1 0 0 0); ("-x"%string, mkv (-1) 0 0 0); ("-X"%string, mkv (-1) 0 0 0);
             ("+y"%string, mkv 0 1 0 0); ("+Y"%string, mkv 0 1 0 0); ("-y"%string, mkv 0 (-1) 0 0); ("-Y"%string, mkv 0 (-1) 0 0);
             ("+z"%string, mkv 0 0 1 0); ("+Z"%string, mkv 0 0 1 0); ("-z"%string, mkv 0 0 (-1) 0); ("-Z"%string, mkv 0 0 (-1) 0)].
(** The vector a datum runs along: its direction, or its normal when it has no direction;
    and the vector it faces along, where the normal comes first. *)
Definition runs_along (d : datum) (v : vec) : Prop := direction d = Some v \/ direction d = None /\ normal d = Some v.
Definition faces_along (d : datum) (v : vec) : Prop := normal d = Some v \/ normal d = None /\ direction d = Some v.
(** The line through [p] along [w] touches the circle of radius [r] around [c] in the horizontal plane of [c]. *)
Definition touches (p w c : vec) (r : R) : Prop :=
  let at_ s := mag (outwards c (mkv (vx p + s * vx w) (vy p + s * vy w) 0 1)) in (exists s, at_ s = r) /\ forall s, r <= at_ s.
