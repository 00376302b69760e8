(** Proper rigid motions, alignment of directions, and what a chain of placements is. *)
From Coq Require Import String Reals List Bool.
From Verif Require Import Xform_Model Datum_Model Datum_Spec Mate_Model Solver_Model.
Import ListNotations.
Open Scope R_scope.

(** No mirror image: the sign (and size) of triple products of directions is kept. *)
Definition handed (m : matrix) : Prop := forall u v w, vw u = 0 -> vw v = 0 -> vw w = 0 ->
  dot (cross (mulMV m u) (mulMV m v)) (mulMV m w) = dot (cross u v) w.
Definition motion (m : matrix) : Prop := rigid m /\ handed m.
(** [e] is the vector of length one that points along [v]. *)
Definition unit_along (v e : vec) : Prop := mag e = 1 /\ same_way e v.
(** The unit vectors along [u] and [v] differ by at most [tol]. *)
Definition along (u v : vec) (tol : R) : Prop := exists e f, unit_along u e /\ unit_along v f /\ dist e f <= tol.
Definition opposed (u v : vec) (tol : R) : Prop := exists e f, unit_along u e /\ unit_along v f /\ dist e (scale4 f (-1)) <= tol.
(** Turn the vector [u], perpendicular to the unit vector [n], around [n] by [deg] degrees (right-handed). *)
Definition turned (n u : vec) (deg : R) (u' : vec) : Prop :=
  let t := deg * PI / 180 in
  vx u' = cos t * vx u + sin t * (vy n * vz u - vz n * vy u) /\
  vy u' = cos t * vy u + sin t * (vz n * vx u - vx n * vz u) /\
  vz u' = cos t * vz u + sin t * (vx n * vy u - vy n * vx u).
(** The mate types the solver documents (solver.py, MateConstraintSolver). *)
Definition solvable (t : mtype) : Prop :=
  In t [MCOINCIDENT; MRIGID; MCONCENTRIC; MPARALLEL; MPERPENDICULAR; MDISTANCE; MANGLE; MREVOLUTE].
(** The axis a mate_axis name stands for. *)
Definition named_axis (s : string) (v : vec) : Prop :=
  In (s, v) [("X"%string, mkv 1 0 0 0); ("Y"%string, mkv 0 1 0 0); ("Z"%string, mkv 0 0 1 0);
             ("-X"%string, mkv (-1) 0 0 0); ("-Y"%string, mkv 0 (-1) 0 0); ("-Z"%string, mkv 0 0 (-1) 0)].
(** Every mate hangs on the part the previous one placed. *)
Fixpoint linked (part : string) (ms : list mate) : Prop :=
  match ms with [] => True | m :: ms => part_a m = part /\ linked (part_b m) ms end.

(** What one solver (with its cache) is asked over time, and its answers; [invalidate] answers nothing. *)
Inductive request := Solve (m : mate) (parent : option matrix) (axis : string) | Invalidate (name : option string).
Definition asked (l : list request) (m : mate) (p : option matrix) (ax : string) : Prop := In (Solve m p ax) l.
Definition serve (reg : registry) (k : cache) (r : request) : cache * list outcome :=
  match r with
  | Solve m p ax => let (k, o) := solve_mate true reg k m p ax in (k, [o])
  | Invalidate n => (invalidate n k, [])
  end.
Fixpoint answers (reg : registry) (k : cache) (l : list request) : list outcome :=
  match l with [] => [] | r :: l => let (k, o) := serve reg k r in o ++ answers reg k l end.
(** Requests that never reuse a mate's name for another mate or another parent position. *)
Definition consistent (all : list request) : Prop :=
  (forall m p ax, asked all m p ax -> exists v, named_axis ax v) /\
  forall m p ax m' p', asked all m p ax -> asked all m' p' ax -> m_name m = m_name m' -> m = m' /\ p = p'.
