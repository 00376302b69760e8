(** What a world transform should be, read off the current joints and frames of a
    chain and never looking at a cache. *)
From Coq Require Import List String Reals Permutation.
From Verif Require Import Dict Kin_Model Xform_Model.
Import ListNotations.
Open Scope list_scope.

Section Spec.
  Variable K : kin.
  (** The factor a frame contributes: none for ORIGIN and for an unknown frame. *)
  Definition frame_factor (p : part K) (f : string) : list (T K) :=
    if String.eqb f ORIGIN then []
    else match dget String.eqb f (p_frames p) with Some t => [t] | None => [] end.
  (** [path c n f l]: [l] lists, from the root to frame [f] of part [n], the frame
      and joint transforms that [c] currently holds. *)
  Inductive path (c : chain K) : string -> string -> list (T K) -> Prop :=
  | path_root f p : get_part c DATUM = Some p -> path c DATUM f (frame_factor p f)
  | path_part n f p q l : n <> DATUM -> get_part c n = Some p -> p_parent p = Some q ->
      path c q (p_pframe p) l ->
      path c n f (l ++ [jtf K (p_joint p)] ++ frame_factor p f).
  Definition product (l : list (T K)) : T K := fold_left (mul K) l (one K).

  (** Some part hangs on frame [f] of part [n]. *)
  Definition attached (c : chain K) (n f : string) : Prop :=
    exists m p, get_part c m = Some p /\ p_parent p = Some n /\ p_pframe p = f.
  (** Everything but replacing a frame that some part already hangs on. *)
  Definition careful (c : chain K) (o : op K) : Prop :=
    match o with
    | OFrame n f _ => f = ORIGIN \/ ~ attached c n f
    | _ => True
    end.
  (** Chains reached from an empty one by careful operations / by any operations. *)
  Inductive history : chain K -> Prop :=
  | h_new name : history (KinematicChain K name)
  | h_op c o c' : history c -> careful c o -> apply_op c o = KOk c' -> history c'.
  Inductive reachable : chain K -> Prop :=
  | r_new name : reachable (KinematicChain K name)
  | r_op c o c' : reachable c -> apply_op c o = KOk c' -> reachable c'.

  (** Two parts agree on everything but the cache. *)
  Definition same_part (p p' : part K) : Prop :=
    p_name p = p_name p' /\ p_parent p = p_parent p' /\ p_pframe p = p_pframe p' /\
    p_joint p = p_joint p' /\ p_frames p = p_frames p' /\ p_meta p = p_meta p'.
  (** [d] is a proper descendant of [n]. *)
  Inductive descendant (c : chain K) (n : string) : string -> Prop :=
  | desc_child m p : m <> DATUM -> get_part c m = Some p -> p_parent p = Some n -> descendant c n m
  | desc_step q m p : descendant c n q -> m <> DATUM -> get_part c m = Some p ->
      p_parent p = Some q -> descendant c n m.

  (** The JSON forms of transforms and joints are faithful. *)
  Definition round_trips : Prop :=
    (forall t, tde K (tser K t) = KOk t) /\ (forall j, jde K (jser K j) = KOk j).
  (** No parent is named "" and nothing hangs on an extra frame of the datum. *)
  Definition loadable (c : chain K) : Prop := forall n p, get_part c n = Some p ->
    p_parent p <> Some ""%string /\ (p_parent p = Some DATUM -> p_pframe p = ORIGIN).
End Spec.
Arguments path {K}. Arguments product {K}. Arguments attached {K}. Arguments careful {K}.
Arguments history {K}. Arguments reachable {K}. Arguments same_part {K}. Arguments frame_factor {K}.
Arguments descendant {K}. Arguments loadable {K}.

(** Any iteration order of Python sets. *)
Definition set_order (ord : nat -> list string -> list string) : Prop :=
  forall i l, Permutation (ord i l) l.


(** A matrix that is a rigid motion: orthonormal rotation block, last row 0 0 0 1. *)
Open Scope R_scope.
Definition dot3 (a b : vec) : R := vx a * vx b + vy a * vy b + vz a * vz b.
Definition rigid (m : rows) : Prop :=
  dot3 (row0 m) (row0 m) = 1 /\ dot3 (row1 m) (row1 m) = 1 /\ dot3 (row2 m) (row2 m) = 1 /\
  dot3 (row0 m) (row1 m) = 0 /\ dot3 (row0 m) (row2 m) = 0 /\ dot3 (row1 m) (row2 m) = 0 /\
  row3 m = mkv 0 0 0 1.
Definition dist3 (p q : vec3) : R :=
  let '(a, b, c) := p in let '(d, e, f) := q in
  sqrt ((a - d) * (a - d) + (b - e) * (b - e) + (c - f) * (c - f)).
(** All base transforms and frames of the mechanism are rigid. *)
Definition all_rigid (c : chain real_kin) : Prop := forall n p, get_part c n = Some p ->
  rigid (j_base (p_joint p)) /\ forall f t, In (f, t) (p_frames p) -> rigid t.
(** An example joint: a slider along Z with limits -180..180. *)
Definition slider (v : R) : joint := mkjoint "a" PRISMATIC t_identity (0,0,1) v (-180) 180.
