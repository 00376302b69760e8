(** What it means for a topology graph to be well built, and for a shell to be closed. *)
From Coq Require Import String Reals List Bool ZArith.
From Verif Require Import Dict Xform_Model Fig_Model ASurf_Model Brep_Model.
Import ListNotations.
Open Scope R_scope.
Open Scope list_scope.

(** [order] visits every element once. *)
Definition set_order (order : list string -> list string) : Prop := forall l, NoDup (order l) /\ forall x, In x (order l) <-> In x l.

(** How often edge [eid] lies on the boundary of a loop, a face, a list of faces (each taken once). *)
Definition on_edge (g : graph) (eid tid : string) : bool :=
  match sget tid (trims g) with Some t => String.eqb (t_edge t) eid | None => false end.
Definition loop_count (g : graph) (eid lid : string) : nat :=
  match sget lid (loops g) with Some l => length (filter (on_edge g eid) (l_trims l)) | None => 0 end.
Definition face_count (g : graph) (eid fid : string) : nat :=
  match sget fid (faces g) with Some f => list_sum (map (loop_count g eid) (f_loops f)) | None => 0 end.
Definition shell_count (g : graph) (eid : string) (fids : list string) : nat :=
  list_sum (map (face_count g eid) (nodup string_dec fids)).
(** The shell has no open or doubled edge. *)
Definition closed_up (g : graph) (fids : list string) : Prop := forall eid, shell_count g eid fids = 0%nat \/ shell_count g eid fids = 2%nat.
(** [vid] is an end of an edge of the shell that is in the graph. *)
Definition corner_of (g : graph) (fids : list string) (vid : string) : Prop :=
  exists eid e, shell_count g eid fids <> 0%nat /\ sget eid (edges g) = Some e /\ (e_start e = vid \/ e_end e = vid).

(** An addition in order: a new id, and references only to what is there already. *)
Definition there {V} (d : list (string * V)) (id : string) : Prop := exists v, sget id d = Some v.
Definition in_order (order : list string -> list string) (g : graph) (x : op) : Prop :=
  match x with
  | AddVertex v => ~ there (vertices g) (v_id v) /\ v_edges v = []
  | AddEdge e => ~ there (edges g) (e_id e) /\ e_faces e = [] /\ there (vertices g) (e_start e) /\ there (vertices g) (e_end e)
  | AddTrim t => ~ there (trims g) (t_id t) /\ there (edges g) (t_edge t)
  | AddLoop l => ~ there (loops g) (l_id l) /\ (forall tid, In tid (l_trims l) -> there (trims g) tid)
  | AddFace f => ~ there (faces g) (f_id f) /\ f_shell f = None /\ (forall lid, In lid (f_loops f) -> there (loops g) lid)
  | AddShell s validate => ~ there (shells g) (s_id s) /\ s_solid s = None /\ (forall fid, In fid (s_faces s) -> there (faces g) fid) /\
      validate = true /\ snd (add_shell order s validate g) = Done
  | AddSolid s _ => ~ there (solids g) (so_id s) /\ (forall sid, In sid (so_shells s) -> there (shells g) sid)
  end.
Section Histories.
  Variables (order : list string -> list string) (intersect : graph -> string -> string -> bool)
    (centre : graph -> string -> option vec) (contains : graph -> string -> vec -> bool).
  (** every addition of the history is in order *)
  Inductive built : graph -> Prop :=
  | built_empty : built empty
  | built_step g x : built g -> in_order order g x -> built (step order intersect centre contains g x).
End Histories.

(** Entities as their constructors leave them, so that they can be stored. *)
Definition is_point (p : vec) : Prop := vw p = 1.
Definition storable_curve (c : curve) : Prop :=
  match c with
  | ArcBare => False
  | ArcCenter p _ | Ellipse p _ => is_point p
  | Circle p a _ _ _ => is_point p /\ vw a = 0 /\ mag a = 1
  | Bspline ps k d w _ _ => Forall is_point ps /\ length k = (length ps + d + 1)%nat /\ length w = length ps
  | Nurbs ps _ => Forall is_point ps
  | _ => True
  end.
Definition storable (g : graph) : Prop :=
  (forall k v, sget k (vertices g) = Some v -> is_point (v_loc v)) /\
  (forall k e, sget k (edges g) = Some e -> storable_curve (e_curve e)) /\
  (forall k t, sget k (trims g) = Some t -> t_uv t <> Some []) /\
  (forall k f, sget k (faces g) = Some f -> reload (f_surface f) = Ok (f_surface f) /\ f_shell f <> Some EmptyString) /\
  (forall k s, sget k (shells g) = Some s -> s_solid s <> Some EmptyString).
(** Entities are filed under their own ids, once. *)
Definition filed {V} (id : V -> string) (d : list (string * V)) : Prop := NoDup (keys d) /\ forall k v, In (k, v) d -> id v = k.
Definition all_filed (g : graph) : Prop :=
  filed v_id (vertices g) /\ filed e_id (edges g) /\ filed t_id (trims g) /\ filed l_id (loops g) /\
  filed f_id (faces g) /\ filed s_id (shells g) /\ filed so_id (solids g).

(** Two circles traversed: a drawn curve begins at [p] and ends at [q]. *)
Definition goes (d : drawn) (p q : vec) : Prop :=
  match d with
  | DLine a b => a = p /\ b = q
  | DArc c => samplearc c 0 = p /\ samplearc c 1 = q
  | DEllipse _ _ => False
  end.
(** Bodies bounded by boxes, for judging which shell lies in which. *)
Definition inside_box (b : vec * vec) (p : vec) : Prop :=
  vx (fst b) < vx p < vx (snd b) /\ vy (fst b) < vy p < vy (snd b) /\ vz (fst b) < vz p < vz (snd b).
Definition on_box (b : vec * vec) (p : vec) : Prop :=
  vx (fst b) <= vx p <= vx (snd b) /\ vy (fst b) <= vy p <= vy (snd b) /\ vz (fst b) <= vz p <= vz (snd b) /\ ~ inside_box b p.
