(** Real-number model of yapcad.native_brep: topology graphs.  An entity is a record; the
    dictionaries of a graph are association lists over entity ids.  Ids are strings; entities
    belong to one graph, so that changing an entity of the graph changes nothing else.  Tags
    are an opaque list of strings.  Iterating over a Python set is modelled by an arbitrary
    function [order] from the list the set is made of. *)
From Coq Require Import String Reals List Bool ZArith.
From Verif Require Kin_Model.
From Verif Require Import Dict Xform_Model Fig_Model ASurf_Model.
Import ListNotations.
Open Scope R_scope.
Open Scope list_scope.

Definition tags := list (string * string).
(** native_brep.py:71-97 *)
Record vertex := mkvertex { v_id : string; v_loc : vec; v_tol : R; v_edges : list string; v_tags : tags }.
(** native_brep.py:139-166 curve types and parameters.  [ArcBare]: an arc with neither bulge nor
    centre (brep_edge('arc', a, b)).  [Ellipse], [Nurbs], [Other]: numeric parameters are opaque. *)
Inductive curve :=
| Line
| ArcBulge (bulge : R)
| ArcCenter (center : vec) (orientation : Z)
| ArcBare
| Ellipse (center : vec) (numbers : list R)
| Circle (center axis : vec) (radius t_start t_end : R)
| Bspline (cps : list vec) (knots : list R) (degree : nat) (weights : list R) (t_start t_end : R)
| Nurbs (cps : list vec) (numbers : list R)
| Other (kind : string) (numbers : list R).
(** native_brep.py:169-213 *)
Record edge := mkedge { e_id : string; e_curve : curve; e_start : string; e_end : string; e_sense : bool; e_tol : R; e_faces : list string; e_tags : tags }.
(** native_brep.py:516-548, 575-606, 640-675, 729-773, 820-848 *)
Record trim := mktrim { t_id : string; t_edge : string; t_sense : bool; t_uv : option (list vec); t_tags : tags }.
Record loop := mkloop { l_id : string; l_trims : list string; l_type : string; l_tags : tags }.
Record face := mkface { f_id : string; f_surface : asurf; f_loops : list string; f_sense : bool; f_shell : option string; f_tags : tags }.
Record shell := mkshell { s_id : string; s_faces : list string; s_type : string; s_closed : option bool; s_solid : option string; s_tags : tags }.
Record solid := mksolid { so_id : string; so_shells : list string; so_tags : tags }.

(** native_brep.py:466-474 _normalize_vector *)
Definition normalize_vector (v : vec) : vec :=
  if Rltb (mag v) (1 / 1000000000000) then vect 0 0 1 else over v (mag v).
(** native_brep.py:365-386 arc_edge; 389-418 circle_edge; 421-463 bspline_edge *)
Definition arc_curve (bulge : option R) (center : option vec) (orientation : Z) : res curve :=
  match bulge, center with
  | Some b, _ => Ok (ArcBulge b)
  | None, Some c => Ok (ArcCenter (as_point c) orientation)
  | None, None => ValueError
  end.
Definition circle_curve (center axis : vec) (radius : R) (t_start : R) (t_end : option R) : curve :=
  Circle (as_point center) (normalize_vector axis) radius t_start (match t_end with Some t => t | None => 2 * PI end).
Definition bspline_curve (cps : list vec) (knots : list R) (degree : nat) (weights : option (list R)) (t_start t_end : option R) : res curve :=
  let n := length cps in
  if negb (Nat.eqb (length knots) (n + degree + 1)) then ValueError else
  Ok (Bspline (map as_point cps) knots degree (match weights with Some w => w | None => repeat 1 n end)
       (match t_start with Some t => t | None => nth degree knots 0 end) (match t_end with Some t => t | None => nth n knots 0 end)).

(** native_brep.py:875-891 *)
Record graph := mkgraph {
  vertices : list (string * vertex); edges : list (string * edge); trims : list (string * trim); loops : list (string * loop);
  faces : list (string * face); shells : list (string * shell); solids : list (string * solid) }.
Definition empty : graph := mkgraph [] [] [] [] [] [] [].
Definition sget {V} (k : string) (d : list (string * V)) : option V := dget String.eqb k d.
Definition sset {V} (k : string) (v : V) (d : list (string * V)) : list (string * V) := dset String.eqb k v d.
(** change an entry that is there *)
Definition touch {V} (k : string) (f : V -> V) (d : list (string * V)) : list (string * V) :=
  match sget k d with Some v => sset k (f v) d | None => d end.

(** native_brep.py:893-899 *)
Definition add_vertex (v : vertex) (g : graph) : graph :=
  mkgraph (sset (v_id v) v (vertices g)) (edges g) (trims g) (loops g) (faces g) (shells g) (solids g).
(** native_brep.py:901-915 *)
Definition note_edge (eid : string) (v : vertex) : vertex := mkvertex (v_id v) (v_loc v) (v_tol v) (v_edges v ++ [eid]) (v_tags v).
Definition add_edge (e : edge) (g : graph) : graph :=
  let vs := touch (e_start e) (note_edge (e_id e)) (vertices g) in
  let vs := if String.eqb (e_end e) (e_start e) then vs else touch (e_end e) (note_edge (e_id e)) vs in
  mkgraph vs (sset (e_id e) e (edges g)) (trims g) (loops g) (faces g) (shells g) (solids g).
(** native_brep.py:917-931 *)
Definition add_trim (t : trim) (g : graph) : graph :=
  mkgraph (vertices g) (edges g) (sset (t_id t) t (trims g)) (loops g) (faces g) (shells g) (solids g).
Definition add_loop (l : loop) (g : graph) : graph :=
  mkgraph (vertices g) (edges g) (trims g) (sset (l_id l) l (loops g)) (faces g) (shells g) (solids g).
(** native_brep.py:941-947, 1160-1178: the edge ids met by walking the trims of the loops of a face *)
Definition loop_uses (g : graph) (lid : string) : list string :=
  match sget lid (loops g) with
  | Some l => flat_map (fun tid => match sget tid (trims g) with Some t => [t_edge t] | None => [] end) (l_trims l)
  | None => []
  end.
Definition face_uses (g : graph) (f : face) : list string := flat_map (loop_uses g) (f_loops f).
(** native_brep.py:933-949 *)
Definition note_face (fid : string) (e : edge) : edge :=
  mkedge (e_id e) (e_curve e) (e_start e) (e_end e) (e_sense e) (e_tol e) (e_faces e ++ [fid]) (e_tags e).
Definition add_face (f : face) (g : graph) : graph :=
  mkgraph (vertices g) (fold_left (fun es eid => touch eid (note_face (f_id f)) es) (face_uses g f) (edges g))
    (trims g) (loops g) (sset (f_id f) f (faces g)) (shells g) (solids g).

Section Closure.
  Variable order : list string -> list string.      (* the order of iteration over set(l) *)
  (** native_brep.py:1148-1181 shell_edge_usage; None: no such shell (ValueError) *)
  Definition use (fid : string) (u : list (string * list string)) (eid : string) : list (string * list string) :=
    sset eid (match sget eid u with Some l => l ++ [fid] | None => [fid] end) u.
  Definition use_face (g : graph) (u : list (string * list string)) (fid : string) : list (string * list string) :=
    match sget fid (faces g) with Some f => fold_left (use fid) (face_uses g f) u | None => u end.
  Definition shell_edge_usage (g : graph) (sid : string) : option (list (string * list string)) :=
    match sget sid (shells g) with Some s => Some (fold_left (use_face g) (order (s_faces s)) []) | None => None end.
  (** native_brep.py:1183-1195 shell_vertices, a set *)
  Definition shell_vertices (g : graph) (u : list (string * list string)) : list string :=
    nodup string_dec (flat_map (fun eid => match sget eid (edges g) with Some e => [e_start e; e_end e] | None => [] end) (keys u)).
  (** native_brep.py:1197-1262 compute_shell_closure *)
  Record closure := mkclosure { c_closed : bool; c_usage : list (string * list string); c_boundary : list string; c_nonmanifold : list string;
    c_euler : Z; c_v : nat; c_e : nat; c_f : nat }.
  Definition compute_shell_closure (g : graph) (sid : string) : res closure :=
    match sget sid (shells g), shell_edge_usage g sid with
    | Some s, Some u =>
      let b := keys (filter (fun x => Nat.eqb (length (snd x)) 1) u) in
      let m := keys (filter (fun x => Nat.ltb 2 (length (snd x))) u) in
      let V := length (shell_vertices g u) in
      let E := length u in
      let F := length (order (s_faces s)) in
      Ok (mkclosure (Nat.eqb (length b) 0 && Nat.eqb (length m) 0) u b m (Z.of_nat V - Z.of_nat E + Z.of_nat F)%Z V E F)
    | _, _ => ValueError
    end.

  (** outcome of an operation on a graph: ValueError, ShellClosureError, SolidValidationError (709-725) *)
  Inductive outcome := Done | Bad | NotClosed | Invalid.
  (** native_brep.py:951-992 add_shell.  The shell is stored, and its faces marked, before it is checked. *)
  Definition mark_face (sid : string) (f : face) : face := mkface (f_id f) (f_surface f) (f_loops f) (f_sense f) (Some sid) (f_tags f).
  Definition set_closed (b : bool) (s : shell) : shell := mkshell (s_id s) (s_faces s) (s_type s) (Some b) (s_solid s) (s_tags s).
  Definition with_shells (g : graph) (ss : list (string * shell)) : graph :=
    mkgraph (vertices g) (edges g) (trims g) (loops g) (faces g) ss (solids g).
  Definition add_shell (s : shell) (validate : bool) (g : graph) : graph * outcome :=
    let g := mkgraph (vertices g) (edges g) (trims g) (loops g)
      (fold_left (fun fs fid => touch fid (mark_face (s_id s)) fs) (s_faces s) (faces g)) (sset (s_id s) s (shells g)) (solids g) in
    if validate then
      match s_closed s, compute_shell_closure g (s_id s) with
      | None, Ok c => (with_shells g (touch (s_id s) (set_closed (c_closed c)) (shells g)), Done)
      | Some true, Ok c => (g, if c_closed c then Done else NotClosed)
      | Some false, _ => (g, Done)
      | _, _ => (g, Bad)
      end
    else (g, Done).

  Section Solids.
    (* 1505-1551 shells_intersect, 1304-1349 the centre of shell_bbox, 1553-1620 shell_contains_point:
       tessellation and ray casting are not modelled *)
    Variables (intersect : graph -> string -> string -> bool) (centre : graph -> string -> option vec) (contains : graph -> string -> vec -> bool).
    Fixpoint pairs (l : list string) : list (string * string) := match l with [] => [] | x :: r => map (pair x) r ++ pairs r end.
    Definition shell_ok (g : graph) (sid : string) : bool :=
      match sget sid (shells g) with
      | Some s => match s_closed s with
                  | Some false => false
                  | _ => match compute_shell_closure g sid with Ok c => c_closed c | _ => false end
                  end
      | None => false
      end.
    (** native_brep.py:1666-1780 validate_solid *)
    Definition validate_solid (g : graph) (id : string) : outcome :=
      match sget id (solids g) with
      | None => Bad
      | Some s =>
        match so_shells s with
        | [] => Invalid
        | outer :: voids =>
          if negb (forallb (shell_ok g) (so_shells s)) then Invalid
          else if existsb (fun p => intersect g (fst p) (snd p)) (pairs (so_shells s)) then Invalid
          else if forallb (fun v => match centre g v with Some c => contains g outer c | None => true end) voids then Done else Invalid
        end
      end.
    (** native_brep.py:994-1026 add_solid *)
    Definition mark_shell (id : string) (s : shell) : shell := mkshell (s_id s) (s_faces s) (s_type s) (s_closed s) (Some id) (s_tags s).
    Definition add_solid (s : solid) (validate : bool) (g : graph) : graph * outcome :=
      let g := mkgraph (vertices g) (edges g) (trims g) (loops g) (faces g)
        (fold_left (fun ss sid => touch sid (mark_shell (so_id s)) ss) (so_shells s) (shells g)) (sset (so_id s) s (solids g)) in
      (g, if validate then validate_solid g (so_id s) else Done).

    (** a history of additions; exceptions are caught by the caller, who goes on *)
    Inductive op := AddVertex (v : vertex) | AddEdge (e : edge) | AddTrim (t : trim) | AddLoop (l : loop) | AddFace (f : face)
      | AddShell (s : shell) (validate : bool) | AddSolid (s : solid) (validate : bool).
    Definition step (g : graph) (x : op) : graph :=
      match x with
      | AddVertex v => add_vertex v g | AddEdge e => add_edge e g | AddTrim t => add_trim t g | AddLoop l => add_loop l g
      | AddFace f => add_face f g | AddShell s b => fst (add_shell s b g) | AddSolid s b => fst (add_solid s b g)
      end.
    Definition run (xs : list op) : graph := fold_left step xs empty.
  End Solids.
End Closure.

(** native_brep.py:1056-1088 *)
Definition found {V} (d : list (string * V)) (ids : list string) : list V :=
  flat_map (fun id => match sget id d with Some v => [v] | None => [] end) ids.
Definition vertex_edges (g : graph) (vid : string) : list edge :=
  match sget vid (vertices g) with Some v => found (edges g) (v_edges v) | None => [] end.
Definition edge_faces (g : graph) (eid : string) : list face :=
  match sget eid (edges g) with Some e => found (faces g) (e_faces e) | None => [] end.
(** edges are compared with [in]; entities with different ids differ *)
Fixpoint distinct (seen : list string) (l : list edge) : list edge :=
  match l with
  | [] => []
  | e :: r => if existsb (String.eqb (e_id e)) seen then distinct seen r else e :: distinct (e_id e :: seen) r
  end.
Definition face_edges (g : graph) (fid : string) : list edge :=
  match sget fid (faces g) with Some f => distinct [] (found (edges g) (face_uses g f)) | None => [] end.
(** native_brep.py:1132-1142 summary *)
Definition summary (g : graph) : list nat :=
  [length (vertices g); length (edges g); length (trims g); length (loops g); length (faces g); length (shells g); length (solids g)].

(** native_brep.py:250-355 evaluate_edge_curve.  [arc] (geom.py:2289-2312) overwrites the fourth
    number of the parameters, which is where the orientation is. *)
Inductive drawn := DLine (a b : vec) | DArc (c : arc) | DEllipse (center : vec) (numbers : list R).
Definition midpoint (a b : vec) : vec := point ((vx a + vx b) / 2) ((vy a + vy b) / 2) ((vz a + vz b) / 2).
Definition arc_through (center : vec) (radius : R) (p q : vec) (orientation : Z) : drawn :=
  let deg x := Kin_Model.atan2 (vy x - vy center) (vx x - vx center) * 180 / PI in
  DArc (mkarc (as_point center) radius (deg p) (deg q) false).
Definition draw (c : curve) (p q : vec) : drawn :=
  match c with
  | ArcBulge bulge =>
    if Rltb (Rabs bulge) epsilon then DLine p q else
    let mid := midpoint p q in
    let chord := dist p q in
    let dx := vx q - vx p in
    let dy := vy q - vy p in
    let perp_len := sqrt (dx * dx + dy * dy) in
    if Rltb perp_len epsilon then DLine p q else
    let perp := point (- dy / perp_len) (dx / perp_len) 0 in
    let height := bulge * chord / 2 in
    let arc_mid := add mid (scale3 perp height) in
    let h := Rabs height in
    if Rltb h epsilon then DLine p q else
    let radius := (chord * chord / 4 + h * h) / (2 * h) in
    let off := radius - h in
    let center := if Rltb 0 bulge then sub arc_mid (scale3 perp off) else add arc_mid (scale3 perp off) in
    arc_through center radius p q (if Rltb 0 bulge then 1 else -1)
  | ArcCenter center orientation => arc_through center (dist center p) p q orientation
  | Ellipse c ns => DEllipse c ns
  | _ => DLine p q
  end.
(** native_brep.py:1090-1107 evaluate_edge *)
Definition evaluate_edge (g : graph) (eid : string) : res drawn :=
  match sget eid (edges g) with
  | None => ValueError
  | Some e => match sget (e_start e) (vertices g), sget (e_end e) (vertices g) with
              | Some a, Some b => Ok (draw (e_curve e) (v_loc a) (v_loc b))
              | _, _ => ValueError
              end
  end.
(** native_brep.py:127-136 vertices_coincident *)
Definition vertices_coincident (a b : vertex) (tolerance : option R) : bool :=
  Rleb (dist (v_loc a) (v_loc b)) (match tolerance with Some t => t | None => Rmax (v_tol a) (v_tol b) end).

Definition mapv {V} (f : V -> V) (d : list (string * V)) : list (string * V) := map (fun x => (fst x, f (snd x))) d.
Definition set_curve (c : curve -> curve) (e : edge) : edge :=
  mkedge (e_id e) (c (e_curve e)) (e_start e) (e_end e) (e_sense e) (e_tol e) (e_faces e) (e_tags e).
Definition set_loc (f : vec -> vec) (v : vertex) : vertex := mkvertex (v_id v) (f (v_loc v)) (v_tol v) (v_edges v) (v_tags v).
Definition set_surface (f : asurf -> asurf) (x : face) : face := mkface (f_id x) (f (f_surface x)) (f_loops x) (f_sense x) (f_shell x) (f_tags x).
(** native_brep.py:480-508 transform_edge_params, 1109-1130 TopologyGraph.transform *)
Definition transform_params (f : vec -> vec) (c : curve) : curve :=
  match c with
  | ArcCenter p o => ArcCenter (f p) o
  | Ellipse p ns => Ellipse (f p) ns
  | Nurbs ps ns => Nurbs (map f ps) ns
  | c => c
  end.
Definition graph_transform (f : vec -> vec) (g : graph) : graph :=
  mkgraph (mapv (set_loc (fun p => as_point (f p))) (vertices g)) (mapv (set_curve (transform_params f)) (edges g))
    (trims g) (loops g) (faces g) (shells g) (solids g).
(** native_brep.py:2452-2497 transform_topology_graph *)
Definition transform_curve (f : vec -> vec) (c : curve) : curve :=
  match c with
  | ArcCenter p o => ArcCenter (transform_point f p) o
  | Ellipse p ns => Ellipse (transform_point f p) ns
  | Circle p a r t0 t1 => Circle (transform_point f p) (transform_vector f a) r t0 t1
  | Bspline ps k d w t0 t1 => Bspline (map (transform_point f) ps) k d w t0 t1
  | Nurbs ps ns => Nurbs (map (transform_point f) ps) ns
  | c => c
  end.
Definition transform_graph (f : vec -> vec) (g : graph) : graph :=
  mkgraph (mapv (set_loc (transform_point f)) (vertices g)) (mapv (set_curve (transform_curve f)) (edges g))
    (trims g) (loops g) (mapv (set_surface (transform_surface f)) (faces g)) (shells g) (solids g).
(** native_brep.py:2623-2665 scale_native_brep between reading and storing the graph *)
Definition scale_point (k : R) (c p : vec) : vec := point (vx c + (vx p - vx c) * k) (vy c + (vy p - vy c) * k) (vz c + (vz p - vz c) * k).
Definition scale_graph (k : R) (c : vec) (g : graph) : graph :=
  let g := transform_graph (scale_point k c) g in
  mkgraph (vertices g) (edges g) (trims g) (loops g) (mapv (set_surface (scale_radii k)) (faces g)) (shells g) (solids g).

(** native_brep.py:1801-1978, 2147-2320: a stored entity, read back.  (What is stored is plain data:
    numbers, strings, lists and dictionaries.) *)
Definition reload_curve (c : curve) : res curve :=
  match c with
  | Line => Ok Line
  | ArcBulge b => arc_curve (Some b) None 1
  | ArcCenter p o => arc_curve None (Some (as_point p)) o
  | ArcBare => arc_curve None None 1
  | Ellipse p ns => Ok (Ellipse (as_point p) ns)
  | Circle p a r t0 t1 => Ok (circle_curve (as_point p) (as_point a) r t0 (Some t1))
  | Bspline ps k d w t0 t1 => bspline_curve (map as_point ps) k d (match w with [] => None | _ => Some w end) (Some t0) (Some t1)
  | Nurbs ps ns => Ok (Nurbs (map as_point ps) ns)
  | Other k ns => Ok (Other k ns)
  end.
Definition reload_vertex (v : vertex) : vertex := mkvertex (v_id v) (as_point (v_loc v)) (v_tol v) [] (v_tags v).
Definition reload_edge (e : edge) : res edge :=
  bind (reload_curve (e_curve e)) (fun c => Ok (mkedge (e_id e) c (e_start e) (e_end e) true epsilon [] (e_tags e))).
Definition reload_trim (t : trim) : trim := mktrim (t_id t) (t_edge t) (t_sense t) (match t_uv t with Some [] => None | u => u end) (t_tags t).
Definition reload_loop (l : loop) : loop := mkloop (l_id l) (l_trims l) (l_type l) (l_tags l).
Definition not_empty (s : option string) : option string := match s with Some EmptyString => None | s => s end.
Definition reload_face (f : face) : res face :=
  bind (reload (f_surface f)) (fun s => Ok (mkface (f_id f) s (f_loops f) (f_sense f) (not_empty (f_shell f)) (f_tags f))).
Definition reload_shell (s : shell) : shell := mkshell (s_id s) (s_faces s) "outer" (s_closed s) (not_empty (s_solid s)) (s_tags s).
Definition reload_solid (s : solid) : solid := mksolid (so_id s) (so_shells s) (so_tags s).
(** entities are stored under their ids *)
Definition rebuild {V} (id : V -> string) (l : list V) : list (string * V) := fold_left (fun d v => sset (id v) v d) l [].
Definition reload_graph (g : graph) : res graph :=
  bind (all (map (fun x => reload_edge (snd x)) (edges g))) (fun es =>
  bind (all (map (fun x => reload_face (snd x)) (faces g))) (fun fs =>
  Ok (mkgraph (rebuild v_id (map (fun x => reload_vertex (snd x)) (vertices g))) (rebuild e_id es)
    (rebuild t_id (map (fun x => reload_trim (snd x)) (trims g))) (rebuild l_id (map (fun x => reload_loop (snd x)) (loops g)))
    (rebuild f_id fs) (rebuild s_id (map (fun x => reload_shell (snd x)) (shells g)))
    (rebuild so_id (map (fun x => reload_solid (snd x)) (solids g)))))).
