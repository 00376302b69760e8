(** Model of yapcad/geometry_utils.py and yapcad/mesh.py over the reals (no rounding).
    A point is a [vec]; its fourth component is ignored.  Not modelled: BREP-only solids,
    conversion errors in float(). *)
From Coq Require Import Reals ZArith List Bool.
From Verif Require Import Xform_Model.
Import ListNotations.
Open Scope R_scope.
Open Scope list_scope.

(** geometry_utils.py:24-29 to_vec3 *)
Definition to_vec3 (p : vec) : vec := mkv (vx p) (vy p) (vz p) 1.
(** the cross product of the edges, geometry_utils.py:51-53 *)
Definition edges_cross (v0 v1 v2 : vec) : vec := cross (sub v1 v0) (sub v2 v0).
(** geometry_utils.py:48-57 triangle_normal *)
Definition triangle_normal (v0 v1 v2 : vec) : option vec :=
  let n := edges_cross v0 v1 v2 in
  let length := mag n in
  if Rleb length epsilon then None else Some (mkv (vx n / length) (vy n / length) (vz n / length) 1).
(** geometry_utils.py:60-66 triangle_area *)
Definition triangle_area (v0 v1 v2 : vec) : R := 1 / 2 * mag (edges_cross v0 v1 v2).
(** geometry_utils.py:69-72 triangle_is_degenerate *)
Definition triangle_is_degenerate (v0 v1 v2 : vec) (tol : R) : bool := Rleb (triangle_area v0 v1 v2) tol.
(** geometry_utils.py:75-84 orient_triangle *)
Definition orient_triangle (v0 v1 v2 preferred : vec) : vec * vec * vec :=
  match triangle_normal v0 v1 v2 with
  | None => (v0, v1, v2)
  | Some n => if Rltb (dot n preferred) 0 then (v0, v2, v1) else (v0, v1, v2)
  end.
(** geometry_utils.py:87-94 triangle_centroid *)
Definition triangle_centroid (v0 v1 v2 : vec) : vec :=
  mkv ((vx v0 + vx v1 + vx v2) / 3) ((vy v0 + vy v1 + vy v2) / 3) ((vz v0 + vz v1 + vz v2) / 3) 1.

(** a surface: vertices (element 1) and faces (element 3) *)
Record surface := Surface { vertices : list vec; faces : list (list Z) }.
(** a Python list index, negative from the end; None: IndexError *)
Definition index {A} (l : list A) (i : Z) : option A :=
  if (i <? 0)%Z then (if (i + Z.of_nat (length l) <? 0)%Z then None else nth_error l (Z.to_nat (i + Z.of_nat (length l)))) else nth_error l (Z.to_nat i).
Definition bind {A B} (o : option A) (f : A -> option B) : option B := match o with Some a => f a | None => None end.
(** mesh.py:38-52, one face: None is IndexError, Some [] skipped *)
Definition face_view (verts : list vec) (face : list Z) : option (list (vec * vec * vec * vec)) :=
  match face with
  | [a; b; c] =>
    bind (index verts a) (fun p => bind (index verts b) (fun q => bind (index verts c) (fun r =>
      let '(v0, v1, v2) := (to_vec3 p, to_vec3 q, to_vec3 r) in
      Some (match triangle_normal v0 v1 v2 with None => [] | Some n => [(n, v0, v1, v2)] end))))
  | _ => Some []
  end.
Fixpoint faces_view (verts : list vec) (fs : list (list Z)) : option (list (vec * vec * vec * vec)) :=
  match fs with [] => Some [] | f :: fs => bind (face_view verts f) (fun a => bind (faces_view verts fs) (fun b => Some (a ++ b))) end.
(** mesh.py:15-52 mesh_view of a solid's surfaces (of one surface: the singleton list) *)
Fixpoint mesh_view (ss : list surface) : option (list (vec * vec * vec * vec)) :=
  match ss with [] => Some [] | s :: ss => bind (faces_view (vertices s) (faces s)) (fun a => bind (mesh_view ss) (fun b => Some (a ++ b))) end.
