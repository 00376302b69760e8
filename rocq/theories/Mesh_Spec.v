(** Vocabulary for the mesh properties. *)
From Coq Require Import Reals ZArith List Bool.
From Verif Require Import Xform_Model Mesh_Model.
Import ListNotations.
Open Scope R_scope.
Open Scope list_scope.

(** the corners of a face, when it has three and they exist *)
Definition corners (verts : list vec) (face : list Z) : option (vec * vec * vec) :=
  match map (index verts) face with
  | [Some p; Some q; Some r] => Some (p, q, r)
  | _ => None
  end.
(** twice the area of a triangle: base times height *)
Definition twice_area (p q r : vec) : R :=
  sqrt (((vx q - vx p) * (vx q - vx p) + (vy q - vy p) * (vy q - vy p) + (vz q - vz p) * (vz q - vz p)) *
        ((vx r - vx p) * (vx r - vx p) + (vy r - vy p) * (vy r - vy p) + (vz r - vz p) * (vz r - vz p)) -
        ((vx q - vx p) * (vx r - vx p) + (vy q - vy p) * (vy r - vy p) + (vz q - vz p) * (vz r - vz p)) *
        ((vx q - vx p) * (vx r - vx p) + (vy q - vy p) * (vy r - vy p) + (vz q - vz p) * (vz r - vz p))).
(** a unit vector at right angles to the triangle, counter-clockwise seen from its tip *)
Definition det3 (a b c : vec) : R :=
  vx a * (vy b * vz c - vz b * vy c) - vy a * (vx b * vz c - vz b * vx c) + vz a * (vx b * vy c - vy b * vx c).
Definition outward (n p q r : vec) : Prop :=
  mag n = 1 /\ dot n (sub q p) = 0 /\ dot n (sub r p) = 0 /\ 0 < det3 (sub q p) (sub r p) n.
(** every index of every face exists *)
Definition well_indexed (s : surface) : Prop := Forall (Forall (fun i => index (vertices s) i <> None)) (faces s).
(** the triangular faces of more than tolerance area, in order *)
Definition proper_triangles (ss : list surface) : list (vec * vec * vec) :=
  flat_map (fun s => flat_map (fun f => match corners (vertices s) f with
    | Some (p, q, r) => if Rltb epsilon (twice_area p q r) then [(p, q, r)] else []
    | None => [] end) (faces s)) ss.
