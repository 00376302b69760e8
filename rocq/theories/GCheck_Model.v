(** Model of yapcad/geometry_checks.py.  A surface is its vertices and faces ([Mesh_Model]):
    issurface only looks at the tag and the number of elements.  Floats are reals; the texts of
    the warnings are replaced by what they say. *)
From Coq Require Import Reals ZArith List Bool.
From Verif Require Import Dict Xform_Model Mesh_Model.
Import ListNotations.
Open Scope list_scope.

Inductive warned :=
| BoundaryEdges (count : nat)
| TooOften (edges : list (Z * Z))
| Inconsistent (faces : list nat)
| NoFaces.
Record checked := mkchecked { c_ok : bool; c_warnings : list warned }.

(** geometry_checks.py:14-23 is_closed_polygon, for points of three components or more *)
Definition is_closed_polygon (ps : list vec) (tol : R) : bool :=
  match ps with
  | [] => false
  | p :: r => Rleb (dist p (last r p)) tol
  end.

(** geometry_checks.py:93-94 _edge_key *)
Definition edge_key (a b : Z) : Z * Z := if (a <? b)%Z then (a, b) else (b, a).
Definition edge_eqb (e f : Z * Z) : bool := ((fst e =? fst f) && (snd e =? snd f))%Z.
(** Counter()[e] += 1 *)
Definition count_edge (e : Z * Z) (d : list ((Z * Z) * nat)) : list ((Z * Z) * nat) :=
  dset edge_eqb e (match dget edge_eqb e d with Some n => S n | None => 1%nat end) d.
(** geometry_checks.py:69-76: one face *)
Definition count_face (face : list Z) (d : list ((Z * Z) * nat)) : list ((Z * Z) * nat) :=
  match face with
  | [a; b; c] => count_edge (edge_key c a) (count_edge (edge_key b c) (count_edge (edge_key a b) d))
  | _ => d
  end.
Definition edge_counts (fs : list (list Z)) : list ((Z * Z) * nat) := fold_left (fun d f => count_face f d) fs [].
(** geometry_checks.py:60-90 surface_watertight *)
Definition surface_watertight (s : surface) : checked :=
  let edges := edge_counts (faces s) in
  let boundary := map fst (filter (fun en => Nat.eqb (snd en) 1) edges) in
  let invalid := map fst (filter (fun en => Nat.ltb 2 (snd en)) edges) in
  let w := (match boundary with [] => [] | _ => [BoundaryEdges (length boundary)] end) ++
           (match invalid with [] => [] | _ => [TooOften invalid] end) in
  mkchecked (match w with [] => true | _ => false end) w.

(** geometry_checks.py:38-54: the faces from number idx; None is IndexError.  Returns the reference normal and the
    numbers of the faces that disagree with it. *)
Fixpoint oriented_loop (verts : list vec) (ref : option vec) (idx : nat) (fs : list (list Z)) : option (option vec * list nat) :=
  match fs with
  | [] => Some (ref, [])
  | face :: rest =>
      match face with
      | [a; b; c] =>
          bind (index verts a) (fun p => bind (index verts b) (fun q => bind (index verts c) (fun r =>
            match triangle_normal (to_vec3 p) (to_vec3 q) (to_vec3 r), ref with
            | None, _ => oriented_loop verts ref (S idx) rest
            | Some n, None => oriented_loop verts (Some n) (S idx) rest
            | Some n, Some m =>
                bind (oriented_loop verts ref (S idx) rest) (fun out =>
                Some (fst out, if Rltb (vx m * vx n + vy m * vy n + vz m * vz n) (- epsilon) then idx :: snd out else snd out))
            end)))
      | _ => oriented_loop verts ref (S idx) rest
      end
  end.
(** geometry_checks.py:26-57 faces_oriented *)
Definition faces_oriented (s : surface) : option checked :=
  bind (oriented_loop (vertices s) None 0 (faces s)) (fun out =>
  Some (match fst out, snd out with
        | None, _ => mkchecked true [NoFaces]
        | Some _, [] => mkchecked true []
        | Some _, bad => mkchecked false [Inconsistent bad]
        end)).
