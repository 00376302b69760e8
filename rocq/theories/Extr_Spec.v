(** Vocabulary for the statements about extrusion and lofts. *)
From Coq Require Import Reals List ZArith Permutation.
From Verif Require Import Xform_Model Fig_Model Solid_Model Solid_Spec.
Import ListNotations.
Open Scope R_scope.

(** The corners of a closed polyline with their successors, going round once. *)
Definition round {A} (l : list A) : list (A * A) :=
  match l with [] => [] | a :: r => combine l (r ++ [a]) end.
(** A corner with its neighbours: [a], then [b], then [c] in a closed polyline. *)
Definition consecutive {A} (l : list A) (a b c : A) : Prop :=
  exists i, nth_error (round l) i = Some (a, b) /\ nth_error (round l) (S i mod length l) = Some (b, c).
Definition face_indices (s : surf) : list (Z * Z) :=
  flat_map (fun f : face => let '(a, b, c) := f in [(a, b); (b, c); (c, a)]) (faces s).
Definition turned (e : Z * Z) : Z * Z := (snd e, fst e).
(** The loops run along exactly the sides of the mesh that no other face shares,
    in the direction of the face; the remaining sides pair up. *)
Definition outline (s : surf) (loops : list (list Z)) : Prop :=
  exists inner, Permutation (face_indices s) (flat_map round loops ++ inner) /\ Permutation inner (map turned inner).
(** All indices are proper, no directed side occurs twice, no vertex is met twice
    by the loops, every loop has at least three corners. *)
Definition proper_mesh (s : surf) (loops : list (list Z)) : Prop :=
  (forall i j, In (i, j) (face_indices s) -> (0 <= i < Z.of_nat (length (verts s)))%Z /\ i <> j) /\
  NoDup (face_indices s) /\ NoDup (concat loops) /\ (forall l, In l loops -> (3 <= length l)%nat).

Definition dot3 (a b : vec) : R := vx a * vx b + vy a * vy b + vz a * vz b.
Definition edge_normal (p q : vec) : vec :=
  mkv (vy p * vz q - vz p * vy q) (vz p * vx q - vx p * vz q) (vx p * vy q - vy p * vx q) 0.
(** Area enclosed by a closed polyline, counted along the direction [n]. *)
Definition area_along (n : vec) (ps : list vec) : R := Rsum (fun e => dot3 n (edge_normal (fst e) (snd e))) (round ps) / 2.
(** [ps] are the vertices with the indices [l]. *)
Definition located (s : surf) (l : list Z) (ps : list vec) : Prop := Forall2 (at_index (verts s)) l ps.
(** The loop runs counter-clockwise (clockwise) seen against the direction [n]. *)
Definition counterclockwise (s : surf) (n : vec) (l : list Z) : Prop := exists ps, located s l ps /\ 0 < area_along n ps.
Definition clockwise (s : surf) (n : vec) (l : list Z) : Prop := exists ps, located s l ps /\ area_along n ps < 0.
(** A stored loop is a given loop, in either direction. *)
Definition either_way (stored l : list Z) : Prop := stored = l \/ stored = rev l.
(** [n] is a positive multiple of the normal of the first face. *)
Definition first_normal (s : surf) (n : vec) : Prop :=
  exists f rest p q r, faces s = f :: rest /\ face_corners s f (p, q, r) /\ flat_normal n p q r /\
    epsilon <= mag (edge_normal (sub q p) (sub r p)).
(** At each corner the wall is not degenerate: neighbours and the direction of
    extrusion [t] span a parallelogram of at least the tolerance. *)
Definition broad (s : surf) (t : vec) (l : list Z) : Prop :=
  forall i j k p r, consecutive l i j k -> at_index (verts s) i p -> at_index (verts s) k r ->
    epsilon <= mag (edge_normal (sub r p) t).
Definition moved (t p : vec) : vec := mkv (vx p + vx t) (vy p + vy t) (vz p + vz t) 1.
Definition scaled (d : R) (v : vec) : vec := mkv (d * vx v) (d * vy v) (d * vz v) 0.
(** The volume swept by a triangle moved along [t]. *)
Definition swept (t : vec) (x : tri) : R :=
  let '(p, q, r) := x in dot3 t (edge_normal (sub q p) (sub r p)) / 2.
(** Vertices and their moved copies are pairwise more than two tolerances apart. *)
Definition far_apart (vs : list vec) : Prop :=
  forall i j p q, nth_error vs i = Some p -> nth_error vs j = Some q -> i = j \/ 2 * epsilon < dist p q.
(** [m] is the unit normal of a wall at a corner between [p] and [r]. *)
Definition wall_normal (t p r m : vec) : Prop :=
  vw m = 0 /\ dot3 m m = 1 /\ exists k, 0 < k /\ m = scaled k (edge_normal (sub r p) t).
(** The surface moved along [t], and the surface turned over. *)
Definition shifted (t : vec) (s : surf) : surf := mksurf (map (moved t) (verts s)) (norms s) (faces s) (bnd s) (holes s).
Definition turned_over (s : surf) : surf :=
  mksurf (verts s) (map (fun m => mkv (- vx m) (- vy m) (- vz m) (- vw m)) (norms s))
         (map (fun f : face => let '(a, b, c) := f in (a, c, b)) (faces s)) (bnd s) (holes s).
(** All faces have the normal [n]. *)
Definition flat (s : surf) (n : vec) : Prop :=
  forall f p q r, In f (faces s) -> face_corners s f (p, q, r) ->
    edge_normal (sub q p) (sub r p) = scaled (2 * tri_area (p, q, r)) n.
(** Neighbouring points of an open polyline are more than the tolerance apart. *)
Definition gaps (l : list vec) : Prop :=
  forall i p q, nth_error l i = Some p -> nth_error l (S i) = Some q -> epsilon < dist q p.
(** A lower side and the upper end of the next rib span a triangle that is not degenerate. *)
Definition ribbed (lower upper : list vec) : Prop :=
  forall i p q u r, nth_error (round lower) i = Some (p, q) -> nth_error (round upper) i = Some (u, r) ->
    epsilon <= mag (edge_normal (sub q p) (sub r q)).
(** The sides of the mesh are the given ones and others that pair up. *)
Definition rim (ts : list tri) (sides0 : list (vec * vec)) : Prop :=
  exists inner, Permutation (all_sides ts) (sides0 ++ inner) /\ Permutation inner (map back inner).
