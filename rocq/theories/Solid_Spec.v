(** Vocabulary for the statements about surfaces and solids: the triangles of a
    mesh, matching of sides, separation of corners, what motions do to points.
    Nothing here refers to the functions of Solid_Model except the data types. *)
From Coq Require Import Reals List ZArith Permutation.
From Verif Require Import Xform_Model Fig_Model Solid_Model.
Import ListNotations.
Open Scope R_scope.

(** [l[i]] exists and is [a] (negative indices count from the end). *)
Definition at_index {A} (l : list A) (i : Z) (a : A) : Prop :=
  exists k, nth_error l k = Some a /\ (i = Z.of_nat k \/ i + Z.of_nat (length l) = Z.of_nat k /\ (i < 0))%Z.
Definition face_corners (s : surf) (f : face) (t : tri) : Prop :=
  let '(i, j, k) := f in let '(p, q, r) := t in
  at_index (verts s) i p /\ at_index (verts s) j q /\ at_index (verts s) k r.
(** [ts] lists the triangles of the solid, surface after surface. *)
Definition triangles (x : solid) (ts : list tri) : Prop :=
  exists tss, Forall2 (fun s l => Forall2 (face_corners s) (faces s) l) x tss /\ ts = concat tss.

(** Every vertex has w = 1, as [point] makes it. *)
Definition plain (x : solid) : Prop := forall s p, In s x -> In p (verts s) -> vw p = 1.
(** The sides of a triangle in order, and the sides of a mesh. *)
Definition sides (t : tri) : list (vec * vec) := let '(p, q, r) := t in [(p, q); (q, r); (r, p)].
Definition all_sides (ts : list tri) : list (vec * vec) := flat_map sides ts.
Definition back (e : vec * vec) : vec * vec := (snd e, fst e).
(** Each side is matched by one running the other way. *)
Definition oriented (ts : list tri) : Prop := Permutation (all_sides ts) (map back (all_sides ts)).
(** Two corners coincide or are more than two tolerances apart. *)
Definition corner (ts : list tri) (p : vec) : Prop := exists q, In (p, q) (all_sides ts).
Definition separated (ts : list tri) : Prop :=
  forall p q, corner ts p -> corner ts q -> p = q \/ 2 * epsilon < dist p q.
(** Number of sides that join [p] and [q], in either direction. *)
Definition joins (p q : vec) (e : vec * vec) : Prop := e = (p, q) \/ e = (q, p).
Inductive counted {A} (P : A -> Prop) : list A -> nat -> Prop :=
| c_nil : counted P [] 0
| c_yes a l n : P a -> counted P l n -> counted P (a :: l) (S n)
| c_no a l n : ~ P a -> counted P l n -> counted P (a :: l) n.
Definition watertight (ts : list tri) : Prop :=
  forall p q, In (p, q) (all_sides ts) -> counted (joins p q) (all_sides ts) 2.

(** Six times the signed volume between a triangle and the origin. *)
Definition det3 (p q r : vec) : R :=
  vx p * (vy q * vz r - vz q * vy r) - vy p * (vx q * vz r - vz q * vx r) + vz p * (vx q * vy r - vy q * vx r).
Fixpoint Rsum {A} (f : A -> R) (l : list A) : R := match l with [] => 0 | a :: r => f a + Rsum f r end.
Definition signed_volume (ts : list tri) : R := Rsum (fun t => let '(p, q, r) := t in det3 p q r) ts / 6.
(** Area of a triangle: half of sqrt(|u|^2 |v|^2 - (u.v)^2) for two of its sides. *)
Definition tri_area (t : tri) : R :=
  let '(p, q, r) := t in
  let ux := vx q - vx p in let uy := vy q - vy p in let uz := vz q - vz p in
  let wx := vx r - vx p in let wy := vy r - vy p in let wz := vz r - vz p in
  sqrt ((ux*ux + uy*uy + uz*uz) * (wx*wx + wy*wy + wz*wz) - (ux*wx + uy*wy + uz*wz) * (ux*wx + uy*wy + uz*wz)) / 2.
Definition area (ts : list tri) : R := Rsum tri_area ts.

(** The normal stored at [i] is a positive multiple of the face's own
    (right-hand rule) normal. *)
Definition flat_normal (n p q r : vec) : Prop :=
  exists k, 0 < k /\
    vx n = k * ((vy q - vy p) * (vz r - vz p) - (vz q - vz p) * (vy r - vy p)) /\
    vy n = k * ((vz q - vz p) * (vx r - vx p) - (vx q - vx p) * (vz r - vz p)) /\
    vz n = k * ((vx q - vx p) * (vy r - vy p) - (vy q - vy p) * (vx r - vx p)).
Definition flat_shaded (s : surf) : Prop :=
  forall f t i n, In f (faces s) -> face_corners s f t ->
    (let '(a, b, c) := f in i = a \/ i = b \/ i = c) -> at_index (norms s) i n ->
    let '(p, q, r) := t in flat_normal n p q r.
Definition unit_normals (s : surf) : Prop :=
  forall n, In n (norms s) -> vw n = 0 /\ vx n * vx n + vy n * vy n + vz n * vz n = 1.
Definition well_shaded (s : surf) : Prop := flat_shaded s /\ unit_normals s.
Definition w_one (s : surf) : Prop := forall p, In p (verts s) -> vw p = 1.
(** The side extrema of the box are coordinates of points of [ps]; all of [ps] is inside. *)
Definition reached (f : vec -> R) (ps : list vec) (x : R) : Prop := exists p, In p ps /\ f p = x.
Definition spans (ps : list vec) (bb : vec * vec) : Prop :=
  reached vx ps (vx (fst bb)) /\ reached vx ps (vx (snd bb)) /\
  reached vy ps (vy (fst bb)) /\ reached vy ps (vy (snd bb)) /\
  reached vz ps (vz (fst bb)) /\ reached vz ps (vz (snd bb)).
Definition holds_all (ps : list vec) (bb : vec * vec) : Prop := forall p, In p ps -> 
  vx (fst bb) <= vx p <= vx (snd bb) /\ vy (fst bb) <= vy p <= vy (snd bb) /\ vz (fst bb) <= vz p <= vz (snd bb).
Definition near (p q : vec) : Prop := dist p q < epsilon.
(** no two different entries are close *)
Definition apart (vs : list vec) : Prop :=
  forall i j p q, nth_error vs i = Some p -> nth_error vs j = Some q -> near p q -> i = j.
(** the corners of face [f] are, in order, close to those of [t] *)
Definition face_near (vs : list vec) (f : face) (t : tri) : Prop :=
  let '(a, b, c) := f in let '(p, q, r) := t in
  exists i j k p' q' r', a = Z.of_nat i /\ b = Z.of_nat j /\ c = Z.of_nat k /\
    nth_error vs i = Some p' /\ nth_error vs j = Some q' /\ nth_error vs k = Some r' /\
    near p p' /\ near q q' /\ near r r'.
Definition tri_corner (t : tri) (v : vec) : Prop := let '(p, q, r) := t in v = p \/ v = q \/ v = r.
Definition same_edge (a b : Z * Z) : Prop := a = b \/ a = (snd b, fst b).
Definition line_at (s : surf) (e : Z * Z) (l : line) : Prop := at_index (verts s) (fst e) (fst l) /\ at_index (verts s) (snd e) (snd l).
(** sides of the faces as pairs of indices *)
Definition index_side (s : surf) (e : Z * Z) : Prop :=
  exists a b c, In (a, b, c) (faces s) /\ (e = (a, b) \/ e = (b, c) \/ e = (c, a)).
Definition combo (m1 m2 m3 : R) (p1 p2 p3 q : vec) : Prop :=
  vx q = m1 * vx p1 + m2 * vx p2 + m3 * vx p3 /\ vy q = m1 * vy p1 + m2 * vy p2 + m3 * vy p3 /\
  vz q = m1 * vz p1 + m2 * vz p2 + m3 * vz p3.
Definition in_triangle (p1 p2 p3 q : vec) : Prop :=
  exists m1 m2 m3, 0 <= m1 /\ 0 <= m2 /\ 0 <= m3 /\ m1 + m2 + m3 = 1 /\ combo m1 m2 m3 p1 p2 p3 q.
