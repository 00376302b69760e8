(** Model of yapcad.geom3d's triangulated surfaces and solids over the reals.
    A surface ['surface', vertices, normals, faces, boundary, holes] is the record
    [surf]; faces are triples of Python ints (the checker insists on length 3).
    The optional metadata dictionary (deep-copied by every function here), a
    solid's material and construction lists and attached BREP data (the optional
    OCC kernel; [volumeof] and [solidbbox] fall back to it when there are no
    surfaces, modelled as absent) are left out.  Floats are reals. *)
From Coq Require Import Reals List Bool ZArith.
From Verif Require Import Dict Xform_Model Fig_Model.
Import ListNotations.
Open Scope R_scope.

(** Python exceptions raised here *)
Inductive exn := EValue | EAttribute | EZeroDivision | EIndex | EOther.
Inductive out (A : Type) := Val (a : A) | Raise (e : exn).
Arguments Val {A} _.
Arguments Raise {A} _.
Definition obind {A B} (x : out A) (f : A -> out B) : out B :=
  match x with Val a => f a | Raise e => Raise e end.
Definition of_res {A} (x : res A) : out A :=
  match x with
  | Ok a => Val a
  | ValueError => Raise EValue | AttributeError => Raise EAttribute
  | ZeroDivisionError => Raise EZeroDivision
  | NotImplementedError => Raise EOther | TypeError => Raise EOther
  end.
Fixpoint omap {A B} (f : A -> out B) (l : list A) : out (list B) :=
  match l with
  | [] => Val []
  | a :: r => obind (f a) (fun b => obind (omap f r) (fun bs => Val (b :: bs)))
  end.

Definition face := (Z * Z * Z)%type.
Record surf := mksurf {
  verts : list vec; norms : list vec; faces : list face; bnd : list Z; holes : list (list Z) }.
Definition solid := list surf.

(** Python list indexing: negative indices count from the end. *)
Definition pyget {A} (l : list A) (i : Z) : out A :=
  let n := Z.of_nat (length l) in
  let j := if (i <? 0)%Z then (i + n)%Z else i in
  if ((j <? 0) || (n <=? j))%Z%bool then Raise EIndex
  else match nth_error l (Z.to_nat j) with Some a => Val a | None => Raise EIndex end.

(** geom3d.py:578-621 issurface(s, fast=False).  [filterInds] keeps the elements
    that are neither an int, nor negative, nor too large, so any int passes; what
    is left of it is the demand for three vertices.  ispoly: geom.py:3031 (more
    than two points, w > 0); isdirectlist: geom.py:1664-1669. *)
Definition filterInds (n : nat) (inds : list Z) : bool := negb (Nat.ltb n 3).
Definition flat_faces (fs : list face) : list Z := flat_map (fun f => let '(a, b, c) := f in [a; b; c]) fs.
Definition issurface (s : surf) : bool :=
  let n := length (verts s) in
  Nat.ltb 2 n && forallb (fun p => Rltb 0 (vw p)) (verts s)
  && forallb (fun d => close (vw d) 0) (norms s)
  && Nat.eqb n (length (norms s))
  && filterInds n (flat_faces (faces s)) && filterInds n (bnd s)
  && forallb (filterInds n) (holes s).
(** geom3d.py:776-804 issolid(s, fast=False) *)
Definition issolid (x : solid) : bool := forallb issurface x.

(** geom3d.py:512-516 surfacebbox; [None] is polybbox's False *)
Definition surfacebbox (s : surf) : option (vec * vec) := polybbox (verts s).
(** geom3d.py:806-821 solidbbox; [None] is the empty list.  A surface without
    vertices makes [sb[0]] fail (False is not subscriptable) unless it comes
    before every other, where [not box] skips it. *)
Fixpoint solidbbox_loop (x : solid) (box : option (vec * vec)) : out (option (vec * vec)) :=
  match x with
  | [] => Val box
  | s :: rest =>
      match box, surfacebbox s with
      | None, sb => solidbbox_loop rest sb
      | Some b, None => Raise EOther
      | Some (lo, hi), Some (l, h) =>
          solidbbox_loop rest
            (Some (point (Rmin (vx lo) (vx l)) (Rmin (vy lo) (vy l)) (Rmin (vz lo) (vz l)),
                   point (Rmax (vx hi) (vx h)) (Rmax (vy hi) (vy h)) (Rmax (vz hi) (vz h))))
      end
  end.
Definition solidbbox (x : solid) : out (option (vec * vec)) := solidbbox_loop x None.

(** geom3d.py:644-651 translatesurface *)
Definition translatesurface (s : surf) (delta : vec) : surf :=
  if vclose delta (point 0 0 0) then s
  else mksurf (map (fun p => add p delta) (verts s)) (norms s) (faces s) (bnd s) (holes s).
(** geom3d.py:627-642 rotatesurface, without the [mat] argument; geom.rotate
    (geom.py:4208-4243) applies the matrix to every vertex and every normal. *)
Definition rotation_matrix (ang : R) (cent axis : vec) : out matrix :=
  obind (of_res (Rotation axis ang false)) (fun r =>
    Val (if vclose cent (point 0 0 0) then r
         else mulMM (mulMM (Translation cent false) r) (Translation cent true))).
Definition rotatesurface (s : surf) (ang : R) (cent axis : vec) : out surf :=
  if close ang 0 then Val s
  else obind (rotation_matrix ang cent axis) (fun m =>
    Val (mksurf (map (mulMV m) (verts s)) (map (mulMV m) (norms s)) (faces s) (bnd s) (holes s))).
(** geom3d.py:653-666 mirrorsurface *)
Definition swap_face (f : face) : face := let '(a, b, c) := f in (a, c, b).
Definition mirrorsurface (s : surf) (p : plane) : surf :=
  mksurf (map (fun x => mul4 x (flip p)) (verts s)) (map (fun x => mul4 x (flip p)) (norms s))
         (map swap_face (faces s)) (bnd s) (holes s).
(** geom3d.py:668-673 reversesurface *)
Definition reversesurface (s : surf) : surf :=
  mksurf (verts s) (map (fun x => scale4 x (-1)) (norms s)) (map swap_face (faces s)) (bnd s) (holes s).
(** geom3d.py:675-727 scalesurface.  [None] is the argument's default False, which
    counts as the number 0 in [close] and in the division of line 717. *)
Definition num (o : option R) : R := match o with Some r => r | None => 0 end.
Definition scale_normal (sx sy sz : R) (n : vec) : vec :=
  let m := mkv (vx n * (1 / sx)) (vy n * (1 / sy)) (vz n * (1 / sz)) 1 in
  let l := mag m in
  if Rltb (1 / 10000000000) l then mkv (vx m / l) (vy m / l) (vz m / l) 0 else n.
Definition scalesurface (s : surf) (sx : R) (sy0 sz0 : option R) (cent : vec) : out surf :=
  let '(sy, sz) := match sy0, sz0 with None, None => (Some sx, Some sx) | _, _ => (sy0, sz0) end in
  if vclose (scale_as_point sx sy sz) (point 1 1 1) then Val s
  else
    obind (of_res (Scale sx sy sz false)) (fun sm =>
      let m := if vclose cent (point 0 0 0) then sm
               else mulMM (mulMM (Translation cent true) sm) (Translation cent false) in
      let vs := map (mulMV m) (verts s) in
      if (negb (close sx (num sy)) || negb (close (num sy) (num sz)))%bool then
        if (Reqb sx 0 || Reqb (num sy) 0 || Reqb (num sz) 0)%bool then Raise EZeroDivision
        else Val (mksurf vs (map (scale_normal sx (num sy) (num sz)) (norms s)) (faces s) (bnd s) (holes s))
      else Val (mksurf vs (norms s) (faces s) (bnd s) (holes s))).

(** geom3d.py:844-957 translatesolid, rotatesolid, mirrorsolid (preserveNormal has
    no effect: line 889 tests [preserveNormal and False]), scalesolid *)
Definition translatesolid (x : solid) (delta : vec) : solid := map (fun s => translatesurface s delta) x.
Definition rotatesolid (x : solid) (ang : R) (cent axis : vec) : out solid :=
  omap (fun s => rotatesurface s ang cent axis) x.
Definition mirrorsolid (x : solid) (p : plane) : solid := map (fun s => mirrorsurface s p) x.
Definition scalesolid (x : solid) (sx : R) (sy sz : option R) (cent : vec) : out solid :=
  let '(sy', sz') := match sy, sz with None, None => (Some sx, Some sx) | _, _ => (sy, sz) end in
  if vclose (scale_as_point sx sy' sz') (point 1 1 1) then Val x
  else omap (fun s => scalesurface s sx sy' sz' cent) x.

(** The corner points of each face: [vertices[face[0]]] and so on. *)
Definition tri := (vec * vec * vec)%type.
Definition corner_points (s : surf) (f : face) : out tri :=
  let '(a, b, c) := f in
  obind (pyget (verts s) a) (fun p => obind (pyget (verts s) b) (fun q =>
    obind (pyget (verts s) c) (fun r => Val (p, q, r)))).
Definition surface_tris (s : surf) : out (list tri) := omap (corner_points s) (faces s).
Definition solid_tris (x : solid) : out (list tri) :=
  obind (omap surface_tris x) (fun l => Val (concat l)).

(** Python's round(x): to the nearest integer, ties to even. *)
Definition pyround (x : R) : Z :=
  let f := Int_part x in
  let d := x - IZR f in
  if Rltb d (1/2) then f else if Rltb (1/2) d then (f + 1)%Z
  else if Z.even f then f else (f + 1)%Z.
(** geom3d.py:962-971 _point_to_key.  The final multiplication by epsilon is
    injective and monotone on reals, so the integers stand for the key. *)
Definition key := (Z * Z * Z)%type.
Definition point_to_key (p : vec) : key :=
  (pyround (vx p / epsilon), pyround (vy p / epsilon), pyround (vz p / epsilon)).
(** Tuple comparison; geom3d.py:973-981 _canonical_edge_key.  Python's
    min(k1,k2) is k2 only if k2 < k1, and max(k1,k2) is k2 only if k2 > k1. *)
Definition key_ltb (a b : key) : bool :=
  let '(a1, a2, a3) := a in let '(b1, b2, b3) := b in
  if (a1 =? b1)%Z then if (a2 =? b2)%Z then (a3 <? b3)%Z else (a2 <? b2)%Z else (a1 <? b1)%Z.
Definition key_eqb (a b : key) : bool :=
  let '(a1, a2, a3) := a in let '(b1, b2, b3) := b in ((a1 =? b1) && (a2 =? b2) && (a3 =? b3))%Z.
Definition edge_key := (key * key)%type.
Definition edge_eqb (a b : edge_key) : bool := key_eqb (fst a) (fst b) && key_eqb (snd a) (snd b).
Definition canonical_edge_key (p q : vec) : edge_key :=
  let k1 := point_to_key p in let k2 := point_to_key q in
  (if key_ltb k2 k1 then k2 else k1, if key_ltb k1 k2 then k2 else k1).
(** geom3d.py:1019-1048: the edge counts *)
Definition count_edge (d : list (edge_key * nat)) (e : edge_key) : list (edge_key * nat) :=
  let n := match dget edge_eqb e d with Some n => n | None => 0%nat end in dset edge_eqb e (S n) d.
Definition tri_edge_keys (t : tri) : list edge_key :=
  let '(p, q, r) := t in [canonical_edge_key p q; canonical_edge_key q r; canonical_edge_key r p].
Definition edge_counts (ts : list tri) : list (edge_key * nat) :=
  fold_left count_edge (flat_map tri_edge_keys ts) [].
(** geom3d.py:983-1056 issolidclosed *)
Definition issolidclosed (x : solid) : out bool :=
  if negb (issolid x) then Raise EValue
  else obind (solid_tris x) (fun ts => Val (forallb (fun e => Nat.eqb (snd e) 2) (edge_counts ts))).

(** geom3d.py:1111-1134: one face's contribution.  [point(v)] copies a vertex. *)
Definition tri_volume (t : tri) : R :=
  let '(p0, p1, p2) := t in dot p0 (cross (sub p1 p0) (sub p2 p0)) / 6.
Definition sum_volume (ts : list tri) : R := fold_left (fun v t => v + tri_volume t) ts 0.
(** geom3d.py:1058-1137 volumeof *)
Definition volumeof (x : solid) : out R :=
  if negb (issolid x) then Raise EValue
  else obind (issolidclosed x) (fun c =>
    if negb c then Raise EValue
    else match x with
         | [] => Val 0
         | _ => obind (solid_tris x) (fun ts => Val (Rabs (sum_volume ts)))
         end).

(** geom_util.py:611-618 triarea; geom3d.py:1183-1195 surfacearea *)
Definition triarea (t : tri) : R :=
  let '(p1, p2, p3) := t in mag (cross (sub p2 p1) (sub p3 p1)) / 2.
Definition surfacearea (s : surf) : out R :=
  obind (surface_tris s) (fun ts => Val (fold_left (fun a t => a + triarea t) ts 0)).

(** geom3d.py:1139-1148 normfunc *)
Definition normfunc (t : tri) : out (vec * vec * vec) :=
  let '(a, b, c) := t in
  let d := cross (sub b a) (sub c b) in
  if Reqb (mag d) 0 then Raise EZeroDivision
  else let n := mkv (vx d * (1 / mag d)) (vy d * (1 / mag d)) (vz d * (1 / mag d)) 0 in Val (n, n, n).
(** geom3d.py:1157-1163 addVert *)
Fixpoint find_close (p : vec) (vs : list vec) (i : nat) : option nat :=
  match vs with
  | [] => None
  | v :: r => if vclose p v then Some i else find_close p r (S i)
  end.
Definition addVert (p n : vec) (vs ns : list vec) : nat * list vec * list vec :=
  match find_close p vs 0 with
  | Some i => (i, vs, ns)
  | None => (length vs, vs ++ [p], ns ++ [n])
  end.
(** geom3d.py:1150-1181 addTri2Surface (check=False, nfunc=normfunc) *)
Definition addTri2Surface (t : tri) (s : surf) : out surf :=
  obind (normfunc t) (fun ns =>
    let '(n1, n2, n3) := ns in let '(p1, p2, p3) := t in
    let '(i1, v1, m1) := addVert p1 n1 (verts s) (norms s) in
    let '(i2, v2, m2) := addVert p2 n2 v1 m1 in
    let '(i3, v3, m3) := addVert p3 n3 v2 m2 in
    Val (mksurf v3 m3 (faces s ++ [(Z.of_nat i1, Z.of_nat i2, Z.of_nat i3)]) (bnd s) (holes s))).

(** A caller's loop building a surface triangle by triangle, as in
    geom3d.py:1340-1352. *)
Fixpoint addTris (ts : list tri) (s : surf) : out surf :=
  match ts with [] => Val s | t :: r => obind (addTri2Surface t s) (addTris r) end.
(** geom3d.py:1197-1233 surf2lines.  The text "i-j" of inds2key is represented by
    the ordered pair; [drawn] is the list of keys. *)
Definition inds2key (i j : Z) : Z * Z := if (i <=? j)%Z then (i, j) else (j, i).
Definition ikey_eqb (a b : Z * Z) : bool := ((fst a =? fst b) && (snd a =? snd b))%Z.
Definition addLine (s : surf) (ij : Z * Z) (st : list (Z * Z) * list line) : out (list (Z * Z) * list line) :=
  let k := inds2key (fst ij) (snd ij) in
  if existsb (ikey_eqb k) (fst st) then Val st
  else obind (pyget (verts s) (fst ij)) (fun p => obind (pyget (verts s) (snd ij)) (fun q =>
         Val (fst st ++ [k], snd st ++ [(p, q)]))).
Definition face_sides (f : face) : list (Z * Z) := let '(a, b, c) := f in [(a, b); (b, c); (c, a)].
Fixpoint addLines (s : surf) (es : list (Z * Z)) (st : list (Z * Z) * list line) : out (list (Z * Z) * list line) :=
  match es with
  | [] => Val st
  | e :: r => obind (addLine s e st) (addLines s r)
  end.
Definition surf2lines (s : surf) : out (list line) :=
  obind (addLines s (flat_map face_sides (faces s)) ([], [])) (fun st => Val (snd st)).

(** geom3d.py:197-201 signedPlaneDistance *)
Definition signedPlaneDistance (p p0 n : vec) : R := dot (sub p p0) n.
(** geom3d.py:203-252 tri2p0n(face): centre and unit normal (w = 0) *)
Definition direction (v : vec) : vec := mkv (vx v) (vy v) (vz v) 0.
Definition tri2p0n (t : tri) : out (vec * vec) :=
  let '(p1, p2, p3) := t in
  let p0 := scale3 (add p1 (add p2 p3)) (1 / 3) in
  let c := cross (sub p2 p1) (sub p3 p2) in
  let m := mag c in
  if Rltb m epsilon then Raise EValue else Val (p0, direction (scale3 c (1 / m))).
(** tri2p0n(face, basis=True): additionally the matrices to and from the face's
    coordinate system.  [mag v1] cannot be 0 here, as m >= epsilon. *)
Definition tri2p0n_basis (t : tri) : out (vec * vec * matrix * matrix) :=
  obind (tri2p0n t) (fun pn =>
    let '(p0, n) := pn in let '(p1, p2, p3) := t in
    let v1 := sub p2 p1 in
    let x := scale3 v1 (1 / mag v1) in
    let y := scale3 (cross x n) (-1) in
    let r := mkrows (direction x) (direction y) n (mkv 0 0 0 1) in
    let forward := mulMM (mkmat r false) (Translation (scale3 p0 (-1)) false) in
    let inverse := mulMM (Translation p0 false) (mkmat r true) in
    Val (p0, n, forward, inverse)).

(** geom3d.py:325-337 lineCardinalPlaneIntersect; [None] is False *)
Definition lineCardinal (l : line) (i : nat) (inside : bool) : option vec :=
  let a := vget (fst l) i in let b := vget (snd l) i in
  if close (a - b) 0 then None
  else let u := a / (a - b) in
       if (inside && (Rltb u 0 || Rltb 1 u))%bool then None else Some (sampleline l u).
(** geom3d.py:304-371 linePlaneIntersect; the plane is a name, three points, or
    something else ([istriangle] fails: ValueError, also for the documented
    [p0,n,forward,reverse] form).  The triangle test at the end is done whatever
    [inside] says. *)
Inductive plane_arg := PNamed (p : plane) | PTri (t : tri) | PBasis (p0 n : vec) (fwd inv : matrix).
Definition linePlaneIntersect (l : line) (pl : plane_arg) (inside : bool) : out (option vec) :=
  match pl with
  | PNamed p => Val (lineCardinal l (match p with XY => 2 | YZ => 0 | XZ => 1 end)%nat inside)
  | PTri t =>
      obind (tri2p0n_basis t) (fun b =>
        let '(p0, n, fwd, inv) := b in let '(p1, p2, p3) := t in
        match lineCardinal (mulMV fwd (fst l), mulMV fwd (snd l)) 2 inside with
        | None => Val None
        | Some p =>
            if negb (isXYPlanar [mulMV fwd p1; mulMV fwd p2; mulMV fwd p3; p]) then Raise EValue
            else obind (of_res (isInsideTriangleXY_raw p (mulMV fwd p1) (mulMV fwd p2) (mulMV fwd p3)))
                   (fun b => if b then Val (Some (mulMV inv p)) else Val None)
        end)
  | PBasis _ _ _ _ => Raise EValue
  end.
