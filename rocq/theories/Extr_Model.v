(** Model of extrude, _loft_surface and makeLoftSolid (yapcad.geom3d_util) and of
    the argument handling of surface() and solid() (yapcad.geom3d).  Surfaces and
    solids are those of Solid_Model; the OCC shape attached when the optional
    kernel is installed and the construction record are left out.  Floats are
    reals. *)
From Coq Require Import Reals List Bool ZArith.
From Verif Require Import Xform_Model Fig_Model Solid_Model Prim_Model.
Import ListNotations.
Open Scope R_scope.

(** Python list item assignment: [l[i] = a]; negative indices count from the end. *)
Fixpoint set_nth {A} (l : list A) (k : nat) (a : A) : list A :=
  match l, k with
  | [], _ => []
  | _ :: r, O => a :: r
  | b :: r, S k' => b :: set_nth r k' a
  end.
Definition pyset {A} (l : list A) (i : Z) (a : A) : out (list A) :=
  let n := Z.of_nat (length l) in
  let j := if (i <? 0)%Z then (i + n)%Z else i in
  if ((j <? 0) || (n <=? j))%Z%bool then Raise EIndex else Val (set_nth l (Z.to_nat j) a).

(** geom3d_util.py:1344-1347: the boundary, if any, then the non-empty holes *)
Definition nonempty {A} (l : list A) : bool := match l with [] => false | _ => true end.
Definition extrude_loops (s : surf) : list (list Z) :=
  (if nonempty (bnd s) then [bnd s] else []) ++ filter nonempty (holes s).
(** geom3d_util.py:1354-1370 _project: coordinates in the plane of the first
    face, or x and y when there is no face or its frame cannot be computed (every
    exception is swallowed). *)
Definition extrude_project (s : surf) : vec -> R * R :=
  match faces s with
  | [] => fun p => (vx p, vy p)
  | f :: _ =>
      match obind (corner_points s f) tri2p0n_basis with
      | Val b => let '(p0, n, fwd, inv) := b in fun p => let q := mulMV fwd p in (vx q, vy q)
      | Raise _ => fun p => (vx p, vy p)
      end
  end.
(** geom3d_util.py:1372-1380 loop_area *)
Definition loop_pairs {A} (l : list A) : list (A * A) :=
  match l with [] => [] | a :: r => combine l (r ++ [a]) end.
Definition shoelace (proj : vec -> R * R) (a : R) (e : vec * vec) : R :=
  let '(x0, y0) := proj (fst e) in let '(x1, y1) := proj (snd e) in a + (x0 * y1 - x1 * y0).
Definition loop_area (V : list vec) (proj : vec -> R * R) (loop : list Z) : out R :=
  if Nat.ltb (length loop) 3 then Val 0
  else obind (omap (pyget V) loop) (fun ps => Val (fold_left (shoelace proj) (loop_pairs ps) 0 / 2)).
(** geom3d_util.py:1382-1390: the outer loop made counter-clockwise, the holes
    clockwise.  [outer_sign] is 1 whatever the outer area was: it has just been
    negated if negative. *)
Definition orient_loops (V : list vec) (proj : vec -> R * R) (loops : list (list Z)) : out (list (list Z)) :=
  match loops with
  | [] => Val []
  | outer :: rest =>
      obind (loop_area V proj outer) (fun a =>
      obind (omap (fun l => obind (loop_area V proj l) (fun b => Val (if Rltb 0 (b * 1) then rev l else l))) rest) (fun rest' =>
        Val ((if Rltb a 0 then rev outer else outer) :: rest')))
  end.
(** geom3d_util.py:1392-1411: one wall per loop side.  [loop_triples] lists each
    corner with the ones before and after it; a corner whose test triangle is
    degenerate is left out. *)
Definition loop_triples {A} (l : list A) : list (A * A * A) :=
  match l with [] => [] | a :: r => combine (combine (last r a :: removelast l) l) (r ++ [a]) end.
Definition wall (V : list vec) (offset : Z) (st : list vec * list face) (t : Z * Z * Z) : out (list vec * list face) :=
  let '(ns, fs) := st in let '(j0, j1, j2) := t in
  let j3 := (j2 + offset)%Z in let j4 := (j1 + offset)%Z in
  obind (pyget V j0) (fun p0 => obind (pyget V j2) (fun p1 => obind (pyget V j3) (fun p2 =>
    match tri2p0n (p0, p1, p2) with
    | Raise EValue => Val (ns, fs)
    | Raise e => Raise e
    | Val (_, n0) =>
        obind (pyset ns j1 n0) (fun ns1 => obind (pyset ns1 j4 n0) (fun ns2 =>
          Val (ns2, fs ++ [(j1, j2, j3); (j1, j3, j4)])))
    end))).
Fixpoint walls (V : list vec) (offset : Z) (ts : list (Z * Z * Z)) (st : list vec * list face) : out (list vec * list face) :=
  match ts with [] => Val st | t :: r => obind (wall V offset st t) (walls V offset r) end.
Definition long_loop (l : list Z) : bool := negb (Nat.ltb (length l) 2).
(** geom3d_util.py:1328-1428 extrude *)
Definition extrude (s : surf) (distance : R) (direction : vec) : out solid :=
  if Rleb distance epsilon then Raise EValue
  else
    let s1 := translatesurface s (scale4 direction distance) in
    let s2 := reversesurface s in
    let V := verts s2 ++ verts s1 in
    let N := map (fun _ => mkv 0 0 1 0) V in
    let offset := Z.of_nat (length (verts s2)) in
    obind (orient_loops V (extrude_project s) (extrude_loops s)) (fun loops =>
    obind (walls V offset (flat_map loop_triples (filter long_loop loops)) (N, [])) (fun st =>
    let '(ns, fs) := st in
    if nonempty fs then obind (mk_surface V ns fs) (fun strip => Val [s2; strip; s1])
    else Val [s2; mksurf [] [] [] [] []; s1])).

(** geom3d_util.py:1512-1518 _dedupe: [last] is the last point kept so far *)
Fixpoint dedupe (last : option vec) (l : list vec) : list vec :=
  match l with
  | [] => []
  | p :: r =>
      let q := mkv (vx p) (vy p) (vz p) (vw p) in
      match last with
      | None => q :: dedupe (Some q) r
      | Some c => if Rltb epsilon (mag (sub p c)) then q :: dedupe (Some q) r else dedupe last r
      end
  end.
(** geom3d_util.py:1498-1556 _loft_surface *)
Definition rev_face (f : face) : face := let '(a, b, c) := f in (c, b, a).
Definition loft_step (V : list vec) (count : nat) (invert : bool) (st : list vec * list face) (i : nat) : out (list vec * list face) :=
  let '(ns, fs) := st in
  let j1 := (S i mod count)%nat in let j2 := (j1 + count)%nat in let j3 := (i + count)%nat in
  let t1 := (Z.of_nat i, Z.of_nat j1, Z.of_nat j2) in
  let t2 := (Z.of_nat i, Z.of_nat j2, Z.of_nat j3) in
  let t1' := if invert then rev_face t1 else t1 in
  let t2' := if invert then rev_face t2 else t2 in
  match obind (corner_points (mksurf V [] [] [] []) t1') tri2p0n with
  | Raise EValue => Val (ns, fs)
  | Raise e => Raise e
  | Val (_, n) => Val (set_nth (set_nth (set_nth (set_nth ns i n) j1 n) j2 n) j3 n, fs ++ [t1'; t2'])
  end.
Fixpoint loft_steps (V : list vec) (count : nat) (invert : bool) (is : list nat) (st : list vec * list face) : out (list vec * list face) :=
  match is with [] => Val st | i :: r => obind (loft_step V count invert st i) (loft_steps V count invert r) end.
Definition loft_surface (lower0 upper0 : list vec) (invert : bool) : out surf :=
  if negb (nonempty lower0) || negb (nonempty upper0) then Raise EValue
  else
    let lower := dedupe None lower0 in let upper := dedupe None upper0 in
    if negb (Nat.eqb (length lower) (length upper)) || Nat.ltb (length lower) 3 then Raise EValue
    else
      let V := lower ++ upper in
      obind (loft_steps V (length lower) invert (seq 0 (length lower)) (map (fun _ => mkv 0 0 1 0) V, [])) (fun st =>
      let '(ns, fs) := st in
      if nonempty fs then mk_surface V ns fs else Raise EValue).
(** geom3d_util.py:1602-1627 makeLoftSolid: the wall alone, no lids *)
Definition makeLoftSolid (lower upper : list vec) : out solid :=
  obind (loft_surface lower upper false) (fun s => Val [s]).

(** ** Arguments of surface() and solid(): geom3d.py:461-510, 730-779.
    An argument after the fixed ones is a list ([M] is what the lists hold), a
    dictionary, or something else.  [pick] is the loop over the extra arguments:
    a list goes into the first slot whose present content is empty. *)
Inductive extra (M D : Type) := XList (l : list M) | XDict (d : D) | XOther.
Arguments XList {M D} _.
Arguments XDict {M D} _.
Arguments XOther {M D}.
Fixpoint pick {M D} (xs : list (extra M D)) (a b : list M) (md : option D) : out (list M * list M * option D) :=
  match xs with
  | [] => Val (a, b, md)
  | XDict d :: r => match md with None => pick r a b (Some d) | Some _ => Raise EValue end
  | XList l :: r =>
      if negb (nonempty a) then pick r l b md
      else if negb (nonempty b) then pick r a l md
      else Raise EValue
  | XOther :: _ => Raise EValue
  end.
(** solid(surfaces, ...) with a list of surfaces and up to three more arguments:
    surfaces, material, construction, metadata.  (One argument that is itself a
    valid solid, or the empty list, is treated before; [issurface] is called in
    its fast mode, which every record passes.) *)
Definition solid_ctor {M D} (surfs : list surf) (xs : list (extra M D)) : out (list surf * list M * list M * option D) :=
  if Nat.ltb 3 (length xs) then Raise EValue
  else obind (pick xs [] [] None) (fun r => let '(m, c, md) := r in Val (surfs, m, c, md)).
(** surface(vertices, normals, faces, ...): the extra lists are the boundary and
    the holes.  The boundary is a list of ints and the holes a list of lists; a
    slot that gets the wrong one makes [filterInds] fail only for members that
    are neither ints nor comparable (a list [x < 0] raises TypeError). *)
Inductive bitem := BInt (z : Z) | BLoop (l : list Z).
Definition surface_ctor {D} (vs ns : list vec) (fs : list face) (xs : list (extra bitem D)) : out (list bitem * list bitem * option D) :=
  if Nat.ltb 3 (length xs) then Raise EValue
  else if negb (Nat.eqb (length vs) (length ns)) then Raise EValue
  else obind (pick xs [] [] None) (fun r => let '(b, h, md) := r in
    if negb (issurface (mksurf vs ns fs [] [])) then Raise EValue
    else if existsb (fun i => match i with BLoop _ => true | BInt _ => false end) b then Raise EOther
    else if existsb (fun i => match i with BInt _ => true | BLoop _ => false end) h then Raise EOther
    else Val (b, h, md)).
