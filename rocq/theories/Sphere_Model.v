(** Model of the sphere, spheroid and dodecahedron of yapcad.geom3d_util.  Surfaces
    are those of Solid_Model, floats are reals; the analytic-surface metadata, the
    construction record and the optional OCC shape are left out. *)
From Coq Require Import Reals List Bool ZArith.
From Verif Require Import Xform_Model Fig_Model Solid_Model Prim_Model Dict.
Import ListNotations.
Open Scope R_scope.

(** a / b on floats: ZeroDivisionError when b is 0 *)
Definition odiv (a b : R) : out R := if Reqb b 0 then Raise EZeroDivision else Val (a / b).
(** geom.py:1713-1715 add4 *)
Definition add4 (a b : vec) : vec := mkv (vx a + vx b) (vy a + vy b) (vz a + vz b) (vw a + vw b).

(** geom3d_util.py:118-141 sphere2cartesian *)
Definition sphere2cartesian (lat lon rad : R) : vec :=
  if Reqb lat 90 then mkv 0 0 rad 1
  else if Reqb lat (-90) then mkv 0 0 (- rad) 1
  else
    let latr := (pymod (lat + 90) 180 - 90) * pi2 / 360 in
    let lonr := pymod lon 360 * pi2 / 360 in
    let small := cos latr * rad in
    mkv (cos lonr * small) (sin lonr * small) (sin latr * rad) 1.

(** geom3d_util.py:144-175 makeIcoPoints *)
Definition ico_point (i : nat) (rad : R) : vec :=
  match i with
  | O => sphere2cartesian 90 0 rad
  | 11%nat => sphere2cartesian (-90) 0 rad
  | S k => let sgn := if Nat.even k then -1 else 1 in
           sphere2cartesian (atan (1 / 2) * 360 * sgn / pi2) (INR k * 36) rad
  end.
Definition ico_normal (p : vec) : out vec :=
  obind (odiv 1 (mag p)) (fun k => let n := scale3 p k in Val (mkv (vx n) (vy n) (vz n) 0)).
Definition makeIcoPoints (center : vec) (rad : R) : out (list vec * list vec) :=
  let ps := map (fun i => ico_point i rad) (seq 0 12) in
  obind (omap ico_normal ps) (fun ns => Val (map (fun p => add p center) ps, ns)).

(** geom3d_util.py:178-180 icaIndices *)
Definition icaIndices : list (nat * nat * nat) :=
  [(1,11,3);(3,11,5);(5,11,7);(7,11,9);(9,11,1);
   (2,1,3);(2,3,4);(4,3,5);(4,5,6);(6,5,7);(6,7,8);(8,7,9);(8,9,10);(10,9,1);(10,1,2);
   (0,2,4);(0,4,6);(0,6,8);(0,8,10);(0,10,2)]%nat.

(** geom3d_util.py:200-204 the key f"{x:.2f}{y:.2f}{z:.2f}" of a vertex, coordinates
    within epsilon of 0 replaced by 0.0.  ".2f" prints the hundredths (rounded half
    to even) and a minus sign for negative numbers, also when they round to 0; two
    decimals always follow the point, so the concatenation determines its parts. *)
Definition fmt2 (x : R) : bool * Z := (Rltb x 0, pyround (100 * x)).
Definition vkey (v : vec) : (bool * Z) * (bool * Z) * (bool * Z) :=
  let z x := if Rltb (Rabs x) epsilon then 0 else x in
  (fmt2 (z (vx v)), fmt2 (z (vy v)), fmt2 (z (vz v))).
Definition num_eqb (a b : bool * Z) : bool := Bool.eqb (fst a) (fst b) && Z.eqb (snd a) (snd b).
Definition key_eqb (a b : (bool * Z) * (bool * Z) * (bool * Z)) : bool :=
  num_eqb (fst (fst a)) (fst (fst b)) && num_eqb (snd (fst a)) (snd (fst b)) && num_eqb (snd a) (snd b).
(** the module's global vertexHash *)
Definition vhash := list (((bool * Z) * (bool * Z) * (bool * Z)) * list nat).

(** geom3d_util.py:208-217 the loop over the indices filed under the key: the first
    usable one that is close, or the list of usable ones.  An index at or past the
    end of the list is dropped. *)
Fixpoint probe (nv : vec) (vs : list vec) (inds valid : list nat) : nat + list nat :=
  match inds with
  | [] => inr (rev valid)
  | i :: rest =>
      match nth_error vs i with
      | None => probe nv vs rest valid
      | Some v => if vclose nv v then inl i else probe nv vs rest (i :: valid)
      end
  end.
(** geom3d_util.py:182-226 addVertex, with the global hash passed along.  The hash
    is emptied by the caller when it belongs to another list (lines 194-197). *)
Definition mesh := (list vec * list vec)%type.
Definition addVertex (nv nn : vec) (m : mesh) (H : vhash) : nat * mesh * vhash :=
  let '(vs, ns) := m in
  let k := vkey nv in
  let app := (length vs, (vs ++ [nv], ns ++ [nn])) in
  match dget key_eqb k H with
  | Some inds =>
      match probe nv vs inds [] with
      | inl i => (i, m, H)
      | inr valid => (app, dset key_eqb k (valid ++ [length vs]) H)
      end
  | None => (app, dset key_eqb k [length vs] H)
  end.

(** geom3d_util.py:228-272 subdivide: a new vertex over the middle of a side, and the
    four smaller faces *)
Definition mid_vertex (rad : R) (v1 v2 : vec) : out vec :=
  let s := add v1 v2 in obind (odiv rad (mag s)) (fun k => Val (scale3 s k)).
Definition mid_normal (n1 n2 : vec) : out vec :=
  let s := add4 n1 n2 in obind (odiv 1 (mag s)) (fun k => Val (scale4 s k)).
Definition lookup (l : list vec) (i : nat) : out vec :=
  match nth_error l i with Some v => Val v | None => Raise EIndex end.
Definition subdivide (rad : R) (f : nat * nat * nat) (m : mesh) (H : vhash) : out (list (nat * nat * nat) * mesh * vhash) :=
  let '(i1, i2, i3) := f in
  obind (lookup (fst m) i1) (fun v1 => obind (lookup (fst m) i2) (fun v2 => obind (lookup (fst m) i3) (fun v3 =>
  obind (lookup (snd m) i1) (fun n1 => obind (lookup (snd m) i2) (fun n2 => obind (lookup (snd m) i3) (fun n3 =>
  obind (mid_vertex rad v1 v2) (fun va => obind (mid_vertex rad v2 v3) (fun vb => obind (mid_vertex rad v3 v1) (fun vc =>
  obind (mid_normal n1 n2) (fun na => obind (mid_normal n2 n3) (fun nb => obind (mid_normal n3 n1) (fun nc =>
    let '(a, m, H) := addVertex va na m H in
    let '(b, m, H) := addVertex vb nb m H in
    let '(c, m, H) := addVertex vc nc m H in
    Val ([(i1, a, c); (a, i2, b); (b, i3, c); (a, b, c)], m, H))))))))))))).

(** geom3d_util.py:275-301 sphereSurface.  [H] is the global hash found on entry:
    empty when it belonged to another list; a list object freed in the meantime may
    have had the same address, in which case the old contents are used. *)
Fixpoint subdivide_all (rad : R) (fs : list (nat * nat * nat)) (m : mesh) (H : vhash) : out (list (nat * nat * nat) * mesh * vhash) :=
  match fs with
  | [] => Val ([], m, H)
  | f :: rest =>
      obind (subdivide rad f m H) (fun r1 => let '(fs1, m, H) := r1 in
      obind (subdivide_all rad rest m H) (fun r2 => let '(fs2, m, H) := r2 in
        Val (fs1 ++ fs2, m, H)))
  end.
Fixpoint refine (rad : R) (depth : nat) (fs : list (nat * nat * nat)) (m : mesh) (H : vhash) : out (list (nat * nat * nat) * mesh * vhash) :=
  match depth with
  | O => Val (fs, m, H)
  | S d => obind (subdivide_all rad fs m H) (fun r => let '(fs, m, H) := r in refine rad d fs m H)
  end.
Definition zface (f : nat * nat * nat) : face := let '(a, b, c) := f in (Z.of_nat a, Z.of_nat b, Z.of_nat c).
Definition sphereSurface (H : vhash) (diameter : R) (center : vec) (depth : nat) : out (surf * vhash) :=
  let rad := diameter / 2 in
  obind (makeIcoPoints origin rad) (fun m =>
  obind (refine rad depth icaIndices m H) (fun r =>
    let '(fs, m, H) := r in
    let vs := if vclose center origin then fst m else map (fun p => add p center) (fst m) in
    Val (mksurf vs (snd m) (map zface fs) [] [], H))).
(** geom3d_util.py:304-324 sphere; solid() accepts any list of surfaces that pass
    issurface with fast=True (a non-empty list tagged 'surface') *)
Definition sphere (H : vhash) (diameter : R) (center : vec) (depth : nat) : out (solid * vhash) :=
  obind (sphereSurface H diameter center depth) (fun r => Val ([fst r], snd r)).

(** geom3d_util.py:327-391 oblate_spheroid *)
Definition oblate_normal (er pr : R) (n : vec) : out vec :=
  obind (odiv (vx n) er) (fun x => obind (odiv (vy n) er) (fun y => obind (odiv (vz n) pr) (fun z =>
    let l := sqrt (x * x + y * y + z * z) in
    Val (if Rltb 0 l then mkv (x / l) (y / l) (z / l) 0 else mkv x y z 0)))).
Definition oblate_spheroid (H : vhash) (diameter oblateness : R) (center : vec) (depth : nat) : out (solid * vhash) :=
  let er := diameter / 2 in
  let pr := er * (1 - oblateness) in
  obind (sphereSurface H 2 origin depth) (fun r => let '(s, H) := r in
  obind (omap (oblate_normal er pr) (norms s)) (fun ns =>
    Val ([mksurf (map (fun v => mkv (vx v * er + vx center) (vy v * er + vy center) (vz v * pr + vz center) 1) (verts s))
                 ns (faces s) [] []], H))).

(** geom3d_util.py:451-573 dodecahedron *)
Definition golden : R := (1 + sqrt 5) / 2.
Definition dodeca_coords : list (R * R * R) :=
  let a := 1 in let b := 1 / golden in let c := golden in
  [(a,a,a);(a,a,-a);(a,-a,a);(a,-a,-a);(-a,a,a);(-a,a,-a);(-a,-a,a);(-a,-a,-a);
   (0,b,c);(0,b,-c);(0,-b,c);(0,-b,-c);
   (b,c,0);(b,-c,0);(-b,c,0);(-b,-c,0);
   (c,0,b);(c,0,-b);(-c,0,b);(-c,0,-b)].
Definition dodeca_faces : list (list nat) :=
  [[0;8;10;2;16];[0;16;17;1;12];[0;12;14;4;8];[1;17;3;11;9];[1;9;5;14;12];[2;10;6;15;13];[2;13;3;17;16];
   [3;13;15;7;11];[4;18;6;10;8];[4;14;5;19;18];[5;9;11;7;19];[6;18;19;7;15]]%nat.
Definition dodeca_turned (diameter : R) : list (R * R * R) :=
  let scale := diameter / (2 * golden) in
  let angle := 31.72 * PI / 180 in
  map (fun v => let '(x, y, z) := v in
         let x := x * scale in let y := y * scale in let z := z * scale in
         (x * cos angle + z * sin angle, y, - x * sin angle + z * cos angle)) dodeca_coords.
Definition zs_min (l : list (R * R * R)) : R :=
  match l with [] => 0 | v :: r => fold_left (fun m v => Rmin m (snd v)) r (snd v) end.
Definition dodeca_points (diameter : R) (center : vec) : list vec :=
  let vs := dodeca_turned diameter in
  let z0 := zs_min vs in
  map (fun v => let '(x, y, z) := v in point (x + vx center) (y + vy center) (z - z0 + vz center)) vs.
Definition face_normal (ps : list vec) : vec :=
  let p0 := at_ ps 0 in
  let n := cross (sub (at_ ps 1) p0) (sub (at_ ps 2) p0) in
  let l := dist n origin in
  let n := if Rltb 0 l then scale3 n (1 / l) else n in
  mkv (vx n) (vy n) (vz n) 0.
Definition dodeca_surface (ps : list vec) (f : list nat) : out surf :=
  let vs := map (at_ ps) f in
  let n := face_normal vs in
  obind (mk_surface vs [n; n; n; n; n] [(0, 1, 2); (0, 2, 3); (0, 3, 4)]%Z) (fun s => Val (with_bnd s [0; 1; 2; 3; 4]%Z)).
Definition dodecahedron (diameter : R) (center : vec) : out solid :=
  omap (dodeca_surface (dodeca_points diameter center)) dodeca_faces.
