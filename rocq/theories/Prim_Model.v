(** Model of the primitive solids of yapcad.geom3d_util: boxes, discs, cones and
    cylinders, with their adaptive resolution.  Surfaces and solids are those of
    Solid_Model; the OCC boundary representation attached when the optional
    kernel is installed and the construction record are left out.  Floats are
    reals. *)
From Coq Require Import Reals List Bool ZArith.
From Verif Require Import Xform_Model Fig_Model Solid_Model.
Import ListNotations.
Open Scope R_scope.

(** geom3d.py:461-510 surface(vertices, normals, faces) *)
Definition mk_surface (vs ns : list vec) (fs : list face) : out surf :=
  let s := mksurf vs ns fs [] [] in
  if Nat.eqb (length vs) (length ns) && issurface s then Val s else Raise EValue.
(** surf[4] = b; surf[5] = [] after construction *)
Definition with_bnd (s : surf) (b : list Z) : surf := mksurf (verts s) (norms s) (faces s) b [].

(** geom3d_util.py:394-411 rectangularPlane *)
Definition rectangularPlane (length width : R) (center : vec) : out surf :=
  let l := point length 0 0 in
  let w := point 0 width 0 in
  let p0 := add center (scale3 (add l w) (- (1 / 2))) in
  let p1 := add p0 l in
  let p2 := add p1 w in
  let p3 := add p0 w in
  let n := mkv 0 0 1 0 in
  obind (mk_surface [p0; p1; p2; p3] [n; n; n; n] [(0, 1, 2); (2, 3, 0)]%Z) (fun s =>
    Val (with_bnd s [0; 1; 2; 3]%Z)).

(** geom3d_util.py:414-449 prism *)
Definition origin : vec := point 0 0 0.
Definition prism (length width height : R) (center : vec) : out solid :=
  obind (rectangularPlane length width (point 0 0 (height / 2))) (fun top =>
  obind (rotatesurface top 180 origin (point 1 0 0)) (fun bottom =>
  obind (rectangularPlane length height (point 0 0 (width / 2))) (fun front0 =>
  obind (rotatesurface front0 90 origin (point 1 0 0)) (fun front =>
  obind (rotatesurface front 180 origin (point 0 0 1)) (fun back =>
  obind (rectangularPlane height width (point 0 0 (length / 2))) (fun right0 =>
  obind (rotatesurface right0 90 origin (point 0 1 0)) (fun right =>
  obind (rotatesurface right 180 origin (point 0 0 1)) (fun left =>
    let surfaces := [top; bottom; front; back; right; left] in
    Val (if vclose center origin then surfaces
         else map (fun s => translatesurface s center) surfaces))))))))).

(** math.ceil *)
Definition ceil (x : R) : Z := (- Int_part (- x))%Z.
(** geom3d_util.py:23-96 adaptive_arc_segments with the default limits 16 and 360.
    [ratio] is positive here, so acos and the division are defined.  math.pow and
    math.log are Rpower and ln; int(math.ceil(x)) is [ceil]. *)
Definition clamp_segments (n : Z) : Z := Z.max 16 (Z.min 360 n).
Definition default_chord (radius : R) : R :=
  if Rleb 50 radius then 1
  else if Rleb radius (5 / 2) then 1 / 10
  else let t := (ln radius - ln (5 / 2)) / (ln 50 - ln (5 / 2)) in 1 / 10 * Rpower 10 t.
Definition adaptive_arc_segments (radius : R) (chord_error max_chord : option R) : out Z :=
  if Rleb radius 0 then Val 36%Z
  else match chord_error with
       | Some e =>
           if Rleb e 0 then Val 36%Z
           else let ratio := Rmin (e / radius) (999999 / 1000000) in
                let theta := 2 * acos (1 - ratio) in
                Val (clamp_segments (ceil (2 * PI / theta)))
       | None =>
           let c := match max_chord with Some c => c | None => default_chord radius end in
           let c := Rmin c (2 * radius * (95 / 100)) in
           let s := c / (2 * radius) in
           if Rleb 1 s then Val 16%Z
           else if Rltb s (-1) then Raise EValue
           else let half := asin s in
                if Reqb half 0 then Raise EZeroDivision
                else Val (clamp_segments (ceil (PI / half)))
       end.
(** geom3d_util.py:98-115 adaptive_angr_from_radius (limits 1 and 10) *)
Definition adaptive_angr_from_radius (radius : R) (chord_error max_chord : option R) : out R :=
  obind (adaptive_arc_segments radius chord_error max_chord) (fun n =>
    Val (Rmax 1 (Rmin 10 (360 / IZR n)))).

(** geom3d_util.py:575-630 circleSurface.  [angle i n] is the i-th of n equal
    parts of a turn. *)
Definition part (i n : nat) : R := INR i * (360 / INR n) * pi2 / 360.
Definition rim_point (center : vec) (radius : R) (n i : nat) : vec :=
  add (mkv (cos (part i n) * radius) (sin (part i n) * radius) 0 1) center.
Definition next (n i : nat) : nat := S (i mod n).
Definition circle_surface (center : vec) (radius : R) (samples : nat) (zup : bool) : out surf :=
  let vs := center :: map (rim_point center radius samples) (seq 0 samples) in
  let fs := if zup then map (fun i => (0, Z.of_nat i, Z.of_nat (next samples i))%Z) (seq 1 samples)
            else map (fun i => (0, Z.of_nat (next samples i), Z.of_nat i)%Z) (rev (seq 1 samples)) in
  let n := mkv 0 0 (if zup then 1 else -1) 0 in
  obind (mk_surface vs (map (fun _ => n) vs) fs) (fun s => Val (with_bnd s (map Z.of_nat (seq 1 samples)))).
Definition resolution (radius : R) (angr : option R) (chord_error max_chord : option R) : out nat :=
  obind (match angr with
         | None => adaptive_angr_from_radius radius chord_error max_chord
         | Some a => if Rltb a 1 || Rltb 45 a then Raise EValue else Val a
         end) (fun a => Val (Z.to_nat (pyround (360 / a)))).
Definition circleSurface (center : vec) (radius : R) (angr : option R) (zup : bool) (chord_error max_chord : option R) : out surf :=
  obind (resolution radius angr chord_error max_chord) (fun n => circle_surface center radius n zup).

(** geom3d_util.py:632-756 conic.  [cylinder_side]: lines 691-722;
    [cone_side]: lines 723-752, where a face whose three points are too close
    to a line is skipped. *)
Definition at_ (vs : list vec) (i : nat) : vec := nth i vs origin.
Definition cylinder_side (baseV topV : list vec) : out surf :=
  let cyl := tl baseV ++ tl topV in
  let ll := (length baseV - 1)%nat in
  let fs := flat_map (fun i =>
      let i' := (S i mod ll)%nat in
      [(Z.of_nat i, Z.of_nat i', Z.of_nat (ll + i')); (Z.of_nat i, Z.of_nat (ll + i'), Z.of_nat (ll + i))]) (seq 0 ll) in
  obind (omap (fun i => obind (tri2p0n (at_ cyl ((i + ll - 1) mod ll)%nat, at_ cyl (S i mod ll)%nat, at_ cyl (ll + i)))
                              (fun pn => Val (snd pn))) (seq 0 ll)) (fun ns =>
    mk_surface cyl (ns ++ ns) fs).
Definition cone_normal (con : list vec) (n i : nat) : out vec :=
  obind (tri2p0n (at_ con 0, at_ con (S ((i + n - 2) mod n)), at_ con (next n i))) (fun pn => Val (snd pn)).
Definition cone_side (baseV : list vec) (top : vec) : out surf :=
  let con := top :: tl baseV in
  let n := (length con - 1)%nat in
  let ok i := match cone_normal con n i with Val _ => true | Raise _ => false end in
  let ns := mkv 0 0 1 0 :: map (fun i => match cone_normal con n i with Val m => m | Raise _ => mkv 0 0 1 0 end) (seq 1 n) in
  mk_surface con ns (map (fun i => (0, Z.of_nat i, Z.of_nat (next n i))%Z) (filter ok (seq 1 n))).
Definition conic (baser topr height : R) (center : vec) (angr chord_error max_chord : option R) : out solid :=
  obind (match angr with
         | Some a => Val a
         | None => adaptive_angr_from_radius (Rmax baser (if Rleb epsilon topr then topr else baser)) chord_error max_chord
         end) (fun a =>
  if Rltb baser epsilon then Raise EValue
  else if Rltb topr 0 then Raise EValue
  else if Rltb height epsilon then Raise EValue
  else
    obind (circleSurface center baser (Some a) false None None) (fun base =>
    let topP := add center (point 0 0 height) in
    if negb (Rltb topr epsilon) then
      obind (circleSurface topP topr (Some a) true None None) (fun top =>
      obind (cylinder_side (verts base) (verts top)) (fun side => Val [base; side; top]))
    else obind (cone_side (verts base) topP) (fun side => Val [base; side]))).
