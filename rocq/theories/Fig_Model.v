(** Real-number model of yapcad.geom's figures: lines, polylines, arcs, geometry
    lists; sampling, bounding boxes, intersection and inside tests. *)
From Coq Require Import Reals List Bool ZArith.
From Verif Require Import Xform_Model.
Import ListNotations.
Open Scope R_scope.

Definition bind {A B} (x : res A) (f : A -> res B) : res B :=
  match x with
  | Ok a => f a
  | ValueError => ValueError
  | AttributeError => AttributeError
  | ZeroDivisionError => ZeroDivisionError
  | NotImplementedError => NotImplementedError
  | TypeError => TypeError
  end.
(** Python's float division. *)
Definition fdiv (a b : R) : res R := if Reqb b 0 then ZeroDivisionError else Ok (a / b).

(** A line is a list of two points (geom.py:1971-1989). *)
Definition line := (vec * vec)%type.
(** An arc is [center, [r,start,end,w]] with w=-1 or -2 (geom.py:2267-2286);
    [a_rev] is w = -2.  The optional normal (third element) is not modelled:
    any normal but +z makes sampling raise NotImplementedError. *)
Record arc := mkarc { a_c : vec; a_r : R; a_start : R; a_end : R; a_rev : bool }.

(** geom.py:1991-1999 *)
Definition linelength (l : line) : R := dist (fst l) (snd l).
Definition linecenter (l : line) : vec := scale3 (add (fst l) (snd l)) (1/2).
(** geom.py:2004-2014 *)
Definition sampleline (l : line) (u : R) : vec :=
  add (scale3 (fst l) (1 - u)) (scale3 (snd l) u).
(** geom.py:2016-2020 *)
Definition segmentline (l : line) (u1 u2 : R) : line := (sampleline l u1, sampleline l u2).
(** geom.py:2026-2044; [None] is Python's False. *)
Definition unsampleline (l : line) (p : vec) : res (option R) :=
  let v1 := sub (snd l) (fst l) in
  let v2 := sub p (fst l) in
  if Rltb epsilon (mag (cross v1 v2)) then Ok None
  else if Rltb 0 (dot v1 v2) then bind (fdiv (mag v2) (mag v1)) (fun q => Ok (Some q))
  else bind (fdiv (- mag v2) (mag v1)) (fun q => Ok (Some q)).
(** geom.py:2047-2052 *)
Definition linebbox (l : line) : vec * vec :=
  let p1 := fst l in let p2 := snd l in
  (point (Rmin (vx p1) (vx p2)) (Rmin (vy p1) (vy p2)) (Rmin (vz p1) (vz p2)),
   point (Rmax (vx p1) (vx p2)) (Rmax (vy p1) (vy p2)) (Rmax (vz p1) (vz p2))).
(** geom.py:1951-1957 *)
Definition pointbbox (x : vec) : vec * vec :=
  let ee := point epsilon epsilon epsilon in (sub x ee, add x ee).
(** geom.py:1758-1762 *)
Definition isinsidebbox (bb : vec * vec) (p : vec) : bool :=
  Rleb (vx (fst bb)) (vx p) && Rleb (vx p) (vx (snd bb)) &&
  Rleb (vy (fst bb)) (vy p) && Rleb (vy p) (vy (snd bb)) &&
  Rleb (vz (fst bb)) (vz p) && Rleb (vz p) (vz (snd bb)).

(** geom.py:3060-3088 polybbox: running min/max with the code's if/elif. *)
Definition upd (x mn mx : R) : R * R :=
  if Rltb x mn then (x, mx) else if Rltb mx x then (mn, x) else (mn, mx).
Record bounds := mkb { bx : R * R; by' : R * R; bz : R * R }.
Definition bstep (b : bounds) (p : vec) : bounds :=
  mkb (upd (vx p) (fst (bx b)) (snd (bx b))) (upd (vy p) (fst (by' b)) (snd (by' b)))
      (upd (vz p) (fst (bz b)) (snd (bz b))).
Definition polybbox (a : list vec) : option (vec * vec) :=
  match a with
  | [] => None
  | [p] => Some (pointbbox p)
  | p :: rest =>
      let b := fold_left bstep rest (mkb (vx p, vx p) (vy p, vy p) (vz p, vz p)) in
      Some (point (fst (bx b)) (fst (by' b)) (fst (bz b)),
            point (snd (bx b)) (snd (by' b)) (snd (bz b)))
  end.

(** geom.py:3132-3142 __lineslength *)
Fixpoint lines_of (a : list vec) : list line :=
  match a with
  | p :: ((q :: _) as rest) => (p, q) :: lines_of rest
  | _ => []
  end.
Definition total_length (ls : list line) : R := fold_right (fun l s => linelength l + s) 0 ls.
(** geom.py:3355-3364 polylength *)
Definition polylength (a : list vec) : R := total_length (lines_of a).

Definition lastv (a : list vec) (d : vec) : vec := last a d.
(** geom.py:3163-3165 etc.: len(a) > 2 and dist(a[0],a[-1]) < epsilon *)
Definition poly_closed (a : list vec) : bool :=
  match a with
  | p :: _ => Nat.ltb 2 (length a) && Rltb (dist p (lastv a p)) epsilon
  | [] => false
  end.

(** geom.py:3172-3179 the search loop of samplepoly; [None] when the loop falls
    through (the Python function then returns None). *)
Fixpoint walk (ls : list line) (dst d : R) : res (option vec) :=
  match ls with
  | [] => Ok None
  | l :: rest =>
      let len := linelength l in
      if Rleb dst (d + len)
      then bind (fdiv (d + len - dst) len) (fun q => Ok (Some (sampleline l (1 - q))))
      else walk rest dst (d + len)
  end.
(** geom.py:3148-3183 samplepoly; a has at least three points (ispoly). *)
Definition samplepoly (a : list vec) (u0 : R) : res (option vec) :=
  if Nat.ltb (length a) 3 then ValueError
  else
    let ls := lines_of a in
    let len := total_length ls in
    let u := if poly_closed a then pymod u0 1 else u0 in
    let dst := u * len in
    if Rltb u 1 then walk ls dst 0
    else
      let ll := last ls (point 0 0 0, point 0 0 0) in
      bind (fdiv (dst - len + linelength ll) (linelength ll)) (fun uu => Ok (Some (sampleline ll uu))).

(** geom.py:1773-1791 isXYPlanar *)
Definition isXYPlanar (ps : list vec) : bool :=
  match ps with
  | [] => true
  | p :: rest => forallb (fun q => negb (Rltb epsilon (Rabs (vz q - vz p)))) rest
  end.

(** geom.py:2065-2112 lineLineIntersectXY.  [None] is False.  Two forms:
    params=True returns [t,u]; params=False returns the point. *)
Definition ll_planar (l1 l2 : line) : bool :=
  let z1 := vz (fst l1) in
  negb (Rltb epsilon (Rabs (vz (snd l1) - z1)) || Rltb epsilon (Rabs (vz (fst l2) - z1))
        || Rltb epsilon (Rabs (vz (snd l2) - z1))).
Definition ll_denom (l1 l2 : line) : R :=
  (vx (fst l1) - vx (snd l1)) * (vy (fst l2) - vy (snd l2))
  - (vy (fst l1) - vy (snd l1)) * (vx (fst l2) - vx (snd l2)).
Definition ll_params (l1 l2 : line) : res (option (R * R)) :=
  if negb (ll_planar l1 l2) then ValueError
  else
    let x1 := vx (fst l1) in let y1 := vy (fst l1) in
    let x2 := vx (snd l1) in let y2 := vy (snd l1) in
    let x3 := vx (fst l2) in let y3 := vy (fst l2) in
    let x4 := vx (snd l2) in let y4 := vy (snd l2) in
    let denom := ll_denom l1 l2 in
    if Rltb (denom * denom) epsilon then Ok None
    else Ok (Some (((x1-x3)*(y3-y4) - (y1-y3)*(x3-x4)) / denom,
                   -1 * ((x1-x2)*(y1-y3) - (y1-y2)*(x1-x3)) / denom)).
Definition in01 (t : R) : bool := negb (Rltb t 0 || Rltb 1 t).
Definition lineLineIntersectXY (l1 l2 : line) (inside : bool) : res (option vec) :=
  bind (ll_params l1 l2) (fun o =>
    match o with
    | None => Ok None
    | Some (t, u) =>
        if inside && negb (in01 t && in01 u) then Ok None
        else Ok (Some (mkv (vx (fst l1) + t * (vx (snd l1) - vx (fst l1)))
                           (vy (fst l1) + t * (vy (snd l1) - vy (fst l1))) (vz (fst l1)) 1))
    end).

(** geom.py:2124-2254 linePointXY.  The result is a point, a distance or a
    parameter depending on the flags; [LPFalse] is the degenerate-line answer. *)
Inductive lpres := LPFalse | LPPoint (p : vec) | LPNum (x : R).
Definition linePointXY (l : line) (p : vec) (inside distance params : bool) : res lpres :=
  let a := fst l in let b := snd l in
  let abdist := dist a b in
  if Rltb abdist epsilon then Ok LPFalse
  else if distance && params then ValueError
  else if negb (isXYPlanar [p; a; b]) then ValueError
  else
    let x0 := vx p in let y0 := vy p in
    let x1 := vx a in let y1 := vy a in
    let x2 := vx b in let y2 := vy b in
    let linedist := Rabs (((y2-y1)*x0 - (x2-x1)*y0 + x2*y1 - y2*x1) / abdist) in
    if negb inside && distance then Ok (LPNum linedist)
    else
      let dir0 := sub b a in
      let dir := scale3 dir0 (1 / mag dir0) in
      let ordir1 := scale3 (orthoXY dir) linedist in
      let ordir2 := scale3 ordir1 (-1) in
      let pi1 := add p ordir1 in
      let pi2 := add p ordir2 in
      let d1pa := dist a pi1 in let d1pb := dist pi1 b in let d1 := d1pa + d1pb in
      let d2pa := dist a pi2 in let d2pb := dist pi2 b in let d2 := d2pa + d2pb in
      if params || negb inside then
        if Rleb d1 d2 then
          Ok (if distance then LPNum d1 else if params then LPNum (d1pb / abdist) else LPPoint pi1)
        else
          Ok (if distance then LPNum d2 else if params then LPNum (d2pb / abdist) else LPPoint pi2)
      else if Rltb (Rabs (d1 - abdist)) epsilon then
        Ok (if distance then LPNum linedist else LPPoint pi1)
      else if Rltb (Rabs (d2 - abdist)) epsilon then
        Ok (if distance then LPNum linedist else LPPoint pi2)
      else
        let d3 := dist a p in let d4 := dist b p in
        if Rltb d3 d4 then Ok (if distance then LPNum d3 else LPPoint a)
        else Ok (if distance then LPNum d4 else LPPoint b).

(** geom.py:2961-2986 _barycentricXY *)
Definition bary_denom (p1 p2 p3 : vec) : R :=
  (vy p2 - vy p3) * (vx p1 - vx p3) + (vx p3 - vx p2) * (vy p1 - vy p3).
Definition barycentricXY_raw (a p1 p2 p3 : vec) : res (R * R * R) :=
  let denom := bary_denom p1 p2 p3 in
  if Rltb (Rabs denom) epsilon then ValueError
  else
    let lam1 := ((vy p2 - vy p3) * (vx a - vx p3) + (vx p3 - vx p2) * (vy a - vy p3)) / denom in
    let lam2 := ((vy p3 - vy p1) * (vx a - vx p3) + (vx p1 - vx p3) * (vy a - vy p3)) / denom in
    Ok (lam1, lam2, 1 - (lam1 + lam2)).
(** geom.py:3792-3802 _isInsideTriangleXY *)
Definition isInsideTriangleXY_raw (a p1 p2 p3 : vec) : res bool :=
  bind (barycentricXY_raw a p1 p2 p3) (fun b =>
    let '(l1, l2, l3) := b in
    let ok x := Rleb 0 x && Rleb x 1 in
    Ok (ok l1 && ok l2 && ok l3)).
(** geom.py:3817-3833 _isInsideConvexPolyXY / isInsideConvexPolyXY.  The [or]
    is Python's short-circuit or. *)
Fixpoint convex_raw (a : vec) (poly : list vec) : res bool :=
  match poly with
  | p1 :: ((p2 :: p3 :: rest) as tl) =>
      match rest with
      | [] => isInsideTriangleXY_raw a p1 p2 p3
      | _ :: _ => bind (isInsideTriangleXY_raw a p1 p2 p3) (fun b => if b then Ok true else convex_raw a tl)
      end
  | _ => ValueError
  end.
Definition isInsideConvexPolyXY (a : vec) (poly : list vec) : res bool :=
  if Nat.ltb (length poly) 3 || negb (isXYPlanar (poly ++ [a])) then ValueError
  else convex_raw a poly.

(** geom.py:3265-3333 intersectSimplePolyXY(g=line, a, inside=True,
    params=False) on a closed polygon with more than two edges: one candidate
    per edge; [sampleline(g,uu[1])] is collected when both parameters are in
    [0,1].  Only this case is modelled (it is the one isinsidepolyXY uses). *)
Fixpoint crossings (ls : list line) (g : line) : res (list vec) :=
  match ls with
  | [] => Ok []
  | l :: rest =>
      bind (ll_params l g) (fun o =>
      bind (crossings rest g) (fun tl =>
        match o with
        | Some (t, u) =>
            if Rleb 0 t && Rleb t 1 && (Rleb 0 u && Rleb u 1) then Ok (sampleline g u :: tl) else Ok tl
        | None => Ok tl
        end))
  end.
(** geom.py:3092-3124 isinsidepolyXY on a closed polygon (the open case calls
    unsamplepoly and is not modelled: [None]). *)
Definition isinside_closed_polyXY (a : list vec) (p : vec) : res bool :=
  match polybbox a with
  | None => TypeError
  | Some bb =>
      if negb (isinsidebbox bb p) then Ok false
      else
        let p2 := add (mkv (1/100) (1/100) 0 1) (snd bb) in
        if vclose p2 p then Ok false
        else if negb (isXYPlanar a) then ValueError
        else bind (crossings (lines_of a) (p, p2)) (fun pp => Ok (Nat.odd (length pp)))
  end.

(** geom.py:2407-2434 samplearc.  Note [start != 0 and end != 360]. *)
Definition arc_range (c : arc) : R * R :=
  if negb (Reqb (a_start c) 0) && negb (Reqb (a_end c) 360) then
    let s := pymod (a_start c) 360 in
    let e := pymod (a_end c) 360 in
    (s, if Rltb e s then e + 360 else e)
  else (a_start c, a_end c).
Definition arc_angle (c : arc) (u0 : R) : R :=
  let u := if a_rev c then 1 - u0 else u0 in
  let '(s, e) := arc_range c in pymod ((e - s) * u + s) 360.
Definition samplearc (c : arc) (u : R) : vec :=
  let rad := arc_angle c u * pi2 / 360 in
  add (a_c c) (scale3 (mkv (cos rad) (sin rad) 0 1) (a_r c)).
(** geom.py:2363-2373 *)
Definition iscircle (c : arc) : bool := Reqb (a_start c) 0 && Reqb (a_end c) 360.
(** geom.py:2389-2404 arclength *)
Definition arclength (c : arc) : R :=
  if iscircle c then a_r c * pi2
  else
    let s := pymod (a_start c) 360 in
    let e := pymod (a_end c) 360 in
    let e := if Rltb e s then e + 360 else e in
    pi2 * a_r c * (e - s) / 360.
(** geom.py:2490-2500 arcbbox *)
Definition arcbbox (c : arc) : option (vec * vec) :=
  if iscircle c then
    let rr := point (a_r c) (a_r c) 0 in Some (sub (a_c c) rr, add (a_c c) rr)
  else polybbox (map (fun i => samplearc c (i / 4)) [0; 1; 2; 3; 4]).

(** Geometry-list elements.  [GNone] is the Python value None. *)
Inductive geo :=
| GPoint (p : vec) | GLine (l : line) | GArc (c : arc) | GPoly (a : list vec)
| GList (gs : list geo) | GNone.

(** geom.py:3497-3516 reverseGeomList: elements are reversed one by one and
    inserted at the front.  [deepcopy(g).reverse()] is None in Python (list.reverse
    works in place and returns None), and an arc's flag is set to -2 whatever it was. *)
Fixpoint rev_elem (g : geo) : res geo :=
  match g with
  | GPoint p => Ok (GPoint p)
  | GLine (p, q) => Ok (GLine (q, p))
  | GArc c => Ok (GArc (mkarc (a_c c) (a_r c) (a_start c) (a_end c) true))
  | GPoly a => Ok GNone
  | GList gs =>
      bind ((fix rv (gs : list geo) (acc : list geo) : res (list geo) :=
               match gs with
               | [] => Ok acc
               | g :: rest => bind (rev_elem g) (fun g' => rv rest (g' :: acc))
               end) gs []) (fun l => Ok (GList l))
  | GNone => ValueError
  end.
Definition reverseGeomList (gs : list geo) : res (list geo) :=
  match rev_elem (GList gs) with
  | Ok (GList l) => Ok l
  | Ok _ => TypeError
  | ValueError => ValueError
  | AttributeError => AttributeError
  | ZeroDivisionError => ZeroDivisionError
  | NotImplementedError => NotImplementedError
  | TypeError => TypeError
  end.

(** geom.py:4107-4128 translate on every figure kind *)
Fixpoint translate (g : geo) (d : vec) : res geo :=
  match g with
  | GPoint p => Ok (GPoint (add p d))
  | GLine (p, q) => Ok (GLine (add p d, add q d))
  | GArc c => Ok (GArc (mkarc (add (a_c c) d) (a_r c) (a_start c) (a_end c) (a_rev c)))
  | GPoly a => Ok (GPoly (map (fun p => add p d) a))
  | GList gs =>
      bind ((fix tr (gs : list geo) : res (list geo) :=
               match gs with
               | [] => Ok []
               | g :: rest => bind (translate g d) (fun g' => bind (tr rest) (fun r => Ok (g' :: r)))
               end) gs) (fun l => Ok (GList l))
  | GNone => ValueError
  end.
(** geom.py:3863-3892 length on points, lines, arcs, polys and lists *)
Fixpoint glength (g : geo) : res R :=
  match g with
  | GPoint _ => Ok 0
  | GLine l => Ok (linelength l)
  | GArc c => Ok (arclength c)
  | GPoly a => Ok (polylength a)
  | GList gs =>
      (fix ln (gs : list geo) (acc : R) : res R :=
         match gs with
         | [] => Ok acc
         | g :: rest => bind (glength g) (fun x => ln rest (acc + x))
         end) gs 0
  | GNone => ValueError
  end.
