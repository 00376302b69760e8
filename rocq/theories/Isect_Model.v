(** Real-number model of yapcad.geom's arc operations: segmenting and unsampling
    arcs, the inside test, intersections of lines and arcs and of two arcs, and
    tangent lines of circles.  The optional plane normal of an arc is not
    modelled (any normal but +z makes these functions raise).  mpmath numbers
    are reals. *)
From Coq Require Import Reals List Bool.
From Verif Require Import Xform_Model Fig_Model.
From Verif Require Kin_Model.
Import ListNotations.
Open Scope R_scope.

(** geom.py:2481, 2521, 2645-2646, 2820: [(atan2(p[1],p[0]) % pi2)*360/pi2] *)
Definition deg_of (p : vec) : R := pymod (Kin_Model.atan2 (vy p) (vx p)) pi2 * 360 / pi2.

(** geom.py:2376-2387 arccenter *)
Definition arccenter (c : arc) : vec := if iscircle c then a_c c else samplearc c (1/2).

(** geom.py:2436-2449 segmentarc; samplearc(polar=True) returns the centre, the
    radius and the angle. *)
Definition segmentarc (c : arc) (u1 u2 : R) : arc :=
  let g1 := arc_angle c u1 in
  let g2 := arc_angle c u2 in
  if a_rev c then mkarc (a_c c) (a_r c) g2 g1 true else mkarc (a_c c) (a_r c) g1 g2 false.

(** geom.py:2453-2486 unsamplearc; [None] is Python's False. *)
Definition unsamplearc (c : arc) (p : vec) : option R :=
  let x := sub p (a_c c) in
  let '(s, e) := arc_range c in
  if close s e then None
  else if Rltb epsilon (Rabs (mag x - a_r c)) then None
  else
    let ang := deg_of x in
    let ang := if Rltb 360 e && Rleb ang (e - 360) then ang + 360 else ang in
    let u := (ang - s) / (e - s) in
    Some (if a_rev c then 1 - u else u).

(** geom.py:2502-2526 isinsidearcXY *)
Definition isinsidearcXY (c : arc) (p : vec) : bool :=
  if Rltb (a_r c) (dist (a_c c) p) then false
  else if iscircle c then true
  else
    let s := pymod (a_start c) 360 in
    let e := pymod (a_end c) 360 in
    let e := if Rltb e s then e + 360 else e in
    let ang := deg_of (sub p (a_c c)) in
    if Rleb e 360 then Rleb s ang && Rleb ang e
    else Rleb s ang || Rleb ang (e - 360).

(** [dst > r + epsilon] where [dst] is linePointXYDist's answer: False counts as 0 *)
Definition too_far (d : lpres) (r : R) : bool :=
  match d with
  | LPFalse => Rltb (r + epsilon) 0
  | LPNum x => Rltb (r + epsilon) x
  | LPPoint _ => false
  end.
(** geom.py:2729-2799, the part shared by all modes of _lineArcIntersectXY: the
    one or two solutions relative to the centre of the arc ([seg]: the distance
    test is against the segment, [inside and not params]); [None] is False.
    [if b1:] drops a second root equal to zero. *)
Definition la_roots (l : line) (c : arc) (seg : bool) : res (option (list vec)) :=
  bind (linePointXY l (a_c c) seg true false) (fun dst =>
  if too_far dst (a_r c) then Ok None
  else
    let p0 := sub (fst l) (a_c c) in
    let p1 := sub (snd l) (a_c c) in
    let V := sub p0 p1 in
    let a := vx V * vx V + vy V * vy V in
    if Rltb (Rabs a) (epsilon * epsilon) then ValueError
    else
      let b := 2 * (vx V * vx p1 + vy V * vy p1) in
      let cc := vx p1 * vx p1 + vy p1 * vy p1 - a_r c * a_r c in
      let d := b * b - 4 * a * cc in
      let at_ b := add (scale3 V b) p1 in
      if Rltb (Rabs d) (sqrt a * 2 * epsilon) then Ok (Some [at_ (- b / (2 * a))])
      else if Rltb d 0 then ValueError
      else
        let b0 := (- b + sqrt d) / (2 * a) in
        let b1 := (- b - sqrt d) / (2 * a) in
        Ok (Some (if Reqb b1 0 then [at_ b0] else [at_ b0; at_ b1]))).
(** geom.py:2801-2829 _lineArcIntersectXY with params=False *)
Definition arc_keeps (c : arc) (i : vec) : bool :=
  let s := pymod (a_start c) 360 in
  let e := pymod (a_end c) 360 in
  let ang := deg_of i in
  if Rltb s e && Rleb s ang && Rleb ang e then true
  else Rltb e s && (Rleb s ang || Rleb ang e).
Definition lineArc_raw (l : line) (c : arc) (inside : bool) : res (option (list vec)) :=
  bind (la_roots l c inside) (fun o =>
  match o with
  | None => Ok None
  | Some s =>
      if negb inside || iscircle c then Ok (Some (map (fun q => add q (a_c c)) s))
      else
        let ss := map (fun i => add (a_c c) i) (filter (arc_keeps c) s) in
        match ss with [] => Ok None | _ => Ok (Some ss) end
  end).
(** geom.py:2803-2813 _lineArcIntersectXY with params=True *)
Fixpoint mapR {A B} (f : A -> res B) (l : list A) : res (list B) :=
  match l with
  | [] => Ok []
  | x :: r => bind (f x) (fun y => bind (mapR f r) (fun ys => Ok (y :: ys)))
  end.
Definition lineArc_params_raw (l : line) (c : arc) : res (option (list (option R) * list (option R))) :=
  bind (la_roots l c false) (fun o =>
  match o with
  | None => Ok None
  | Some s =>
      let pp := map (fun q => add q (a_c c)) s in
      bind (mapR (unsampleline l) pp) (fun uu1 => Ok (Some (uu1, map (unsamplearc c) pp)))
  end).
(** geom.py:2832-2850 lineArcIntersectXY *)
Definition la_planar (l : line) (c : arc) : bool := isXYPlanar [fst l; snd l; a_c c].
Definition lineArcIntersectXY (l : line) (c : arc) (inside : bool) : res (option (list vec)) :=
  if la_planar l c then lineArc_raw l c inside else ValueError.
Definition lineArcIntersectXY_params (l : line) (c : arc) : res (option (list (option R) * list (option R))) :=
  if la_planar l c then lineArc_params_raw l c else ValueError.

(** geom.py:2536-2612: the checks, the line through the common chord, and its
    intersection with the first arc taken as a circle *)
Definition aa_line (c1 c2 : arc) : line :=
  let x1 := a_c c1 in let x2 := a_c c2 in
  let r1 := a_r c1 in let r2 := a_r c2 in
  let d := dist x1 x2 in
  let id := (r1 * r1 - r2 * r2 + d * d) / (2 * d) in
  let v1 := scale3 (sub x2 x1) (1 / d) in
  let v2 := scale3 v1 id in
  let o := orthoXY v1 in
  (add v2 x1, add (add v2 o) x1).
Definition aa_apart (c1 c2 : arc) : bool :=
  let r1 := a_r c1 in let r2 := a_r c2 in
  let d := dist (a_c c1) (a_c c2) in
  Rltb (r1 + r2) d
  || ((Rltb r2 r1 && Rltb d (r1 - r2)) || (Rleb r1 r2 && Rltb d (r2 - r1)))
  || Rltb d epsilon.
Definition aa_points (c1 c2 : arc) : res (option (list vec)) :=
  if aa_apart c1 c2 then Ok None
  else
    bind (lineArc_raw (aa_line c1 c2) c1 false) (fun o =>
    match o with
    | None | Some [] => ValueError
    | Some s => Ok (Some s)
    end).
(** geom.py:2619-2635 start and end angles of an arc *)
Definition aa_range (c : arc) : R * R :=
  if iscircle c then (a_start c, a_end c)
  else
    let s := pymod (a_start c) 360 in
    let e := pymod (a_end c) 360 in
    (s, if Rltb e s then e + 360 else e).
(** geom.py:2674-2687 *)
Definition aa_within (se : R * R) (ang : R) : bool :=
  let '(s, e) := se in
  (Rleb e 360 && Rleb s ang && Rleb ang e) || (Rltb 360 e && (Rleb s ang || Rleb ang (e - 360))).
(** geom.py:2611-2699 with params=False *)
Definition arcArc_raw (c1 c2 : arc) (inside : bool) : res (option (list vec)) :=
  bind (aa_points c1 c2) (fun o =>
  match o with
  | None => Ok None
  | Some s =>
      if negb inside then Ok (Some s)
      else
        let ss := filter (fun p => aa_within (aa_range c1) (deg_of (sub p (a_c c1))) &&
                                   aa_within (aa_range c2) (deg_of (sub p (a_c c2)))) s in
        match ss with [] => Ok None | _ => Ok (Some ss) end
  end).
(** geom.py:2648-2671: the parameter of one intersection.  [lim] is the end angle
    used in the third test: the code writes end1 in both places. *)
Definition aa_param (se : R * R) (lim : R) (rev : bool) (ang : R) : res R :=
  let '(s, e) := se in
  let flip u := if rev then 1 - u else u in
  if Rleb e 360 || Rleb s ang || (Rltb 360 e && Rltb (lim - 360) ang)
  then bind (fdiv (ang - s) (e - s)) (fun u => Ok (flip u))
  else if Rltb 360 e then bind (fdiv (ang + 360 - s) (e - s)) (fun u => Ok (flip u))
  else Ok 0.
Definition arcArc_params_raw (c1 c2 : arc) : res (option (list R * list R)) :=
  bind (aa_points c1 c2) (fun o =>
  match o with
  | None => Ok None
  | Some s =>
      let e1 := snd (aa_range c1) in
      bind (mapR (fun p => bind (aa_param (aa_range c1) e1 (a_rev c1) (deg_of (sub p (a_c c1)))) (fun u1 =>
                           bind (aa_param (aa_range c2) e1 (a_rev c2) (deg_of (sub p (a_c c2)))) (fun u2 =>
                           Ok (u1, u2)))) s)
           (fun us => Ok (Some (map fst us, map snd us)))
  end).
(** geom.py:2702-2721 arcArcIntersectXY *)
Definition arcArcIntersectXY (c1 c2 : arc) (inside : bool) : res (option (list vec)) :=
  if isXYPlanar [a_c c1; a_c c2] then arcArc_raw c1 c2 inside else ValueError.
Definition arcArcIntersectXY_params (c1 c2 : arc) : res (option (list R * list R)) :=
  if isXYPlanar [a_c c1; a_c c2] then arcArc_params_raw c1 c2 else ValueError.

(** geom.py:2857-2927 _circleCircleTangentsXY *)
Definition tangents_raw (c1 c2 : arc) : res (line * line) :=
  let bigIsOne := Rltb (a_r c2) (a_r c1) in
  let big := if bigIsOne then c1 else c2 in
  let small := if bigIsOne then c2 else c1 in
  let r1 := a_r small in
  let r2 := a_r big in
  let d := dist (a_c c1) (a_c c2) in
  let dr := r2 - r1 in
  if Rleb d dr then ValueError
  else
    let beta := sqrt (d * d - dr * dr) in
    let theta := Kin_Model.atan2 dr beta in
    let dd := sub (a_c big) (a_c small) in
    let phi := Kin_Model.atan2 (vy dd) (vx dd) in
    let gamma1 := phi + theta + PI / 2 in
    let gamma2 := phi - theta - PI / 2 in
    let n1 := point (cos gamma1) (sin gamma1) 0 in
    let n2 := point (cos gamma2) (sin gamma2) 0 in
    let p1 := add (scale3 n1 r1) (a_c small) in
    let p2 := add (scale3 n1 r2) (a_c big) in
    let p3 := add (scale3 n2 r1) (a_c small) in
    let p4 := add (scale3 n2 r2) (a_c big) in
    Ok (if bigIsOne then ((p2, p1), (p4, p3)) else ((p1, p2), (p3, p4))).
(** geom.py:2930-2950 circleCircleTangentsXY *)
Definition circleCircleTangentsXY (c0 c1 : arc) : res (line * line) :=
  if negb (iscircle c0 && iscircle c1) then ValueError
  else if negb (isXYPlanar [a_c c0; a_c c1]) then ValueError
  else tangents_raw c0 c1.
(** geom.py:2952-2954 pointCircleTangentsXY *)
Definition pointCircleTangentsXY (p : vec) (c1 : arc) : res (line * line) :=
  circleCircleTangentsXY (mkarc p epsilon 0 360 false) c1.
