(** Real-number model of yapcad.geom's polylines and geometry lists: sampling,
    unsampling, slicing, continuity, and intersections of lines with polylines
    and lists of lines.  A [GList] is a list that is not itself a point, line,
    arc or polyline (geom.py decides by the shape of the list); conics and
    splines in lists are not modelled.  Python's IndexError is written TypeError
    here ([res] has no IndexError). *)
From Coq Require Import Reals List Bool.
From Verif Require Import Xform_Model Fig_Model Isect_Model.
Import ListNotations.
Open Scope R_scope.

(** geom.py:3974-4010 sample and 3435-3453 samplegeomlist; [None] is Python's
    None (the search loop fell through).  The length of a list (3863-3892) is
    the same sum as __geomlistlength's (3421-3428). *)
Fixpoint sample (g : geo) (u : R) {struct g} : res (option vec) :=
  match g with
  | GPoint p => Ok (Some p)
  | GLine l => Ok (Some (sampleline l u))
  | GArc c => Ok (Some (samplearc c u))
  | GPoly a => samplepoly a u
  | GList gs =>
      bind (glength (GList gs)) (fun leng =>
        let dst := u * leng in
        if Rltb u 1 then
          (fix seek (gs : list geo) (d : R) : res (option vec) :=
             match gs with
             | [] => Ok None
             | g :: r =>
                 bind (glength g) (fun l =>
                   if Rleb dst (d + l) then bind (fdiv (d + l - dst) l) (fun q => sample g (1 - q))
                   else seek r (d + l))
             end) gs 0
        else
          (fix fin (gs : list geo) : res (option vec) :=
             match gs with
             | [] => TypeError
             | [g] => bind (glength g) (fun l => bind (fdiv (dst - leng + l) l) (fun uu => sample g uu))
             | _ :: r => fin r
             end) gs)
  | GNone => ValueError
  end.

(** geom.py:3384-3398 iscontinuousgeomlist; vclose of None raises *)
Definition ends_meet (g h : geo) : res bool :=
  bind (sample g 1) (fun x1 => bind (sample h 0) (fun x2 =>
    match x1, x2 with Some p, Some q => Ok (vclose p q) | _, _ => TypeError end)).
Fixpoint iscontinuousgeomlist (gs : list geo) : res bool :=
  match gs with
  | g :: ((h :: _) as r) => bind (ends_meet g h) (fun b => if b then iscontinuousgeomlist r else Ok false)
  | _ => Ok true
  end.
(** geom.py:3401-3418 isclosedgeomlist *)
Definition isclosedgeomlist (gs : list geo) : res bool :=
  match gs with
  | [] => Ok true
  | _ =>
      bind (iscontinuousgeomlist gs) (fun b =>
        if b then
          bind (sample (GList gs) 0) (fun x => bind (sample (GList gs) 1) (fun y =>
            match x, y with Some p, Some q => Ok (vclose p q) | _, _ => TypeError end))
        else Ok false)
  end.

(** geom.py:3556-3581, the loop of segmentgeomlist, for elements of any type with
    a length and a slicing function.  Elements shorter than epsilon are skipped
    (and do not count); the divisor is at least epsilon. *)
Section Loop.
  Context {A : Type} (len : A -> res R) (seg : A -> R -> R -> res A) (dst1 dst2 : R).
  Fixpoint seg_loop (gs : list A) (d : R) (started : bool) : res (list A) :=
    match gs with
    | [] => Ok []
    | g :: r =>
        bind (len g) (fun l =>
          if Rltb l epsilon then seg_loop r d started
          else if Rleb dst1 (d + l) then
            if negb started then
              let uu := 1 - (d + l - dst1) / l in
              if Rltb dst2 (d + l) then bind (seg g uu (1 - (d + l - dst2) / l)) (fun x => Ok [x])
              else bind (seg g uu 1) (fun x => bind (seg_loop r (d + l) true) (fun xs => Ok (x :: xs)))
            else if Rleb dst2 (d + l) then bind (seg g 0 (1 - (d + l - dst2) / l)) (fun x => Ok [x])
            else bind (seg_loop r (d + l) started) (fun xs => Ok (g :: xs))
          else seg_loop r (d + l) started)
    end.
End Loop.
(** geom.py:3531-3556: the parameter check and the distances *)
Definition slice {A} (len : A -> res R) (seg : A -> R -> R -> res A) (gs : list A) (leng u1 u2 : R) : res (list A) :=
  if Rltb u1 0 || Rltb u2 u1 || Rltb u2 0 || Rltb 1 u2 then ValueError
  else seg_loop len seg (u1 * leng) (u2 * leng) gs 0 false.

(** geom.py:3185-3217 segmentpoly.  Two points are a line, more a polyline.
    A closed polygon with u2 < u1 is cut in two calls, the first up to
    1 - epsilon; when u1 is above that the call repeats itself for ever:
    [None] for every amount of fuel.  For an open polyline with u2 < u1,
    [deepcopy(a).reverse()] is None and taking its length raises TypeError. *)
Definition sliced_points (ls : list line) : res (list vec) :=
  match ls with
  | [] => TypeError
  | l :: _ => Ok (map fst ls ++ [snd (last ls l)])
  end.
Definition slice_lines (a : list vec) (u1 u2 : R) : res (list vec) :=
  let ls := lines_of a in
  bind (slice (fun l => Ok (linelength l)) (fun l x y => Ok (segmentline l x y)) ls (total_length ls) u1 u2) sliced_points.
Fixpoint segmentpoly (fuel : nat) (a : list vec) (u1 u2 : R) : option (res (list vec)) :=
  match fuel with
  | O => None
  | S fuel =>
      if poly_closed a then
        let u1 := pymod u1 1 in
        let u2 := pymod u2 1 in
        if Rltb u2 u1 then
          match segmentpoly fuel a u1 (1 - epsilon), segmentpoly fuel a 0 u2 with
          | Some x, Some y => Some (bind x (fun p => bind y (fun q => Ok (p ++ q))))
          | _, _ => None
          end
        else Some (slice_lines a u1 u2)
      else if Rltb u1 0 || Rltb u2 0 || Rltb 1 u1 || Rltb 1 u2 then Some ValueError
      else if Rltb u2 u1 then Some TypeError
      else Some (slice_lines a u1 u2)
  end.
(** the figure a list of points stands for (geom.py:1978-1989 isline, 3031-3034 ispoly) *)
Definition figure (ps : list vec) : geo :=
  match ps with
  | [p] => GPoint p
  | [p; q] => GLine (p, q)
  | _ => GPoly ps
  end.

(** geom.py:3544-3554 _segment and 3521-3582 segmentgeomlist (closed=False,
    reverse=False) of lines and arcs; polylines and lists inside the list are
    copied whole but not cut here. *)
Definition seg_simple (g : geo) (u1 u2 : R) : res geo :=
  match g with
  | GLine l => Ok (GLine (segmentline l u1 u2))
  | GArc c => Ok (GArc (segmentarc c u1 u2))
  | _ => NotImplementedError
  end.
Definition segmentgeomlist (gs : list geo) (u1 u2 : R) : res (list geo) :=
  bind (glength (GList gs)) (fun leng => slice glength seg_simple gs leng u1 u2).
(** geom.py:3522-3530: closed=True *)
Definition segmentgeomlist_closed (gs : list geo) (u1 u2 : R) : res (list geo) :=
  let u1 := pymod u1 1 in
  let u2 := pymod u2 1 in
  if Rltb u2 u1 then
    bind (segmentgeomlist gs u1 (1 - epsilon)) (fun x => bind (segmentgeomlist gs 0 u2) (fun y => Ok (x ++ y)))
  else segmentgeomlist gs u1 u2.

(** geom.py:3226-3260 unsamplepoly; [None] is False.  [dst] is the length of the
    lines already passed. *)
Definition ok_param (closed first last : bool) (u : R) : bool :=
  if first then Rltb u 1 && (negb closed || Rleb 0 u)
  else if last then Rleb 0 u && (negb closed || Rleb u 1)
  else Rleb 0 u && Rltb u 1.
Fixpoint unsample_lines (closed : bool) (ls : list line) (p : vec) (total dst : R) (first : bool) : res (option R) :=
  match ls with
  | [] => Ok None
  | l :: r =>
      bind (unsampleline l p) (fun o =>
        match o with
        | Some u =>
            if ok_param closed first (match r with [] => true | _ => false end) u
            then bind (fdiv (u * linelength l + dst) total) (fun q => Ok (Some q))
            else unsample_lines closed r p total (dst + linelength l) false
        | None => unsample_lines closed r p total (dst + linelength l) false
        end)
  end.
Definition unsamplepoly (a : list vec) (p : vec) : res (option R) :=
  if Nat.ltb (length a) 3 then ValueError
  else unsample_lines (poly_closed a) (lines_of a) p (total_length (lines_of a)) 0 true.
(** geom.py:3092-3110 isinsidepolyXY of an open polyline: [unsamplepoly(a,p) == False],
    and 0.0 == False in Python *)
Definition isinside_open_polyXY (a : list vec) (p : vec) : res bool :=
  bind (unsamplepoly a p) (fun o => Ok (match o with None => false | Some u => negb (Reqb u 0) end)).

(** geom.py:3265-3337 intersectSimplePolyXY(g, a, inside, params) for a line g.
    Edge [i] with both parameters (edge's first); a polyline of two edges is
    never looked at ([if len(lines) > 2]).  With params=True the result is
    [[parameters on g], [parameters on a]].  (The message of the first check names
    an undefined variable: Python's NameError is written ValueError.) *)
Definition edge_ok (closed first last : bool) (t : R) : bool :=
  ((closed || (negb first && negb last)) && Rleb 0 t && Rleb t 1)
  || (negb closed && first && Rleb t 1) || (negb closed && last && Rleb 0 t).
Fixpoint poly_hits (closed : bool) (ls : list line) (g : line) (dst : R) (first : bool) : res (list (R * R * R)) :=
  match ls with
  | [] => Ok []
  | l :: r =>
      bind (ll_params l g) (fun o =>
      bind (poly_hits closed r g (dst + linelength l) false) (fun tl =>
        match o with
        | Some (t, u) =>
            if edge_ok closed first (match r with [] => true | _ => false end) t
            then Ok ((t, u, t * linelength l + dst) :: tl) else Ok tl
        | None => Ok tl
        end))
  end.
Definition isin (t u : R) : bool := (Rleb 0 t && Rleb t 1) && (Rleb 0 u && Rleb u 1).
Definition some_if {A} (l : list A) : option (list A) := match l with [] => None | _ => Some l end.
Definition poly_edges (a : list vec) : list line := if Nat.ltb 2 (length (lines_of a)) then lines_of a else [].
Definition linePolyIntersectXY (g : line) (a : list vec) (inside : bool) : res (option (list vec)) :=
  if Nat.ltb (length a) 3 || negb (isXYPlanar a) then ValueError
  else
    bind (poly_hits (poly_closed a) (poly_edges a) g 0 true) (fun hs =>
      Ok (some_if (map (fun h => sampleline g (snd (fst h)))
                    (filter (fun h => negb inside || isin (fst (fst h)) (snd (fst h))) hs)))).
Definition linePolyIntersectXY_params (g : line) (a : list vec) : res (option (list R * list R)) :=
  if Nat.ltb (length a) 3 || negb (isXYPlanar a) then ValueError
  else
    bind (poly_hits (poly_closed a) (poly_edges a) g 0 true) (fun hs =>
    bind (mapR (fun h => fdiv (snd h) (total_length (lines_of a))) hs) (fun us =>
      Ok (match hs with [] => None | _ => Some (map (fun h => snd (fst h)) hs, us) end))).

(** geom.py:4387-4428 intersectXY of two polylines with params=True:
    [uu1s = uu2s = []] is one list, and [dst] stays 0.  [None] is False. *)
Fixpoint pairs_loop (closed : bool) (ls : list line) (leng : R) (b : list vec) (first : bool) : res (list R) :=
  match ls with
  | [] => Ok []
  | l :: r =>
      let last := match r with [] => true | _ => false end in
      bind (linePolyIntersectXY_params l b) (fun o =>
      bind (pairs_loop closed r leng b false) (fun tl =>
        match o with
        | None => Ok tl
        | Some (ts, us) =>
            bind (mapR (fun x => bind (fdiv (fst x * linelength l) leng) (fun q => Ok [q; snd x]))
                    (filter (fun x => edge_ok closed first last (fst x)) (combine ts us)))
              (fun qs => Ok (concat qs ++ tl))
        end))
  end.
Definition polyPolyIntersectXY_params (a b : list vec) : res (option (list R * list R)) :=
  bind (pairs_loop (poly_closed a) (lines_of a) (total_length (lines_of a)) b true) (fun us =>
    Ok (match us with [] => None | _ => Some (us, us) end)).
