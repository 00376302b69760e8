(** Model of yapcad/octtree.py over the reals (no rounding): quad- and octrees of geometry elements.
    An element is known by the points that its bounding box is computed from.  Not modelled: curves
    whose bounding boxes are sampled (splines), printing, the unused function boxoverlap, the unused
    octree_size, and the validity tests of element data. *)
From Coq Require Import Reals List Bool Arith.
From Verif Require Import Xform_Model.
Import ListNotations.
Open Scope R_scope.
Open Scope list_scope.

(** a bounding box [min point, max point] *)
Record box := Box { lo : vec; hi : vec }.
Definition Rgeb (a b : R) : bool := Rleb b a.

(** the coordinate planes of int2D: which two coordinates are compared *)
Inductive plane := XY | YZ | XZ.
Definition fst_axis (p : plane) : vec -> R := match p with XY => vx | YZ => vy | XZ => vx end.
Definition snd_axis (p : plane) : vec -> R := match p with XY => vy | YZ => vz | XZ => vz end.
(** octtree.py:113-128 intHV: a horizontal line (ends hx0, hx1 at height hy) and a vertical one *)
Definition intHV (hx0 hx1 hy vx0 vy0 vy1 : R) : bool :=
  let (minx, maxx) := if Rltb hx1 hx0 then (hx1, hx0) else (hx0, hx1) in
  if Rltb vx0 minx || Rltb maxx vx0 then false else
  let (miny, maxy) := if Rltb vy1 vy0 then (vy1, vy0) else (vy0, vy1) in
  if Rltb hy miny || Rltb maxy hy then false else true.
(** octtree.py:98-203 int2D; the corners are p0 = (x0, y0), p1 = (x0 + len, y0) and so on *)
Definition int2D (b1 b2 : box) (p : plane) : bool :=
  let i := fst_axis p in let j := snd_axis p in
  if (Rgeb (i (lo b1)) (i (lo b2)) && Rleb (i (hi b1)) (i (hi b2)) && Rgeb (j (lo b1)) (j (lo b2)) && Rleb (j (hi b1)) (j (hi b2)))
  || (Rgeb (i (lo b2)) (i (lo b1)) && Rleb (i (hi b2)) (i (hi b1)) && Rgeb (j (lo b2)) (j (lo b1)) && Rleb (j (hi b2)) (j (hi b1))) then true else
  let len1 := i (hi b1) - i (lo b1) in let wid1 := j (hi b1) - j (lo b1) in
  let len2 := i (hi b2) - i (lo b2) in let wid2 := j (hi b2) - j (lo b2) in
  let p0 := (i (lo b1), j (lo b1)) in let p1 := (fst p0 + len1, snd p0 + 0) in
  let p2 := (fst p1 + 0, snd p1 + wid1) in let p3 := (fst p0 + 0, snd p0 + wid1) in
  let p4 := (i (lo b2), j (lo b2)) in let p5 := (fst p4 + len2, snd p4 + 0) in
  let p6 := (fst p5 + 0, snd p5 + wid2) in let p7 := (fst p4 + 0, snd p4 + wid2) in
  let hv (h0 h1 v0 v1 : R * R) := intHV (fst h0) (fst h1) (snd h0) (fst v0) (snd v0) (snd v1) in
  hv p0 p1 p5 p6 || hv p0 p1 p7 p4 || hv p2 p3 p5 p6 || hv p2 p3 p7 p4 ||
  hv p4 p5 p1 p2 || hv p4 p5 p3 p0 || hv p6 p7 p1 p2 || hv p6 p7 p3 p0.
(** octtree.py:54-207 boxoverlap2 *)
Definition boxoverlap2 (b1 b2 : box) (dim3 : bool) : bool :=
  if (Rltb (vx (hi b1)) (vx (lo b2)) && Rltb (vy (hi b1)) (vy (lo b2)) && (negb dim3 || Rltb (vz (hi b1)) (vz (lo b2))))
  || (Rltb (vx (hi b2)) (vx (lo b1)) && Rltb (vy (hi b2)) (vy (lo b1)) && (negb dim3 || Rltb (vz (hi b2)) (vz (lo b1)))) then false else
  if (Rgeb (vx (lo b1)) (vx (lo b2)) && Rleb (vx (hi b1)) (vx (hi b2)) && Rgeb (vy (lo b1)) (vy (lo b2)) && Rleb (vy (hi b1)) (vy (hi b2)) &&
      (negb dim3 || (Rgeb (vz (lo b1)) (vz (lo b2)) && Rleb (vz (hi b1)) (vz (hi b2)))))
  || (Rgeb (vx (lo b2)) (vx (lo b1)) && Rleb (vx (hi b2)) (vx (hi b1)) && Rgeb (vy (lo b2)) (vy (lo b1)) && Rleb (vy (hi b2)) (vy (hi b1)) &&
      (negb dim3 || (Rgeb (vz (lo b2)) (vz (lo b1)) && Rleb (vz (hi b2)) (vz (hi b1))))) then true else
  int2D b1 b2 XY && (negb dim3 || int2D b1 b2 YZ) && (negb dim3 || int2D b1 b2 XZ).

(** octtree.py:270-294 bbox2quad *)
Definition bbox2quad (bbx refbox : box) (center : vec) : list nat :=
  if negb (boxoverlap2 refbox bbx false) then [] else
  (if Rltb (vx (lo bbx)) (vx center) then
     (if Rltb (vy (lo bbx)) (vy center) then [2%nat] else []) ++ (if Rgeb (vy (hi bbx)) (vy center) then [1%nat] else []) else []) ++
  (if Rgeb (vx (hi bbx)) (vx center) then
     (if Rltb (vy (lo bbx)) (vy center) then [3%nat] else []) ++ (if Rgeb (vy (hi bbx)) (vy center) then [0%nat] else []) else []).
(** octtree.py:245-268 bbox2oct *)
Definition bbox2oct (bbx refbox : box) (center : vec) : list nat :=
  if negb (boxoverlap2 refbox bbx true) then [] else
  (if Rltb (vz (lo bbx)) (vz center) then bbox2quad bbx refbox center else []) ++
  (if Rgeb (vz (hi bbx)) (vz center) then map (fun x => (x + 4)%nat) (bbox2quad bbx refbox center) else []).

(** geom.py:1758-1762 isinsidebbox *)
Definition isinsidebbox (b : box) (p : vec) : bool :=
  Rgeb (vx p) (vx (lo b)) && Rleb (vx p) (vx (hi b)) && Rgeb (vy p) (vy (lo b)) && Rleb (vy p) (vy (hi b)) && Rgeb (vz p) (vz (lo b)) && Rleb (vz p) (vz (hi b)).
Definition boxmid (b : box) : vec := scale3 (add (lo b) (hi b)) (1 / 2).
(** octtree.py:297-370 box2boxes; None: ValueError.  [three]: n == 8 *)
Definition quarter (b : box) (c : vec) (z0 z1 : R) : list box :=
  [Box (point (vx c) (vy c) z0) (point (vx (hi b)) (vy (hi b)) z1);
   Box (point (vx (lo b)) (vy c) z0) (point (vx c) (vy (hi b)) z1);
   Box (point (vx (lo b)) (vy (lo b)) z0) (point (vx c) (vy c) z1);
   Box (point (vx c) (vy (lo b)) z0) (point (vx (hi b)) (vy c) z1)].
Definition box2boxes (b : box) (c : vec) (three : bool) : option (list (box * vec)) :=
  if negb (isinsidebbox b c) then None else
  if Rltb (vx (hi b) - vx (lo b)) epsilon || Rltb (vy (hi b) - vy (lo b)) epsilon || (three && Rltb (vz (hi b) - vz (lo b)) epsilon) then None else
  let bs := if three then quarter b c (vz (lo b)) (vz c) ++ quarter b c (vz c) (vz (hi b)) else quarter b c 0 0 in
  Some (map (fun x => (x, boxmid x)) bs).

(** the tree: [] , ['e', box, center, indices...] and ['b', subtrees...] *)
Inductive tree := Empty | Leaf (b : box) (c : vec) (is : list nat) | Branch (ts : list tree).
Fixpoint all {A} (l : list (option A)) : option (list A) :=
  match l with [] => Some [] | o :: l => match o with Some a => match all l with Some r => Some (a :: r) | None => None end | None => None end end.
(** octtree.py:515-548 recurse in updateTree: [k] = maxdepth + 1 - depth, so depth > maxdepth is k = 0.
    The inner loop rebinds [box], but only after its last use. *)
Fixpoint build (three : bool) (mindim : R) (k : nat) (b : box) (center : vec) (elements : list (nat * box)) : option tree :=
  match elements with
  | [] => Some Empty
  | _ =>
    let leaf := Some (Leaf b center (map fst elements)) in
    if (length elements <=? (if three then 8 else 4))%nat then leaf else
    match k with
    | O => leaf
    | S k =>
      if Rltb (vx (hi b) - vx (lo b)) mindim || Rltb (vy (hi b) - vy (lo b)) mindim || (three && Rltb (vz (hi b) - vz (lo b)) mindim) then leaf else
      match box2boxes b center three with
      | None => None
      | Some boxes =>
        let assigned e := if three then bbox2oct (snd e) (snd e) center else bbox2quad (snd e) (snd e) center in
        let part j := filter (fun e => existsb (Nat.eqb j) (assigned e)) elements in
        match all (map (fun jb => build three mindim k (fst (snd jb)) (snd (snd jb)) (part (fst jb))) (combine (seq 0 (length boxes)) boxes)) with
        | Some ts => Some (Branch ts)
        | None => None
        end
      end
    end
  end.
(** the deepest recursion of updateTree (it sets __depth even on empty subtrees) *)
Fixpoint depth_of (t : tree) : nat := match t with Branch ts => S (fold_right (fun t m => Nat.max (depth_of t) m) O ts) | _ => O end.
(** octtree.py:601-620 recurse in getElements *)
Fixpoint find (three : bool) (boxes : list (nat * box)) (q : box) (t : tree) : list nat :=
  match t with
  | Empty => []
  | Leaf b _ is =>
    if boxoverlap2 b q three then
      filter (fun i => match nth_error boxes i with Some (_, b) => boxoverlap2 q b three | None => false end) is
    else []
  | Branch ts => (fix go ts := match ts with [] => [] | t :: ts => find three boxes q t ++ go ts end) ts
  end.

(** ** Elements and their boxes *)
(** a bare point; a line or poly of two or more points; a geometry list that comes down to these points *)
Inductive element := Point (p : vec) | Poly (p q : vec) (ps : list vec) | Group (ps : list vec).
(** geom.py:1951-1957 pointbbox *)
Definition pointbbox (p : vec) : box := let ee := point epsilon epsilon epsilon in Box (sub p ee) (add p ee).
(** geom.py:3060-3092 polybbox, one coordinate: the loop's if / elif *)
Fixpoint range (f : vec -> R) (l : list vec) (mn mx : R) : R * R :=
  match l with [] => (mn, mx) | p :: l => if Rltb (f p) mn then range f l (f p) mx else if Rltb mx (f p) then range f l mn (f p) else range f l mn mx end.
(** polybbox; None: False, which no caller can use *)
Definition polybbox (l : list vec) : option box :=
  match l with
  | [] => None
  | [p] => Some (pointbbox p)
  | p :: l =>
    let (x0, x1) := range vx l (vx p) (vx p) in let (y0, y1) := range vy l (vy p) (vy p) in let (z0, z1) := range vz l (vz p) (vz p) in
    Some (Box (point x0 y0 z0) (point x1 y1 z1))
  end.
(** geom.py:3927-3951 bbox of an element (linebbox is polybbox of two points) *)
Definition ebox (e : element) : option box := match e with Point p => Some (pointbbox p) | Poly p q ps => polybbox (p :: q :: ps) | Group ps => polybbox ps end.
(** geom.py:3584-3608 geomlistbbox of the list of elements: the points it collects; None: TypeError *)
Definition collected (e : element) : option (list vec) :=
  match e with Point p => Some [p] | Poly p q ps => Some (p :: q :: ps) | Group ps => match polybbox ps with Some b => Some [lo b; hi b] | None => None end end.
Definition bbox_of (es : list element) : option box :=
  match all (map collected es) with Some l => polybbox (concat l) | None => None end.

(** ** The NTree class, octtree.py:398-628.  Elements carry an optional tag. *)
Definition tagged := (element * option nat)%type.
Record ntree := NTree { three : bool; mindim : R; maxdepth : nat; geom : list tagged; bbox : option box; center : option vec;
  elem_boxes : option (list (nat * box)); the_tree : tree; update : bool; depth : nat }.
(** what an operation does: a result and a new object, or an exception and the object it leaves behind *)
Inductive outcome (A : Type) := Done (a : A) (t : ntree) | Raised (t : ntree).
Arguments Done {A} _ _. Arguments Raised {A} _.
Definition set_center (t : ntree) (c : option vec) : ntree := NTree (three t) (mindim t) (maxdepth t) (geom t) (bbox t) c (elem_boxes t) (the_tree t) (update t) (depth t).
Definition set_update (t : ntree) (u : bool) : ntree := NTree (three t) (mindim t) (maxdepth t) (geom t) (bbox t) (center t) (elem_boxes t) (the_tree t) u (depth t).
Definition set_geom (t : ntree) (g : list tagged) : ntree := NTree (three t) (mindim t) (maxdepth t) g (bbox t) (center t) (elem_boxes t) (the_tree t) (update t) (depth t).
Definition set_bbox (t : ntree) (b : option box) : ntree := NTree (three t) (mindim t) (maxdepth t) (geom t) b (center t) (elem_boxes t) (the_tree t) (update t) (depth t).
Definition set_boxes (t : ntree) (l : list (nat * box)) : ntree := NTree (three t) (mindim t) (maxdepth t) (geom t) (bbox t) (center t) (Some l) (the_tree t) (update t) (depth t).
Definition set_tree (t : ntree) (tr : tree) (d : nat) : ntree := NTree (three t) (mindim t) (maxdepth t) (geom t) (bbox t) (center t) (elem_boxes t) tr (update t) d.
Definition set_mindim (t : ntree) (m : R) : ntree := NTree (three t) m (maxdepth t) (geom t) (bbox t) (center t) (elem_boxes t) (the_tree t) (update t) (depth t).
Definition set_maxdepth (t : ntree) (m : nat) : ntree := NTree (three t) (mindim t) m (geom t) (bbox t) (center t) (elem_boxes t) (the_tree t) (update t) (depth t).

(** 478-498 updateCenter *)
Definition updateCenter (c : option vec) (t : ntree) : outcome unit :=
  match geom t with
  | [] => Done tt t
  | _ => match c with
         | Some c => Done tt (set_update (set_center t (Some c)) true)
         | None => match bbox t with Some b => Done tt (set_update (set_center t (Some (boxmid b))) true) | None => Raised t end   (* AttributeError *)
         end
  end.
(** 402-447 __init__; None: ValueError or TypeError and no object.  mindim None or 0: 1.0; maxdepth None or 0: the default *)
Definition create (is8 : bool) (g : list tagged) (c : option vec) (md : option R) (mxd : option nat) : option ntree :=
  let md := match md with Some m => if Reqb m 0 then Some 1 else if Rltb epsilon m then Some m else None | None => Some 1 end in
  let mxd := match mxd with Some (S d) => S d | _ => if is8 then 7%nat else 8%nat end in
  match md with
  | None => None
  | Some md =>
    let t := NTree is8 md mxd [] None None None Empty true 0 in
    match g with
    | [] => Some (set_center t c)
    | _ => match bbox_of (map fst g) with
           | None => None
           | Some b => let t := set_bbox (set_geom t g) (Some b) in
                       Some (set_center t (match c with Some c => Some c | None => Some (boxmid b) end))
           end
    end
  end.
(** 463-476 addElement (a bare point is no geometry list) *)
Definition addElement (e : element) (tag : option nat) (t : ntree) : outcome unit :=
  match e with Point _ => Raised t | _ => Done tt (set_update (set_geom t (geom t ++ [(e, tag)])) true) end.
(** 500-558 updateTree *)
Definition updateTree (t : ntree) : outcome unit :=
  if negb (update t) then Done tt t else
  match geom t with
  | [] => Done tt t
  | g =>
    let t := set_update t false in
    match bbox_of (map fst g) with
    | None => Raised t
    | Some b =>
      let t := set_bbox t (Some b) in
      let t := match center t with Some _ => t | None => set_update (set_center t (Some (boxmid b))) true end in
      match all (map ebox (map fst g)) with
      | None => Raised t
      | Some bs =>
        let boxes := combine (seq 0 (length bs)) bs in
        let t := set_boxes t boxes in
        match center t with
        | None => Raised t                          (* not reached *)
        | Some c => match build (three t) (mindim t) (S (maxdepth t)) b c boxes with
                    | None => Raised t              (* __depth may have grown; nothing reads it but the property *)
                    | Some tr => Done tt (set_tree t tr (Nat.max (depth t) (depth_of tr)))
                    end
        end
      end
    end
  end.
(** 589-628 getElements; the positions found, without repetition; [order]: in which order a Python set
    of these integers lists them *)
Definition getElements (order : list nat -> list nat) (q : box) (t : ntree) : outcome (list tagged) :=
  let u := if update t then updateTree t else Done tt t in
  match u with
  | Raised t => Raised t
  | Done _ t =>
    match elem_boxes t with
    | None => Raised t                              (* AttributeError *)
    | Some boxes =>
      match all (map (fun i => nth_error (geom t) i) (order (nodup Nat.eq_dec (find (three t) boxes q (the_tree t))))) with
      | Some es => Done es t
      | None => Raised t
      end
    end
  end.
(** 564-587 the setters *)
Definition setMaxdepth (d : nat) (t : ntree) : outcome unit := if (d <? 1)%nat then Raised t else Done tt (set_maxdepth t d).
Definition setMindim (m : R) (t : ntree) : outcome unit := if Rltb m epsilon then Raised t else Done tt (set_mindim t m).

(** ** The list a tree was made from.  __init__ keeps the caller's own list (octtree.py:431), and
    addElement extends it in place (474): a pair of that list and the tree, always with the same elements. *)
Record shared := Shared { callers : list tagged; tree_of : ntree }.
Definition create_from (is8 : bool) (g : list tagged) : option shared := match create is8 g None None None with Some t => Some (Shared g t) | None => None end.
Definition shared_add (e : element) (tag : option nat) (s : shared) : option shared :=
  match addElement e tag (tree_of s) with Done _ t => Some (Shared (geom t) t) | Raised _ => None end.
(** the caller appends to its own list *)
Definition caller_append (e : tagged) (s : shared) : shared := Shared (callers s ++ [e]) (set_geom (tree_of s) (callers s ++ [e])).
