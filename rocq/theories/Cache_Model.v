(** Model of yapcad.geometry.Geometry's caches (geometry.py:156-735): one object,
    a history of changes and queries.
    The figure functions of geom.py and geom3d.py are parameters (record [figures]),
    so what is proved holds whatever they compute; [None] is an exception.
    BREP elements (is_brep, has_brep_data: OpenCASCADE) are not modelled, nor
    mirror_brep_solid, which raises without one (geometry.py:451-462).
    Subclasses (Polygon, Boolean), sampling and intersection are not modelled.
    deepcopy is the identity: nobody else holds the element. *)
From Coq Require Import Reals List Bool.
From Verif Require Import Xform_Model.
Import ListNotations.
Open Scope R_scope.

(** How _updateInternals and the changes tell elements apart: [] (495), a solid
    (issolid(elem, fast=False)), a list tagged 'solid' that is not one (533), or
    any other figure. *)
Inductive kind := KEmpty | KSolid | KTagged | KPlain.
(** The five changes; A is their argument. *)
Inductive how := Translate | Scale | Rotate | Mirror | Transform.

Record figures := mkfig {
  elem : Type;                                 (* figures *)
  arg : Type;                                  (* arguments of a change: delta, factors, angle, plane, matrix *)
  box : Type;                                  (* bounding boxes; never falsy *)
  surf : Type;                                 (* surfaces; never falsy *)
  empty : elem;                                (* [] *)
  kind_of : elem -> kind;
  plain : how -> arg -> elem -> option elem;   (* geom.translate, scale, rotate, mirror (+ reverseGeomList), transform *)
  solid : how -> arg -> elem -> option elem;   (* geom3d.translatesolid, the inline scaling (346-366), rotatesolid, mirror *)
  length_of : elem -> option R;
  center_of : elem -> option vec;
  bbox_of : elem -> option box;
  solid_bbox : elem -> option box;             (* geom3d.solidbbox *)
  solid_center : elem -> option vec;           (* center(elem[1][0]) if elem[1] else point(0,0,0) *)
  tri : elem -> R -> R -> option surf          (* polygon test, geomlist2poly_with_holes, poly2surface (720-733) *)
}.

Section Object.
Variable F : figures.
Notation E := (elem F).

(** geometry.py:172-184; [o_surface = None] is Python's None. *)
Record obj := mkobj {
  o_elem : E; o_update : bool;
  o_length : R; o_center : option vec; o_bbox : option (box F);
  o_surface : option (surf F); o_ang : R; o_len : R; o_closed : bool }.

(** geometry.py:172-226; a fresh object around e; [closed] as the class test says. *)
Definition create (e : E) (closed : bool) : obj :=
  mkobj e true 0 None None None (-1) (-1) closed.

Definition set_elem (o : obj) (e : E) : obj :=
  mkobj e (o_update o) (o_length o) (o_center o) (o_bbox o) (o_surface o) (o_ang o) (o_len o) (o_closed o).
Definition set_update (o : obj) (b : bool) : obj :=
  mkobj (o_elem o) b (o_length o) (o_center o) (o_bbox o) (o_surface o) (o_ang o) (o_len o) (o_closed o).
Definition set_props (o : obj) (l : R) (c : option vec) (b : option (box F)) : obj :=
  mkobj (o_elem o) (o_update o) l c b (o_surface o) (o_ang o) (o_len o) (o_closed o).
Definition set_surface (o : obj) (s : option (surf F)) (a l : R) : obj :=
  mkobj (o_elem o) (o_update o) (o_length o) (o_center o) (o_bbox o) s a l (o_closed o).
(** geometry.py:574-578 *)
Definition clear_surface (o : obj) : obj := set_surface o None (-1) (-1).

(** geometry.py:326-490: translate, scale, rotate, mirror, transform.  The result
    is None when the figure function raised; then nothing was changed. *)
Definition clears (h : how) : bool :=
  match h with Translate | Rotate | Mirror => true | Scale | Transform => false end.
Definition change (o : obj) (h : how) (a : arg F) : obj * bool :=
  let is_solid := match kind_of F (o_elem o), h with KSolid, Transform => false | KSolid, _ => true | _, _ => false end in
  if is_solid then
    match solid F h a (o_elem o) with
    | None => (o, false)
    | Some e => let o := set_update (set_elem o e) true in
                (if clears h then clear_surface o else o, true)
    end
  else
    match plain F h a (o_elem o) with
    | None => (o, false)
    | Some e => (set_update (set_elem o e) true, true)
    end.

(** geometry.py:490-547 _updateInternals; the flag is false when it raised. *)
Definition solid_props (o : obj) (keep : bool) : obj :=
  (* 520-530 (keep = true): the bounding box is computed only if there is none;
     533-542 (keep = false): always.  An exception in either clears both. *)
  match (if keep then match o_bbox o with Some b => Some b | None => solid_bbox F (o_elem o) end
         else solid_bbox F (o_elem o)) with
  | None => set_props o 0 None None
  | Some b => match solid_center F (o_elem o) with
              | Some c => set_props o 0 (Some c) (Some b)
              | None => set_props o 0 None None
              end
  end.
Definition refresh (o : obj) : obj * bool :=
  if o_update o then
    let o := set_update o false in
    match kind_of F (o_elem o) with
    | KEmpty => (set_props o 0 None None, true)
    | KSolid => (solid_props o true, true)
    | KTagged => (solid_props o false, true)
    | KPlain =>
        match length_of F (o_elem o) with
        | None => (o, false)
        | Some l => let o := set_props o l (o_center o) (o_bbox o) in
          match center_of F (o_elem o) with
          | None => (o, false)
          | Some c => let o := set_props o l (Some c) (o_bbox o) in
            match bbox_of F (o_elem o) with
            | None => (o, false)
            | Some b => (set_props o l (Some c) (Some b), true)
            end
          end
        end
    end
  else (o, true).

Definition close (a b : R) : bool := Rltb (Rabs (a - b)) epsilon.

Inductive answer :=
| Done | Raised | ALength (l : R) | ACenter (c : option vec) | ABox (b : option (box F))
| AGeom (e : E) | ANothing (* [] *) | ASurface (s : surf F).

(** geometry.py:689-735 surface *)
Definition ask_surface (o : obj) (a l : R) : obj * answer :=
  if negb (o_closed o) then (o, Raised)
  else
    let (o, ok) := refresh o in
    if negb ok then (o, Raised)
    else
      let miss :=
        let o := set_surface o (o_surface o) a l in
        match kind_of F (o_elem o) with
        | KEmpty => (o, ANothing)
        | _ => match tri F (o_elem o) a l with
               | None => (o, Raised)
               | Some s => (set_surface o (Some s) a l, ASurface s)
               end
        end in
      match o_surface o with
      | Some s => if close (o_ang o) a && close (o_len o) l then (o, ASurface s) else miss
      | None => miss
      end.

Inductive act :=
| Change (h : how) (a : arg F)
| Assign (e : E)             (* g.elem = e  (571-573) *)
| Touch                      (* g.update = ...  (559-562) *)
| GetLength | GetCenter | GetBox | GetGeom | GetSurface (a l : R).

Definition query (o : obj) (f : obj -> answer) : obj * answer :=
  let (o, ok) := refresh o in (o, if ok then f o else Raised).
(** One call. *)
Definition step (o : obj) (x : act) : obj * answer :=
  match x with
  | Change h a => let (o, ok) := change o h a in (o, if ok then Done else Raised)
  | Assign e => (set_elem o e, Done)
  | Touch => (set_update o true, Done)
  | GetLength => query o (fun o => ALength (o_length o))
  | GetCenter => query o (fun o => ACenter (o_center o))
  | GetBox => query o (fun o => ABox (o_bbox o))
  | GetGeom => query o (fun o => AGeom (o_elem o))
  | GetSurface a l => ask_surface o a l
  end.
Definition after (o : obj) (xs : list act) : obj := fold_left (fun o x => fst (step o x)) xs o.
(** The answer to x after the history xs. *)
Definition answer_to (o : obj) (xs : list act) (x : act) : answer := snd (step (after o xs) x).
End Object.
Arguments Change {F}. Arguments Assign {F}. Arguments Touch {F}. Arguments GetLength {F}.
Arguments GetCenter {F}. Arguments GetBox {F}. Arguments GetGeom {F}. Arguments GetSurface {F}.
Arguments Done {F}. Arguments Raised {F}. Arguments ALength {F}. Arguments ACenter {F}. Arguments ABox {F}.
Arguments AGeom {F}. Arguments ANothing {F}. Arguments ASurface {F}.
Arguments o_elem {F}. Arguments o_update {F}. Arguments o_length {F}. Arguments o_center {F}.
Arguments o_bbox {F}. Arguments o_surface {F}. Arguments o_ang {F}. Arguments o_len {F}. Arguments o_closed {F}.
