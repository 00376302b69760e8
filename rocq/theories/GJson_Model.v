(** Model of yapcad/io/geometry_json.py: geometry_to_json and geometry_from_json.
    A dictionary of metadata is an object: [heap] gives the present contents of
    each, and a surface, a solid or an entry of a document names the one it holds
    (the code stores the same dictionary in all of them).  A surface or solid
    without metadata holds an empty dictionary of its own.  uuid4 is the stream
    [uuid] (a counter says how many ids were asked for; the model asks for one
    wherever the code may).  Floats are reals; float() and int() change nothing.
    Not modelled: bounding boxes and the sampled polylines of sketches (no loader
    of a saved document reads them), documents without the right schema, entity
    ids that are not strings ([Outside]), metadata slots that are not
    dictionaries, the OCC shape looked up by brep_from_solid. *)
From Coq Require Import Reals ZArith String List Bool.
From Verif Require Import Dict Xform_Model Json_Model Meta_Model.
Import ListNotations.
Open Scope R_scope.
Open Scope list_scope.

Inductive gerr := GValue | GType | Outside.
Inductive gres (A : Type) := GOk (a : A) | GRaise (e : gerr).
Arguments GOk {A}. Arguments GRaise {A}.
Definition gbind {A B} (r : gres A) (f : A -> gres B) : gres B := match r with GOk a => f a | GRaise e => GRaise e end.
Fixpoint gmap {A B} (f : A -> gres B) (l : list A) : gres (list B) :=
  match l with [] => GOk [] | a :: r => gbind (f a) (fun b => gbind (gmap f r) (fun bs => GOk (b :: bs))) end.

(** ['surface', vertices, normals, faces, boundary, holes, metadata] *)
Record gsurf := mkgs {
  g_verts : list (list R); g_norms : list (list R); g_faces : list (list Z);
  g_bnd : list Z; g_holes : list (list Z); g_meta : nat }.
(** ['solid', surfaces, second, third, metadata].  The second list is the material
    in geom3d.py:730-760 and the voids here.  [None] is a list member that is not a
    surface; [VAtom] cannot be iterated over (a number), strings and dictionaries
    hold no surface.  [g_third] is the construction list. *)
Inductive void := VIter (l : list (option gsurf)) | VAtom.
Record gsolid := mkgsol { g_shell : list (option gsurf); g_second : list void; g_third : list json; g_smeta : nat }.
(** Members of a geometry list (geom.py:3371-3380).  An arc is [center, [r, start,
    end, o]] with o = -1 or -2 (sampled backwards), and maybe a normal. *)
Inductive gelem :=
| GPoint (p : vec)
| GLine (p q : vec)
| GArc (c : vec) (r s e : R) (o : Z) (n : option vec)
| GEllipse (c : vec) (major minor rotation s e : R) (n : vec)
| GCatmull (pts : list vec) (closed : bool) (alpha : R)
| GNurbs (pts : list vec) (degree : nat) (weights knots : list R)
| GPoly (pts : list vec)                       (* three or more points *)
| GNested (l : list gelem).
Inductive thing := TSolid (s : gsolid) | TSurface (s : gsurf) | TSketch (g : list gelem) | TOther.

(** Sketch primitives of a document *)
Inductive prim :=
| PLine (x0 y0 x1 y1 : R)
| PCircle (c : vec) (r : R) (o : Z) (n : option vec)
| PArc (c : vec) (r s e : R) (o : Z) (n : option vec)
| PEllipse (c : vec) (major minor rotation s e : R) (n : vec)
| PCatmull (pts : list vec) (closed : bool) (alpha : R)
| PNurbs (pts : list vec) (degree : nat) (weights knots : list R)
| PPoly (pts : list (R * R)).
Inductive entry :=
| ESurf (id : text) (meta : nat) (vs ns : list (list R)) (fs : list (list Z))
| ESolid (id : text) (meta : nat) (shell : list text) (voids : list (list text))
| ESketch (id : text) (meta : dict) (prims : list prim).
Definition entry_id (e : entry) : text := match e with ESurf i _ _ _ _ | ESolid i _ _ _ | ESketch i _ _ => i end.
Definition document := list entry.

Section GJson.
Variables (H : host) (uuid : nat -> text) (drawable : gelem -> bool).

(** The dictionaries, and how many ids were made *)
Record world := mkw { metas : nat -> dict; made : nat }.
Definition meta_put (w : world) (r : nat) (d : dict) : world :=
  mkw (fun r' => if Nat.eqb r' r then d else metas w r') (made w).
Definition next (w : world) : world := mkw (metas w) (S (made w)).
Definition update (d o : dict) : dict := fold_left (fun d kv => put (fst kv) (snd kv) d) o d.
Definition nonempty_dict (o : dict) : bool := match o with [] => false | _ => true end.
(** metadata.py:107-145, 160-198: get_surface_metadata and get_solid_metadata with create=True *)
Definition get_meta (w : world) (r : nat) : world :=
  next (meta_put w r (ensure_root H (ensure_id H (metas w r) (uuid (made w))) None)).
(** "layer" not in metadata or not metadata.get("layer") *)
Definition default_layer (d : dict) : dict :=
  match get (t "layer") d with
  | Some v => if truthy H v then d else put (t "layer") (JStr (t "default")) d
  | None => put (t "layer") (JStr (t "default")) d
  end.
Definition id_text (d : dict) : gres text :=
  match get (t "entityId") d with Some (JStr s) => GOk s | _ => GRaise Outside end.

(** geometry_json.py:72-104 _serialize_surface *)
Definition serialize_surface (w : world) (s : gsurf) (override : dict) : gres (world * entry) :=
  let w := get_meta w (g_meta s) in
  let d := default_layer (update (metas w (g_meta s)) override) in
  let w := meta_put w (g_meta s) d in
  gbind (id_text d) (fun i => GOk (w, ESurf i (g_meta s) (g_verts s) (g_norms s) (g_faces s))).

Definition cache := list (text * entry).
(** geometry_json.py:124-133, 149-158: what a surface of a solid inherits *)
Definition inherited (d : dict) (override : dict) (parent : json) : dict :=
  match get (t "layer") d with
  | None => put (t "layer") parent override
  | Some v => if negb (truthy H v) || match v with JStr s => teq s (t "default") | _ => false end
              then put (t "layer") parent override else override
  end.
(** geometry_json.py:135-142, 160-167: a new id until it is not in use *)
Fixpoint rename (fuel : nat) (c : cache) (w : world) (r : nat) (i : text) : gres (world * text) :=
  if dmem teq i c then
    match fuel with
    | O => GRaise Outside
    | S k =>
        let n := uuid (made w) in
        let w := next w in
        let w := meta_put w r (put (t "id") (JStr n) (put (t "entityId") (JStr n) (metas w r))) in
        rename k c w r n
    end
  else GOk (w, i).
Definition with_id (i : text) (e : entry) : entry :=
  match e with ESurf _ m vs ns fs => ESurf i m vs ns fs | e => e end.
Definition one_surface (override : dict) (parent : json) (w : world) (c : cache) (s : gsurf) : gres (world * cache * text) :=
  let w := get_meta w (g_meta s) in
  gbind (serialize_surface w s (inherited (metas w (g_meta s)) override parent)) (fun we =>
  let (w, e) := we in
  gbind (rename (S (length c)) c w (g_meta s) (entry_id e)) (fun wi =>
  let (w, i) := wi in GOk (w, dset teq i (with_id i e) c, i))).
(** the loop over the surfaces of the shell or of one void; others are passed over *)
Fixpoint surfaces_of (override : dict) (parent : json) (w : world) (c : cache) (l : list (option gsurf)) : gres (world * cache * list text) :=
  match l with
  | [] => GOk (w, c, [])
  | None :: r => surfaces_of override parent w c r
  | Some s :: r =>
      gbind (one_surface override parent w c s) (fun x => let '(w, c, i) := x in
      gbind (surfaces_of override parent w c r) (fun y => let '(w, c, is) := y in GOk (w, c, i :: is)))
  end.
Fixpoint voids_of (override : dict) (parent : json) (w : world) (c : cache) (l : list void) : gres (world * cache * list (list text)) :=
  match l with
  | [] => GOk (w, c, [])
  | VAtom :: _ => GRaise GType
  | VIter v :: r =>
      gbind (surfaces_of override parent w c v) (fun x => let '(w, c, is) := x in
      gbind (voids_of override parent w c r) (fun y => let '(w, c, iss) := y in GOk (w, c, is :: iss)))
  end.
(** geometry_json.py:107-196 _serialize_solid.  The layer is settled before the
    loop (112-113), which makes 173-183 dead code. *)
Definition serialize_solid (w : world) (c : cache) (s : gsolid) (override : dict) : gres (world * cache * entry) :=
  let w := get_meta w (g_smeta s) in
  let d := default_layer (update (metas w (g_smeta s)) override) in
  let w := meta_put w (g_smeta s) d in
  let parent := arg (t "layer") d in
  gbind (surfaces_of override parent w c (g_shell s)) (fun x => let '(w, c, shell) := x in
  gbind (voids_of override parent w c (g_second s)) (fun y => let '(w, c, voids) := y in
  gbind (id_text (metas w (g_smeta s))) (fun i => GOk (w, c, ESolid i (g_smeta s) shell voids)))).

(** geometry_json.py:222-313 _serialize_sketch.  A list nested in the list is read
    as a polyline if it has two or more members, and reading a member that is not a
    point fails (float() of a list or of text); shorter ones are passed over.
    Sampling (arcs, ellipses, splines) and bbox() work on what is [drawable]; bbox()
    of an empty nested list is False, which cannot be added to a list. *)
Definition xy (p : vec) : R * R := (vx p, vy p).
Fixpoint has_empty (e : gelem) : bool :=
  match e with GNested [] => true | GNested l => existsb has_empty l | _ => false end.
Definition primitive (e : gelem) : gres (list prim) :=
  match e with
  | GPoint _ => GOk []
  | GLine p q => GOk [PLine (vx p) (vy p) (vx q) (vy q)]
  | GArc c r s e o n => if Reqb s 0 && Reqb e 360 then GOk [PCircle c r o n] else GOk [PArc c r s e o n]
  | GEllipse c a b rot s e n => GOk [PEllipse c a b rot s e n]
  | GCatmull ps cl al => GOk [PCatmull ps cl al]
  | GNurbs ps d ws ks => GOk [PNurbs ps d ws ks]
  | GPoly ps => GOk [PPoly (map xy ps)]
  | GNested l => if Nat.ltb (length l) 2 then GOk [] else GRaise GType
  end.
Definition serialize_sketch (w : world) (g : list gelem) (override : dict) : gres (world * entry) :=
  gbind (gmap primitive g) (fun ps =>
  if existsb has_empty g then GRaise GType
  else if negb (forallb drawable g) then GRaise Outside
  else
    let d := update [(t "schema", JStr (t "metadata-namespace-v1.1")); (t "entityId", JStr (uuid (made w)));
                     (t "tags", JList []); (t "layer", JStr (t "default"))] override in
    gbind (id_text d) (fun i => GOk (next w, ESketch i d (concat ps)))).

(** geometry_json.py:356-375: the metadata given with an item; None and {} are the same *)
Definition given (w : world) (r : nat) (override : dict) : world :=
  if nonempty_dict override then
    let w := get_meta w r in
    let d := metas w r in
    let d := match get (t "layer") override with
             | Some v => if truthy H v then set_layer H d v else d
             | None => d
             end in
    meta_put w r (update d (filter (fun kv => negb (teq (fst kv) (t "layer"))) override))
  else w.
(** geometry_json.py:337-401 geometry_to_json *)
Fixpoint save_all (w : world) (c : cache) (es : list entry) (l : list (thing * dict)) : gres (world * document) :=
  match l with
  | [] => GOk (w, es ++ map snd c)
  | (x, override) :: r =>
      match x with
      | TSolid s =>
          gbind (serialize_solid (given w (g_smeta s) override) c s override) (fun y =>
          let '(w, c, e) := y in save_all w c (es ++ [e]) r)
      | TSurface s =>
          gbind (serialize_surface (given w (g_meta s) override) s override) (fun y =>
          let (w, e) := y in
          save_all w (if dmem teq (entry_id e) c then c else dset teq (entry_id e) e c) es r)
      | TSketch g =>
          gbind (serialize_sketch w g override) (fun y => let (w, e) := y in save_all w c (es ++ [e]) r)
      | TOther => GRaise GValue
      end
  end.
Definition geometry_to_json (w : world) (l : list (thing * dict)) : gres (world * document) := save_all w [] [] l.

(** geometry_json.py:404-412 _rehydrate_surface *)
Definition rehydrate (e : entry) : gsurf :=
  match e with
  | ESurf _ m vs ns fs => mkgs vs ns fs [] [] m
  | ESolid _ m _ _ => mkgs [] [] [] [] [] m
  | ESketch _ _ _ => mkgs [] [] [] [] [] 0          (* never reached from a saved document *)
  end.
(** geom.py:1907-1923 point(x, y, z, w) and geometry_json.py:63-68 *)
Definition point_of (p : vec) : gres vec := if Rltb 0 (vw p) then GOk p else GRaise GValue.
(** geom.py:2289-2330 arc(center, vector, normal): the fourth component of the
    vector is replaced by -1 *)
Definition arc_of (c : vec) (r s e : R) (n : option vec) : gres gelem :=
  gbind (point_of c) (fun c =>
  match n with
  | None => if Rltb r 0 then GRaise GValue else GOk (GArc c r s e (-1) None)
  | Some n =>
      gbind (point_of n) (fun n =>
      if Rltb r 0 then GRaise GValue
      else if Rltb epsilon (Rabs (mag n - 1)) then GRaise GValue else GOk (GArc c r s e (-1) (Some n)))
  end).
(** geom.py:700-768 ellipse *)
Definition ellipse_of (c : vec) (major minor rotation s e : R) (n : vec) : gres gelem :=
  gbind (point_of c) (fun c =>
  if negb (Rltb 0 major) || negb (Rltb 0 minor) then GRaise GValue
  else
    let '(major, minor, rotation) := if Rltb major minor then (minor, major, rotation + 90) else (major, minor, rotation) in
    let m := sqrt (vx n * vx n + vy n * vy n + vz n * vz n) in
    if Rltb m (1 / 10000000000) then GRaise GValue
    else GOk (GEllipse c major minor rotation s e (mkv (vx n / m) (vy n / m) (vz n / m) 0))).
(** geom.py:465-467 catmullrom, 540-560 nurbs *)
Definition catmull_of (pts : list vec) (closed : bool) (alpha : R) : gres gelem :=
  gbind (gmap point_of pts) (fun pts => if Nat.ltb (length pts) 2 then GRaise GValue else GOk (GCatmull pts closed alpha)).
Definition nurbs_of (pts : list vec) (degree : nat) (weights knots : list R) : gres gelem :=
  gbind (gmap point_of pts) (fun pts =>
  let n := length pts in
  if Nat.eqb n 0 || Nat.ltb degree 1 || Nat.ltb n (degree + 1) || negb (Nat.eqb (length weights) n)
     || negb (Nat.eqb (length knots) (n + degree + 1)) then GRaise GValue
  else GOk (GNurbs pts degree weights knots)).
Fixpoint joined (l : list vec) : list gelem :=
  match l with p :: ((q :: _) as r) => GLine p q :: joined r | _ => [] end.
(** geometry_json.py:479-560: the elements a primitive becomes *)
Definition flat (q : R * R) : vec := mkv (fst q) (snd q) 0 1.
Definition element (p : prim) : gres (list gelem) :=
  let one r := gbind r (fun e => GOk [e]) in
  match p with
  | PLine x0 y0 x1 y1 => GOk [GLine (flat (x0, y0)) (flat (x1, y1))]
  | PCircle c r _ n => one (arc_of c r 0 360 n)
  | PArc c r s e _ n => one (arc_of c r s e n)
  | PEllipse c a b rot s e n => one (ellipse_of c a b rot s e n)
  | PCatmull ps cl al => one (catmull_of ps cl al)
  | PNurbs ps d ws ks => one (nurbs_of ps d ws ks)
  | PPoly ps => GOk (joined (map flat ps))
  end.

Record lsolid := mkls { l_shell : list gsurf; l_voids : list (list gsurf); l_meta : nat }.
Inductive loaded := Solids (l : list lsolid) | Sketches (l : list (list gelem)) | Surfaces (l : list gsurf).
(** geometry_json.py:424-432: the surfaces listed, by id *)
Fixpoint listed (es : list entry) (s : list (text * gsurf)) : list (text * gsurf) :=
  match es with
  | [] => s
  | e :: r => listed r (match e with ESurf i _ _ _ _ => dset teq i (rehydrate e) s | _ => s end)
  end.
(** geometry_json.py:440-449: a surface by id, else any entry by id *)
Fixpoint last_entry (es : list entry) (i : text) : option entry :=
  match es with
  | [] => None
  | e :: r => match last_entry r i with Some x => Some x | None => if teq (entry_id e) i then Some e else None end
  end.
Definition find_surface (es : list entry) (s : list (text * gsurf)) (i : text) : gres gsurf :=
  match dget teq i s with
  | Some x => GOk x
  | None => match last_entry es i with Some e => GOk (rehydrate e) | None => GRaise GValue end
  end.
Definition load_solid (es : list entry) (s : list (text * gsurf)) (e : entry) : gres (list lsolid) :=
  match e with
  | ESolid _ m shell voids =>
      gbind (gmap (find_surface es s) shell) (fun sh =>
      gbind (gmap (gmap (find_surface es s)) voids) (fun vs => GOk [mkls sh vs m]))
  | _ => GOk []
  end.
Definition load_sketch (e : entry) : gres (list (list gelem)) :=
  match e with
  | ESketch _ _ ps => gbind (gmap element ps) (fun ls => GOk (match concat ls with [] => [] | l => [l] end))
  | _ => GOk []
  end.
(** geometry_json.py:415-576 geometry_from_json: solids if there are any, else
    sketches if there are any, else surfaces *)
Definition geometry_from_json (doc : document) : gres loaded :=
  if existsb (fun e => teq (entry_id e) []) doc then GRaise GValue
  else
    let s := listed doc [] in
    gbind (gmap (load_solid doc s) doc) (fun sol =>
    match concat sol with
    | _ :: _ => GOk (Solids (concat sol))
    | [] =>
        gbind (gmap load_sketch doc) (fun sk =>
        match concat sk with
        | _ :: _ => GOk (Sketches (concat sk))
        | [] => GOk (Surfaces (map snd s))
        end)
    end).
End GJson.
