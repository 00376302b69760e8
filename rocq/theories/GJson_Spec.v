(** What the theorems about saving and loading geometry documents speak of. *)
From Coq Require Import Reals ZArith String List Bool.
From Verif Require Import Dict Xform_Model Json_Model Meta_Model GJson_Model.
Import ListNotations.
Open Scope R_scope.

(** The solids, stand-alone surfaces and sketches among what is saved, in order *)
Definition solids_in (l : list (thing * dict)) : list gsolid :=
  flat_map (fun x => match fst x with TSolid s => [s] | _ => [] end) l.
Definition surfaces_in (l : list (thing * dict)) : list gsurf :=
  flat_map (fun x => match fst x with TSurface s => [s] | _ => [] end) l.
Definition sketches_in (l : list (thing * dict)) : list (list gelem) :=
  flat_map (fun x => match fst x with TSketch g => [g] | _ => [] end) l.
(** The surfaces of a shell or void (the list may hold other things) *)
Definition surfs (l : list (option gsurf)) : list gsurf :=
  flat_map (fun x => match x with Some s => [s] | None => [] end) l.
Definition void_surfs (l : list void) : list (list gsurf) :=
  flat_map (fun v => match v with VIter l => [surfs l] | VAtom => [] end) l.

(** The same triangles with the same metadata dictionary *)
Definition same_mesh (a b : gsurf) : Prop :=
  g_verts b = g_verts a /\ g_norms b = g_norms a /\ g_faces b = g_faces a /\ g_meta b = g_meta a.
Definition solid_back (s : gsolid) (b : lsolid) : Prop :=
  Forall2 same_mesh (surfs (g_shell s)) (l_shell b) /\
  Forall2 (Forall2 same_mesh) (void_surfs (g_second s)) (l_voids b) /\
  l_meta b = g_smeta s.

(** Metadata whose entityId, if there is one, is a non-empty string *)
Definition good_id (d : dict) : Prop :=
  match get (t "entityId") d with None => True | Some (JStr i) => i <> [] | _ => False end.
(** Sketch elements that JSON keeps: in the plane z = 0 (lines and polylines), not
    reversed, with the values their constructors make. *)
Definition in_plane (p : vec) : Prop := vz p = 0 /\ vw p = 1.
Definition kept (e : gelem) : Prop :=
  match e with
  | GPoint _ | GNested _ => False
  | GLine p q => in_plane p /\ in_plane q
  | GArc c r s e o n => vw c > 0 /\ r >= 0 /\ o = (-1)%Z /\
      match n with None => True | Some n => vw n > 0 /\ Rabs (mag n - 1) <= epsilon end
  | GEllipse c a b rot s e n => vw c > 0 /\ a >= b /\ b > 0 /\
      vx n * vx n + vy n * vy n + vz n * vz n = 1 /\ vw n = 0
  | GCatmull ps _ _ => Forall (fun p => vw p > 0) ps /\ (2 <= length ps)%nat
  | GNurbs ps d ws ks => Forall (fun p => vw p > 0) ps /\ (1 <= d < length ps)%nat /\
      length ws = length ps /\ length ks = (length ps + d + 1)%nat
  | GPoly ps => Forall in_plane ps /\ (2 <= length ps)%nat
  end.
(** A polyline comes back as the lines between its points, the rest as it was. *)
Fixpoint between (ps : list vec) : list gelem :=
  match ps with p :: ((q :: _) as r) => GLine p q :: between r | _ => [] end.
Definition expected (e : gelem) : list gelem := match e with GPoly ps => between ps | e => [e] end.

(** What can be saved: entities yapCAD knows, with string ids *)
Definition savable (drawable : gelem -> bool) (x : thing * dict) : Prop :=
  NoDup (keys (snd x)) /\ good_id (snd x) /\
  match fst x with
  | TOther => False
  | TSurface _ => True
  | TSolid s => Forall (fun v => v <> VAtom) (g_second s)
  | TSketch g => Forall (fun e => kept e /\ drawable e = true) g
  end.
(** The dictionaries of metadata held by what is saved *)
Definition refs_of (x : thing * dict) : list nat :=
  match fst x with
  | TSolid s => g_smeta s :: map g_meta (surfs (g_shell s)) ++ map g_meta (concat (void_surfs (g_second s)))
  | TSurface s => [g_meta s]
  | _ => []
  end.
Definition entry_meta (w : world) (e : entry) : dict :=
  match e with ESurf _ m _ _ _ | ESolid _ m _ _ => metas w m | ESketch _ d _ => d end.
Definition injective (uuid : nat -> text) : Prop := forall m n, uuid m = uuid n -> m = n.
