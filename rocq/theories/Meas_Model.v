(** Model of the measurements of the native analysis back end:
    yapcad/package/analysis/yapcad_native.py:141-198, 200-553.  Solids are those of Solid_Model
    (surfaces only: attached BREP data needs the optional OCC kernel and is left out), numbers are
    reals, a centroid [x, y, z] is the point with w = 1.  The clearance check (a placeholder) is
    not modelled. *)
From Coq Require Import Reals ZArith String List Bool.
From Verif Require Import Dict Json_Model Meta_Model Xform_Model Fig_Model Solid_Model.
From Verif Require Coll_Model.
Import ListNotations.
Open Scope R_scope.
Open Scope list_scope.

Definition metrics := list (text * R).
Definition mset (k : string) (v : R) (m : metrics) : metrics := dset teq (t k) v m.
Definition setk (k : text) (v : R) (m : metrics) : metrics := dset teq k v m.
Definition tdec (n : nat) : text := t (Coll_Model.decimal n).

(** yapcad_native.py:507-553 _mesh_centroid: one face's contribution and the loop *)
Definition tet_signed (f : tri) : R :=
  let '(p, q, r) := f in
  let cx := vy q * vz r - vz q * vy r in
  let cy := vz q * vx r - vx q * vz r in
  let cz := vx q * vy r - vy q * vx r in
  (vx p * cx + vy p * cy + vz p * cz) / 6.
Definition acc := (R * R * R * R)%type.
Definition centroid_step (a : acc) (f : tri) : acc :=
  let '(cx, cy, cz, v) := a in
  let '(p, q, r) := f in
  let s := tet_signed f in
  (cx + s * ((vx p + vx q + vx r) / 4), cy + s * ((vy p + vy q + vy r) / 4),
   cz + s * ((vz p + vz q + vz r) / 4), v + s).
Definition tiny : R := / 10000000000.
Definition mesh_centroid (x : solid) : out (option vec) :=
  match x with
  | [] => Val None
  | _ => obind (solid_tris x) (fun ts =>
      let '(cx, cy, cz, v) := fold_left centroid_step ts (0, 0, 0, 0) in
      if Rltb (Rabs v) tiny then Val None else Val (Some (point (cx / v) (cy / v) (cz / v))))
  end.

(** yapcad_native.py:141-180 _load_geometry and 182-198 _normalize_geometry: the solids that are
    measured, of the package's entities (each with its id; [None] is an entity that is no solid).
    The ids asked for are read and not used (161-163). *)
Definition entity := (text * option solid)%type.
Fixpoint solids_in (g : list entity) : list solid :=
  match g with [] => [] | (_, Some x) :: r => x :: solids_in r | (_, None) :: r => solids_in r end.
Definition measured (entities : list text) (aggregate : bool) (g : list entity) : out (list solid) :=
  match solids_in g with
  | [] => Raise EValue
  | x :: r => if (aggregate || Nat.ltb 1 (length (x :: r)))%bool then Val (x :: r) else Val [x]
  end.

(** the loop "for i, v in enumerate(parts)" under "if len(solids) > 1" *)
Fixpoint put_parts (key : nat -> text) (i : nat) (vs : list R) (m : metrics) : metrics :=
  match vs with [] => m | v :: r => put_parts key (S i) r (setk (key i) v m) end.
Definition parts (key : nat -> text) (vs : list R) (m : metrics) : metrics :=
  if Nat.ltb 1 (length vs) then put_parts key 0 vs m else m.
Definition total (vs : list R) : R := fold_left Rplus vs 0.
Definition count (l : list solid) : R := INR (length l).

(** yapcad_native.py:200-234 _check_volume; the units are those of the check, "mm3" by default *)
Definition check_volume (units : option text) (l : list solid) : out metrics :=
  match l with
  | [] => Raise EValue
  | _ => obind (omap volumeof l) (fun vs =>
      let u := match units with Some u => u | None => t "mm3" end in
      Val (parts (fun i => t "volume.part_" ++ tdec i) vs
             (mset "part_count" (count l) (setk (t "volume_" ++ u) (total vs) (mset "volume" (total vs) [])))))
  end.
(** yapcad_native.py:267-302 _compute_solid_area, _mesh_surface_area; sum() of the surfaces' areas *)
Definition solid_area (x : solid) : out (option R) :=
  match x with [] => Val None | _ => obind (omap surfacearea x) (fun l => Val (Some (total l))) end.
(** yapcad_native.py:236-265 _check_area *)
Definition need (o : out (option R)) : out R := obind o (fun v => match v with Some v => Val v | None => Raise EValue end).
Definition check_area (units : option text) (l : list solid) : out metrics :=
  match l with
  | [] => Raise EValue
  | _ => obind (omap (fun x => need (solid_area x)) l) (fun vs =>
      let u := match units with Some u => u | None => t "mm2" end in
      Val (parts (fun i => t "area.part_" ++ tdec i) vs
             (mset "part_count" (count l) (setk (t "area_" ++ u) (total vs) (mset "area" (total vs) [])))))
  end.
(** yapcad_native.py:380-423 _check_mass *)
Definition nano : R := / 1000000000.
Definition check_mass (density : option R) (l : list solid) : out metrics :=
  match l with
  | [] => Raise EValue
  | _ => obind (omap volumeof l) (fun vs =>
      let d := match density with Some d => d | None => 2700 end in
      let v := total vs in
      Val (parts (fun i => t "mass_kg.part_" ++ tdec i) (map (fun w => w * nano * d) vs)
             (mset "part_count" (count l) (mset "density_kgm3" d (mset "mass_g" (v * nano * d * 1000)
               (mset "mass_kg" (v * nano * d) (mset "volume_m3" (v * nano) (mset "volume_mm3" v []))))))))
  end.

(** yapcad_native.py:304-378 _check_bbox: the merged box *)
Definition merge (b c : vec * vec) : vec * vec :=
  (point (Rmin (vx (fst b)) (vx (fst c))) (Rmin (vy (fst b)) (vy (fst c))) (Rmin (vz (fst b)) (vz (fst c))),
   point (Rmax (vx (snd b)) (vx (snd c))) (Rmax (vy (snd b)) (vy (snd c))) (Rmax (vz (snd b)) (vz (snd c)))).
Fixpoint merged (l : list solid) (b : option (vec * vec)) : out (option (vec * vec)) :=
  match l with
  | [] => Val b
  | x :: r => obind (solidbbox x) (fun o =>
      merged r (match o, b with None, _ => b | Some c, None => Some c | Some c, Some b => Some (merge b c) end))
  end.
Definition on_axis (axis a : text) : bool := (teq axis a || teq axis (t "all"))%bool.
Definition check_bbox (axis units : option text) (l : list solid) : out metrics :=
  match l with
  | [] => Raise EValue
  | _ => obind (merged l None) (fun o =>
      match o with
      | None => Raise EValue
      | Some (lo, hi) =>
          let w := vx hi - vx lo in let d := vy hi - vy lo in let h := vz hi - vz lo in
          let ax := match axis with Some a => a | None => t "all" end in
          let u := match units with Some u => u | None => t "mm" end in
          let m := mset "part_count" (count l) (mset "bbox.diagonal" (sqrt (w * w + d * d + h * h))
            (mset "bbox.height" h (mset "bbox.depth" d (mset "bbox.width" w
            (mset "bbox.zmax" (vz hi) (mset "bbox.zmin" (vz lo) (mset "bbox.ymax" (vy hi) (mset "bbox.ymin" (vy lo)
            (mset "bbox.xmax" (vx hi) (mset "bbox.xmin" (vx lo) [])))))))))) in
          let m := if on_axis ax (t "x") then setk (t "bbox.x_" ++ u) w m else m in
          let m := if on_axis ax (t "y") then setk (t "bbox.y_" ++ u) d m else m in
          let m := if on_axis ax (t "z") then setk (t "bbox.z_" ++ u) h m else m in
          Val m
      end)
  end.

(** yapcad_native.py:425-480 _check_centroid: the loop over the solids, their centroids with volumes *)
Fixpoint centroids (l : list solid) : out (list (vec * R)) :=
  match l with
  | [] => Val []
  | x :: r => obind (mesh_centroid x) (fun o =>
      match o with
      | None => Raise EValue
      | Some c => obind (volumeof x) (fun v => obind (centroids r) (fun cs => Val ((c, v) :: cs)))
      end)
  end.
Fixpoint put_centroids (i : nat) (cs : list (vec * R)) (m : metrics) : metrics :=
  match cs with
  | [] => m
  | (c, _) :: r =>
      let k := t "centroid.part_" ++ tdec i in
      put_centroids (S i) r (setk (k ++ t ".z") (vz c) (setk (k ++ t ".y") (vy c) (setk (k ++ t ".x") (vx c) m)))
  end.
Definition weighted (f : vec -> R) (cs : list (vec * R)) : R := fold_left (fun s c => s + snd c * f (fst c)) cs 0.
Definition check_centroid (l : list solid) : out metrics :=
  match l with
  | [] => Raise EValue
  | _ => obind (centroids l) (fun cs =>
      let v := total (map snd cs) in
      if Rltb (Rabs v) tiny then Raise EValue
      else
        let m := mset "part_count" (count l) (mset "centroid.z" (weighted vz cs / v)
                   (mset "centroid.y" (weighted vy cs / v) (mset "centroid.x" (weighted vx cs / v) []))) in
        Val (if Nat.ltb 1 (length l) then put_centroids 0 cs m else m))
  end.
