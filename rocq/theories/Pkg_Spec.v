(** What a manifest promises about the files of its package. *)
From Coq Require Import ZArith String List Bool.
From Verif Require Import Dict Json_Model Pkg_Model.
Import ListNotations.
Open Scope Z_scope.
Open Scope list_scope.

Section Spec.
  Variable H : host.
  Definition field (d : dict) (k : string) : option json := dget teq (t k) d.
  Definition contents (fs : files) (p : text) : option bytes := dget teq (loc H p) fs.
  Definition sha256 (b : bytes) : text := t "sha256:" ++ digest H (t "sha256") b.
  (** The file is there, and has the recorded digest if one is recorded. *)
  Definition file_ok (fs : files) (p : text) (recorded : option json) : Prop :=
    exists b, contents fs p = Some b /\
      (forall v, recorded = Some v -> truthy H v = true -> exists s, v = JStr s /\ lower s = lower (sha256 b)).
  Definition entry_ok (fs : files) (e : json) : Prop :=
    exists d p, e = JObj d /\ field d "path" = Some (JStr p) /\ file_ok fs p (field d "hash").
  (** the list under a key; nothing (or None, [], ...) counts as empty *)
  Definition section_of (d : dict) (k : string) (l : list json) : Prop :=
    field d k = Some (JList l) \/
    (l = [] /\ forall v, field d k = Some v -> truthy H v = false).
  Definition section_ok (fs : files) (d : dict) (k : string) : Prop := exists l, section_of d k l /\ Forall (entry_ok fs) l.
  Definition absent_or (P : json -> Prop) (o : option json) : Prop := forall v, o = Some v -> P v.
  Definition is_dict (v : json) : Prop := exists d, v = JObj d.
  Definition material_ok (m : json) : Prop :=
    exists d s ty, m = JObj d /\ field d "source" = Some (JObj s) /\ field s "type" = Some (JStr (t ty)) /\
      In ty ["standard"; "vendor"; "custom"; "tested"]%string /\
      (ty = "standard"%string -> absent_or is_dict (field s "standard")) /\
      absent_or (fun v => exists w, v = JObj w /\
        absent_or (fun c => truthy H c = true -> exists r g b, c = JList [r; g; b]) (field w "color")) (field d "visual").
  Definition package_ok (fs : files) (d : dict) : Prop :=
    field d "schema" = Some (JStr (t "ycpkg-spec-v0.1")) /\
    (exists g pr p b, field d "geometry" = Some (JObj g) /\ field g "primary" = Some (JObj pr) /\
       field pr "path" = Some (JStr p) /\ file_ok fs p (field pr "hash") /\
       contents fs p = Some b /\ geometry_ok H b = true /\ section_ok fs g "derived") /\
    section_ok fs d "exports" /\ section_ok fs d "attachments" /\
    absent_or (fun m => truthy H m = true -> exists ms, m = JObj ms /\ Forall (fun kv => material_ok (snd kv)) ms) (field d "materials").
  (** an entry of the manifest, wherever it stands *)
  Definition listed (d : dict) (e : dict) : Prop :=
    (exists g, field d "geometry" = Some (JObj g) /\
       (field g "primary" = Some (JObj e) \/ exists l, field g "derived" = Some (JList l) /\ In (JObj e) l)) \/
    (exists l, field d "exports" = Some (JList l) /\ In (JObj e) l) \/
    (exists l, field d "attachments" = Some (JList l) /\ In (JObj e) l).
  (** what yaml does to data it can represent *)
  Definition yaml_faithful : Prop := forall j, representable j = true -> yaml_load H (yaml_dump H j) = Some j.
End Spec.

(** The paths a list of entries, a section of a dictionary, the derived geometry names. *)
Definition paths (l : list json) : list text :=
  flat_map (fun e => match e with JObj d => match field d "path" with Some (JStr p) => [p] | _ => [] end | _ => [] end) l.
Definition section_paths (d : dict) (k : string) : list text := match field d k with Some (JList l) => paths l | _ => [] end.
Definition derived_paths (d : dict) : list text := match field d "geometry" with Some (JObj g) => section_paths g "derived" | _ => [] end.
(** A section holds an entry with this path and this hash. *)
Definition records (d : dict) (k : string) (p h : text) : Prop :=
  exists l e, field d k = Some (JList l) /\ In (JObj e) l /\ field e "path" = Some (JStr p) /\ field e "hash" = Some (JStr h).
Definition derived_records (d : dict) (p h : text) : Prop := exists g, field d "geometry" = Some (JObj g) /\ records g "derived" p h.
