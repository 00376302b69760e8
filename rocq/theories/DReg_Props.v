(** Properties of the datum registry. *)
From Coq Require Import String List Bool Lia.
From Verif Require Import Dict DReg_Model DReg_Spec DReg_Proofs.
Import ListNotations.
Open Scope string_scope.
Open Scope list_scope.

(** An example disk: one surrogate file, found once its directory is in the search paths. *)
Definition disk0 (paths : list string) (s : string) : found (D := nat) :=
  if String.eqb s "servo.json" then
    match paths with [] => NoFile | _ => Readable [("face", 1); ("axis", 2)] (Some "XH430") end
  else NoFile.
Definition after {D} disk (os : list (op (D := D))) : state := run disk os empty.

(** C30.  Lookups answer what the history of that source says. *)
Theorem c30_lookup : forall D (disk : list string -> string -> found (D := D)) s os, unshared disk s ->
  let v := seen disk s os in
  (forall n, snd (get_datum disk s n (after disk os)) = dget String.eqb n (content v)) /\
  snd (list_datums disk s (after disk os)) = keys (content v) /\
  snd (get_datums disk s (after disk os)) = match v with Table ds => Some ds | _ => None end.
Proof. intros D disk s os U. exact (lookup disk s U os). Qed.
Print Assumptions c30_lookup.
(** In particular: the last registration wins, whatever happens to other sources in between. *)
Definition about {D} (s : string) (o : op (D := D)) : Prop :=
  match o with RegisterSource s' _ | RegisterDatum s' _ _ | RegisterPart s' _ => s' = s | Clear => True | _ => False end.
Lemma untouched {D} (disk : list string -> string -> found (D := D)) s ds os : forall p, (forall o, In o os -> ~ about s o) ->
  snd (fold_left (effect disk s) os (p, Table ds)) = Table ds.
Proof.
  induction os as [|o os IH]; intros p N; cbn [fold_left]; auto. assert (No : ~ about s o) by (apply N; left; auto).
  assert (X : snd (effect disk s (p, Table ds) o) = Table ds).
  { destruct o as [k e|k n d|k e|k n|k|k| |q|]; cbn [effect snd about] in *; auto; try (destruct (String.eqb_spec k s); [subst; exfalso; apply No; reflexivity|]; reflexivity).
    - destruct e; auto. destruct (String.eqb_spec k s); [subst; exfalso; apply No; reflexivity|]; reflexivity.
    - destruct (String.eqb k s); reflexivity.
    - destruct (String.eqb k s); reflexivity.
    - destruct (String.eqb k s); reflexivity.
    - exfalso. apply No. exact I. }
  destruct (effect disk s (p, Table ds) o) as [p' v']. cbn [snd] in X. subst v'. apply IH. intros o' H. apply N. right. exact H.
Qed.
Theorem c30_last_source : forall D (disk : list string -> string -> found (D := D)) s ds before later n, unshared disk s ->
  (forall o, In o later -> ~ about s o) ->
  snd (get_datum disk s n (after disk (before ++ RegisterSource s ds :: later))) = dget String.eqb n ds.
Proof.
  intros D disk s ds before later n U N. destruct (c30_lookup D disk s (before ++ RegisterSource s ds :: later) U) as [-> _].
  unfold seen, history. rewrite fold_left_app. destruct (fold_left (effect disk s) before ([], Fresh)) as [p v]. cbn [fold_left effect]. rewrite String.eqb_refl.
  pose proof (untouched disk s ds later p N) as X. destruct (fold_left (effect disk s) later (p, Table ds)) as [p' v']. cbn [snd] in X. subst v'. reflexivity.
Qed.
Print Assumptions c30_last_source.
Theorem c30_last_datum : forall D (disk : list string -> string -> found (D := D)) s n d before later, unshared disk s ->
  (forall o, In o later -> ~ about s o) ->
  snd (get_datum disk s n (after disk (before ++ RegisterDatum s n d :: later))) = Some d.
Proof.
  intros D disk s n d before later U N. destruct (c30_lookup D disk s (before ++ RegisterDatum s n d :: later) U) as [-> _].
  unfold seen, history. rewrite fold_left_app. destruct (fold_left (effect disk s) before ([], Fresh)) as [p v]. cbn [fold_left effect]. rewrite String.eqb_refl.
  pose proof (untouched disk s (dset String.eqb n d (content v)) later p N) as X.
  destruct (fold_left (effect disk s) later (p, Table (dset String.eqb n d (content v)))) as [p' v']. cbn [snd] in X. subst v'. cbn [touched content].
  apply (dget_set_same _ String.eqb_eq).
Qed.
Print Assumptions c30_last_datum.
Example c30_nonvacuous : unshared disk0 "arm" /\
  snd (get_datum disk0 "arm" "tip" (after disk0 [AddPath "/cots"; Get "servo.json" "face"; RegisterDatum "arm" "tip" 7; RegisterSource "leg" []])) = Some 7 /\
  snd (get_datum disk0 "servo.json" "face" (after disk0 [AddPath "/cots"])) = Some 1.
Proof.
  split; [|split; reflexivity]. intros paths f ds p. unfold disk0. destruct (String.eqb_spec f "servo.json"); [|discriminate]. destruct paths; [discriminate|].
  intros [= <- <-] [E|E]; subst; discriminate.
Qed.

(** C117.  Registering a datum for one source changes another one. *)
Theorem c117_other_sources_refuted : exists s s' n d os, s <> s' /\
  snd (get_datum disk0 s n (after disk0 os)) = None /\
  snd (get_datum disk0 s n (after disk0 (os ++ [RegisterDatum s' n d]))) = Some d.
Proof. exists "servo.json", "XH430", "tip", 7, [AddPath "/cots"; Get "servo.json" "face"]. split; [discriminate|]. split; reflexivity. Qed.
Print Assumptions c117_other_sources_refuted.
(** For every file that declares a part name: a datum registered for the part shows up in the file. *)
Theorem c117_shared_always : forall D (disk : list string -> string -> found (D := D)) f p ds n d,
  disk [] f = Readable ds (Some p) -> f <> p ->
  snd (get_datum disk f n (after disk [ListDatums f; RegisterDatum p n d])) = Some d.
Proof.
  intros D disk f p ds n d F N. unfold after, run. cbn [fold_left step list_datums fst].
  unfold ensure at 1. cbn [loaded empty mem existsb]. unfold load_source. cbn [search_paths empty]. rewrite F. unfold load_readable.
  assert (E : String.eqb p f = false) by (apply String.eqb_neq; congruence). rewrite E.
  unfold put, alias, add_loaded, empty. cbn [objects sources loaded search_paths app length dset].
  rewrite E. cbn [dset mem existsb]. unfold register_datum. cbn [sources]. cbn [dget]. rewrite E, String.eqb_refl.
  unfold get_datum, ensure, add_datum. cbn [loaded app mem existsb]. rewrite String.eqb_refl. cbn [orb snd sources dget]. rewrite String.eqb_refl.
  unfold object. cbn [objects update nth datums]. apply (dget_set_same _ String.eqb_eq).
Qed.
Print Assumptions c117_shared_always.

(** C118.  Looking into a file replaces what was registered for the part it names. *)
Theorem c118_overwritten_refuted : forall D (disk : list string -> string -> found (D := D)) f p ds mine n,
  disk [] f = Readable ds (Some p) -> f <> p ->
  snd (get_datum disk p n (after disk [RegisterSource p mine])) = dget String.eqb n mine /\
  snd (get_datum disk p n (after disk [RegisterSource p mine; ListDatums f])) = dget String.eqb n ds.
Proof.
  intros D disk f p ds mine n F N.
  assert (E : String.eqb p f = false) by (apply String.eqb_neq; congruence). assert (E' : String.eqb f p = false) by (apply String.eqb_neq; congruence).
  unfold after, run. cbn [fold_left step list_datums fst]. unfold register_source, put, add_loaded, empty. cbn [objects sources loaded search_paths app length dset mem existsb].
  split.
  - unfold get_datum, ensure. cbn [loaded mem existsb]. rewrite String.eqb_refl. cbn [orb snd sources dget]. rewrite String.eqb_refl. reflexivity.
  - unfold ensure. cbn [loaded mem existsb]. rewrite E'. cbn [orb]. unfold load_source. cbn [search_paths]. rewrite F. unfold load_readable. rewrite E.
    unfold put, alias, add_loaded. cbn [objects sources loaded search_paths app length dset]. rewrite E'. cbn [dset]. rewrite String.eqb_refl.
    cbn [mem existsb]. rewrite E'. cbn [orb app]. unfold get_datum, ensure. cbn [loaded mem existsb]. rewrite String.eqb_refl. cbn [orb snd sources dget]. rewrite String.eqb_refl.
    reflexivity.
Qed.
Print Assumptions c118_overwritten_refuted.
Example c118_nonvacuous : disk0 ["/cots"] "servo.json" = Readable [("face", 1); ("axis", 2)] (Some "XH430").
Proof. reflexivity. Qed.

(** C119.  A datum registered before the first lookup hides the source's file. *)
Theorem c119_file_hidden_refuted : forall D (disk : list string -> string -> found (D := D)) f n d m,
  n <> m -> snd (get_datum disk f m (after disk [RegisterDatum f n d])) = None.
Proof.
  intros D disk f n d m N. unfold after, run. cbn [fold_left step]. unfold register_datum. cbn [sources empty dget].
  unfold put, add_loaded, empty. cbn [objects sources loaded search_paths app length dset mem existsb]. unfold get_datum, ensure, add_datum. cbn [loaded mem existsb]. rewrite String.eqb_refl.
  cbn [orb snd sources dget]. rewrite String.eqb_refl. unfold object. cbn [objects update nth datums dset dget].
  destruct (String.eqb_spec m n); congruence.
Qed.
Print Assumptions c119_file_hidden_refuted.
Example c119_nonvacuous : snd (get_datum disk0 "servo.json" "face" (after disk0 [AddPath "/cots"])) = Some 1 /\
  snd (get_datum disk0 "servo.json" "face" (after disk0 [AddPath "/cots"; RegisterDatum "servo.json" "tip" 7])) = None.
Proof. split; reflexivity. Qed.

(** C120.  A source that was once looked for in vain is not found in paths added later; and it is listed. *)
Theorem c120_search_again_refuted :
  snd (get_datum disk0 "servo.json" "face" (after disk0 [AddPath "/cots"])) = Some 1 /\
  snd (get_datum disk0 "servo.json" "face" (after disk0 [Get "servo.json" "face"; AddPath "/cots"])) = None.
Proof. split; reflexivity. Qed.
Print Assumptions c120_search_again_refuted.
Theorem c120_ghost_sources_refuted : forall D (disk : list string -> string -> found (D := D)) s n, disk [] s = NoFile ->
  snd (get_datum disk s n empty) = None /\ list_sources empty (D := D) = [] /\ list_sources (after disk [Get s n]) = [s].
Proof.
  intros D disk s n F. unfold after, run. cbn [fold_left step]. unfold get_datum, ensure. cbn [loaded empty mem existsb fst snd]. unfold load_source. cbn [search_paths empty]. rewrite F.
  unfold part_name_lookup. cbn [sources empty find]. unfold put, add_loaded, empty. cbn [objects sources loaded search_paths app length dset dget]. rewrite String.eqb_refl. auto.
Qed.
Print Assumptions c120_ghost_sources_refuted.

(** C121.  Registering a part that has datums always raises. *)
Theorem c121_register_part_refuted : forall D name (ds : table (D := D)) x, ds <> [] -> register_part name ds x = None.
Proof. intros D name [|e ds] x N; [contradiction|reflexivity]. Qed.
Print Assumptions c121_register_part_refuted.
Example c121_nonvacuous : [("face", 1)] <> [] /\ exists x : state (D := nat), register_part "bracket" [] empty = Some x.
Proof. split; [discriminate|]. eexists. reflexivity. Qed.
