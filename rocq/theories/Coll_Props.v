(** Properties of the collision package. *)
From Coq Require Import Reals String List Bool Lia Lra.
From Verif Require Import Dict Coll_Model Coll_Spec Coll_Proofs Coll_Proofs2 Coll_Proofs3.
Import ListNotations.
Open Scope R_scope.
Open Scope list_scope.

(** An example: two gears of one size and a screw. *)
Definition H0 : heap := fun o =>
  match o with
  | 0%nat => gear "g1" "WHEEL" 1 20 20 10 (0, 0, 0)
  | 1%nat => gear "g2" "PINION" 1 20 20 10 (20, 0, 0)
  | _ => Iface "s" "WHEEL" (0, 0, 0) (0, 0, 1) (Thread 1 6 ISO_METRIC 10 false)
  end.
Definition history0 : list op := [Register 0%nat; Register 2%nat; Register 0%nat; RegisterMany [1; 2]%nat; Unregister "s"].
Lemma history0_pure : no_mutation history0.
Proof. intros o p Hin. cbn in Hin. repeat destruct Hin as [Hin|Hin]; try discriminate Hin; exact Hin. Qed.
Definition after (H : heap) (xs : list op) : registry := snd (run xs (H, empty)).
Lemma after_ok H xs : no_mutation xs -> ok H (after H xs) (registered H xs).
Proof. intros M. exact (proj2 (run_ok H xs empty [] M (ok_empty H))). Qed.

(** C35.  All lookups agree with what is registered. *)
Theorem c35_lookups_agree : forall H xs, no_mutation xs ->
  let r := after H xs in let l := registered H xs in
  all_interfaces r = l /\ NoDup (map (fun o => name (H o)) l) /\
  (forall n, get n r = find (fun o => String.eqb (name (H o)) n) l) /\
  (forall p, for_part p r = ROk (filter (fun o => String.eqb (part_name (H o)) p) l)) /\
  (forall ty, of_type ty r = ROk (filter (fun o => itype_beq (interface_type (H o)) ty) l)) /\
  (forall p, In p (all_parts r) <-> exists o, In o l /\ part_name (H o) = p) /\
  (forall p, has_interfaces p r = true <-> exists o, In o l /\ part_name (H o) = p).
Proof.
  intros H xs M r l. pose proof (after_ok H xs M) as O. fold r l in O. destruct (all_parts_ok H r l O) as [_ P].
  split; [apply all_ok with H, O|]. split; [apply O|]. split; [intros; apply get_ok, O|]. split; [intros; apply for_part_ok, O|].
  split; [intros; apply of_type_ok, O|]. split; intros p; destruct (P p); tauto.
Qed.
Print Assumptions c35_lookups_agree.
(** What register and unregister answer. *)
Theorem c35_answers : forall H xs, no_mutation xs ->
  let r := after H xs in let l := registered H xs in
  (forall o, In (name (H o)) (map (fun o => name (H o)) l) -> register H o r = (r, RValueError)) /\
  (forall o, ~ In (name (H o)) (map (fun o => name (H o)) l) -> snd (register H o r) = ROk tt) /\
  (forall n, snd (unregister H n r) = ROk (find (fun o => String.eqb (name (H o)) n) l)).
Proof.
  intros H xs M r l. pose proof (after_ok H xs M) as O. fold r l in O.
  assert (X : forall o, existsb (named H (name (H o))) l = true <-> In (name (H o)) (map (fun o => name (H o)) l)).
  { intros o. rewrite existsb_exists, in_map_iff. unfold named. split; intros (x & A & B); exists x; rewrite String.eqb_eq in *; auto. }
  split; [|split].
  - intros o Hin. apply X in Hin. destruct (register_ok H o r l O) as [E _]. rewrite Hin in E. exact E.
  - intros o Hin. destruct (register_ok H o r l O) as [E _]. destruct (existsb (named H (name (H o))) l) eqn:Q; [exfalso; apply Hin, X, Q|]. rewrite E. reflexivity.
  - intros n. destruct (unregister_ok H n r l O) as [E _]. rewrite E. reflexivity.
Qed.
Print Assumptions c35_answers.
(** An overlap of two parts is excused exactly if registered interfaces of the two meet and all that meet fit. *)
Theorem c35_verdict : forall user H xs pa pb, no_mutation xs ->
  exists v results, check_overlap user H pa pb (after H xs) = ROk (v, results) /\ (v = true <-> fits user H (registered H xs) pa pb).
Proof. intros. apply check_overlap_ok, after_ok. assumption. Qed.
Print Assumptions c35_verdict.
Theorem c35_names : forall user H xs pa pb, no_mutation xs ->
  exists ns, compatible_names user H pa pb (after H xs) = ROk ns /\
    forall n, In n ns <-> fits user H (registered H xs) pa pb /\
      exists a b, meet H (registered H xs) pa pb a b /\ compatible user (H a) (H b) = true /\ (n = name (H a) \/ n = name (H b)).
Proof. intros. apply compatible_names_ok, after_ok. assumption. Qed.
Print Assumptions c35_names.
Example c35_nonvacuous : no_mutation history0 /\ registered H0 history0 = [0; 1]%nat /\
  for_part "PINION" (after H0 history0) = ROk [1%nat] /\ get "s" (after H0 history0) = None /\
  of_type GEAR_MESH (after H0 history0) = ROk [0; 1]%nat.
Proof. split; [exact history0_pure|]. repeat split; vm_compute; reflexivity. Qed.
Example c35_fits : fits (fun _ _ => false) H0 (registered H0 history0) "WHEEL" "PINION".
Proof.
  change (registered H0 history0) with [0; 1]%nat.
  assert (C : compatible (fun _ _ => false) (H0 0%nat) (H0 1%nat) = true).
  { cbn. unfold lt. destruct (Rlt_dec _ _) as [X|X]; [replace (1 - 1) with 0 in X by ring; rewrite Rabs_R0 in X; lra|].
    destruct (Rlt_dec _ _) as [Y|Y]; [replace (20 - 20) with 0 in Y by ring; rewrite Rabs_R0 in Y; lra|reflexivity]. }
  split.
  - exists 0%nat, 1%nat. split; auto. unfold meet. repeat split; auto; [left; reflexivity|right; left; reflexivity|].
    apply (overlaps_never_misses (1 / 10) (H0 0%nat) (H0 1%nat) (0, 0, 1) 1 1 (10, 0, 0)); try lra; try (cbn; ring); try (rewrite Rabs_R1; lra); try (cbn; apply v3; ring).
    + split.
      * cbn. replace ((10 - 0) * 0 + (0 - 0) * 0 + (0 - 0) * 1) with 0 by ring. rewrite Rabs_R0. lra.
      * cbn. unfold norm, outside_diameter, pitch_diameter; cbn. match goal with |- sqrt ?x <= _ => replace x with (Rsqr 10) by (unfold Rsqr; ring) end. rewrite sqrt_Rsqr; lra.
    + split.
      * cbn. replace ((10 - 20) * 0 + (0 - 0) * 0 + (0 - 0) * 1) with 0 by ring. rewrite Rabs_R0. lra.
      * cbn. unfold norm, outside_diameter, pitch_diameter; cbn. match goal with |- sqrt ?x <= _ => replace x with (Rsqr 10) by (unfold Rsqr; ring) end. rewrite sqrt_Rsqr; lra.
  - intros a b (Ha & Hb & Pa & Pb & _). cbn in Ha, Hb. destruct Ha as [<-|[<-|[]]], Hb as [<-|[<-|[]]]; try discriminate Pa; try discriminate Pb. exact C.
Qed.

(** C108.  Lookups do not follow an interface whose part is renamed: the interface is found under
    the old part only, and after unregistering it the old part cannot be looked up at all. *)
Definition renamed (H : heap) (o : nat) (p : string) : heap * registry := run [Register o; SetPart o p] (H, empty).
Theorem c108_renamed_refuted : forall H o p, part_name (H o) <> p ->
  let (H', r) := renamed H o p in
  part_name (H' o) = p /\ all_interfaces r = [o] /\
  for_part p r = ROk [] /\ for_part (part_name (H o)) r = ROk [o] /\
  (let r' := fst (unregister H' (name (H o)) r) in
   snd (unregister H' (name (H o)) r) = ROk (Some o) /\ all_interfaces r' = [] /\
   for_part (part_name (H o)) r' = RKeyError /\ has_interfaces (part_name (H o)) r' = true).
Proof.
  intros H o p Np. unfold renamed, run. cbn [fold_left step register empty dmem dget interfaces by_part by_type fst snd].
  unfold register, dmem. cbn [dget empty interfaces by_part by_type at_key dset fst snd app].
  assert (Ne : String.eqb p (part_name (H o)) = false) by (apply String.eqb_neq; congruence).
  assert (S : forall n : string, dget String.eqb n [(n, o)] = Some o) by (intros n; cbn [dget]; rewrite String.eqb_refl; reflexivity).
  rewrite Nat.eqb_refl. cbn [part_name]. split; [reflexivity|]. split; [reflexivity|].
  unfold for_part, at_key. cbn [by_part dget interfaces]. rewrite Ne, String.eqb_refl. cbn [lookup_all dget interfaces]. rewrite String.eqb_refl.
  split; [reflexivity|]. split; [reflexivity|].
  set (H' := fun o' : nat => if Nat.eqb o' o then _ else _). set (r := Registry _ _ _).
  assert (U : unregister H' (name (H o)) r = (Registry [] [(part_name (H o), [name (H o)])] [], ROk (Some o))).
  { unfold unregister, r. cbn [interfaces by_part by_type]. rewrite S. unfold H' at 1 2. rewrite Nat.eqb_refl. cbn [part_name].
    assert (T : interface_type (Iface (name (H o)) p (center (H o)) (axis (H o)) (kind_data (H o))) = interface_type (H o)) by reflexivity. rewrite T.
    assert (U1 : unindex String.eqb p (name (H o)) [(part_name (H o), [name (H o)])] = Some [(part_name (H o), [name (H o)])]) by (unfold unindex; cbn [dget]; rewrite Ne; reflexivity).
    assert (U2 : unindex itype_beq (interface_type (H o)) (name (H o)) [(interface_type (H o), [name (H o)])] = Some []).
    { assert (I : itype_beq (interface_type (H o)) (interface_type (H o)) = true) by (destruct (interface_type (H o)); reflexivity).
      unfold unindex. cbn [dget]. rewrite I. cbn [lremove]. rewrite String.eqb_refl. cbn [ddel]. rewrite I. reflexivity. }
    rewrite U1, U2. cbn [ddel]. rewrite String.eqb_refl. reflexivity. }
  rewrite U. cbn [fst snd]. split; [reflexivity|]. split; [reflexivity|].
  unfold has_interfaces. cbn [by_part dget]. rewrite String.eqb_refl. cbn [lookup_all dget interfaces]. split; reflexivity.
Qed.
Print Assumptions c108_renamed_refuted.
Example c108_nonvacuous : part_name (H0 0%nat) <> "PINION"%string.
Proof. discriminate. Qed.

(** C109.  An assembly check answers, about every pair of parts that is not skipped, once. *)
Theorem c109_every_pair_once : forall G T user (geometry : string -> option G) (usable : T -> bool) detect H xs transforms skip,
  no_mutation xs -> NoDup (map fst transforms) ->
  exists rs, check_assembly user geometry usable detect H (after H xs) transforms skip = ROk rs /\
    let pair_of := fun x => (part_a x, part_b x) in
    NoDup (map pair_of rs) /\
    (forall a b, In (a, b) (map pair_of rs) -> a <> b /\ ~ In (b, a) (map pair_of rs) /\ In a (map fst transforms) /\ In b (map fst transforms) /\ skipped skip a b = false) /\
    (forall a b, In a (map fst transforms) -> In b (map fst transforms) -> a <> b -> skipped skip a b = false -> In (a, b) (map pair_of rs) \/ In (b, a) (map pair_of rs)) /\
    (forall x, In x rs -> exists ta tb, In (part_a x, ta) transforms /\ In (part_b x, tb) transforms /\
      check_collision user geometry usable detect H (after H xs) (part_a x) ta (part_b x) tb = ROk x).
Proof. intros G T user geometry usable detect H xs transforms skip M N. exact (assembly_pairs user geometry usable detect H _ _ transforms skip (after_ok H xs M) N). Qed.
Print Assumptions c109_every_pair_once.
(** One check: parts collide if the geometric test says so; the collision is excused if their interfaces fit. *)
Theorem c109_one_check : forall G T user (geometry : string -> option G) (usable : T -> bool) detect H xs a ta b tb, no_mutation xs ->
  exists x, check_collision user geometry usable detect H (after H xs) a ta b tb = ROk x /\ part_a x = a /\ part_b x = b /\
    (collides x = true <-> exists ga gb, geometry a = Some ga /\ geometry b = Some gb /\ usable ta = true /\ usable tb = true /\ fst (detect a ga ta b gb tb) = true) /\
    (compatible_interface x = true <-> collides x = true /\ fits user H (registered H xs) a b).
Proof. intros G T user geometry usable detect H xs a ta b tb M. exact (check_answers user geometry usable detect H _ _ a ta b tb (after_ok H xs M)). Qed.
Print Assumptions c109_one_check.
Theorem c109_summary : forall rs, let s := collision_summary rs in
  total_pairs s = length rs /\ (collisions_detected s + length (filter (fun x => negb (collides x)) rs) = total_pairs s)%nat /\
  (actual_errors s + expected_interfaces s = collisions_detected s)%nat /\
  actual_errors s = length (error_pairs s) /\ expected_interfaces s = length (interface_pairs s) /\
  (forall a b, In (a, b) (error_pairs s) <-> exists x, In x rs /\ (part_a x, part_b x) = (a, b) /\ collides x = true /\ compatible_interface x = false).
Proof. exact summary_adds_up. Qed.
Print Assumptions c109_summary.
(** The cache of geometries is invisible while the provider gives the same answers. *)
Fixpoint ask {G} (provider : string -> option G) (ps : list string) (cache : list (string * G)) : list (string * G) :=
  match ps with [] => cache | p :: ps => ask provider ps (snd (get_geometry provider p cache)) end.
Theorem c109_cache_invisible : forall G (provider : string -> option G) ps p, fst (get_geometry provider p (ask provider ps [])) = provider p.
Proof.
  intros G provider ps p.
  assert (I : forall c, (forall q g, dget String.eqb q c = Some g -> provider q = Some g) ->
    fst (get_geometry provider p c) = provider p /\ forall q, (forall q' g, dget String.eqb q' (snd (get_geometry provider q c)) = Some g -> provider q' = Some g)).
  { intros c Hc. split.
    - unfold get_geometry. destruct (dget String.eqb p c) eqn:E; [symmetry; apply Hc, E|]. destruct (provider p); reflexivity.
    - intros q q' g. unfold get_geometry. destruct (dget String.eqb q c) eqn:E; [apply Hc|]. destruct (provider q) eqn:Q; [|apply Hc].
      cbn [snd]. rewrite (dget_set _ String.eqb_eq). destruct (String.eqb_spec q' q); [congruence|apply Hc]. }
  enough (X : forall c, (forall q g, dget String.eqb q c = Some g -> provider q = Some g) -> fst (get_geometry provider p (ask provider ps c)) = provider p) by (apply X; discriminate).
  induction ps as [|q ps IH]; intros c Hc; cbn [ask]; [apply I, Hc|]. apply IH. apply I, Hc.
Qed.
Print Assumptions c109_cache_invisible.
Definition everything : string -> option unit := fun _ => Some tt.
Definition always : string -> unit -> unit -> string -> unit -> unit -> bool * bool := fun _ _ _ _ _ _ => (true, false).
Example c109_nonvacuous : NoDup (map fst [("WHEEL", tt); ("PINION", tt); ("BOX", tt)]%string) /\
  skipped [("BOX", "WHEEL")]%string "WHEEL" "BOX" = true /\ skipped [("BOX", "WHEEL")]%string "WHEEL" "PINION" = false.
Proof. split; [|split; reflexivity]. repeat constructor; cbn; intuition discriminate. Qed.

(** C110.  Bounding cylinders with parallel axes that have a common point are reported. *)
Theorem c110_parallel_never_missed : forall tol i j u k k' q, 0 < tol -> dot u u = 1 -> 1 / 10000000000 < Rabs k -> 1 / 10000000000 < Rabs k' ->
  axis i = scale k u -> axis j = scale k' u ->
  in_cylinder (center i) u (fst (bounding_cylinder i)) (snd (bounding_cylinder i)) q ->
  in_cylinder (center j) u (fst (bounding_cylinder j)) (snd (bounding_cylinder j)) q ->
  overlaps tol i j = true.
Proof. exact overlaps_never_misses. Qed.
Print Assumptions c110_parallel_never_missed.
Example c110_nonvacuous : axis (H0 0%nat) = scale 1 (0, 0, 1) /\ dot (0, 0, 1) (0, 0, 1) = 1 /\
  in_cylinder (center (H0 1%nat)) (0, 0, 1) (fst (bounding_cylinder (H0 1%nat))) (snd (bounding_cylinder (H0 1%nat))) (10, 0, 0).
Proof.
  split; [cbn; apply v3; ring|]. split; [cbn; ring|]. split.
  - cbn. replace ((10 - 20) * 0 + (0 - 0) * 0 + (0 - 0) * 1) with 0 by ring. rewrite Rabs_R0. lra.
  - cbn. unfold norm, outside_diameter, pitch_diameter; cbn. match goal with |- sqrt ?x <= _ => replace x with (Rsqr 10) by (unfold Rsqr; ring) end. rewrite sqrt_Rsqr; lra.
Qed.

(** C111.  Two long cylinders at right angles that cross away from their centers are missed. *)
Definition post : iface := Iface "post" "A" (0, 0, 0) (0, 0, 1) (User PRESS_FIT 1 100).
Definition beam : iface := Iface "beam" "B" (40, 0, 30) (1, 0, 0) (User PRESS_FIT 1 100).
Theorem c111_crossing_refuted :
  in_cylinder (center post) (axis post) (fst (bounding_cylinder post)) (snd (bounding_cylinder post)) (0, 0, 30) /\
  in_cylinder (center beam) (axis beam) (fst (bounding_cylinder beam)) (snd (bounding_cylinder beam)) (0, 0, 30) /\
  overlaps (1 / 10) post beam = false.
Proof.
  assert (N1 : norm (0, 0, 1) = 1) by (unfold norm; cbn; replace (0 * 0 + 0 * 0 + 1 * 1) with 1 by ring; apply sqrt_1).
  assert (N2 : norm (1, 0, 0) = 1) by (unfold norm; cbn; replace (1 * 1 + 0 * 0 + 0 * 0) with 1 by ring; apply sqrt_1).
  split; [|split].
  - split; cbn.
    + replace ((0 - 0) * 0 + (0 - 0) * 0 + (30 - 0) * 1) with 30 by ring. rewrite Rabs_right; lra.
    + unfold norm; cbn. match goal with |- sqrt ?x <= _ => replace x with 0 by ring end. rewrite sqrt_0. lra.
  - split; cbn.
    + replace ((0 - 40) * 1 + (0 - 0) * 0 + (30 - 30) * 0) with (-40) by ring. rewrite Rabs_left; lra.
    + unfold norm; cbn. match goal with |- sqrt ?x <= _ => replace x with 0 by ring end. rewrite sqrt_0. lra.
  - unfold overlaps. cbn [bounding_cylinder post beam kind_data axis center].
    assert (U1 : unit_axis (0, 0, 1) = (0, 0, 1)) by (unfold unit_axis; rewrite N1; destruct (lt _ _); auto; cbn; apply v3; field).
    assert (U2 : unit_axis (1, 0, 0) = (1, 0, 0)) by (unfold unit_axis; rewrite N2; destruct (lt _ _); auto; cbn; apply v3; field).
    rewrite U1, U2. cbn [dot]. replace (0 * 1 + 0 * 0 + 1 * 0) with 0 by ring. rewrite Rabs_R0, (proj2 (lt_true _ _)) by lra.
    apply lt_false. cbn [sub]. unfold norm. cbn [dot].
    apply Rle_trans with (sqrt (Rsqr 50)); [rewrite sqrt_Rsqr by lra; lra|]. apply sqrt_le_1_alt. unfold Rsqr. lra.
Qed.
Print Assumptions c111_crossing_refuted.

(** C112.  Whether two gears fit depends on which one is asked. *)
Definition coarse : iface := gear "a" "A" (10010005 / 10000000) 20 20 10 (0, 0, 0).
Definition fine : iface := gear "b" "B" 1 20 20 10 (20, 0, 0).
Theorem c112_fit_symmetric_refuted : forall user, compatible user coarse fine = true /\ compatible user fine coarse = false.
Proof.
  intros user. cbn [compatible coarse fine gear kind_data]. replace (20 - 20) with 0 by ring. rewrite Rabs_R0.
  rewrite (Rabs_right (10010005 / 10000000 - 1)) by lra. rewrite (Rabs_left (1 - 10010005 / 10000000)) by lra.
  rewrite (proj2 (lt_false (10010005 / 10000000 * (1 / 1000)) _)) by lra. rewrite (proj2 (lt_false (1 / 2) 0)) by lra.
  rewrite (proj2 (lt_true (1 * (1 / 1000)) _)) by lra. split; reflexivity.
Qed.
Print Assumptions c112_fit_symmetric_refuted.

(** C113.  A detector created with an empty registry does not use it. *)
Theorem c113_empty_registry_refuted : forall rs given, rempty (nth given rs empty) = true -> (given < length rs)%nat ->
  let (used, rs') := new_detector given rs in
  used <> given /\
  forall r', nth used (firstn given rs' ++ r' :: skipn (S given) rs') empty = empty.   (* whatever is registered in the given one later *)
Proof.
  intros rs given E L. unfold new_detector. rewrite E. split; [lia|]. intros r'.
  rewrite app_nth2; rewrite firstn_length, app_length; cbn [length]; [|lia].
  replace (length rs - Nat.min given (length rs + 1))%nat with (S (length rs - S given)) by lia. cbn [nth].
  rewrite skipn_app, app_nth2; rewrite skipn_length; [|lia].
  replace (length rs - S given - (length rs - S given))%nat with 0%nat by lia.
  replace (S given - length rs)%nat with 0%nat by lia. reflexivity.
Qed.
Print Assumptions c113_empty_registry_refuted.
Example c113_nonvacuous : rempty (nth 0%nat [empty] empty) = true /\ (0 < length [empty])%nat.
Proof. cbn. auto. Qed.

(** C114.  Whether a collision is excused does not depend on where the parts are. *)
Theorem c114_placement_ignored_refuted : forall G T user (geometry : string -> option G) (usable : T -> bool) detect H r a ta b tb ta' tb' x x',
  check_collision user geometry usable detect H r a ta b tb = ROk x ->
  check_collision user geometry usable detect H r a ta' b tb' = ROk x' ->
  collides x = true -> collides x' = true -> compatible_interface x = compatible_interface x' /\ interface_names x = interface_names x'.
Proof.
  intros G T user geometry usable detect H r a ta b tb ta' tb' x x'. unfold check_collision.
  destruct (geometry a) as [ga|], (geometry b) as [gb|]; try (intros [= <-] [= <-]; discriminate).
  destruct (usable ta && usable tb); [|intros [= <-]; discriminate]. destruct (usable ta' && usable tb'); [|intros _ [= <-]; discriminate].
  destruct (detect a ga ta b gb tb) as [c f], (detect a ga ta' b gb tb') as [c' f'].
  destruct c; [|intros [= <-]; discriminate]. destruct c'; [|intros _ [= <-]; discriminate].
  destruct (check_overlap user H a b r) as [[[|] ?]| |]; try discriminate.
  - destruct (compatible_names user H a b r); try discriminate. intros [= <-] [= <-] _ _. auto.
  - intros [= <-] [= <-] _ _. auto.
Qed.
Print Assumptions c114_placement_ignored_refuted.
(** Two gears that mesh in their own coordinates are excused wherever the parts are put (here: at heights [ta], [tb]). *)
Example c114_nonvacuous : forall ta tb : R, exists x,
  check_collision (fun _ _ => false) everything (fun _ : R => true) (fun _ _ _ _ _ _ => (true, false)) H0 (after H0 history0) "WHEEL" ta "PINION" tb = ROk x /\
  collides x = true /\ compatible_interface x = true.
Proof.
  intros ta tb. destruct (c109_one_check unit R (fun _ _ => false) everything (fun _ => true) (fun _ _ _ _ _ _ => (true, false)) H0 history0 "WHEEL" ta "PINION" tb history0_pure) as (x & E & _ & _ & C & I).
  exists x. split; [exact E|]. assert (C' : collides x = true) by (apply C; exists tt, tt; auto). split; auto. apply I. split; auto. exact c35_fits.
Qed.

(** C115.  The interfaces of a planetary gearbox can be registered, and excuse the sun meeting each planet. *)
Definition gearbox (g : string) (m sun pl ring w : R) (num : nat) (pa z : R) : heap * registry :=
  let H := box g m sun pl ring w pa z num in (H, fst (register_many H (seq 0%nat (2 + num)%nat) empty)).
Theorem c115_gearbox : forall user g m sun pl ring w num pa z, 0 < m -> 0 <= sun -> 0 <= pl -> 0 <= w ->
  let H := box g m sun pl ring w pa z num in
  let answer := register_many H (seq 0%nat (2 + num)%nat) empty in
  snd answer = ROk tt /\ all_interfaces (fst answer) = seq 0%nat (2 + num)%nat /\
  (forall i, (i < num)%nat -> exists results,
     check_overlap user H (g ++ "_SUN_GEAR") (g ++ "_PLANET_GEAR_" ++ decimal (S i)) (fst answer) = ROk (true, results)) /\
  (forall i, (i < num)%nat -> center_distance m sun m pl = Some (norm (sub (center (H (2 + i)%nat)) (center (H 0%nat))))).
Proof.
  intros user g m sun pl ring w num pa z M S P W H answer. destruct (box_ok g m sun pl ring w pa z num) as [E O]. fold H answer in E, O.
  assert (Pn : forall i, (i < num)%nat -> H (2 + i)%nat = planet g m sun pl w pa z num i) by (intros; apply box_planet; auto).
  split; [exact E|]. split; [exact (all_ok _ _ _ O)|]. split.
  - intros i L. destruct (check_overlap_ok H user (fst answer) _ (g ++ "_SUN_GEAR") (g ++ "_PLANET_GEAR_" ++ decimal (Datatypes.S i)) O) as (v & results & -> & V).
    exists results. do 2 f_equal. apply V. split.
    + exists 0%nat, (2 + i)%nat. split; [|apply box_compatible; lra || lia]. unfold meet. rewrite !in_seq, Pn by exact L. repeat split; try lia; try reflexivity.
      rewrite <- Pn by exact L. apply sun_planet_overlap; auto.
    + intros a b (Ha & Hb & _). apply in_seq in Ha, Hb. apply box_compatible; lra || lia.
  - intros i L. rewrite Pn by exact L. change (center (H 0%nat)) with (0, 0, z). rewrite orbit_norm by lia. unfold center_distance.
    replace (m - m) with 0 by ring. rewrite Rabs_R0, (proj2 (lt_false _ _)) by lra. unfold pitch_diameter. f_equal.
    rewrite Rabs_right; [lra|]. apply Rle_ge. assert (0 <= (sun + pl) * m) by (apply Rmult_le_pos; lra). lra.
Qed.
Print Assumptions c115_gearbox.
Example c115_nonvacuous : 0 < 1 /\ 0 <= 18 /\ 0 <= 12 /\ 0 <= 8 /\ map name (planetary "stage" 1 18 12 42 8 3%nat 20 0) =
  ["stage_sun_teeth"; "stage_ring_teeth"; "stage_planet_1_teeth"; "stage_planet_2_teeth"; "stage_planet_3_teeth"]%string.
Proof. repeat split; try lra; reflexivity. Qed.
(** C116.  Planets too large for the gearbox, which run into each other, are excused as meshing. *)
Definition crowded : heap := box "g" 1 18 36 90 8 20 0 6%nat.
Theorem c116_planets_interfere_refuted : forall user, exists results,
  check_overlap user crowded "g_PLANET_GEAR_1" "g_PLANET_GEAR_2" (fst (register_many crowded (seq 0%nat 8%nat) empty)) = ROk (true, results) /\
  norm (sub (center (crowded 3%nat)) (center (crowded 2%nat))) < pitch_diameter 1 36 /\      (* the pitch circles cross *)
  center_distance 1 36 1 36 = Some 36.
Proof.
  intros user. destruct (box_ok "g" 1 18 36 90 8 20 0 6%nat) as [_ O]. fold crowded in O. change (2 + 6)%nat with 8%nat in O.
  assert (A : 2 * PI * INR 1 / INR 6 = PI / 3) by (cbn; field). assert (Z : 2 * PI * INR 0 / INR 6 = 0) by (cbn; field).
  assert (C2 : center (crowded 2%nat) = (27, 0, 0)).
  { unfold crowded, box, planetary. cbn [nth map seq]. unfold planet. rewrite Z, cos_0, sin_0. cbn [gear center]. apply v3; field. }
  assert (C3 : center (crowded 3%nat) = (27 / 2, 27 * (sqrt 3 / 2), 0)).
  { unfold crowded, box, planetary. cbn [nth map seq]. unfold planet. rewrite A, cos_PI3, sin_PI3. cbn [gear center]. apply v3; field. }
  assert (D : norm (sub (center (crowded 3%nat)) (center (crowded 2%nat))) = 27).
  { rewrite C2, C3. unfold norm. cbn. pose proof (sqrt_sqrt 3 ltac:(lra)) as Q. match goal with |- sqrt ?x = _ => replace x with (Rsqr 27) end.
    - apply sqrt_Rsqr. lra.
    - unfold Rsqr. replace ((27 / 2 - 27) * (27 / 2 - 27) + (27 * (sqrt 3 / 2) - 0) * (27 * (sqrt 3 / 2) - 0) + (0 - 0) * (0 - 0)) with (729 / 4 + 729 / 4 * (sqrt 3 * sqrt 3)) by field. rewrite Q. field. }
  destruct (check_overlap_ok crowded user _ _ "g_PLANET_GEAR_1" "g_PLANET_GEAR_2" O) as (v & results & E & V). exists results. split; [|split].
  - rewrite E. do 2 f_equal. apply V. split.
    + exists 2%nat, 3%nat. split; [|apply box_compatible; lra || lia]. unfold meet. rewrite !in_seq. repeat split; try lia; try reflexivity.
      rewrite z_parallel by reflexivity. apply andb_true_iff. rewrite !lt_true.
      set (v23 := sub (center (crowded 3%nat)) (center (crowded 2%nat))) in *.
      assert (Dz : dot v23 (0, 0, 1) = 0) by (unfold v23; rewrite C2, C3; cbn; ring).
      assert (Q : sub v23 (scale (dot v23 (0, 0, 1)) (0, 0, 1)) = v23) by (rewrite Dz; destruct v23 as [[? ?] ?]; cbn; apply v3; ring). rewrite Q, Dz, D, Rabs_R0.
      split; [cbn; lra|]. cbn. unfold outside_diameter, pitch_diameter. lra.
    + intros a b (Ha & Hb & _). apply in_seq in Ha, Hb. apply box_compatible; lra || lia.
  - rewrite D. unfold pitch_diameter. lra.
  - unfold center_distance. replace (1 - 1) with 0 by ring. rewrite Rabs_R0, (proj2 (lt_false _ _)) by lra. unfold pitch_diameter. f_equal. lra.
Qed.
Print Assumptions c116_planets_interfere_refuted.
