(** C22, C23, C24 and refuted variants: packages and their validation. *)
From Coq Require Import ZArith String List Bool Lia.
From Verif Require Import Dict Json_Model Pkg_Model Pkg_Spec Pkg_Proofs Pkg_Proofs2 Pkg_Proofs3 Pkg_Host.
Import ListNotations.
Open Scope Z_scope.
Open Scope list_scope.

(** validate_package answers True exactly if the manifest can be loaded and what it promises
    holds: schema, primary geometry present and readable, every listed file present with the
    recorded SHA-256 digest, materials well-formed. *)
Theorem c22_valid_iff : forall (H : host) strict fs d, load H fs = Ok (JObj d) ->
  ((exists ms, validate_package H strict fs = Ok (true, ms)) <-> package_ok H fs d).
Proof. intros H strict fs d E. unfold validate_package. rewrite E. apply validate_true. Qed.
Print Assumptions c22_valid_iff.
Theorem c22_not_a_manifest : forall (H : host) strict fs ms, (forall d, load H fs <> Ok (JObj d)) ->
  validate_package H strict fs <> Ok (true, ms).
Proof.
  intros H strict fs ms N. unfold validate_package. destruct (load H fs) as [j|]; [|discriminate].
  destruct j; try discriminate. destruct (N d eq_refl).
Qed.
Print Assumptions c22_not_a_manifest.
(** A listed file that is missing, or whose digest is not the recorded one, is never accepted. *)
Theorem c22_altered_file_detected : forall (H : host) strict fs d e p ms,
  load H fs = Ok (JObj d) -> listed d e -> field e "path" = Some (JStr p) ->
  (contents H fs p = None \/
   exists b h, contents H fs p = Some b /\ field e "hash" = Some (JStr h) /\ h <> [] /\ lower h <> lower (sha256 H b)) ->
  validate_package H strict fs <> Ok (true, ms).
Proof.
  intros H strict fs d e p ms L Li Ep Bad V.
  assert (P : package_ok H fs d) by (apply (proj1 (c22_valid_iff H strict fs d L)); eauto).
  assert (F : file_ok H fs p (field e "hash")).
  { destruct P as (_ & (g & pr & q & b & Eg & Epr & Eq & Fo & _ & _ & (l2 & S2 & F2)) & (l3 & S3 & F3) & (l4 & S4 & F4) & _).
    assert (En : forall l, Forall (entry_ok H fs) l -> In (JObj e) l -> file_ok H fs p (field e "hash")).
    { intros l Fl Hin. rewrite Forall_forall in Fl. destruct (Fl _ Hin) as (d' & p' & X & Ep' & Fo'). injection X as <-. congruence. }
    assert (Se : forall dd k l l', section_of H dd k l -> field dd k = Some (JList l') -> In (JObj e) l' -> l = l').
    { intros dd k l l' [S|[-> S]] E Hin; [congruence|]. specialize (S _ E). destruct l'; [destruct Hin|discriminate]. }
    destruct Li as [(g' & Eg' & [Pr|(l & El & Hin)])|[(l & El & Hin)|(l & El & Hin)]].
    - assert (X : JObj g = JObj g') by congruence. injection X as <-. assert (X : JObj pr = JObj e) by congruence. injection X as ->. assert (X : JStr q = JStr p) by congruence. injection X as ->. exact Fo.
    - assert (X : JObj g = JObj g') by congruence. injection X as <-. rewrite (Se _ _ _ _ S2 El Hin) in *. eauto.
    - rewrite (Se _ _ _ _ S3 El Hin) in *. eauto.
    - rewrite (Se _ _ _ _ S4 El Hin) in *. eauto. }
  destruct F as (b & C & G). destruct Bad as [N|(b' & h & C' & Eh & Nh & Ne)]; [congruence|].
  rewrite C in C'. injection C' as <-. destruct (G _ Eh) as (s & X & Ls); [destruct h; [congruence|reflexivity]|]. injection X as <-. contradiction.
Qed.
Print Assumptions c22_altered_file_detected.
(** Whenever it answers, it answers False exactly if some message is an error. *)
Theorem c22_answer_matches_messages : forall (H : host) strict fs b ms, validate_package H strict fs = Ok (b, ms) ->
  (b = false <-> exists m, In (ERROR, m) ms).
Proof.
  intros H strict fs b ms E. assert (X : existsb is_error ms = negb b).
  { unfold validate_package in E. destruct (load H fs); [eapply validate_error; eauto|]. injection E as <- <-. reflexivity. }
  split.
  - intros ->. apply existsb_exists in X as ([s m] & Hin & Er). destruct s; try discriminate. eauto.
  - intros [m Hin]. destruct b; auto. assert (Y : existsb is_error ms = true) by (apply existsb_exists; eauto). rewrite X in Y. discriminate.
Qed.
Print Assumptions c22_answer_matches_messages.

(** A package created with the default algorithm validates, and keeps validating through any
    history of additions that overwrite nothing (and do not override path or hash through
    metadata), hash updates and saves, exceptions included, once the manifest is saved. *)
Theorem c23_created_package_stays_valid :
  forall (H : host) strict doc ids extra materials overwrite fs0 s ops s',
    yaml_faithful H -> loc H (t "geometry/primary.json") <> loc H (t "manifest.yaml") ->
    (forall b, doc = Some b -> geometry_ok H b = true) ->
    (forall k, In k ["schema"; "geometry"; "exports"; "attachments"; "materials"]%string -> field extra k = None) ->
    absent_or (fun m => truthy H m = true -> exists ms, m = JObj ms /\ Forall (fun kv => material_ok H (snd kv)) ms) materials ->
    create H doc ids extra materials overwrite (t "sha256") fs0 = (s, Ok tt) ->
    Forall (fun o => match o with
                     | Add _ _ _ _ _ overwrite metadata => overwrite = false /\ ~ In (t "path") (map fst metadata) /\ ~ In (t "hash") (map fst metadata)
                     | Recompute alg => alg = t "sha256"
                     | Save => True end) ops ->
    (exists ms, validate_package H strict (snd s) = Ok (true, ms)) /\
    (save H (run H ops s) = (s', Ok tt) -> exists ms, validate_package H strict (snd s') = Ok (true, ms)).
Proof.
  intros H strict doc ids extra materials ow fs0 s ops s' Y Nl Go Cl Mo E F.
  destruct (inv_create H doc ids extra materials ow fs0 s (Ok tt) Cl Go Mo Nl E) as [(e & X & _)|I]; [discriminate|].
  split.
  - unfold create in E. destruct (negb ow && _); [discriminate|]. destruct doc; [|discriminate]. destruct (known H (t "sha256")); [|discriminate].
    set (data := _ :: _) in E. set (fs1 := dset teq (loc H primary_path) b fs0) in E.
    destruct s as [d fs]. unfold validate_package.
    unfold save in E. cbn [fst snd] in E. assert (Es : dget teq (t "schema") data = Some (JStr (t "ycpkg-spec-v0.1"))) by reflexivity. rewrite Es in E.
    destruct (representable (JObj data)) eqn:R; [|discriminate]. assert (E1 : d = data) by congruence. assert (E2 : fs = dset teq (manifest_file H) (yaml_dump H (JObj data)) fs1) by congruence.
    subst d fs. cbn [snd]. unfold load. rewrite (dget_set_same _ teq_spec), (Y _ R). assert (T : truthy H (JObj data) = true) by reflexivity. rewrite T.
    apply validate_true, inv_ok, I.
  - intros Sv. apply (saved_valid H strict (run H ops s) s' Y); auto. apply inv_run; auto.
Qed.
Print Assumptions c23_created_package_stays_valid.

(** Each section names a path at most once, whatever is added, overwritten, updated or saved. *)
Theorem c24_paths_unique : forall (H : host) ops s,
  NoDup (derived_paths (fst s)) -> NoDup (section_paths (fst s) "attachments") ->
  NoDup (derived_paths (fst (run H ops s))) /\ NoDup (section_paths (fst (run H ops s)) "attachments").
Proof. intros H ops s U1 U2. apply unique_run. split; auto. Qed.
Print Assumptions c24_paths_unique.
(** After a successful addition the section holds an entry for the destination with the digest
    of the added file, until the same destination is added again to that section (or hashes
    are recomputed); by the theorem above it is the only entry for it. *)
Theorem c24_last_addition_recorded : forall (H : host) src dest stem purpose category overwrite metadata s s1 b ops,
  add_geometry_file H src dest stem purpose category overwrite metadata s = (s1, Ok tt) -> s_bytes src = Some b ->
  ~ In (t "path") (map fst metadata) -> ~ In (t "hash") (map fst metadata) ->
  Forall (unrelated category (destination src dest category)) ops ->
  (category = t "derived" /\ derived_records (fst (run H ops s1)) (destination src dest category) (sha256 H b)) \/
  (category = t "attachments" /\ records (fst (run H ops s1)) "attachments" (destination src dest category) (sha256 H b)).
Proof. intros. apply unrelated_run; auto. eapply add_records; eauto. Qed.
Print Assumptions c24_last_addition_recorded.

(** ** A concrete history. *)
Definition src (n : Z) (name : string) : source := Source (Some [n; n + 1]) (t name) (t "stl") (t "/in/" ++ t name).
Definition steel : json := JObj [(t "source", JObj [(t "type", JStr (t "standard")); (t "standard", JObj [(t "body", JStr (t "ASTM"))])])].
Definition s0 : state := fst (create H0 (Some [7; 7]) [] [(t "name", JStr (t "part"))] (Some (JObj [(t "steel", steel)])) false (t "sha256") []).
Definition history : list op :=
  [Add (src 1 "a.stl") None [] [] (t "derived") false []; Add (src 2 "a.stl") None (t "a") (t "drawing") (t "attachments") false [(t "tag", JInt 1)];
   Add (src 3 "a.stl") None [] [] (t "derived") false []; Recompute (t "sha256"); Save; Add (src 4 "b.stl") (Some (t "x/y.stl")) [] [] (t "pictures") false [];
   Add (src 5 "c.stl") (Some (t "x/z.stl")) (t "z") [] (t "attachments") false []].
Definition answer (r : res (bool * list message)) : option bool := match r with Ok (b, _) => Some b | Raise _ => None end.
Definition result (x : state * res unit) : option string := match snd x with Ok _ => None | Raise e => Some e end.
Example c23_nonvacuous :
  yaml_faithful H0 /\ snd (create H0 (Some [7; 7]) [] [(t "name", JStr (t "part"))] (Some (JObj [(t "steel", steel)])) false (t "sha256") []) = Ok tt /\
  material_ok H0 steel /\
  result (save H0 (run H0 history s0)) = None /\
  answer (validate_package H0 true (snd (fst (save H0 (run H0 history s0))))) = Some true /\
  section_paths (fst (run H0 history s0)) "attachments" = [t "attachments/a.stl"; t "x/z.stl"] /\
  derived_paths (fst (run H0 history s0)) = [t "geometry/derived/a.stl"] /\
  (* a file changed behind the package's back *)
  answer (validate_package H0 false (dset teq (t "x/z.stl") [0] (snd (fst (save H0 (run H0 history s0)))))) = Some false.
Proof.
  split; [exact H0_faithful|]. split; [vm_compute; reflexivity|]. split.
  - eexists _, _, "standard"%string. split; [reflexivity|]. split; [reflexivity|]. split; [reflexivity|]. split; [cbn; auto|]. split.
    + intros _ v E. vm_compute in E. injection E as <-. eexists. reflexivity.
    + intros v E. discriminate E.
  - repeat split; vm_compute; reflexivity.
Qed.
Example c24_nonvacuous :
  let o := add_geometry_file H0 (src 9 "d.stl") None [] [] (t "derived") true [] (run H0 history s0) in
  snd o = Ok tt /\ derived_records (fst (run H0 [Add (src 1 "e.stl") None [] [] (t "derived") true []; Save] (fst o))) (t "geometry/derived/d.stl") (sha256 H0 [9; 10]).
Proof.
  cbv zeta. split; [vm_compute; reflexivity|].
  destruct (c24_last_addition_recorded H0 (src 9 "d.stl") None [] [] (t "derived") true [] (run H0 history s0)
    (fst (add_geometry_file H0 (src 9 "d.stl") None [] [] (t "derived") true [] (run H0 history s0))) [9; 10]
    [Add (src 1 "e.stl") None [] [] (t "derived") true []; Save]) as [[_ R]|[X _]]; auto.
  - repeat constructor. + cbn. tauto. + intros _. vm_compute. discriminate.
  - vm_compute in X. discriminate.
Qed.

(** ** Refuted variants. *)
(** With another hash algorithm the intact package just created never validates. *)
Theorem c98_other_algorithm_refuted : forall (H : host) strict doc ids extra materials overwrite fs0 s ms,
  yaml_faithful H -> loc H (t "geometry/primary.json") <> loc H (t "manifest.yaml") -> field extra "geometry" = None ->
  create H doc ids extra materials overwrite (t "sha512") fs0 = (s, Ok tt) ->
  validate_package H strict (snd s) <> Ok (true, ms).
Proof.
  intros H strict doc ids extra materials ow fs0 s ms Y Nl Ng E V. unfold create in E.
  destruct (negb ow && _); [discriminate|]. destruct doc as [b|]; [|discriminate]. destruct (known H (t "sha512")); [|discriminate].
  set (info := [(t "path", JStr primary_path); _; _; _]) in E. set (data := _ :: _) in E. unfold save in E. cbn [fst snd] in E.
  assert (Es : dget teq (t "schema") data = Some (JStr (t "ycpkg-spec-v0.1"))) by reflexivity. rewrite Es in E.
  destruct (representable (JObj data)) eqn:R; [|discriminate].
  assert (Efs : snd s = dset teq (manifest_file H) (yaml_dump H (JObj data)) (dset teq (loc H primary_path) b fs0)) by (apply (f_equal (fun x => snd (fst x))) in E; symmetry; exact E).
  assert (L : load H (snd s) = Ok (JObj data)). { rewrite Efs. unfold load. rewrite (dget_set_same _ teq_spec), (Y _ R). reflexivity. }
  apply (c22_altered_file_detected H strict (snd s) data info primary_path ms L); auto.
  - left. exists [(t "primary", JObj info)]. split; [|left; reflexivity]. unfold field, data. cbn [dget]. change (teq (t "geometry") (t "schema")) with false. cbv iota.
    rewrite dget_app. unfold field in Ng. rewrite Ng. reflexivity.
  - right. exists b, (compute_hash H b (t "sha512")). repeat split.
    + unfold contents. rewrite Efs. rewrite (dget_set_other _ teq_spec) by auto. apply (dget_set_same _ teq_spec).
    + discriminate.
    + intros X. apply (f_equal (fun l => nth 3 l 0)) in X. discriminate X.
Qed.
Print Assumptions c98_other_algorithm_refuted.
Example c98_nonvacuous : snd (create H0 (Some [7; 7]) [] [] None false (t "sha512") []) = Ok tt. Proof. vm_compute. reflexivity. Qed.

(** Adding with overwrite=True makes another section's entry for that file stale; and metadata
    may put a wrong hash.  All calls succeed, validation then fails. *)
Theorem c99_overwriting_keeps_valid_refuted :
  let add1 := Add (src 1 "a.stl") (Some (t "a.stl")) [] [] (t "derived") false [] in
  let add2 := Add (src 5 "a.stl") (Some (t "a.stl")) (t "a") [] (t "attachments") true [] in
  let add3 := Add (src 5 "a.stl") None (t "a") [] (t "attachments") false [(t "hash", JStr (t "sha256:0"))] in
  result (save H0 (run H0 [add1; add2] s0)) = None /\
  answer (validate_package H0 false (snd (fst (save H0 (run H0 [add1] s0))))) = Some true /\
  answer (validate_package H0 false (snd (fst (save H0 (run H0 [add1; add2] s0))))) = Some false /\
  answer (validate_package H0 false (snd (fst (save H0 (run H0 [add3] s0))))) = Some false.
Proof. repeat split; vm_compute; reflexivity. Qed.
Print Assumptions c99_overwriting_keeps_valid_refuted.

(** A save() that fails on an object YAML cannot represent has already emptied the manifest. *)
Theorem c100_failed_save_refuted : forall (H : host) d fs n,
  let s' := fst (save H ((t "extra", JOpaque n) :: d, fs)) in
  snd (save H ((t "extra", JOpaque n) :: d, fs)) = Raise "RepresenterError" /\
  dget teq (loc H (t "manifest.yaml")) (snd s') = Some [].
Proof.
  intros H d fs n. unfold save. cbn [fst snd].
  assert (R : forall data, In (t "extra", JOpaque n) data -> representable (JObj data) = false).
  { intros data Hin. cbn. apply not_true_iff_false. intros F. rewrite forallb_forall in F. specialize (F _ Hin). discriminate. }
  set (data := match dget teq (t "schema") ((t "extra", JOpaque n) :: d) with Some _ => _ | None => _ end).
  rewrite (R data). 2:{ unfold data. destruct (dget teq (t "schema") _); cbn; left; reflexivity. }
  split; auto. cbn [fst snd]. unfold manifest_file. apply (dget_set_same _ teq_spec).
Qed.
Print Assumptions c100_failed_save_refuted.
(** add_geometry_file with an unsupported category raises, having replaced the file. *)
Theorem c101_failed_addition_refuted :
  let add1 := Add (src 1 "a.stl") (Some (t "a.stl")) [] [] (t "derived") false [] in
  let s1 := fst (save H0 (run H0 [add1] s0)) in
  let r := add_geometry_file H0 (src 5 "b.stl") (Some (t "a.stl")) [] [] (t "drawings") true [] s1 in
  result r = Some "ValueError"%string /\ contents H0 (snd s1) (t "a.stl") = Some [1; 2] /\ contents H0 (snd (fst r)) (t "a.stl") = Some [5; 6] /\
  answer (validate_package H0 false (snd s1)) = Some true /\ answer (validate_package H0 false (snd (fst r))) = Some false.
Proof. repeat split; vm_compute; reflexivity. Qed.
Print Assumptions c101_failed_addition_refuted.
