(** Properties of package signing. *)
From Coq Require Import ZArith String List Bool Lia.
From Verif Require Import Dict Json_Model Json_Spec Json_Proofs Pkg_Model Pkg_Spec Pkg_Proofs Pkg_Proofs2 Pkg_Host Pkg_Props Sign_Model Sign_Spec Sign_Proofs Sign_Proofs2.
Import ListNotations.
Open Scope Z_scope.
Open Scope list_scope.

(** A toy tool, for examples: a signature names its maker and repeats the content; only those of
    "alice" are known.  The digest is the text itself. *)
Definition toy_sign (key content : text) : option (text * text * text) := Some (key ++ 0 :: content, key, key).
Definition C0 : crypto := Crypto (fun x => x) (fun f => 46 :: decimal f) toy_sign toy_sign
  (fun content sig => if teq sig (t "alice" ++ 0 :: content) then GGood else GNoKey)
  (fun content sig => if teq sig (t "alice@example.com/long" ++ 0 :: content) then AGood else ACouldNotVerify).
Lemma C0_repr : float_repr (frepr C0).
Proof.
  repeat split; cbn [frepr C0].
  - intros f g E. injection E as E. apply decimal_inj, E.
  - discriminate.
  - constructor; [cbn; lia|]. apply decimal_atom.
  - intros f z E. symmetry in E. apply decimal_first in E. lia.
  - discriminate.
  - discriminate.
  - discriminate.
Qed.
Lemma t_ordinary s : ordinary (t s).
Proof. induction s as [|c s IH]; cbn [t]; constructor; auto. left. pose proof (Ascii.nat_ascii_bounded c). lia. Qed.
Definition m0 : dict := [(t "schema", JStr (t "ycpkg-spec-v0.1")); (t "id", JObj [(t "name", JStr (t "bolt")); (t "rev", JInt 3)])].
Definition m0' : dict := [(t "id", JObj [(t "rev", JInt 3); (t "name", JStr (t "bolt"))]); (t "signatures", JNull); (t "schema", JStr (t "ycpkg-spec-v0.1"))].
Definition same_place (p : text) : text := p.
Definition gpg (who : string) (add : bool) : signing := Signing GPG (t who) [] (t "now") add.
Definition ssh (who : string) (add : bool) : signing := Signing SSH (t who) [] (t "now") add.
Definition verified (p : package) : option (list (json * status) * bool * status) :=
  match verify_package C0 same_place H0 true p with
  | Ok r => Some (map (fun i => (i_signer i, i_status i)) (signatures r), is_valid r, overall_status r)
  | Raise _ => None
  end.
Definition name (s : string) : json := JStr (t s).

(** C25.  Key order and signatures are irrelevant to the digest. *)
Theorem c25_order_and_signatures_irrelevant : forall C d1 d2, wf (JObj d1) -> wf (JObj d2) ->
  same_but_signatures d1 d2 -> manifest_hash C d1 = manifest_hash C d2.
Proof. exact hash_same. Qed.
Print Assumptions c25_order_and_signatures_irrelevant.
(** Everything else is covered: with the same digest, the manifests agree but for signatures, or
    a collision of SHA-256 has been found. *)
Theorem c25_digest_covers_the_rest : forall C d1 d2, float_repr (frepr C) -> wf (JObj d1) -> wf (JObj d2) ->
  manifest_hash C d1 = manifest_hash C d2 -> same_but_signatures d1 d2 \/ collision (hash C).
Proof. exact hash_determines. Qed.
Print Assumptions c25_digest_covers_the_rest.
(** No history of signing changes the digest, or any field but "signatures". *)
Theorem c25_signing_changes_signatures_only : forall C loc gs p,
  manifest_hash C (fst (sign_all C loc gs p)) = manifest_hash C (fst p) /\
  forall k, k <> t "signatures" -> dget teq k (fst (sign_all C loc gs p)) = dget teq k (fst p).
Proof.
  intros C loc gs p. split; [apply sign_all_hash|]. intros k N. revert p. unfold sign_all. induction gs as [|g gs IH]; intros p; cbn [fold_left]; auto.
  rewrite IH. destruct (sign C loc g p) as [p' r] eqn:E. apply sign_effect in E. destruct E; cbn [fst]; auto.
  apply (dget_set_other _ teq_spec). exact N.
Qed.
Print Assumptions c25_signing_changes_signatures_only.
Example c25_nonvacuous : wf (JObj m0) /\ wf (JObj m0') /\ same_but_signatures m0 m0' /\ float_repr (frepr C0) /\
  manifest_hash C0 m0 = manifest_hash C0 m0' /\ manifest_hash C0 m0 <> manifest_hash C0 [(t "schema", JStr (t "ycpkg-spec-v0.1"))].
Proof.
  assert (W : wf (JObj m0) /\ wf (JObj m0')).
  { assert (D : forall k k' : string, k <> k' -> t k <> t k') by (intros; apply t_neq; auto).
    unfold m0, m0'. split; apply wf_obj; cbn [map fst]; (split; [repeat (constructor; [cbn [In]; intros X; repeat destruct X as [X|X]; try (apply t_inj in X; discriminate X); destruct X|]); constructor|]);
      repeat (constructor; [split; cbn [fst snd]; [apply t_ordinary|try exact I; try apply t_ordinary]|]); try constructor;
      apply wf_obj; cbn [map fst]; (split; [repeat (constructor; [cbn [In]; intros X; repeat destruct X as [X|X]; try (apply t_inj in X; discriminate X); destruct X|]); constructor|]);
      repeat (constructor; [split; cbn [fst snd]; [apply t_ordinary|try exact I; try apply t_ordinary]|]); constructor. }
  destruct W as [W1 W2]. repeat split; try apply W1; try apply W2; try apply C0_repr; try (vm_compute; congruence).
  apply same_without; auto. apply (dumps_injective _ C0_repr); auto using without_wf.
Qed.
(** Without ordinary text the digest does not cover everything: a surrogate pair and the
    character it encodes have the same digest. *)
Theorem c102_digest_covers_surrogates_refuted : forall C k,
  let d1 := [(k, JStr [55357; 56832])] in let d2 := [(k, JStr [128512])] in
  ~ same_data (JObj d1) (JObj d2) /\ manifest_hash C d1 = manifest_hash C d2.
Proof.
  intros C k d1 d2. split.
  - intros S. pose proof (proj1 (same_obj d1 d2 ltac:(repeat constructor; intros []) ltac:(repeat constructor; intros [])) S k) as S'. clear S. rename S' into S. cbn [d1 d2 dget] in S. rewrite teq_refl in S. inversion S.
  - unfold manifest_hash, without_signatures, d1, d2. cbn [filter fst]. destruct (negb (teq k (t "signatures"))); [|reflexivity].
    cbn [representable forallb snd andb]. reflexivity.
Qed.
Print Assumptions c102_digest_covers_surrogates_refuted.

(** C26.  A signature reported VALID is in the manifest's list, its file exists, and the tool
    accepted that file as a signature over the manifest as it is now. *)
Theorem c26_valid_means_accepted : forall C loc H allowed d fs r i,
  verify_package C loc H allowed (d, fs) = Ok r -> In i (signatures r) -> i_status i = VALID ->
  exists h sig l o, manifest_hash C d = Ok h /\ dget teq (loc (i_file i)) fs = Some sig /\ accepted C (i_method i) (signable h) sig /\
    (i_method i = SSH -> allowed = true) /\
    field d "signatures" = Some (JList l) /\ In (JObj o) l /\
    (field o "signature_file" = Some (JStr (i_file i)) \/ field o "signature_file" = None /\ i_file i = []).
Proof.
  intros C loc H allowed d fs r i V Hin St. apply verify_in in V as (h & Eh & V). apply V in Hin as (l & e & El & Hin & E).
  apply entry_ok' in E as (o & -> & Em & Ep & _ & Es). rewrite St in Es. destruct (dget teq (loc (i_file i)) fs) as [sig|] eqn:Eg; [|discriminate].
  symmetry in Es. apply valid_accepted in Es as [A B].
  unfold sig_path in Ep. exists h, sig, l, o. repeat split; auto. unfold field. destruct (dget teq (t "signature_file") o) as [v|] eqn:Ef.
  - destruct v; try discriminate. apply Ok_inj in Ep as ->. left. reflexivity.
  - apply Ok_inj in Ep as <-. right. auto.
Qed.
Print Assumptions c26_valid_means_accepted.
(** A signature that the tool was asked about and rejected is reported INVALID, neither valid
    nor untrusted. *)
Theorem c26_rejected_is_invalid : forall C loc H allowed d fs r i h sig,
  verify_package C loc H allowed (d, fs) = Ok r -> In i (signatures r) -> manifest_hash C d = Ok h -> dget teq (loc (i_file i)) fs = Some sig ->
  (i_method i = GPG /\ gpg_check C (signable h) sig = GBad) \/ (i_method i = SSH /\ allowed = true /\ ssh_check C (signable h) sig = ACouldNotVerify) ->
  i_status i = INVALID.
Proof.
  intros C loc H allowed d fs r i h sig V Hin Eh Eg Rej. apply verify_in in V as (h' & Eh' & V). rewrite Eh in Eh'. injection Eh' as <-.
  apply V in Hin as (l & e & El & Hin & E). apply entry_ok' in E as (o & -> & Em & Ep & _ & Es). rewrite Eg in Es. rewrite Es.
  destruct Rej as [[M B]|(M & A & B)]; rewrite M; unfold verify_one; [rewrite B|rewrite A, B]; reflexivity.
Qed.
Print Assumptions c26_rejected_is_invalid.
(** If the tools accept only signatures over manifests that were signed, then a VALID signature
    means that the manifest is one of those, but for its signatures (or SHA-256 is broken). *)
Theorem c26_altered_manifest_detected : forall C loc H allowed (signed : dict -> Prop) d fs r i,
  float_repr (frepr C) -> wf (JObj d) -> (forall d, signed d -> wf (JObj d)) -> only_accepts C signed ->
  verify_package C loc H allowed (d, fs) = Ok r -> In i (signatures r) -> i_status i = VALID ->
  (exists d0, signed d0 /\ same_but_signatures d0 d) \/ collision (hash C).
Proof.
  intros C loc H allowed signed d fs r i FR W Ws O V Hin St. apply verify_in in V as (h & Eh & V). apply V in Hin as (l & e & El & Hin & E).
  apply entry_ok' in E as (o & -> & Em & Ep & _ & Es). rewrite St in Es. destruct (dget teq (loc (i_file i)) fs) as [sig|] eqn:Eg; [|discriminate].
  symmetry in Es. apply valid_accepted in Es as [A B]. destruct (O _ _ _ A) as (d0 & h0 & S0 & E0 & Ec).
  unfold signable in Ec. apply app_inv_head in Ec. injection Ec as Ec. apply app_inv_tail in Ec. subst h0.
  destruct (hash_determines C d0 d) as [X|X]; auto; [congruence|]. left. eauto.
Qed.
Print Assumptions c26_altered_manifest_detected.
(** A signature reports VALID after signing, and still after any number of further signatures
    written to other files. *)
Theorem c26_signature_stays_valid : forall C loc H allowed g p p1 h sig signer kid later r,
  sign C loc g p = (p1, Ok tt) -> manifest_hash C (fst p) = Ok h -> tool C g (signable h) = Some (sig, signer, kid) ->
  accepted C (g_method g) (signable h) sig -> (g_method g = SSH -> allowed = true) ->
  Forall (fun g' => g_add g' = true /\ forall sig' signer' kid', tool C g' (signable h) = Some (sig', signer', kid') ->
            loc (sig_file (g_method g') signer') <> loc (sig_file (g_method g) signer)) later ->
  verify_package C loc H allowed (sign_all C loc later p1) = Ok r ->
  In (Info (JStr (if teq (g_name g) [] then signer else g_name g)) (g_method g) (sig_file (g_method g) signer) VALID) (signatures r).
Proof. exact stays_valid. Qed.
Print Assumptions c26_signature_stays_valid.
(** After any signing history of an unsigned package verification answers, without errors, on
    every signature in the list. *)
Theorem c26_verification_answers : forall C loc H allowed gs p h,
  dget teq (t "signatures") (fst p) = None -> manifest_hash C (fst p) = Ok h ->
  exists r, verify_package C loc H allowed (sign_all C loc gs p) = Ok r /\ errors r = [] /\
    length (signatures r) = match dget teq (t "signatures") (fst (sign_all C loc gs p)) with Some (JList l) => length l | _ => 0%nat end.
Proof. exact tidy_answers. Qed.
Print Assumptions c26_verification_answers.
(** The answer as a whole. *)
Theorem c26_overall : forall r,
  (is_valid r = true <-> exists i, In i (signatures r) /\ i_status i = VALID) /\
  (overall_status r = VALID <-> errors r = [] /\ exists i, In i (signatures r) /\ i_status i = VALID).
Proof.
  intros r. assert (Q : forall s i, is_status s i = true <-> i_status i = s).
  { intros s i. unfold is_status. destruct s, (i_status i); split; intros X; try discriminate X; auto. }
  assert (P : is_valid r = true <-> exists i, In i (signatures r) /\ i_status i = VALID).
  { unfold is_valid. rewrite existsb_exists. split; intros (i & A & B); exists i; split; auto; apply Q; auto. }
  split; [exact P|]. rewrite <- P. unfold overall_status. destruct (errors r); [|split; [discriminate|intros [X _]; discriminate X]].
  assert (T : (trusted_signers r >? 0) = is_valid r).
  { clear P. unfold trusted_signers, is_valid. induction (signatures r) as [|i l IH]; auto. cbn [filter existsb].
    destruct (is_status VALID i); [reflexivity|exact IH]. }
  rewrite T. destruct (is_valid r); [tauto|]. destruct (untrusted_signers r >? 0); [|destruct (existsb _ _)]; (split; [discriminate|intros [_ X]; discriminate]).
Qed.
Print Assumptions c26_overall.
(** A VALID signature and a package that validates: every file listed in the manifest that was
    signed has the digest it had then. *)
Theorem c26_signed_manifest_pins_files : forall C H strict allowed (signed : dict -> Prop) d fs r i ms,
  float_repr (frepr C) -> load H fs = Ok (JObj d) -> wf (JObj d) -> (forall d, signed d -> wf (JObj d)) -> only_accepts C signed ->
  verify_package C (loc H) H allowed (d, fs) = Ok r -> In i (signatures r) -> i_status i = VALID ->
  validate_package H strict fs = Ok (true, ms) ->
  (exists d0, signed d0 /\ forall e p h, listed d0 e -> field e "path" = Some (JStr p) -> field e "hash" = Some (JStr h) -> h <> [] ->
     exists b, contents H fs p = Some b /\ lower (sha256 H b) = lower h) \/ collision (hash C).
Proof.
  intros C H strict allowed signed d fs r i ms FR Ld W Ws O V Hin St Va.
  destruct (c26_altered_manifest_detected C (loc H) H allowed signed d fs r i FR W Ws O V Hin St) as [(d0 & S0 & S)|X]; auto. left.
  exists d0. split; auto. intros e p h Li Ep Eh Nh. destruct (same_listed d0 d e (Ws _ S0) W S Li) as (e' & Li' & Se & We & We').
  apply wf_nodup in We, We'. pose proof (same_str _ _ _ _ We We' Se Ep) as Ep'. pose proof (same_str _ _ _ _ We We' Se Eh) as Eh'.
  destruct (contents H fs p) as [b|] eqn:Cp.
  - exists b. split; auto. destruct (list_eq_dec Z.eq_dec (lower (sha256 H b)) (lower h)) as [|N]; auto.
    exfalso. apply (c22_altered_file_detected H strict fs d e' p ms Ld Li' Ep'); auto. right. exists b, h. auto.
  - exfalso. apply (c22_altered_file_detected H strict fs d e' p ms Ld Li' Ep'); auto.
Qed.
Print Assumptions c26_signed_manifest_pins_files.
Example c26_nonvacuous :
  verified (sign_all C0 same_place [gpg "alice" false; ssh "alice@example.com/long" true; ssh "bob" true] (m0, [])) =
    Some ([(name "alice", VALID); (name "alice@example.com/long", VALID); (name "bob", INVALID)], true, VALID) /\
  verified (let (d, fs) := sign_all C0 same_place [gpg "alice" false] (m0, []) in (dset teq (t "schema") (JInt 1) d, fs)) =
    Some ([(name "alice", VALID_UNTRUSTED)], false, VALID_UNTRUSTED).
Proof. split; vm_compute; reflexivity. Qed.

(** Who signed.  The name in the report is the one written in the manifest next to the file,
    which is not signed: anyone can put another name there and the signature stays VALID. *)
Theorem c103_reported_signer_refuted : forall C loc H allowed d fs r who,
  verify_package C loc H allowed (d, fs) = Ok r -> errors r = [] ->
  let forge e := match e with JObj o => JObj (dset teq (t "signer") (JStr who) o) | _ => e end in
  let d' := match field d "signatures" with Some (JList l) => dset teq (t "signatures") (JList (map forge l)) d | _ => d end in
  exists r', verify_package C loc H allowed (d', fs) = Ok r' /\ errors r' = [] /\
    signatures r' = map (fun i => Info (JStr who) (i_method i) (i_file i) (i_status i)) (signatures r).
Proof.
  intros C loc H allowed d fs r who V Er forge d'. unfold verify_package in V. apply bind_ok in V as (h & Eh & V). unfold field in *.
  destruct (dget teq (t "signatures") d) as [v|] eqn:Ed; cbn [field] in *.
  2:{ cbn in V. apply Ok_inj in V as <-. unfold verify_package, d'. rewrite Eh. cbn [bind]. rewrite Ed. cbn. eauto. }
  destruct (truthy H v) eqn:Tv.
  2:{ apply Ok_inj in V as <-. destruct v as [| | | | |[|x l]| |]; try discriminate Tv; unfold verify_package, d', field; rewrite ?Ed, ?hash_set, ?Eh; cbn [bind];
        rewrite ?(dget_set_same _ teq_spec), ?Ed; cbn [map]; rewrite ?Tv; cbn [truthy]; try rewrite Tv; eauto. }
  destruct v as [| | | | |l| |]; try discriminate V. apply bind_ok in V as ([is es] & Ev & V). apply Ok_inj in V as <-. cbn [errors signatures] in *. subst es.
  unfold verify_package, d'. rewrite hash_set, Eh. cbn [bind]. rewrite (dget_set_same _ teq_spec).
  assert (Q : forall l is es, verify_entries C loc allowed (signable h) fs l = Ok (is, es) -> exists is' es',
    verify_entries C loc allowed (signable h) fs (map forge l) = Ok (is', es') /\ es' = es /\
    is' = map (fun i => Info (JStr who) (i_method i) (i_file i) (i_status i)) is).
  { clear. induction l as [|e l IH]; intros is es E; cbn [verify_entries map] in *.
    - apply Ok_inj in E. assert (is = [] /\ es = []) as [-> ->] by (split; congruence). exists [], []. auto.
    - apply bind_ok in E as (x & Ex & E). apply bind_ok in E as ([is1 es1] & E1 & E). apply Ok_inj in E.
      destruct (IH _ _ E1) as (is' & es' & -> & -> & ->).
      assert (F : verify_entry C loc allowed (signable h) fs (forge e) =
        Ok (match x with inl i => inl (Info (JStr who) (i_method i) (i_file i) (i_status i)) | inr m => inr m end)).
      { unfold verify_entry in *. destruct e as [| | | | | |o|]; try discriminate Ex. cbn [forge].
        unfold sig_method, sig_path, sig_signer in *. rewrite !(dget_set_other _ teq_spec) by (apply t_neq; discriminate). rewrite (dget_set_same _ teq_spec).
        destruct (match dget teq (t "method") o with Some (JStr s) => _ | Some _ => None | None => Some GPG end) as [m|]; [|apply Ok_inj in Ex as <-; reflexivity].
        apply bind_ok in Ex as (p & -> & Ex). cbn [bind]. destruct (dget teq (loc p) fs); apply Ok_inj in Ex as <-; reflexivity. }
      rewrite F. cbn [bind]. destruct x as [i|m]; do 2 eexists; (split; [reflexivity|]); split; cbn; try congruence.
      + assert (is = i :: is1) by congruence. subst. reflexivity. }
  destruct (Q _ _ _ Ev) as (is' & es' & E' & -> & ->). destruct l as [|e l]; [discriminate Tv|]. cbn [map truthy] in *. rewrite E'. cbn [bind]. eauto.
Qed.
Print Assumptions c103_reported_signer_refuted.
Example c103_witness : verified (let (d, fs) := sign_all C0 same_place [Signing GPG (t "alice") (t "the president") (t "now") false] (m0, []) in (d, fs)) =
  Some ([(name "the president", VALID)], true, VALID).
Proof. vm_compute. reflexivity. Qed.

(** A second signature can destroy an earlier one: all GPG signatures go to one file, and SSH
    signatures of signers with the same first 20 characters do too. *)
Theorem c104_second_signature_refuted :
  verified (sign_all C0 same_place [gpg "alice" false] (m0, [])) = Some ([(name "alice", VALID)], true, VALID) /\
  verified (sign_all C0 same_place [gpg "alice" false; gpg "bob" true] (m0, [])) =
    Some ([(name "alice", VALID_UNTRUSTED); (name "bob", VALID_UNTRUSTED)], false, VALID_UNTRUSTED) /\
  verified (sign_all C0 same_place [ssh "alice@example.com/long" false] (m0, [])) = Some ([(name "alice@example.com/long", VALID)], true, VALID) /\
  verified (sign_all C0 same_place [ssh "alice@example.com/long" false; ssh "alice@example.com/lonely" true] (m0, [])) =
    Some ([(name "alice@example.com/long", INVALID); (name "alice@example.com/lonely", INVALID)], false, INVALID).
Proof. repeat split; vm_compute; reflexivity. Qed.
Print Assumptions c104_second_signature_refuted.

(** Without an allowed-signers file any text counts as a valid SSH signature of an untrusted signer. *)
Theorem c105_untrusted_is_a_signature_refuted : forall C loc H d fs h who key time file junk,
  manifest_hash C d = Ok h -> dget teq (loc file) fs = Some junk ->
  exists r, verify_package C loc H false (dset teq (t "signatures") (JList [sig_entry who (t "ssh") key time file]) d, fs) = Ok r /\
    signatures r = [Info (JStr who) SSH file VALID_UNTRUSTED] /\ overall_status r = VALID_UNTRUSTED.
Proof.
  intros C loc H d fs h who key time file junk Eh Ef. unfold verify_package. rewrite hash_set, Eh. cbn [bind]. rewrite (dget_set_same _ teq_spec).
  cbn [truthy verify_entries]. pose proof (verify_stored C loc false (signable h) fs who SSH key time file) as E. rewrite Ef in E. cbv iota in E. rewrite E. cbn. eauto.
Qed.
Print Assumptions c105_untrusted_is_a_signature_refuted.

(** Verification looks at the manifest and the signature files only. *)
Theorem c106_altered_files_refuted : forall C loc H allowed d fs fs',
  (forall l e p, field d "signatures" = Some (JList l) -> In (JObj e) l -> sig_path e = Ok p -> dget teq (loc p) fs' = dget teq (loc p) fs) ->
  verify_package C loc H allowed (d, fs') = verify_package C loc H allowed (d, fs).
Proof.
  intros C loc H allowed d fs fs' S. unfold verify_package. destruct (manifest_hash C d) as [h|]; auto. cbn [bind]. unfold field in S.
  destruct (dget teq (t "signatures") d) as [v|]; auto. destruct (truthy H v); auto. destruct v as [| | | | |l| |]; auto.
  assert (Q : verify_entries C loc allowed (signable h) fs' l = verify_entries C loc allowed (signable h) fs l); [|rewrite Q; reflexivity].
  assert (S' : forall e p, In (JObj e) l -> sig_path e = Ok p -> dget teq (loc p) fs' = dget teq (loc p) fs) by (intros; eapply S; eauto). clear S.
  induction l as [|e l IH]; auto. cbn [verify_entries]. rewrite IH by (intros; apply (S' e0); auto; right; auto).
  assert (X : verify_entry C loc allowed (signable h) fs' e = verify_entry C loc allowed (signable h) fs e); [|rewrite X; reflexivity].
  unfold verify_entry. destruct e as [| | | | | |o|]; auto. destruct (sig_method o); auto. destruct (sig_path o) as [p|] eqn:Ep; auto. cbn [bind].
  rewrite (S' o p); auto. left. reflexivity.
Qed.
Print Assumptions c106_altered_files_refuted.
Example c106_witness :
  let p := sign_all C0 same_place [gpg "alice" false] (m0, [(t "geometry/primary.json", [1])]) in
  verified p = Some ([(name "alice", VALID)], true, VALID) /\
  verified (fst p, dset teq (t "geometry/primary.json") [2] (snd p)) = Some ([(name "alice", VALID)], true, VALID).
Proof. split; vm_compute; reflexivity. Qed.

(** is_valid and overall_status can disagree: one VALID signature and one of an unknown method. *)
Theorem c107_summaries_agree_refuted :
  let p := sign_all C0 same_place [gpg "alice" false] (m0, []) in
  let d := match field (fst p) "signatures" with Some (JList l) => dset teq (t "signatures") (JList (l ++ [JObj [(t "method", name "pgp")]])) (fst p) | _ => fst p end in
  verified (d, snd p) = Some ([(name "alice", VALID)], true, S_ERROR).
Proof. vm_compute. reflexivity. Qed.
Print Assumptions c107_summaries_agree_refuted.

(** ** The hypotheses of c26_altered_manifest_detected and c26_signed_manifest_pins_files hold
    of a package with files, signed by a tool that accepts signatures over that manifest only. *)
Fixpoint wfb (j : json) : bool :=
  match j with
  | JStr s => forallb (fun c => (0 <=? c) && (c <? 55296)) s
  | JList l => forallb wfb l
  | JObj d => (fix nodup (l : list text) : bool := match l with [] => true | x :: r => negb (existsb (teq x) r) && nodup r end) (map fst d)
              && forallb (fun kv => forallb (fun c => (0 <=? c) && (c <? 55296)) (fst kv) && wfb (snd kv)) d
  | JOpaque _ => false
  | _ => true
  end.
Lemma wfb_wf j : wfb j = true -> wf j.
Proof.
  assert (O : forall s, forallb (fun c => (0 <=? c) && (c <? 55296)) s = true -> ordinary s).
  { intros s E. apply Forall_forall. intros c Hc. rewrite forallb_forall in E. specialize (E _ Hc). lia. }
  induction j using json_ind'; intros E; try exact I; try discriminate E.
  - apply O, E.
  - apply wf_list. cbn [wfb] in E. rewrite forallb_forall in E. rewrite Forall_forall in *. auto.
  - apply wf_obj. cbn [wfb] in E. apply andb_true_iff in E as [E1 E2]. rewrite forallb_forall in E2. split.
    + clear -E1. induction (map fst d) as [|x l IH]; constructor.
      * apply andb_true_iff in E1 as [E1 _]. intros Hin. apply negb_true_iff in E1.
        rewrite (proj2 (existsb_exists (teq x) l)) in E1; [discriminate|]. exists x. split; auto. apply teq_refl.
      * apply IH. apply andb_true_iff in E1 as [_ E1]. exact E1.
    + rewrite Forall_forall in *. intros kv Hin. specialize (E2 _ Hin). apply andb_true_iff in E2 as [E2 E3]. split; auto.
Qed.
Definition p1 : package := run H0 history s0.
Definition C1 : crypto := Crypto (hash C0) (frepr C0) toy_sign toy_sign
  (fun content sig => match manifest_hash C0 (fst p1) with Ok h => if teq content (signable h) then GGood else GBad | Raise _ => GBad end)
  (fun _ _ => AOther).
Example c26_pins_nonvacuous :
  let p2 := fst (save H0 (sign_all C1 same_place [gpg "alice" false] p1)) in
  float_repr (frepr C1) /\ load H0 (snd p2) = Ok (JObj (fst p2)) /\ wf (JObj (fst p2)) /\ wf (JObj (fst p1)) /\ only_accepts C1 (fun d => d = fst p1) /\
  match verify_package C1 (loc H0) H0 false p2 with Ok r => map i_status (signatures r) | Raise _ => [] end = [VALID] /\
  answer (validate_package H0 true (snd p2)) = Some true /\
  section_paths (fst p1) "attachments" = [t "attachments/a.stl"; t "x/z.stl"].
Proof.
  cbv zeta. split; [exact C0_repr|]. split; [vm_compute; reflexivity|]. split; [apply wfb_wf; vm_compute; reflexivity|].
  split; [apply wfb_wf; vm_compute; reflexivity|]. split.
  - intros m content sig A. exists (fst p1). destruct m; [|discriminate A]. unfold accepted in A. cbn [gpg_check C1] in A.
    change (manifest_hash C1) with (manifest_hash C0). destruct (manifest_hash C0 (fst p1)) as [h|]; [|discriminate A].
    exists h. repeat split. destruct (teq content (signable h)) eqn:T; [|discriminate A]. apply teq_spec, T.
  - repeat split; vm_compute; reflexivity.
Qed.
