From Coq Require Import ZArith String List Bool Lia Permutation.
From Verif Require Import Dict Json_Model Json_Spec Json_Proofs Pkg_Model Pkg_Spec Pkg_Proofs Pkg_Proofs2 Sign_Model Sign_Spec Sign_Proofs.
Import ListNotations.
Open Scope Z_scope.
Open Scope list_scope.
#[local] Arguments t : simpl never.

Section Sign.
  Variables (C : crypto) (loc : text -> text).
  Definition has (h : text) (e : json) (file sig : text) (p : package) : Prop :=
    manifest_hash C (fst p) = Ok h /\ (exists l, dget teq (t "signatures") (fst p) = Some (JList l) /\ In e l) /\
    dget teq (loc file) (snd p) = Some sig.
  Lemma has_sign h e file sig g p : has h e file sig p -> g_add g = true ->
    (forall sig' signer kid, tool C g (signable h) = Some (sig', signer, kid) -> loc (sig_file (g_method g) signer) <> loc file) ->
    has h e file sig (fst (sign C loc g p)).
  Proof.
    intros (Hh & (l & El & Hin) & Hf) Ea Ho. destruct (sign C loc g p) as [p' r] eqn:E. apply sign_effect in E. cbn [fst].
    destruct E as [p e'|d fs h' sig' signer kid l' Eh Et Es|d fs h' sig' signer kid v e' Eh Et Es]; cbn [fst snd] in *.
    - repeat split; eauto.
    - assert (h' = h) by congruence. subst h'. repeat split; cbn [fst snd].
      + rewrite hash_set. exact Hh.
      + destruct Es as [[_ Es]|[[Es|Es] ->]]; try congruence. rewrite (dget_set_same _ teq_spec). eexists. split; [reflexivity|].
        apply in_or_app. left. rewrite El in Es. apply Some_inj in Es. assert (l = l') by congruence. subst. exact Hin.
      + rewrite (dget_set_other _ teq_spec); auto. intros X. apply (Ho _ _ _ Et). congruence.
    - assert (h' = h) by congruence. subst h'. repeat split; cbn [fst snd]; eauto.
      rewrite (dget_set_other _ teq_spec); auto. intros X. apply (Ho _ _ _ Et). congruence.
  Qed.
  Lemma has_all h e file sig gs : forall p, has h e file sig p ->
    Forall (fun g => g_add g = true /\ forall sig' signer kid, tool C g (signable h) = Some (sig', signer, kid) -> loc (sig_file (g_method g) signer) <> loc file) gs ->
    has h e file sig (sign_all C loc gs p).
  Proof.
    unfold sign_all. induction gs as [|g gs IH]; intros p Hp F; cbn [fold_left]; auto. inversion F as [|? ? [Fa Fb] F']; subst.
    apply IH; auto. apply has_sign; auto.
  Qed.
  Lemma sign_has g p p1 h sig signer kid : sign C loc g p = (p1, Ok tt) -> manifest_hash C (fst p) = Ok h -> tool C g (signable h) = Some (sig, signer, kid) ->
    has h (sig_entry (if teq (g_name g) [] then signer else g_name g) (match g_method g with GPG => t "gpg" | SSH => t "ssh" end) kid (g_time g) (sig_file (g_method g) signer))
      (sig_file (g_method g) signer) sig p1.
  Proof.
    intros E Eh Et. apply sign_effect in E. inversion E; subst. cbn [fst] in *. assert (h0 = h) by congruence. subst h0.
    match goal with X : tool C g (signable h) = Some (?a, ?b, ?c) |- _ => assert (sig = a /\ signer = b /\ kid = c) as (-> & -> & ->) by (rewrite X in Et; repeat split; congruence) end.
    repeat split; cbn [fst snd].
    - rewrite hash_set. exact Eh.
    - rewrite (dget_set_same _ teq_spec). eexists. split; [reflexivity|]. apply in_or_app. right. left. reflexivity.
    - apply (dget_set_same _ teq_spec).
  Qed.
  Lemma entry_fields signer m key time file :
    let o := [(t "signer", JStr signer); (t "method", JStr m); (t "key_id", JStr key); (t "timestamp", JStr time); (t "signature_file", JStr file)] in
    sig_signer (t "unknown") o = JStr signer /\ dget teq (t "method") o = Some (JStr m) /\ sig_path o = Ok file.
  Proof.
    intros o. unfold o, sig_signer, sig_path. cbn [dget]. rewrite !teq_refl.
    repeat match goal with |- context [teq (t ?a) (t ?b)] => replace (teq (t a) (t b)) with false by (symmetry; apply eqb_neq'; [exact teq_spec|apply t_neq; discriminate]) end. auto.
  Qed.
  Lemma entry_method m : (match m with GPG => Some GPG | SSH => Some SSH end) = Some m. Proof. destruct m; reflexivity. Qed.
  Lemma stored_method signer m key time file :
    sig_method [(t "signer", JStr signer); (t "method", JStr (match m with GPG => t "gpg" | SSH => t "ssh" end)); (t "key_id", JStr key); (t "timestamp", JStr time); (t "signature_file", JStr file)] = Some m.
  Proof.
    unfold sig_method. destruct (entry_fields signer (match m with GPG => t "gpg" | SSH => t "ssh" end) key time file) as (_ & -> & _).
    destruct m; [rewrite teq_refl; reflexivity|].
    replace (teq (t "ssh") (t "gpg")) with false by (symmetry; apply eqb_neq'; [exact teq_spec|apply t_neq; discriminate]). rewrite teq_refl. reflexivity.
  Qed.
  Lemma verify_stored allowed content fs signer m key time file :
    verify_entry C loc allowed content fs (sig_entry signer (match m with GPG => t "gpg" | SSH => t "ssh" end) key time file) =
    Ok (inl (Info (JStr signer) m file (match dget teq (loc file) fs with None => S_ERROR | Some sig => verify_one C m allowed content sig end))).
  Proof.
    unfold verify_entry, sig_entry. rewrite stored_method.
    destruct (entry_fields signer (match m with GPG => t "gpg" | SSH => t "ssh" end) key time file) as (-> & _ & ->). cbn [bind].
    destruct (dget teq (loc file) fs); reflexivity.
  Qed.
  Lemma stays_valid H allowed g p p1 h sig signer kid later r :
    sign C loc g p = (p1, Ok tt) -> manifest_hash C (fst p) = Ok h -> tool C g (signable h) = Some (sig, signer, kid) ->
    accepted C (g_method g) (signable h) sig -> (g_method g = SSH -> allowed = true) ->
    Forall (fun g' => g_add g' = true /\ forall sig' signer' kid', tool C g' (signable h) = Some (sig', signer', kid') ->
              loc (sig_file (g_method g') signer') <> loc (sig_file (g_method g) signer)) later ->
    verify_package C loc H allowed (sign_all C loc later p1) = Ok r ->
    In (Info (JStr (if teq (g_name g) [] then signer else g_name g)) (g_method g) (sig_file (g_method g) signer) VALID) (signatures r).
  Proof.
    intros E Eh Et Ac Al F V. pose proof (has_all _ _ _ _ _ _ (sign_has _ _ _ _ _ _ _ E Eh Et) F) as (Hh & (l & El & Hin) & Hf).
    destruct (sign_all C loc later p1) as [d fs]. cbn [fst snd] in *.
    apply verify_in in V as (h' & Eh' & V). assert (h' = h) by congruence. subst h'. apply V. do 2 eexists. split; [exact El|]. split; [exact Hin|].
    rewrite verify_stored, Hf. rewrite (proj2 (valid_accepted C _ _ _ _) (conj Ac Al)). reflexivity.
  Qed.
  (** signing histories from a package without signatures: verification answers *)
  Definition stored (e : json) : Prop := exists signer m key time file,
    e = sig_entry signer (match m with GPG => t "gpg" | SSH => t "ssh" end) key time file.
  Definition tidy (p : package) : Prop := forall v, dget teq (t "signatures") (fst p) = Some v -> exists l, v = JList l /\ Forall stored l.
  Lemma tidy_sign g p : tidy p -> tidy (fst (sign C loc g p)).
  Proof.
    intros T. destruct (sign C loc g p) as [p' r] eqn:E. apply sign_effect in E. cbn [fst].
    destruct E as [p e'|d fs h' sig' signer kid l' Eh Et Es|d fs h' sig' signer kid v e' Eh Et Es]; auto.
    intros v X. cbn [fst] in X. rewrite (dget_set_same _ teq_spec) in X. apply Some_inj in X as <-. eexists. split; [reflexivity|].
    apply Forall_app. split; [|constructor; auto; unfold stored; eauto 10].
    destruct Es as [[_ Es]|[_ ->]]; auto. destruct (T _ Es) as (l & X & F). assert (l' = l) by congruence. subst. exact F.
  Qed.
  Lemma tidy_all gs : forall p, tidy p -> tidy (sign_all C loc gs p).
  Proof. unfold sign_all. induction gs; intros p T; cbn [fold_left]; auto. apply IHgs, tidy_sign, T. Qed.
  Lemma stored_entries allowed content fs l : Forall stored l ->
    exists is, verify_entries C loc allowed content fs l = Ok (is, []) /\ length is = length l.
  Proof.
    induction 1 as [|e l (signer & m & key & time & file & ->) F (is & IH & IL)]; cbn [verify_entries]; [exists []; auto|].
    rewrite verify_stored. cbn [bind]. rewrite IH. cbn [bind]. eexists. split; [reflexivity|]. cbn [length]. auto.
  Qed.
  Lemma tidy_verify H allowed p h : tidy p -> manifest_hash C (fst p) = Ok h ->
    exists r, verify_package C loc H allowed p = Ok r /\ errors r = [] /\
      length (signatures r) = match dget teq (t "signatures") (fst p) with Some (JList l) => length l | _ => 0%nat end.
  Proof.
    destruct p as [d fs]. cbn [fst]. intros T Eh. unfold verify_package. rewrite Eh. cbn [bind].
    destruct (dget teq (t "signatures") d) as [v|] eqn:Ed.
    - destruct (T _ Ed) as (l & -> & F). destruct l as [|e l]; [cbn; eauto|].
      cbn [truthy]. destruct (stored_entries allowed (signable h) fs _ F) as (is & Ei & EL). rewrite Ei. cbn [bind]. eauto.
    - cbn. eauto.
  Qed.
  Lemma tidy_answers H allowed gs p h : dget teq (t "signatures") (fst p) = None -> manifest_hash C (fst p) = Ok h ->
    exists r, verify_package C loc H allowed (sign_all C loc gs p) = Ok r /\ errors r = [] /\
      length (signatures r) = match dget teq (t "signatures") (fst (sign_all C loc gs p)) with Some (JList l) => length l | _ => 0%nat end.
  Proof.
    intros N Eh. apply (tidy_verify H allowed _ h).
    - apply tidy_all. intros v X. pose proof (eq_trans (eq_sym N) X). discriminate.
    - rewrite sign_all_hash. exact Eh.
  Qed.

  (** what a signed manifest pins down *)
  Lemma same_field d1 d2 k : same_but_signatures d1 d2 -> k <> "signatures"%string -> same_value (field d1 k) (field d2 k).
  Proof. intros S N. apply S. apply t_neq, N. Qed.
  Lemma same_in l1 l2 x : Forall2 same_data l1 l2 -> In x l1 -> exists y, In y l2 /\ same_data x y.
  Proof. induction 1; intros []; subst; [eexists; split; [left; reflexivity|auto]|]. destruct IHForall2 as (z & ? & ?); auto. exists z. cbn. auto. Qed.
  Lemma same_obj_field a b k : NoDup (map fst a) -> NoDup (map fst b) -> same_data (JObj a) (JObj b) -> same_value (field a k) (field b k).
  Proof. intros Na Nb S. apply same_obj; auto. Qed.
  Lemma wf_field d k v : wf (JObj d) -> field d k = Some v -> wf v.
  Proof. intros W E. apply wf_obj in W as [_ W]. apply (dget_in _ teq_spec) in E. rewrite Forall_forall in W. apply (W _ E). Qed.
  Lemma wf_in l x : wf (JList l) -> In x l -> wf x.
  Proof. intros W. apply wf_list in W. rewrite Forall_forall in W. auto. Qed.
  Lemma same_listed d1 d2 e : wf (JObj d1) -> wf (JObj d2) -> same_but_signatures d1 d2 -> listed d1 e ->
    exists e', listed d2 e' /\ same_data (JObj e) (JObj e') /\ wf (JObj e) /\ wf (JObj e').
  Proof.
    intros W1 W2 S L.
    assert (Sec : forall a b k l, wf (JObj a) -> wf (JObj b) -> same_value (field a k) (field b k) -> field a k = Some (JList l) -> In (JObj e) l ->
      exists e' l', field b k = Some (JList l') /\ In (JObj e') l' /\ same_data (JObj e) (JObj e') /\ wf (JObj e) /\ wf (JObj e')).
    { intros a b k l Wa Wb Sv El Hin. rewrite El in Sv. destruct (field b k) as [v|] eqn:Eb; [|destruct Sv]. cbn [same_value] in Sv.
      inversion Sv; subst. match goal with F : Forall2 same_data l _ |- _ => destruct (same_in _ _ _ F Hin) as (y & Hy & Sy) end.
      inversion Sy; subst. do 2 eexists. split; [reflexivity|]. split; [exact Hy|]. split; [exact Sy|]. split.
      - eapply wf_in; [|exact Hin]. eapply wf_field; [exact Wa|exact El].
      - eapply wf_in; [|exact Hy]. eapply wf_field; [exact Wb|exact Eb]. }
    destruct L as [(g & Eg & L)|[(l & El & Hin)|(l & El & Hin)]].
    - pose proof (same_field _ _ "geometry" S ltac:(discriminate)) as Sg. rewrite Eg in Sg.
      destruct (field d2 "geometry") as [v|] eqn:E2; [|destruct Sg]. cbn [same_value] in Sg. inversion Sg; subst.
      match goal with E : field d2 "geometry" = Some (JObj ?b) |- _ => rename b into g2 end.
      pose proof (wf_field _ _ _ W1 Eg) as Wg1. pose proof (wf_field _ _ _ W2 E2) as Wg2.
      assert (Sf : forall k, same_value (field g k) (field g2 k)) by (intros; apply same_obj_field; auto using wf_nodup).
      destruct L as [Pr|(l & El & Hin)].
      + specialize (Sf "primary"%string). rewrite Pr in Sf. destruct (field g2 "primary") as [v|] eqn:Ep; [|destruct Sf].
        cbn [same_value] in Sf. inversion Sf; subst. eexists. split; [left; eauto|]. split; [exact Sf|]. eauto using wf_field.
      + destruct (Sec g g2 _ l Wg1 Wg2 (Sf _) El Hin) as (e' & l' & A & B & D & F). exists e'. split; auto. left. eauto 10.
    - destruct (Sec d1 d2 _ l W1 W2 (same_field _ _ "exports" S ltac:(discriminate)) El Hin) as (e' & l' & A & B & D & F). exists e'. split; auto. right. left. eauto.
    - destruct (Sec d1 d2 _ l W1 W2 (same_field _ _ "attachments" S ltac:(discriminate)) El Hin) as (e' & l' & A & B & D & F). exists e'. split; auto. right. right. eauto.
  Qed.
  Lemma same_str a b k s : NoDup (map fst a) -> NoDup (map fst b) -> same_data (JObj a) (JObj b) -> field a k = Some (JStr s) -> field b k = Some (JStr s).
  Proof.
    intros Na Nb S E. pose proof (same_obj_field a b k Na Nb S) as Sv. rewrite E in Sv. destruct (field b k) as [v|]; [|destruct Sv].
    cbn in Sv. inversion Sv; subst. reflexivity.
  Qed.
End Sign.
