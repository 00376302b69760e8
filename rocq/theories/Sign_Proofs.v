From Coq Require Import ZArith String List Bool Lia Permutation.
From Verif Require Import Dict Json_Model Json_Spec Json_Proofs Pkg_Model Pkg_Spec Pkg_Proofs Pkg_Proofs2 Sign_Model Sign_Spec.
Import ListNotations.
Open Scope Z_scope.
Open Scope list_scope.

Lemma dget_forall2 k : forall a c : dict, Forall2 (fun x y => fst x = fst y /\ same_data (snd x) (snd y)) a c ->
  same_value (dget teq k a) (dget teq k c).
Proof.
  induction 1 as [|[k1 x] [k2 y] a c [E S] F IH]; cbn [dget fst snd] in *; [exact I|]. subst k2.
  destruct (teq k k1); [exact S|exact IH].
Qed.
Lemma dget_perm (a b : dict) k : NoDup (map fst a) -> Permutation a b -> dget teq k a = dget teq k b.
Proof.
  intros N P. assert (N' : NoDup (map fst b)) by (eapply Permutation_NoDup; [apply Permutation_map, P|exact N]).
  destruct (dget teq k a) as [v|] eqn:E.
  - symmetry. apply (in_dget _ teq_spec); auto. apply (Permutation_in _ P). apply (dget_in _ teq_spec). exact E.
  - symmetry. apply (dget_none _ teq_spec). apply (dget_none _ teq_spec) in E. intros Hin. apply E.
    apply (Permutation_in _ (Permutation_map fst (Permutation_sym P))). exact Hin.
Qed.
Lemma del_perm (b : dict) k v : NoDup (map fst b) -> dget teq k b = Some v -> Permutation b ((k, v) :: ddel teq k b).
Proof.
  induction b as [|[k' v'] b IH]; cbn [dget ddel map fst]; intros N E; [discriminate|]. inversion N; subst.
  destruct (teq k k') eqn:T.
  - apply teq_spec in T as ->. apply Some_inj in E as ->. reflexivity.
  - rewrite (IH H2 E) at 1. apply perm_swap.
Qed.
Lemma same_obj (a b : dict) : NoDup (map fst a) -> NoDup (map fst b) ->
  (same_data (JObj a) (JObj b) <-> forall k, same_value (dget teq k a) (dget teq k b)).
Proof.
  intros Na Nb. split.
  - intros S k. inversion S; subst. rewrite (dget_perm b c) by auto. apply dget_forall2. assumption.
  - intros S. assert (X : exists c, Permutation b c /\ Forall2 (fun x y => fst x = fst y /\ same_data (snd x) (snd y)) a c).
    2:{ destruct X as (c & P & F). econstructor; eauto. }
    revert b Nb S. induction a as [|[k v] a IH]; intros b Nb S.
    + destruct b as [|[k v] b]; [exists []; auto|]. specialize (S k). cbn [dget] in S. rewrite teq_refl in S. destruct S.
    + inversion Na; subst. pose proof (S k) as Sk. cbn [dget] in Sk. rewrite teq_refl in Sk.
      destruct (dget teq k b) as [w|] eqn:E; [|destruct Sk].
      destruct (IH H2 (ddel teq k b)) as (c & P & F).
      * apply (nodup_del teq). exact Nb.
      * intros k'. destruct (teq k' k) eqn:T.
        { apply teq_spec in T as ->. rewrite (dget_del_same _ teq_spec) by exact Nb.
          rewrite (proj2 (dget_none _ teq_spec k a)) by exact H1. exact I. }
        rewrite (dget_del_other _ teq_spec) by (intros ->; rewrite teq_refl in T; discriminate).
        specialize (S k'). cbn [dget] in S. rewrite T in S. exact S.
      * exists ((k, w) :: c). split; [|constructor; auto]. rewrite (del_perm b k w Nb E). apply perm_skip, P.
Qed.

Lemma without_get k d : k <> t "signatures" -> dget teq k (without_signatures d) = dget teq k d.
Proof.
  intros N. unfold without_signatures. induction d as [|[k' v] d IH]; cbn [filter dget fst]; auto.
  destruct (teq k' (t "signatures")) eqn:T; cbn [negb].
  - apply teq_spec in T as ->. rewrite IH. destruct (teq k (t "signatures")) eqn:T; auto. apply teq_spec in T. contradiction.
  - cbn [dget]. rewrite IH. reflexivity.
Qed.
Lemma without_none d : dget teq (t "signatures") (without_signatures d) = None.
Proof.
  unfold without_signatures. induction d as [|[k' v] d IH]; cbn [filter dget fst]; auto.
  destruct (teq k' (t "signatures")) eqn:T; cbn [negb]; auto. cbn [dget].
  destruct (teq (t "signatures") k') eqn:T'; auto. apply teq_spec in T'. rewrite T', teq_refl in T. discriminate.
Qed.
Lemma without_wf d : wf (JObj d) -> wf (JObj (without_signatures d)).
Proof.
  intros W. apply wf_obj in W as [N F]. apply wf_obj. split.
  - unfold without_signatures. clear F. induction d as [|x d IH]; cbn; auto. inversion N; subst.
    destruct (negb _); auto. cbn. constructor; auto. intros Hin. apply H1. apply in_map_iff in Hin as (y & <- & Hy).
    apply filter_In in Hy as [Hy _]. apply in_map. exact Hy.
  - unfold without_signatures. rewrite Forall_forall in *. intros x Hx. apply filter_In in Hx as [Hx _]. auto.
Qed.
Lemma wf_nodup d : wf (JObj d) -> NoDup (map fst d). Proof. intros W. apply wf_obj in W as [N _]. exact N. Qed.
Lemma same_without d1 d2 : wf (JObj d1) -> wf (JObj d2) ->
  (same_data (JObj (without_signatures d1)) (JObj (without_signatures d2)) <-> same_but_signatures d1 d2).
Proof.
  intros W1 W2. rewrite same_obj by (apply wf_nodup, without_wf; auto). split.
  - intros S k N. specialize (S k). rewrite !without_get in S by auto. exact S.
  - intros S k. destruct (teq k (t "signatures")) eqn:T.
    + apply teq_spec in T as ->. rewrite !without_none. exact I.
    + assert (N : k <> t "signatures") by (intros ->; rewrite teq_refl in T; discriminate). rewrite !without_get by auto. apply S, N.
Qed.
Lemma wf_representable j : wf j -> representable j = true.
Proof.
  induction j using json_ind'; intros W; auto.
  - apply wf_list in W. cbn. apply forallb_forall. rewrite Forall_forall in *. auto.
  - apply wf_obj in W as [_ W]. cbn. apply forallb_forall. rewrite Forall_forall in *. intros x Hx. apply H; auto. apply W, Hx.
Qed.

Section Sign.
  Variables (C : crypto) (loc : text -> text).
  Lemma hash_wf d : wf (JObj d) -> manifest_hash C d = Ok (hash C (dumps (frepr C) (JObj (without_signatures d)))).
  Proof. intros W. unfold manifest_hash. rewrite wf_representable; auto. apply without_wf, W. Qed.
  Lemma hash_same d1 d2 : wf (JObj d1) -> wf (JObj d2) -> same_but_signatures d1 d2 -> manifest_hash C d1 = manifest_hash C d2.
  Proof.
    intros W1 W2 S. rewrite !hash_wf by auto. do 2 f_equal. apply dumps_same; auto using without_wf. apply same_without; auto.
  Qed.
  Lemma hash_determines d1 d2 : float_repr (frepr C) -> wf (JObj d1) -> wf (JObj d2) -> manifest_hash C d1 = manifest_hash C d2 ->
    same_but_signatures d1 d2 \/ collision (hash C).
  Proof.
    intros FR W1 W2 E. rewrite !hash_wf in E by auto. apply Ok_inj in E.
    destruct (list_eq_dec Z.eq_dec (dumps (frepr C) (JObj (without_signatures d1))) (dumps (frepr C) (JObj (without_signatures d2)))) as [D|D].
    - left. apply same_without; auto. apply (dumps_injective _ FR); auto using without_wf.
    - right. exists (dumps (frepr C) (JObj (without_signatures d1))), (dumps (frepr C) (JObj (without_signatures d2))). auto.
  Qed.
  Lemma without_set v d : without_signatures (dset teq (t "signatures") v d) = without_signatures d.
  Proof.
    unfold without_signatures. induction d as [|[k' w] d IH]; cbn [dset filter fst].
    - rewrite teq_refl. reflexivity.
    - destruct (teq (t "signatures") k') eqn:T; cbn [filter fst].
      + apply teq_spec in T as <-. rewrite teq_refl. reflexivity.
      + rewrite IH. reflexivity.
  Qed.
  Lemma hash_set v d : manifest_hash C (dset teq (t "signatures") v d) = manifest_hash C d.
  Proof. unfold manifest_hash. rewrite without_set. reflexivity. Qed.

  (** the effect of a call *)
  Inductive effect (g : signing) : package -> package -> res unit -> Prop :=
    | ef_nothing p e : effect g p p (Raise e)
    | ef_signed d fs h sig signer kid l : manifest_hash C d = Ok h -> tool C g (signable h) = Some (sig, signer, kid) ->
        (g_add g = true /\ dget teq (t "signatures") d = Some (JList l) \/
         (g_add g = false \/ dget teq (t "signatures") d = None) /\ l = []) ->
        effect g (d, fs)
          (dset teq (t "signatures") (JList (l ++ [sig_entry (if teq (g_name g) [] then signer else g_name g) (match g_method g with GPG => t "gpg" | SSH => t "ssh" end) kid (g_time g) (sig_file (g_method g) signer)])) d,
           dset teq (loc (sig_file (g_method g) signer)) sig fs) (Ok tt)
    | ef_broken d fs h sig signer kid v e : manifest_hash C d = Ok h -> tool C g (signable h) = Some (sig, signer, kid) ->
        g_add g = true -> dget teq (t "signatures") d = Some v -> (forall l, v <> JList l) ->
        effect g (d, fs) (d, dset teq (loc (sig_file (g_method g) signer)) sig fs) (Raise e).
  Lemma sign_effect g p p' r : sign C loc g p = (p', r) -> effect g p p' r.
  Proof.
    unfold sign, sign_package. destruct p as [d fs]. destruct (manifest_hash C d) as [h|e] eqn:Eh.
    2:{ intros E. assert (p' = (d, fs) /\ r = Raise e) as [-> ->] by (split; congruence). constructor. }
    fold (tool C g (signable h)). destruct (tool C g (signable h)) as [[[sig signer] kid]|] eqn:Et.
    2:{ intros E. assert (p' = (d, fs) /\ r = Raise "SigningError") as [-> ->] by (split; congruence). constructor. }
    fold (sig_file (g_method g) signer).
    destruct (if g_add g then dget teq (t "signatures") d else None) as [v|] eqn:Es.
    - assert (Ea : g_add g = true) by (destruct (g_add g); congruence). rewrite Ea in Es.
      destruct v as [| | | | |l| |]; try (intros E; match goal with E : (?a, ?b) = (_, _) |- _ => assert (p' = a /\ r = b) as [-> ->] by (split; congruence) end; econstructor; eauto; discriminate).
    - intros E. match goal with E : (?a, ?b) = (_, _) |- _ => assert (p' = a /\ r = b) as [-> ->] by (split; congruence) end.
      change [sig_entry (if teq (g_name g) [] then signer else g_name g) match g_method g with GPG => t "gpg" | SSH => t "ssh" end kid (g_time g) (sig_file (g_method g) signer)]
        with ([] ++ [sig_entry (if teq (g_name g) [] then signer else g_name g) match g_method g with GPG => t "gpg" | SSH => t "ssh" end kid (g_time g) (sig_file (g_method g) signer)]).
      econstructor; eauto. right. split; auto. destruct (g_add g); auto.
  Qed.
  Lemma sign_hash g p : manifest_hash C (fst (fst (sign C loc g p))) = manifest_hash C (fst p).
  Proof. destruct (sign C loc g p) as [p' r] eqn:E. apply sign_effect in E. destruct E; cbn [fst]; auto. apply hash_set. Qed.
  Lemma sign_all_hash gs : forall p, manifest_hash C (fst (sign_all C loc gs p)) = manifest_hash C (fst p).
  Proof. unfold sign_all. induction gs as [|g gs IH]; intros p; cbn [fold_left]; auto. rewrite IH. apply sign_hash. Qed.

  (** verification *)
  Lemma entries_in allowed content fs l : forall is es, verify_entries C loc allowed content fs l = Ok (is, es) -> forall i,
    In i is <-> exists e, In e l /\ verify_entry C loc allowed content fs e = Ok (inl i).
  Proof.
    induction l as [|e l IH]; intros is es E i; cbn [verify_entries] in E.
    - apply Ok_inj in E. assert (is = []) by congruence. subst. cbn. firstorder.
    - apply bind_ok in E as (x & Ex & E). apply bind_ok in E as ([is' es'] & Er & E). apply Ok_inj in E. specialize (IH _ _ Er i).
      destruct x as [j|m].
      + assert (is = j :: is') by congruence. subst. cbn [In]. rewrite IH. split.
        * intros [<-|(e' & H1 & H2)]; eauto.
        * intros (e' & [<-|H1] & H2); [left; rewrite Ex in H2; apply Ok_inj in H2; congruence|right; eauto].
      + assert (is = is') by congruence. subst. rewrite IH. cbn [In]. split.
        * intros (e' & H1 & H2); eauto.
        * intros (e' & [<-|H1] & H2); [rewrite Ex in H2; discriminate|eauto].
  Qed.
  Lemma verify_in H allowed d fs r : verify_package C loc H allowed (d, fs) = Ok r ->
    exists h, manifest_hash C d = Ok h /\
      forall i, In i (signatures r) <-> exists l e, dget teq (t "signatures") d = Some (JList l) /\ In e l /\
        verify_entry C loc allowed (signable h) fs e = Ok (inl i).
  Proof.
    unfold verify_package. intros E. apply bind_ok in E as (h & Eh & E). exists h. split; auto. intros i.
    destruct (dget teq (t "signatures") d) as [v|].
    - destruct (truthy H v) eqn:Tv.
      + destruct v as [| | | | |l| |]; try discriminate. apply bind_ok in E as ([is es] & Ev & E). apply Ok_inj in E as <-. cbn [signatures].
        rewrite (entries_in _ _ _ _ _ _ Ev i). split.
        * intros (e & H1 & H2). eauto.
        * intros (l' & e & H0 & H1 & H2). apply Some_inj in H0. assert (l = l') by congruence. subst. eauto.
      + apply Ok_inj in E as <-. cbn [signatures In]. split; [intros []|]. intros (l & e & H0 & H1 & H2). apply Some_inj in H0 as ->.
        destruct l; [destruct H1|discriminate].
    - cbn in E. apply Ok_inj in E as <-. cbn [signatures In]. split; [intros []|]. intros (l & e & H0 & _). discriminate.
  Qed.
  Lemma entry_ok' allowed content fs e i : verify_entry C loc allowed content fs e = Ok (inl i) ->
    exists o, e = JObj o /\ sig_method o = Some (i_method i) /\ sig_path o = Ok (i_file i) /\ i_signer i = sig_signer (t "unknown") o /\
      i_status i = match dget teq (loc (i_file i)) fs with None => S_ERROR | Some sig => verify_one C (i_method i) allowed content sig end.
  Proof.
    unfold verify_entry. destruct e as [| | | | | |o|]; try discriminate. intros E. exists o. split; auto.
    destruct (sig_method o) as [m|]; [|discriminate]. apply bind_ok in E as (p & Ep & E).
    destruct (dget teq (loc p) fs) as [sig|] eqn:Eg; apply Ok_inj in E;
      match goal with E : inl ?j = inl _ |- _ => assert (X : i = j) by congruence end; subst i; cbn [i_method i_file i_signer i_status]; rewrite Eg; auto.
  Qed.
  Lemma valid_accepted m allowed content sig : verify_one C m allowed content sig = VALID <-> accepted C m content sig /\ (m = SSH -> allowed = true).
  Proof.
    unfold verify_one, accepted. destruct m.
    - destruct (gpg_check C content sig); split; try discriminate; try (intros [X _]; discriminate); split; auto; discriminate.
    - destruct allowed; [destruct (ssh_check C content sig)|]; split; try discriminate; try (intros [X Y]; discriminate); auto.
      intros [X Y]. discriminate Y. reflexivity.
  Qed.
End Sign.
