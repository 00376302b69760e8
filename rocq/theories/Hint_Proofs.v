(** Proofs about normalised hints. *)
From Coq Require Import ZArith String List Bool Lia.
From Verif Require Import Dict Json_Model Meta_Model Meta_Spec Meta_Proofs Meta_Proofs2 Meta_Proofs3 Meta_Proofs4 Hint_Spec.
Import ListNotations.
Open Scope Z_scope.
Open Scope list_scope.

Section H.
Variable H : host.
Lemma split_ok s : split_comma s <> [] /\ s = joined (split_comma s) /\ Forall (fun p => ~ In 44 p) (split_comma s).
Proof.
  induction s as [|c s (N & E & F)]; [repeat split; [discriminate|constructor; [intros []|constructor]]|]. cbn [split_comma]. destruct (Z.eqb_spec c 44) as [->|C].
  - split; [discriminate|]. split.
    + cbn [joined]. destruct (split_comma s) as [|h q]; [congruence|]. cbn [app]. rewrite E at 1. reflexivity.
    + constructor; [intros []|exact F].
  - destruct (split_comma s) as [|h q]; [congruence|]. split; [discriminate|]. inversion F; subst. split.
    + cbn [joined] in *. destruct q; cbn [app]; f_equal; exact E.
    + constructor; auto. intros [X|X]; [congruence|auto].
Qed.
Lemma lstrip_ok s : exists a, s = a ++ lstrip H s /\ Forall (fun c => space H c = true) a /\ (forall c r, lstrip H s = c :: r -> space H c = false).
Proof.
  induction s as [|c s (a & E & F & L)]; [exists []; repeat split; auto; discriminate|]. cbn [lstrip]. destruct (space H c) eqn:Q.
  - exists (c :: a). repeat split; auto; cbn; congruence.
  - exists []. repeat split; auto. intros c' r [= <- _]. exact Q.
Qed.
Lemma strip_ok s : trimmed H s (strip H s).
Proof.
  unfold strip, trimmed. destruct (lstrip_ok s) as (a & E & F & L). destruct (lstrip_ok (rev (lstrip H s))) as (b & E' & F' & L').
  set (m := lstrip H (rev (lstrip H s))) in *.
  assert (X : lstrip H s = rev m ++ rev b) by (rewrite <- rev_app_distr, <- E', rev_involutive; reflexivity).
  exists a, (rev b). split; [rewrite <- X; exact E|]. split; auto. split; [apply Forall_rev; exact F'|]. split.
  - intros c r Q. apply (L c (r ++ rev b)). rewrite X, Q. reflexivity.
  - intros r c Q. apply (L' c (rev r)). rewrite <- (rev_involutive m), Q, rev_app_distr. reflexivity.
Qed.
Lemma comma_words s : exists ws, words H s ws /\ comma_list H s = map JStr ws.
Proof.
  eexists. split; [|reflexivity]. destruct (split_ok s) as (N & E & F). exists (split_comma s), (map (strip H) (split_comma s)).
  repeat split; auto. clear. induction (split_comma s); cbn; constructor; auto using strip_ok.
Qed.
Lemma one_of_iff v l : in_enum v l = true <-> one_of v l.
Proof.
  unfold one_of, in_enum. split.
  - destruct v; try discriminate. intros Q. apply mem_spec in Q. eauto.
  - intros (s & -> & Q). apply mem_spec, Q.
Qed.
Lemma one_of_not v l : in_enum v l = false -> ~ one_of v l.
Proof. intros E X. apply one_of_iff in X. congruence. Qed.
Lemma enum_treated k allowed v : In (k, allowed) enum_keys -> treated H k v v (if in_enum v allowed then [] else err_at k v).
Proof.
  intros I. destruct (in_enum v allowed) eqn:E; [eapply T_enum; [exact I|apply one_of_iff, E]|eapply T_enum_bad; [exact I|apply one_of_not, E]].
Qed.
Lemma flag_treated k v : In k flag_keys -> treated H k v (fst (coerced k v (coerce_bool H v))) (snd (coerced k v (coerce_bool H v))).
Proof.
  intros I. unfold coerce_bool. destruct v as [|b|z|f|s|l|d|o]; cbn [coerced fst snd]; try (apply T_flag_bad; auto; intros; discriminate); [apply T_flag, I|].
  destruct (yes H s) eqn:Y; [apply T_flag_yes; auto; apply mem_spec, Y|]. destruct (no H s) eqn:N; [apply T_flag_no; auto; apply mem_spec, N|].
  apply T_flag_bad; auto; [intros; discriminate|]. intros s' [= <-] X. apply in_app_or in X as [X|X]; apply mem_spec in X; unfold yes, no in *; unfold yes_words, no_words in X; congruence.
Qed.
Lemma entries_treated k v : In k list_keys ->
  treated H k v v (match v with JList l => if forallb is_dict l then [] else err_at k v | _ => err_at k v end).
Proof.
  intros I. destruct v as [|b|z|f|s|l|d|o]; try (apply T_entries_bad; auto; intros (l & X & _); discriminate).
  destruct (forallb is_dict l) eqn:Q.
  - apply T_entries; auto. intros e He. rewrite forallb_forall in Q. specialize (Q e He). destruct e; try discriminate. eauto.
  - apply T_entries_bad; auto. intros (l' & [= <-] & X). assert (forallb is_dict l = true); [|congruence]. apply forallb_forall. intros e He. destruct (X e He) as [d ->]. reflexivity.
Qed.
Lemma part_is k a b : partition k = Some (a, b) -> k = a ++ 46 :: b.
Proof. apply partition_eq. Qed.
Lemma unknown_warns k v : ~ In k known_keys -> check_one H k v = Ok (v, [mkdiag LWarning k None]).
Proof.
  intros N. unfold check_one. destruct k as [|c k']; [exfalso; apply N, mem_spec; reflexivity|].
  set (k := c :: k') in *. destruct (partition k) as [[ns f]|] eqn:P.
  - apply part_is in P. destruct (teq ns (t "assembly")) eqn:A; [apply teq_spec in A; subst ns|destruct (teq ns (t "operation")) eqn:B; [apply teq_spec in B; subst ns|reflexivity]].
    + unfold check_assembly.
      assert (X : forall x, In (t "assembly" ++ 46 :: x) known_keys -> teq f x = false) by (intros x I; apply teq_neq; intros ->; apply N; rewrite P; exact I).
      rewrite (X (t "joint_kind")), (X (t "no_cut")) by (apply mem_spec; reflexivity).
      unfold mem. cbn [existsb]. rewrite !X by (apply mem_spec; reflexivity). reflexivity.
    + unfold check_operation.
      assert (X : forall x, In (t "operation" ++ 46 :: x) known_keys -> teq f x = false) by (intros x I; apply teq_neq; intros ->; apply N; rewrite P; exact I).
      unfold mem. cbn [existsb]. rewrite !X by (apply mem_spec; reflexivity). reflexivity.
  - assert (X : forall x, In x known_keys -> teq k x = false) by (intros x I; apply teq_neq; intros ->; contradiction).
    unfold mem. cbn [existsb]. rewrite !X by (apply mem_spec; reflexivity). reflexivity.
Qed.
Lemma in_known k : {In k known_keys} + {~ In k known_keys}.
Proof. apply in_dec. apply list_eq_dec, Z.eq_dec. Qed.
Lemma one_treated k v v' ds : check_one H k v = Ok (v', ds) -> treated H k v v' ds.
Proof.
  intros E. destruct (in_known k) as [I|N]; [|rewrite (unknown_warns k v N) in E; injection E as <- <-; apply T_unknown, N].
  assert (FL : forall k, In k flag_keys -> check_one H k v = Ok (coerced k v (coerce_bool H v)) -> check_one H k v = Ok (v', ds) -> treated H k v v' ds).
  { intros k0 I0 E1 E2. rewrite E1 in E2. injection E2 as E2. pose proof (flag_treated k0 v I0) as T. rewrite E2 in T. exact T. }
  assert (EN : forall k allowed, In (k, allowed) enum_keys -> check_one H k v = Ok (v, if in_enum v allowed then [] else err_at k v) -> check_one H k v = Ok (v', ds) -> treated H k v v' ds).
  { intros k0 al I0 E1 E2. rewrite E1 in E2. injection E2 as <- <-. apply enum_treated, I0. }
  assert (LI : forall k, In k list_keys -> check_one H k v = Ok (v, match v with JList l => if forallb is_dict l then [] else err_at k v | _ => err_at k v end) -> check_one H k v = Ok (v', ds) -> treated H k v v' ds).
  { intros k0 I0 E1 E2. rewrite E1 in E2. injection E2 as <- <-. apply entries_treated, I0. }
  unfold known_keys, enum_keys, flag_keys, list_keys, text_keys, root_keys in I. cbn [map fst app In] in I.
  decompose [or] I; clear I; try contradiction; subst k.
  1-4: eapply EN; [|reflexivity|exact E]; unfold enum_keys; cbn [In]; tauto.
  1-3: eapply FL; [|reflexivity|exact E]; unfold flag_keys; cbn [In]; tauto.
  1-4: eapply LI; [|reflexivity|exact E]; unfold list_keys; cbn [In]; tauto.
  1-2: change (@Ok (json * list diag) (JStr (to_str H v), []) = Ok (v', ds)) in E; injection E as <- <-; apply T_text; unfold text_keys; cbn [In]; tauto.
  1-3: change (@Ok (json * list diag) (v, []) = Ok (v', ds)) in E; injection E as <- <-; apply T_root; unfold root_keys; cbn [In]; tauto.
  - change (match coerce_float H v with Ok c => Ok (coerced (t "operation.priority") v c) | Err e => Err e end = Ok (v', ds)) in E. unfold coerce_float in E.
    destruct (to_float H v) as [f|e] eqn:F; [injection E as <- <-; apply T_number, F|]. destruct e; try discriminate; injection E as <- <-; eapply T_number_bad; eauto; discriminate.
  - change (Ok (coerced (t "operation.target_filter") v (coerce_strings H v)) = Ok (v', ds)) in E. unfold coerce_strings in E.
    destruct v as [|b|z|f|s|l|d|o]; cbn [coerced] in E; injection E as <- <-; try (apply T_words_bad; discriminate); [|apply T_words_list].
    destruct (comma_words s) as (ws & W & ->). apply T_words, W.
Qed.
Lemma one_fails k v e : check_one H k v = Err e <-> k = t "operation.priority" /\ to_float H v = Err OverflowErr /\ e = OverflowErr.
Proof.
  split.
  - intros E. destruct (in_known k) as [I|N]; [|rewrite (unknown_warns k v N) in E; discriminate].
    unfold known_keys, enum_keys, flag_keys, list_keys, text_keys, root_keys in I. cbn [map fst app In] in I.
    decompose [or] I; clear I; try contradiction; subst k; try (exfalso; match type of E with ?c = _ => assert (X : exists y, c = Ok y) by (eexists; reflexivity); destruct X as [y X]; rewrite X in E; discriminate end).
    change (match coerce_float H v with Ok c => Ok (coerced (t "operation.priority") v c) | Err e => Err e end = Err e) in E. unfold coerce_float in E.
    split; auto. destruct (to_float H v) as [f|[]]; try discriminate. injection E as <-. auto.
  - intros (-> & F & ->). change (match coerce_float H v with Ok c => Ok (coerced (t "operation.priority") v c) | Err e => Err e end = @Err (json * list diag) OverflowErr). unfold coerce_float. rewrite F. reflexivity.
Qed.
Lemma fields_treated h : forall h' ds, check_fields H h = Ok (h', ds) ->
  exists dss, ds = List.concat dss /\ Datatypes.length h' = Datatypes.length h /\ Datatypes.length dss = Datatypes.length h /\ forall n k v, nth_error h n = Some (k, v) -> exists v' d, nth_error h' n = Some (k, v') /\ nth_error dss n = Some d /\ treated H k v v' d.
Proof.
  induction h as [|[k v] h IH]; intros h' ds E; cbn [check_fields] in E.
  - injection E as <- <-. exists []. repeat split; auto. intros [|n] k v X; discriminate.
  - destruct (check_one H k v) as [[v' d]|] eqn:C; cbn [bind] in E; [|discriminate]. destruct (check_fields H h) as [[h1 ds1]|]; cbn [bind fst snd] in E; [|discriminate].
    injection E as <- <-. destruct (IH _ _ eq_refl) as (dss & -> & L1 & L2 & T). exists (d :: dss). cbn [List.concat Datatypes.length]. repeat split; auto.
    intros [|n] k0 v0 X; cbn [nth_error] in *.
    + injection X as <- <-. exists v', d. repeat split; auto. apply one_treated, C.
    + apply T, X.
Qed.
Lemma fields_fail h e : check_fields H h = Err e <-> (exists v, In (t "operation.priority", v) h /\ to_float H v = Err OverflowErr) /\ e = OverflowErr.
Proof.
  induction h as [|[k v] h IH]; cbn [check_fields]; [split; [discriminate|intros ((v & [] & _) & _)]|].
  destruct (check_one H k v) as [[v' d]|e0] eqn:C; cbn [bind].
  - transitivity (check_fields H h = Err e); [destruct (check_fields H h) as [[h1 ds1]|]; cbn [bind fst snd]; split; intros X; try discriminate X; injection X as ->; reflexivity|].
    rewrite IH. split; intros ((v0 & I & F) & ->); (split; [|reflexivity]).
    + exists v0. split; auto. right. exact I.
    + destruct I as [X|I]; [|eauto]. injection X as K V; subst v0; exfalso; pose proof (proj2 (one_fails k v OverflowErr) (conj K (conj F eq_refl))) as Z; rewrite C in Z; discriminate.
  - apply one_fails in C as (-> & F & ->). split.
    + intros [= <-]. split; auto. exists v. split; auto. left. reflexivity.
    + intros (_ & ->). reflexivity.
Qed.
Lemma in_get (h : dict) k : has k h = true <-> has_key h k.
Proof.
  unfold has, dmem, has_key. induction h as [|[k' v'] h IH]; cbn [dget]; [split; [discriminate|intros (v & [])]|]. destruct (teq k k') eqn:Q.
  - apply teq_spec in Q. subst. split; auto. intros _. exists v'. left. reflexivity.
  - rewrite IH. split; intros (v & I); exists v; [right; exact I|]. destruct I as [[= -> ->]|I]; [rewrite teq_refl in Q; discriminate|exact I].
Qed.
Lemma starts_iff p s : starts p s = true <-> exists r, s = p ++ r.
Proof.
  unfold starts. rewrite teq_spec. split.
  - intros E. exists (skipn (length p) s). rewrite <- E at 1. symmetry. apply firstn_skipn.
  - intros (r & ->). rewrite firstn_app, Nat.sub_diag, firstn_all. cbn. apply app_nil_r.
Qed.
Lemma about_iff h : existsb (fun kv => starts (t "operation.") (fst kv)) h = true <-> about_operation h.
Proof.
  rewrite existsb_exists. unfold about_operation, has_key. split.
  - intros ([k v] & I & Q). apply starts_iff in Q as (r & E). cbn [fst] in E. subst k. exists r, v. exact I.
  - intros (r & v & I). exists (t "operation." ++ r, v). split; [exact I|]. apply starts_iff. exists r. reflexivity.
Qed.
Lemma cross_iff h d : In d (cross_check h) <-> remark h d.
Proof.
  unfold cross_check, remark. rewrite !in_app_iff, <- about_iff. pose proof (in_get h (t "operation.kind")) as K. pose proof (in_get h (t "operation.target_filter")) as F.
  set (a := existsb _ h). set (hk := has (t "operation.kind") h) in *. set (hf := has (t "operation.target_filter") h) in *.
  assert (A : In d (if a && negb hk then [mkdiag LError (t "operation.kind") None] else []) <-> d = mkdiag LError (t "operation.kind") None /\ a = true /\ ~ has_key h (t "operation.kind")).
  { rewrite <- K. destruct a, hk; cbn [andb negb In]; intuition congruence. }
  assert (C : In d (if a && negb hf then [mkdiag LInfo (t "operation.target_filter") None] else []) <-> d = mkdiag LInfo (t "operation.target_filter") None /\ a = true /\ ~ has_key h (t "operation.target_filter")).
  { rewrite <- F. destruct a, hf; cbn [andb negb In]; intuition congruence. }
  rewrite A, C. clear A C.
  assert (B : In d (match get (t "assembly.no_cut") h, get (t "operation.kind") h with
   | Some (JBool true), Some (JStr s) => if teq s (t "subtract") then [mkdiag LWarning (t "assembly.no_cut") None] else []
   | _, _ => []
   end) <-> d = mkdiag LWarning (t "assembly.no_cut") None /\ get (t "assembly.no_cut") h = Some (JBool true) /\ get (t "operation.kind") h = Some (JStr (t "subtract"))).
  { destruct (get (t "assembly.no_cut") h) as [[|[]| | | | | |]|]; try (cbn [In]; intuition congruence).
    destruct (get (t "operation.kind") h) as [[| | | |s| | |]|]; try (cbn [In]; intuition congruence).
    destruct (teq s (t "subtract")) eqn:Q; [apply teq_spec in Q; subst; cbn [In]; intuition congruence|]. cbn [In]. split; [intros []|]. intros (_ & _ & [= ->]). rewrite teq_refl in Q. discriminate. }
  rewrite B. tauto.
Qed.
End H.
