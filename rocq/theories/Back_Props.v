(** C359: the registry of analysis back ends. *)
From Coq Require Import ZArith String List Bool Sorting.Sorted Permutation.
From Verif Require Import Dict Json_Model Back_Model.
From Verif Require Json_Proofs.
Import ListNotations.
Open Scope list_scope.

Lemma teq_spec a b : teq a b = true <-> a = b.
Proof. unfold teq. destruct (list_eq_dec Z.eq_dec a b); split; congruence. Qed.

Section C359.
Context {C : Type} (adapter : C -> bool) (lower : text -> text).

Lemma run_snoc calls m c : run adapter lower (calls ++ [(m, c)]) = step adapter lower (run adapter lower calls) (m, c).
Proof. unfold run. rewrite fold_left_app. reflexivity. Qed.

Lemma step_get r m c n : get_backend lower n (step adapter lower r (m, c)) =
  if adapter c && teq (lower n) (lower m) then Some c else get_backend lower n r.
Proof.
  unfold step, register, get_backend. cbn. destruct (adapter c); cbn; [|reflexivity].
  rewrite (dget_set _ teq_spec). reflexivity.
Qed.

Lemma run_nodup calls : NoDup (map fst (run adapter lower calls)).
Proof.
  induction calls as [|[m c] calls IH] using rev_ind; [constructor|]. rewrite run_snoc. unfold step, register. cbn.
  destruct (adapter c); [|exact IH]. apply (nodup_set _ teq_spec). exact IH.
Qed.

Lemma run_keys calls k : In k (map fst (run adapter lower calls)) <-> exists m c, In (m, c) calls /\ adapter c = true /\ lower m = k.
Proof.
  induction calls as [|[m c] calls IH] using rev_ind; [cbn; split; [tauto|intros (m & c & [] & _)]|].
  rewrite run_snoc. unfold step, register. cbn. destruct (adapter c) eqn:A.
  - change (map fst ?d) with (keys d). rewrite (in_keys_set _ teq_spec). unfold keys. rewrite IH. split.
    + intros [->|(m' & c' & I & X)]; [exists m, c; split; [apply in_or_app; right; left; auto|auto]|].
      exists m', c'. split; [apply in_or_app; auto|auto].
    + intros (m' & c' & I & X & Y). apply in_app_or in I as [I|[I|[]]]; [right; eauto|inversion I; subst; auto].
  - rewrite IH. split; intros (m' & c' & I & X & Y).
    + exists m', c'. split; [apply in_or_app; auto|auto].
    + apply in_app_or in I as [I|[I|[]]]; [eauto|inversion I; subst; congruence].
Qed.

(** The class found is the one registered last under the name, in any spelling. *)
Lemma found calls n c : get_backend lower n (run adapter lower calls) = Some c <->
  exists a m b, calls = a ++ (m, c) :: b /\ adapter c = true /\ lower m = lower n /\
    forall m' c', In (m', c') b -> adapter c' = true -> lower m' <> lower n.
Proof.
  induction calls as [|[m c0] calls IH] using rev_ind.
  - cbn. split; [discriminate|]. intros (a & m & b & E & _). destruct a; discriminate.
  - rewrite run_snoc, step_get. destruct (adapter c0 && teq (lower n) (lower m)) eqn:Q.
    + apply andb_true_iff in Q as [A Q]. apply teq_spec in Q. split.
      * intro E. inversion E; subst. exists calls, m, []. repeat split; auto; try (intros ? ? []).
      * intros (a & m1 & b & E & A1 & L & N). destruct b as [|x b] using rev_ind.
        -- apply app_inj_tail in E as [_ E]. inversion E; subst. reflexivity.
        -- rewrite app_comm_cons, app_assoc in E. apply app_inj_tail in E as [_ E]. subst x.
           exfalso. apply (N m c0); [apply in_or_app; right; left; auto|auto|auto].
    + rewrite IH. split.
      * intros (a & m1 & b & -> & A & L & N). exists a, m1, (b ++ [(m, c0)]). split; [rewrite <- app_assoc; reflexivity|].
        split; [auto|]. split; [auto|]. intros m' c' I A' L'. apply in_app_or in I as [I|[I|[]]]; [exact (N _ _ I A' L')|].
        inversion I; subst. rewrite A' in Q. cbn in Q. rewrite (proj2 (teq_spec _ _) (eq_sym L')) in Q. discriminate.
      * intros (a & m1 & b & E & A1 & L & N). destruct b as [|x b _] using rev_ind.
        -- apply app_inj_tail in E as [_ E]. inversion E; subst. rewrite A1 in Q. cbn in Q.
           rewrite (proj2 (teq_spec _ _) (eq_sym L)) in Q. discriminate.
        -- rewrite app_comm_cons, app_assoc in E. apply app_inj_tail in E as [-> _].
           exists a, m1, b. split; [auto|]. split; [auto|]. split; [auto|]. intros m' c' I. apply N. apply in_or_app; auto.
Qed.

Lemma insert_sorted {A} (kv : text * A) l : StronglySorted (fun a b => tle (fst a) (fst b) = true) l ->
  StronglySorted (fun a b => tle (fst a) (fst b) = true) (insert kv l).
Proof.
  induction 1 as [|x l S IH F]; cbn; [repeat constructor|].
  destruct (tle (fst kv) (fst x)) eqn:E.
  - constructor; [constructor; auto|]. constructor; [auto|]. rewrite Forall_forall in *. intros y I.
    exact (Json_Proofs.tle_trans _ _ _ E (F y I)).
  - constructor; [exact IH|]. rewrite Forall_forall in *. intros y I.
    assert (y = kv \/ In y l) as [->|J].
    { pose proof (Permutation_in _ (Permutation_sym (Json_Proofs.insert_perm kv l)) I) as [J|J]; auto. }
    + destruct (Json_Proofs.tle_total (fst kv) (fst x)); congruence.
    + auto.
Qed.

Lemma names_sorted calls : StronglySorted (fun a b => tle a b = true /\ a <> b) (available (run adapter lower calls)).
Proof.
  unfold available.
  assert (N : NoDup (map fst (sort (run adapter lower calls)))).
  { eapply Permutation_NoDup; [apply Permutation_map, Json_Proofs.sort_perm|apply run_nodup]. }
  assert (S : StronglySorted (fun a b => tle (fst a) (fst b) = true) (sort (run adapter lower calls))).
  { unfold sort. generalize (run adapter lower calls). intro l. induction l; cbn; [constructor|apply insert_sorted; auto]. }
  revert N S. generalize (sort (run adapter lower calls)). intro l. induction l as [|x l IH]; cbn; intros N S; [constructor|].
  inversion N; subst. inversion S; subst. constructor; [auto|]. rewrite Forall_forall in *. intros k I.
  apply in_map_iff in I as (y & <- & J). split; [auto|]. intro E. apply H1. rewrite E. apply in_map. exact J.
Qed.
End C359.

(** C359: the class found is the one registered last under the name, in any spelling;
    the names are sorted, without repetitions, and complete. *)
Theorem c359_found {C} (adapter : C -> bool) lower calls n c : get_backend lower n (run adapter lower calls) = Some c <->
  exists a m b, calls = a ++ (m, c) :: b /\ adapter c = true /\ lower m = lower n /\
    forall m' c', In (m', c') b -> adapter c' = true -> lower m' <> lower n.
Proof. exact (found adapter lower calls n c). Qed.
Print Assumptions c359_found.
Theorem c359_names {C} (adapter : C -> bool) lower calls :
  StronglySorted (fun a b => tle a b = true /\ a <> b) (available (run adapter lower calls)) /\
  forall k, In k (available (run adapter lower calls)) <-> exists m c, In (m, c) calls /\ adapter c = true /\ lower m = k.
Proof.
  split; [apply names_sorted|]. intro k. unfold available. rewrite <- run_keys.
  split; apply Permutation_in; [symmetry|]; apply Permutation_map, Json_Proofs.sort_perm.
Qed.
Print Assumptions c359_names.
Theorem c359_refused {C} (adapter : C -> bool) lower n (c : C) r : register adapter lower n c r = None <-> adapter c = false.
Proof. unfold register. destruct (adapter c); split; congruence. Qed.
Print Assumptions c359_refused.
Example c359_nonvacuous : let r := run (fun _ => true) (fun s => s) [(t "yapcad", 1); (t "fenics", 2); (t "yapcad", 3)] in
  get_backend (fun s => s) (t "yapcad") r = Some 3 /\ available r = [t "fenics"; t "yapcad"].
Proof. split; reflexivity. Qed.
