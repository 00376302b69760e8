From Coq Require Import ZArith String List Bool Lia.
From Verif Require Import Dict Json_Model Meta_Model Meta_Proofs Plan_Model Plan_Spec Plan_Proofs.
Import ListNotations.
Open Scope list_scope.

Lemma nodup_put k v d : NoDup (keys d) -> NoDup (keys (put k v d)).
Proof. apply (nodup_set _ teq_spec). Qed.
Lemma nodup_opt k o d : NoDup (keys d) -> NoDup (keys (opt_text k o d)).
Proof. intros N. destruct o as [[|c s]|]; cbn [opt_text]; auto. now apply nodup_put. Qed.
Lemma nodup_entry o : NoDup (keys (manifest_entry o)).
Proof.
  unfold manifest_entry. cbv zeta.
  assert (B : NoDup (keys (put (t "path") (JStr (o_path o)) (opt_text (t "timestamp") (o_time o) (opt_text (t "backend") (o_backend o) [(t "plan", JStr (o_plan o)); (t "status", JStr (o_status o))]))))).
  { apply nodup_put, nodup_opt, nodup_opt. repeat constructor; cbn; intros X; repeat destruct X as [X|X]; discriminate || exact X. }
  revert B. generalize (put (t "path") (JStr (o_path o)) (opt_text (t "timestamp") (o_time o) (opt_text (t "backend") (o_backend o) [(t "plan", JStr (o_plan o)); (t "status", JStr (o_status o))]))).
  intros e B. destruct (o_metrics o), (o_artifacts o), (o_summary o); repeat (apply nodup_put || apply nodup_opt); exact B.
Qed.
Lemma get_opt k k' o d : get k (opt_text k' o d) = match o with Some ((_ :: _) as s) => if teq k k' then Some (JStr s) else get k d | _ => get k d end.
Proof. destruct o as [[|c s]|]; cbn [opt_text]; auto. apply get_put. Qed.
Definition entry_get (o : outcome) (k : text) : option json :=
  let no := @None json in
  let txt (o : option text) := match o with Some ((_ :: _) as s) => Some (JStr s) | _ => no end in
  if teq k (t "plan") then Some (JStr (o_plan o)) else if teq k (t "status") then Some (JStr (o_status o)) else
  if teq k (t "path") then Some (JStr (o_path o)) else if teq k (t "backend") then txt (o_backend o) else
  if teq k (t "timestamp") then txt (o_time o) else if teq k (t "notes") then txt (o_notes o) else
  if teq k (t "metrics") then match o_metrics o with [] => no | m => Some (JObj m) end else
  if teq k (t "artifacts") then match o_artifacts o with [] => no | m => Some (JList m) end else
  if teq k (t "summary") then match o_summary o with [] => no | m => Some (JObj m) end else no.
Lemma get_entry o k : get k (manifest_entry o) = entry_get o k.
Proof.
  unfold manifest_entry. cbv zeta.
  assert (P : forall e, get k (match o_summary o with [] => e | (_ :: _) as s => put (t "summary") (JObj s) e end) =
    match o_summary o with [] => get k e | s => if teq k (t "summary") then Some (JObj s) else get k e end). { intros. destruct (o_summary o); auto. apply get_put. }
  rewrite P. clear P. rewrite get_opt.
  assert (P : forall e, get k (match o_artifacts o with [] => e | (_ :: _) as s => put (t "artifacts") (JList s) e end) =
    match o_artifacts o with [] => get k e | s => if teq k (t "artifacts") then Some (JList s) else get k e end). { intros. destruct (o_artifacts o); auto. apply get_put. }
  rewrite P. clear P.
  assert (P : forall e, get k (match o_metrics o with [] => e | (_ :: _) as s => put (t "metrics") (JObj s) e end) =
    match o_metrics o with [] => get k e | s => if teq k (t "metrics") then Some (JObj s) else get k e end). { intros. destruct (o_metrics o); auto. apply get_put. }
  rewrite P. clear P. rewrite get_put, !get_opt. unfold get. cbn [dget]. unfold entry_get. cbv zeta.
  destruct (teq k (t "plan")) eqn:E1. { apply teq_spec in E1. subst k. destruct (o_metrics o), (o_artifacts o), (o_summary o), (o_backend o) as [[|? ?]|], (o_time o) as [[|? ?]|], (o_notes o) as [[|? ?]|]; reflexivity. }
  destruct (teq k (t "status")) eqn:E2. { apply teq_spec in E2. subst k. destruct (o_metrics o), (o_artifacts o), (o_summary o), (o_backend o) as [[|? ?]|], (o_time o) as [[|? ?]|], (o_notes o) as [[|? ?]|]; reflexivity. }
  destruct (teq k (t "path")) eqn:E3. { apply teq_spec in E3. subst k. destruct (o_metrics o), (o_artifacts o), (o_summary o), (o_notes o) as [[|? ?]|]; reflexivity. }
  destruct (teq k (t "backend")) eqn:E4. { apply teq_spec in E4. subst k. destruct (o_metrics o), (o_artifacts o), (o_summary o), (o_backend o) as [[|? ?]|], (o_time o) as [[|? ?]|], (o_notes o) as [[|? ?]|]; reflexivity. }
  destruct (teq k (t "timestamp")) eqn:E5. { apply teq_spec in E5. subst k. destruct (o_metrics o), (o_artifacts o), (o_summary o), (o_backend o) as [[|? ?]|], (o_time o) as [[|? ?]|], (o_notes o) as [[|? ?]|]; reflexivity. }
  destruct (teq k (t "notes")) eqn:E6. { apply teq_spec in E6. subst k. destruct (o_metrics o), (o_artifacts o), (o_summary o), (o_backend o) as [[|? ?]|], (o_time o) as [[|? ?]|], (o_notes o) as [[|? ?]|]; reflexivity. }
  destruct (teq k (t "metrics")) eqn:E7. { apply teq_spec in E7. subst k. destruct (o_metrics o), (o_artifacts o), (o_summary o), (o_backend o) as [[|? ?]|], (o_time o) as [[|? ?]|], (o_notes o) as [[|? ?]|]; reflexivity. }
  destruct (teq k (t "artifacts")) eqn:E8. { apply teq_spec in E8. subst k. destruct (o_metrics o), (o_artifacts o), (o_summary o), (o_backend o) as [[|? ?]|], (o_time o) as [[|? ?]|], (o_notes o) as [[|? ?]|]; reflexivity. }
  destruct (teq k (t "summary")) eqn:E9; destruct (o_metrics o), (o_artifacts o), (o_summary o), (o_backend o) as [[|? ?]|], (o_time o) as [[|? ?]|], (o_notes o) as [[|? ?]|]; reflexivity.
Qed.
Lemma told_iff o k v : told o k v <-> entry_get o k = Some v.
Proof.
  split.
  - intros [ | | |s E N|s E N|s E N|N|N|N]; unfold entry_get; cbv zeta beta;
      repeat match goal with |- context [teq (t ?a) (t ?b)] => let e := eval vm_compute in (teq (t a) (t b)) in change (teq (t a) (t b)) with e; cbv iota end; try reflexivity;
      try (rewrite E; destruct s; [congruence|reflexivity]);
      [destruct (o_metrics o)|destruct (o_artifacts o)|destruct (o_summary o)]; congruence.
  - unfold entry_get. cbv zeta beta.
    repeat match goal with |- context [teq k (t ?b)] => let E := fresh "E" in destruct (teq k (t b)) eqn:E; [apply teq_spec in E; subst k|clear E] end; intros X.
    all: try (apply some_inj in X; subst v; constructor).
    all: try discriminate.
    + destruct (o_backend o) as [[|c s]|] eqn:E; try discriminate. apply some_inj in X. subst v. apply T_backend; [exact E|discriminate].
    + destruct (o_time o) as [[|c s]|] eqn:E; try discriminate. apply some_inj in X. subst v. apply T_time; [exact E|discriminate].
    + destruct (o_notes o) as [[|c s]|] eqn:E; try discriminate. apply some_inj in X. subst v. apply T_notes; [exact E|discriminate].
    + destruct (o_metrics o) as [|c s] eqn:E; try discriminate. apply some_inj in X. subst v. rewrite <- E. apply T_metrics. congruence.
    + destruct (o_artifacts o) as [|c s] eqn:E; try discriminate. apply some_inj in X. subst v. rewrite <- E. apply T_artifacts. congruence.
    + destruct (o_summary o) as [|c s] eqn:E; try discriminate. apply some_inj in X. subst v. rewrite <- E. apply T_summary. congruence.
Qed.
Lemma fields o k v : get k (manifest_entry o) = Some v <-> told o k v.
Proof. rewrite get_entry. symmetry. apply told_iff. Qed.
Lemma get_update e : forall d k, NoDup (keys e) -> get k (update d e) = match get k e with Some v => Some v | None => get k d end.
Proof.
  induction e as [|[k' v'] e IH]; intros d k N; [reflexivity|]. unfold keys in N. cbn [map fst] in N. apply NoDup_cons_iff in N as [NI N].
  unfold update in *. cbn [fold_left fst snd]. rewrite IH by exact N. rewrite get_put. unfold get at 3. cbn [dget]. destruct (teq k k') eqn:E.
  - apply teq_spec in E. subst k'. replace (get k e) with (@None json); [reflexivity|]. symmetry. apply (dget_none _ teq_spec). exact NI.
  - reflexivity.
Qed.
Lemma updated o x : refreshed o x (update x (manifest_entry o)).
Proof.
  intros k v. rewrite get_update by apply nodup_entry. destruct (get k (manifest_entry o)) as [w|] eqn:E.
  - pose proof (proj1 (fields _ _ _) E) as T. split.
    + intros X. apply some_inj in X. subst w. auto.
    + intros [T'|[N _]]; [|exfalso; exact (N _ T)]. apply fields in T'. congruence.
  - assert (N : forall w, ~ told o k w) by (intros w T; apply fields in T; congruence). split; [auto|]. intros [T|[_ X]]; [exfalso; exact (N _ T)|exact X].
Qed.
Lemma about_iff p e : about p e = true <-> get (t "plan") e = Some (JStr p).
Proof.
  unfold about. destruct (get (t "plan") e) as [[]|]; split; intros X; try discriminate.
  - apply teq_spec in X. congruence.
  - apply some_inj in X. injection X as ->. apply teq_refl.
Qed.
Lemma about_update o x : about (o_plan o) (update x (manifest_entry o)) = true.
Proof. apply about_iff, updated. left. constructor. Qed.
Lemma about_entry o : about (o_plan o) (manifest_entry o) = true.
Proof. apply about_iff, fields. constructor. Qed.
Lemma about_other p q e : about p e = true -> p <> q -> about q e = false.
Proof. intros A N. destruct (about q e) eqn:B; [|reflexivity]. apply about_iff in A, B. congruence. Qed.
Lemma update_first_none p e l : update_first p e l = None -> filter (about p) l = [].
Proof.
  induction l as [|x l IH]; [reflexivity|]. cbn [update_first filter]. destruct (about p x); [discriminate|]. destruct (update_first p e l); [discriminate|]. auto.
Qed.
Lemma update_first_some p e l : forall l', update_first p e l = Some l' -> exists a x b, l = a ++ x :: b /\ l' = a ++ update x e :: b /\ about p x = true /\ filter (about p) a = [].
Proof.
  induction l as [|x l IH]; cbn [update_first]; [discriminate|]. intros l'. destruct (about p x) eqn:A.
  - intros X. apply some_inj in X. subst l'. exists [], x, l. auto.
  - destruct (update_first p e l) as [l2|]; [|discriminate]. cbn [option_map]. intros X. apply some_inj in X. subst l'.
    destruct (IH _ eq_refl) as (a & y & b & -> & -> & B & C). exists (x :: a), y, b. cbn [filter]. rewrite A. auto.
Qed.
Lemma record_shape o l : (entries_of (o_plan o) l = [] /\ record_result o l = l ++ [manifest_entry o]) \/
  exists a x b, l = a ++ x :: b /\ record_result o l = a ++ update x (manifest_entry o) :: b /\ about (o_plan o) x = true /\ entries_of (o_plan o) a = [].
Proof.
  unfold record_result. destruct (update_first (o_plan o) (manifest_entry o) l) as [l'|] eqn:E.
  - right. apply update_first_some in E as (a & x & b & A & B & C & D). exists a, x, b. auto.
  - left. split; [apply update_first_none in E; exact E|reflexivity].
Qed.
Lemma record_other o l p : p <> o_plan o -> entries_of p (record_result o l) = entries_of p l.
Proof.
  intros N. unfold entries_of. destruct (record_shape o l) as [[_ ->]|(a & x & b & -> & -> & A & _)].
  - rewrite filter_app. cbn [filter]. rewrite (about_other _ p _ (about_entry o)) by congruence. apply app_nil_r.
  - rewrite !filter_app. cbn [filter]. rewrite (about_other _ p _ (about_update o x)), (about_other _ p _ A) by congruence. reflexivity.
Qed.
Lemma record_own o l : entries_of (o_plan o) (record_result o l) =
  match entries_of (o_plan o) l with [] => [manifest_entry o] | x :: r => update x (manifest_entry o) :: r end.
Proof.
  destruct (record_shape o l) as [[E ->]|(a & x & b & -> & -> & A & B)]; unfold entries_of in *.
  - rewrite filter_app, E. cbn [filter]. rewrite about_entry. reflexivity.
  - rewrite !filter_app, B. cbn [filter]. rewrite about_update, A. reflexivity.
Qed.
Lemma record_places o l : exists a b, (l = a ++ b /\ b = [] /\ record_result o l = a ++ [manifest_entry o]) \/
  (exists x, l = a ++ x :: b /\ about (o_plan o) x = true /\ record_result o l = a ++ update x (manifest_entry o) :: b).
Proof.
  destruct (record_shape o l) as [[_ E]|(a & x & b & A & E & B & _)].
  - exists l, []. left. rewrite app_nil_r. auto.
  - exists a, b. right. exists x. auto.
Qed.
Lemma analyses_snoc os o l : analyses (os ++ [o]) l = record_result o (analyses os l).
Proof. unfold analyses. rewrite fold_left_app. reflexivity. Qed.
Lemma analyses_other os : forall l p, (forall o, In o os -> p <> o_plan o) -> entries_of p (analyses os l) = entries_of p l.
Proof.
  induction os as [|o os IH]; intros l p N; [reflexivity|]. change (analyses (o :: os) l) with (analyses os (record_result o l)).
  rewrite IH by (intros; apply N; right; assumption). apply record_other, N. now left.
Qed.
Lemma analyses_once os : forall l p, (length (entries_of p l) <= 1)%nat -> (length (entries_of p (analyses os l)) <= 1)%nat.
Proof.
  induction os as [|o os IH]; intros l p L; [exact L|]. change (analyses (o :: os) l) with (analyses os (record_result o l)). apply IH.
  destruct (teq p (o_plan o)) eqn:E.
  - apply teq_spec in E. subst p. rewrite record_own. destruct (entries_of (o_plan o) l) as [|x [|? ?]]; cbn [length] in *; lia.
  - rewrite record_other; [exact L|]. intros X. rewrite X, teq_refl in E. discriminate.
Qed.
Lemma analyses_last before o after l : (forall o', In o' after -> o_plan o' <> o_plan o) ->
  exists e r, entries_of (o_plan o) (analyses (before ++ o :: after) l) = e :: r /\ r = tl (entries_of (o_plan o) (analyses before l)) /\
    refreshed o (hd [] (entries_of (o_plan o) (analyses before l))) e.
Proof.
  intros N. replace (analyses (before ++ o :: after) l) with (analyses after (record_result o (analyses before l))) by (unfold analyses; rewrite fold_left_app; reflexivity).
  rewrite analyses_other by (intros o' I X; exact (N o' I (eq_sym X))). rewrite record_own. destruct (entries_of (o_plan o) (analyses before l)) as [|x r].
  - exists (manifest_entry o), []. split; [reflexivity|]. split; [reflexivity|]. cbn [hd]. intros k v. rewrite fields. split; [auto|]. intros [T|[_ X]]; [exact T|discriminate].
  - eexists _, r. split; [reflexivity|]. split; [reflexivity|]. apply updated.
Qed.
Lemma names_iff p e : names p e = true <-> get (t "id") e = Some (JStr p).
Proof.
  unfold names. destruct (get (t "id") e) as [[]|]; split; intros X; try discriminate.
  - apply teq_spec in X. congruence.
  - apply some_inj in X. injection X as ->. apply teq_refl.
Qed.
