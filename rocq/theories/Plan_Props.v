(** Validating analysis plans and results, and keeping the results of a package. *)
From Coq Require Import ZArith String List Bool Lia.
From Verif Require Import Dict Json_Model Meta_Model Meta_Proofs Meta_Props Plan_Model Plan_Spec Plan_Proofs Plan_Proofs2 Plan_Proofs3 Plan_Proofs4.
Import ListNotations.
Open Scope list_scope.

(** ** C325: validating a plan *)
Theorem c325_report : forall H d errors warnings, validate_plan H d = Ok (errors, warnings) ->
  (forall e, In e errors <-> plan_error H d e) /\ (forall w, In w warnings <-> plan_warning d w).
Proof. intros H d es ws E. exact (plan_says H d _ E). Qed.
Print Assumptions c325_report.
Theorem c325_valid : forall H d, (exists warnings, validate_plan H d = Ok ([], warnings)) <-> (forall e, ~ plan_error H d e) /\ ~ plan_unhashable d.
Proof.
  intros H d. split.
  - intros [ws E]. split.
    + intros e P. apply (proj1 (c325_report _ _ _ _ E)) in P. exact P.
    + intros U. assert (X : validate_plan H d = Err TypeErr) by (apply plan_raises; auto). congruence.
  - intros [P U]. destruct (validate_plan H d) as [[es ws]|e] eqn:E.
    + destruct es as [|e es]; [exists ws; reflexivity|]. exfalso. apply (P e). apply (proj1 (c325_report _ _ _ _ E)). now left.
    + exfalso. apply plan_raises in E as [X _]. exact (U X).
Qed.
Print Assumptions c325_valid.
Theorem c325_raises : forall H d e, validate_plan H d = Err e <-> plan_unhashable d /\ e = TypeErr.
Proof. exact plan_raises. Qed.
Print Assumptions c325_raises.
Definition a_plan : dict :=
  [(t "id", JStr (t "p1")); (t "kind", JStr (t "structural")); (t "backend", JStr (t "calculix"));
   (t "acceptance", JObj [(t "stress", JObj [(t "comparison", JStr (t "=<"))])]); (t "loads", JList [JObj [(t "type", JStr (t "force")); (t "id", JStr (t "l1"))]]); (t "colour", JBool true)].
Example c325_nonvacuous : validate_plan demo a_plan = Ok (
  [(t "acceptance.stress", NoField (t "limit")); (t "acceptance.stress.comparison", NotAllowed (JStr (t "=<")))],
  [(t "loads[0]", NoRegion); ([], NoField (t "materials")); (t "colour", Unknown)]).
Proof. vm_compute. reflexivity. Qed.
Example c325_nonvacuous_unhashable : validate_plan demo (put (t "kind") (JList []) a_plan) = Err TypeErr.
Proof. vm_compute. reflexivity. Qed.

(** ** C326: validating a result *)
Theorem c326_report : forall H d errors warnings, validate_result H d = Ok (errors, warnings) ->
  (forall e, In e errors <-> result_error H d e) /\ (forall w, In w warnings <-> result_warning d w).
Proof. intros H d es ws E. exact (result_says H d _ E). Qed.
Print Assumptions c326_report.
Theorem c326_raises : forall H d e, validate_result H d = Err e <-> (result_started d /\ odd_choice (t "status") d) /\ e = TypeErr.
Proof. exact result_raises. Qed.
Print Assumptions c326_raises.
Example c326_nonvacuous : validate_result demo [(t "plan_id", JStr (t "p1")); (t "status", JStr (t "ok")); (t "acceptance_results", JObj [(t "stress", JObj [(t "value", JInt 1)])]); (t "artifacts", JList [JObj []])] =
  Ok ([(t "status", NotAllowed (JStr (t "ok")))], [(t "acceptance_results.stress", NoField (t "passed")); (t "artifacts[0]", NoField (t "path"))]).
Proof. vm_compute. reflexivity. Qed.

(** ** C327: the results of a package *)
(** recording a run leaves the entries of every other plan as they are, in their order *)
Theorem c327_others : forall o results p, p <> o_plan o -> entries_of p (record_result o results) = entries_of p results.
Proof. exact record_other. Qed.
Print Assumptions c327_others.
(** and touches one place only: its plan's entry there, or a new one at the end *)
Theorem c327_one_place : forall o results, exists a b,
  (results = a /\ entries_of (o_plan o) a = [] /\ exists e, record_result o results = a ++ [e] /\ refreshed o [] e) \/
  (exists x e, results = a ++ x :: b /\ entries_of (o_plan o) a = [] /\ about (o_plan o) x = true /\ record_result o results = a ++ e :: b /\ refreshed o x e).
Proof.
  intros o l. destruct (record_shape o l) as [[E S]|(a & x & b & A & S & B & C)].
  - exists l, []. left. split; [reflexivity|]. split; [exact E|]. exists (manifest_entry o). split; [exact S|]. intros k v. rewrite fields. split; [auto|]. intros [T|[_ X]]; [exact T|discriminate].
  - exists a, b. right. exists x, (update x (manifest_entry o)). repeat (split; [assumption|]). apply updated.
Qed.
Print Assumptions c327_one_place.
(** after any history the entry of a plan tells its last run *)
Theorem c327_last : forall before o after results, (forall o', In o' after -> o_plan o' <> o_plan o) ->
  exists e r, entries_of (o_plan o) (analyses (before ++ o :: after) results) = e :: r /\ get (t "plan") e = Some (JStr (o_plan o)) /\
    get (t "status") e = Some (JStr (o_status o)) /\ get (t "path") e = Some (JStr (o_path o)) /\ forall k v, told o k v -> get k e = Some v.
Proof.
  intros before o after l N. destruct (analyses_last before o after l N) as (e & r & E & _ & R). exists e, r. split; [exact E|].
  assert (T : forall k v, told o k v -> get k e = Some v) by (intros k v X; apply R; auto). repeat split; try exact T; apply T; constructor.
Qed.
Print Assumptions c327_last.
(** a plan never gets a second entry *)
Theorem c327_once : forall os results p, (length (entries_of p results) <= 1)%nat -> (length (entries_of p (analyses os results)) <= 1)%nat.
Proof. exact analyses_once. Qed.
Print Assumptions c327_once.
Theorem c327_fresh : forall os p, (length (entries_of p (analyses os [])) = 1)%nat <-> exists o, In o os /\ o_plan o = p.
Proof.
  intros os p. split.
  - intros L. destruct (existsb (fun o => teq (o_plan o) p) os) eqn:X.
    + apply existsb_exists in X as (o & I & T). apply teq_spec in T. eauto.
    + exfalso. rewrite analyses_other in L; [discriminate|]. intros o I E. assert (Y : existsb (fun o => teq (o_plan o) p) os = true) by (apply existsb_exists; exists o; rewrite E, teq_refl; auto). congruence.
  - intros (o & I & <-). apply in_split in I as (a & b & ->). pose proof (analyses_once (a ++ o :: b) [] (o_plan o) (Nat.le_0_l 1)) as U.
    assert (Y : entries_of (o_plan o) (analyses (a ++ o :: b) []) <> []).
    { replace (analyses (a ++ o :: b) []) with (analyses b (record_result o (analyses a []))) by (unfold analyses; rewrite fold_left_app; reflexivity).
      generalize (analyses a []). intros l. assert (Z : forall b l, entries_of (o_plan o) l <> [] -> entries_of (o_plan o) (analyses b l) <> []).
      { clear. induction b as [|o' b IH]; intros l N; [exact N|]. change (analyses (o' :: b) l) with (analyses b (record_result o' l)). apply IH.
        destruct (teq (o_plan o) (o_plan o')) eqn:T; [apply teq_spec in T; rewrite T in *; rewrite record_own; destruct (entries_of (o_plan o') l); discriminate|].
        rewrite record_other; [exact N|]. intros X. rewrite X, teq_refl in T. discriminate. }
      apply Z. rewrite record_own. destruct (entries_of (o_plan o) l); discriminate. }
    destruct (entries_of (o_plan o) (analyses (a ++ o :: b) [])) as [|e [|]]; cbn [length] in *; congruence || lia.
Qed.
Print Assumptions c327_fresh.
(** an entry for the plan itself is added once *)
Theorem c327_plans : forall p entry plans, get (t "id") entry = Some (JStr p) ->
  let after := ensure_plan p entry plans in
  (exists e, In e after /\ get (t "id") e = Some (JStr p)) /\ (exists new, after = plans ++ new /\ (new = [] <-> exists e, In e plans /\ get (t "id") e = Some (JStr p))) /\
  forall entry', ensure_plan p entry' after = after.
Proof.
  intros p entry l G. cbv zeta. assert (I : exists e, In e (ensure_plan p entry l) /\ get (t "id") e = Some (JStr p)).
  { unfold ensure_plan. destruct (existsb (names p) l) eqn:E.
    - apply existsb_exists in E as (e & I & T). apply names_iff in T. eauto.
    - exists entry. split; [apply in_or_app; right; now left|exact G]. }
  split; [exact I|]. split.
  - unfold ensure_plan. destruct (existsb (names p) l) eqn:E.
    + exists []. rewrite app_nil_r. split; [reflexivity|]. split; [|reflexivity]. intros _. apply existsb_exists in E as (e & I' & T). apply names_iff in T. eauto.
    + exists [entry]. split; [reflexivity|]. split; [discriminate|]. intros (e & I' & T). exfalso. assert (X : existsb (names p) l = true) by (apply existsb_exists; exists e; split; [exact I'|apply names_iff, T]). congruence.
  - intros entry'. destruct I as (e & I & T). unfold ensure_plan at 1. replace (existsb (names p) (ensure_plan p entry l)) with true; [reflexivity|].
    symmetry. apply existsb_exists. exists e. split; [exact I|apply names_iff, T].
Qed.
Print Assumptions c327_plans.
Definition run_of (p s : string) : outcome := mkoutcome (t p) (t s) None None (t "r.json") [] [] None [].
Example c327_nonvacuous : let l := analyses [run_of "a" "failed"; run_of "b" "passed"; run_of "a" "passed"] [] in
  map (fun e => (get (t "plan") e, get (t "status") e)) l = [(Some (JStr (t "a")), Some (JStr (t "passed"))); (Some (JStr (t "b")), Some (JStr (t "passed")))].
Proof. vm_compute. reflexivity. Qed.

(** ** C328: what a run has nothing to say about stays from an earlier run *)
Theorem c328_stale_refuted : forall first second, o_plan second = o_plan first -> o_metrics first <> [] -> o_metrics second = [] ->
  exists e, analyses [first; second] [] = [e] /\ get (t "status") e = Some (JStr (o_status second)) /\ get (t "metrics") e = Some (JObj (o_metrics first)).
Proof.
  intros f s P M M'. unfold analyses. cbn [fold_left]. change (record_result f []) with [manifest_entry f].
  unfold record_result. cbn [update_first]. rewrite P, about_entry. eexists. split; [reflexivity|]. split.
  - apply updated. left. constructor.
  - apply updated. right. split.
    + intros w T. apply told_iff in T. unfold entry_get in T. cbv zeta beta in T. change (match o_metrics s with [] => None | m => Some (JObj m) end = Some w) in T. rewrite M' in T. discriminate.
    + apply fields. now constructor.
Qed.
Print Assumptions c328_stale_refuted.
