(** Acceptance criteria: when an analysis passes, fails or is pending. *)
From Coq Require Import Reals ZArith String List Bool Lra Permutation.
From Verif Require Import Dict Json_Model Meta_Model Meta_Proofs Xform_Model Xform_Proofs Accept_Model Accept_Spec Accept_Proofs.
Import ListNotations.
Open Scope R_scope.
Open Scope list_scope.

(** ** C320: the native back end *)
Theorem c320_failed : forall m l, native_status m l = Failed <-> exists k r, In (k, r) l /\ broken native_names r_limit all_comparisons m k r.
Proof.
  intros m [|x l]; [|exact (proj2 (native_loop_iff m (x :: l)))]. split; [destruct m; discriminate|]. intros (k & r & [] & _).
Qed.
Print Assumptions c320_failed.
Theorem c320_pending : forall m l, native_status m l = Pending <-> m = [] /\ l = [].
Proof.
  intros m [|x l].
  - destruct m; cbn; split; auto; intros X; try discriminate; destruct X as [X _]; discriminate.
  - split; [intros X; exfalso; exact (proj1 (native_loop_iff m (x :: l)) X)|]. intros [_ X]. discriminate.
Qed.
Print Assumptions c320_pending.
Theorem c320_order : forall m l l', Permutation l l' -> native_status m l = native_status m l'.
Proof.
  intros m l l' P. assert (F : native_status m l = Failed <-> native_status m l' = Failed).
  { rewrite !c320_failed. split; intros (k & r & I & X); exists k, r; (split; [|exact X]); [exact (Permutation_in _ P I)|exact (Permutation_in _ (Permutation_sym P) I)]. }
  assert (Q : native_status m l = Pending <-> native_status m l' = Pending).
  { rewrite !c320_pending. split; intros [X Y]; (split; [exact X|]); subst; [apply Permutation_nil, P|apply Permutation_nil, Permutation_sym, P]. }
  destruct (native_status m l), (native_status m l'); try reflexivity; exfalso; intuition discriminate.
Qed.
Print Assumptions c320_order.
(** what "passed" guarantees *)
Theorem c320_sound : forall m l, native_status m l = Passed -> forall k r v lim c tol,
  In (k, r) l -> found m (native_names k) v -> r_limit r = Some lim -> asks r c tol -> In c all_comparisons -> holds tol v lim c.
Proof.
  intros m l P k r v lim c tol I F L A K. destruct (violated c tol v lim) eqn:V.
  - exfalso. apply violated_iff in V as [_ V]. assert (X : native_status m l = Failed). { apply c320_failed. exists k, r. split; [exact I|]. exists v, lim, c, tol. auto. }
    congruence.
  - apply asks_iff in A as [-> ->]. destruct (judge (comparison r) (tolerance r) v lim) as [b|] eqn:J.
    + pose proof J as J0. apply judge_iff in J as [_ J]. apply J. unfold judge, violated in *.
      repeat match type of J0 with context [teq ?a ?b] => destruct (teq a b) end; try discriminate; injection J0 as <-;
        match goal with |- Rleb ?a ?b = true => apply Rleb_true | |- Rltb ?a ?b = true => apply Rltb_true end;
        match type of V with Rltb ?a ?b = false => apply Rltb_false in V | Rleb ?a ?b = false => apply Rleb_false in V end; lra.
    + exfalso. revert K J. unfold judge, all_comparisons, orderings. cbn [In app]. intros K. repeat (destruct K as [<-|K]; [cbn; discriminate|]). destruct K.
Qed.
Print Assumptions c320_sound.
Definition mass_le (x : R) : criteria := [(t "mass", mkrule (Some x) None None None)].
Example c320_nonvacuous : native_status [(t "mass", 1)] (mass_le 2) = Passed /\ native_status [(t "mass", 3)] (mass_le 2) = Failed /\ native_status [] [] = Pending.
Proof.
  unfold native_status, mass_le, native_loop. cbn [r_limit].
  change (native_metric (t "mass") [(t "mass", 1)]) with (Some 1). change (native_metric (t "mass") [(t "mass", 3)]) with (Some 3).
  cbv iota. assert (A : violated (comparison (mkrule (Some 2) None None None)) (tolerance (mkrule (Some 2) None None None)) 1 2 = Rltb 2 1) by reflexivity.
  assert (B : violated (comparison (mkrule (Some 2) None None None)) (tolerance (mkrule (Some 2) None None None)) 3 2 = Rltb 2 3) by reflexivity.
  rewrite A, B. replace (Rltb 2 1) with false by (symmetry; apply Rltb_false; lra). replace (Rltb 2 3) with true by (symmetry; apply Rltb_true; lra). auto.
Qed.

(** ** C321: parts that pass without meeting the criteria *)
(** a criterion whose metric is missing, whose limit is under limit_mm, or whose comparison is unknown, is passed over *)
Theorem c321_passed_over_refuted : forall m k r,
  absent native_names m k \/ r_limit r = None \/ ~ In (comparison r) all_comparisons -> native_status m [(k, r)] = Passed.
Proof.
  intros m k r X. cbn [native_status native_loop]. destruct (native_metric k m) as [v|] eqn:F; [|reflexivity]. destruct (r_limit r) as [lim|]; [|reflexivity].
  destruct (violated (comparison r) (tolerance r) v lim) eqn:V; [|reflexivity]. exfalso. apply violated_iff in V as [V _].
  destruct X as [X|[X|X]]; [|discriminate|contradiction]. rewrite absent_none in X. apply (X v), native_found, F.
Qed.
Print Assumptions c321_passed_over_refuted.
(** calculix and fenics pass any value for "==" and "~=" *)
Theorem c321_equality_refuted : forall k v lim c tol, c = t "==" \/ c = t "~=" ->
  calculix_status [(k, v)] [(k, mkrule (Some lim) None (Some c) tol)] = Passed /\ fenics_status [(k, v)] [(k, mkrule (Some lim) None (Some c) tol)] = Passed.
Proof.
  intros k v lim c tol C. assert (M : metric k [(k, v)] = Some v) by (unfold metric; cbn [dget]; rewrite teq_refl; reflexivity).
  assert (V : violated4 c v lim = false) by (destruct C; subst c; reflexivity).
  cbn [calculix_status fenics_status calculix_loop fenics_loop]. unfold fenics_metric. rewrite M. cbn [orelse any_limit r_limit]. unfold comparison. cbn [r_comparison]. rewrite V. auto.
Qed.
Print Assumptions c321_equality_refuted.
(** fenics: the verdict depends on the order of the criteria *)
Theorem c321_order_refuted : exists m l l', Permutation l l' /\ fenics_status m l = Failed /\ fenics_status m l' = Pending.
Proof.
  exists [(t "mass", 3)], [(t "mass", mkrule (Some 2) None None None); (t "x", mkrule (Some 2) None None None)], [(t "x", mkrule (Some 2) None None None); (t "mass", mkrule (Some 2) None None None)].
  split; [apply perm_swap|]. split; [|reflexivity]. cbn [fenics_status fenics_loop]. change (fenics_metric (t "mass") [(t "mass", 3)]) with (Some 3). cbn [any_limit orelse r_limit].
  change (violated4 (comparison (mkrule (Some 2) None None None)) 3 2) with (Rltb 2 3). replace (Rltb 2 3) with true by (symmetry; apply Rltb_true; lra). reflexivity.
Qed.
Print Assumptions c321_order_refuted.

(** ** C322: the solver back ends *)
Theorem c322_calculix_failed : forall m l, calculix_status m l = Failed <-> exists k r, In (k, r) l /\ broken calculix_names limit_or_mm orderings m k r.
Proof.
  intros m [|x l]; [|exact (proj1 (calculix_loop_iff m (x :: l) false))]. split; [destruct m; discriminate|]. intros (k & r & [] & _).
Qed.
Print Assumptions c322_calculix_failed.
Theorem c322_calculix_passed : forall m l, l <> [] ->
  (calculix_status m l = Passed <-> forall k r, In (k, r) l -> ~ broken calculix_names limit_or_mm orderings m k r /\ ~ absent calculix_names m k).
Proof.
  intros m [|x l] N; [congruence|]. change (calculix_status m (x :: l)) with (calculix_loop m false (x :: l)). rewrite (proj2 (calculix_loop_iff m (x :: l) false)). tauto.
Qed.
Print Assumptions c322_calculix_passed.
Theorem c322_fenics_passed : forall m l, l <> [] ->
  (fenics_status m l = Passed <-> forall k r, In (k, r) l -> ~ broken fenics_names limit_or_mm orderings m k r /\ ~ absent fenics_names m k).
Proof.
  intros m [|x l] N; [congruence|]. exact (proj1 (fenics_loop_iff m (x :: l))).
Qed.
Print Assumptions c322_fenics_passed.
Theorem c322_fenics_failed : forall m l, fenics_status m l = Failed <-> exists before k r after, l = before ++ (k, r) :: after /\
  broken fenics_names limit_or_mm orderings m k r /\ forall k0 r0, In (k0, r0) before -> ~ absent fenics_names m k0.
Proof.
  intros m [|x l]; [|exact (proj2 (fenics_loop_iff m (x :: l)))]. split; [destruct m; discriminate|]. intros ([|y b] & k & r & a & X & _); discriminate.
Qed.
Print Assumptions c322_fenics_failed.
Theorem c322_without : forall m, (calculix_status m [] = Passed <-> m <> []) /\ (fenics_status m [] = Passed <-> m <> []) /\
  calculix_status m [] <> Failed /\ fenics_status m [] <> Failed.
Proof. intros [|x m]; cbn; repeat split; try discriminate; intros X; congruence. Qed.
Print Assumptions c322_without.
Theorem c322_calculix_order : forall m l l', Permutation l l' -> calculix_status m l = calculix_status m l'.
Proof.
  intros m l l' P. destruct l as [|x l]; [apply Permutation_nil in P; subst; reflexivity|]. destruct l' as [|x' l']; [apply Permutation_sym, Permutation_nil in P; discriminate|].
  assert (F : calculix_status m (x :: l) = Failed <-> calculix_status m (x' :: l') = Failed).
  { rewrite !c322_calculix_failed. split; intros (k & r & I & X); exists k, r; (split; [|exact X]); [exact (Permutation_in _ P I)|exact (Permutation_in _ (Permutation_sym P) I)]. }
  assert (Q : calculix_status m (x :: l) = Passed <-> calculix_status m (x' :: l') = Passed).
  { rewrite !c322_calculix_passed by discriminate. split; intros X k r I; apply (X k r); [exact (Permutation_in _ (Permutation_sym P) I)|exact (Permutation_in _ P I)]. }
  destruct (calculix_status m (x :: l)), (calculix_status m (x' :: l')); try reflexivity; exfalso; intuition discriminate.
Qed.
Print Assumptions c322_calculix_order.
Example c322_nonvacuous : calculix_status [(t "d_mm", 1)] [(t "d", mkrule None (Some 2) None None)] = Passed /\
  calculix_status [(t "d_mm", 3)] [(t "d", mkrule None (Some 2) None None)] = Failed /\ fenics_status [(t "d_mm", 3)] [(t "e", mkrule None (Some 2) None None)] = Pending.
Proof.
  cbn [calculix_status calculix_loop fenics_status fenics_loop].
  change (orelse (metric (t "d") [(t "d_mm", 1)]) (metric (mm (t "d")) [(t "d_mm", 1)])) with (Some 1). change (orelse (metric (t "d") [(t "d_mm", 3)]) (metric (mm (t "d")) [(t "d_mm", 3)])) with (Some 3).
  change (fenics_metric (t "e") [(t "d_mm", 3)]) with (@None R). cbn [any_limit orelse r_limit r_limit_mm].
  change (violated4 (comparison (mkrule None (Some 2) None None)) 1 2) with (Rltb 2 1). change (violated4 (comparison (mkrule None (Some 2) None None)) 3 2) with (Rltb 2 3).
  replace (Rltb 2 1) with false by (symmetry; apply Rltb_false; lra). replace (Rltb 2 3) with true by (symmetry; apply Rltb_true; lra). auto.
Qed.

(** ** C323: the reports of the native back end *)
Theorem c323_results : forall m l, map fst (acceptance_results m l) = map fst l /\
  forall k r, In (k, r) l -> exists d, In (k, d) (acceptance_results m l) /\
    (forall v, d_value d = Some v <-> found m (report_names k) v) /\ d_limit d = r_limit r /\ (exists tol, asks r (d_comparison d) tol) /\
    (forall b, d_passed d = Some b <-> exists v lim c tol, found m (report_names k) v /\ r_limit r = Some lim /\ asks r c tol /\ In c all_comparisons /\ (b = true <-> holds tol v lim c)).
Proof.
  intros m l. split; [unfold acceptance_results; rewrite map_map; reflexivity|]. intros k r I. exists (acceptance_result m k r).
  split; [unfold acceptance_results; apply in_map_iff; exists (k, r); auto|]. cbn [acceptance_result d_value d_limit d_comparison d_passed].
  split; [intros v; apply report_found|]. split; [reflexivity|]. split; [exists (tolerance r); apply asks_iff; auto|]. intros b. split.
  - destruct (report_metric k m) as [v|] eqn:F; [|discriminate]. destruct (r_limit r) as [lim|]; [|discriminate]. intros J. apply judge_iff in J as [J1 J2].
    exists v, lim, (comparison r), (tolerance r). split; [apply report_found, F|]. split; [reflexivity|]. split; [apply asks_iff; auto|]. auto.
  - intros (v & lim & c & tol & F & L & A & I' & B). apply report_found in F. rewrite F, L. apply asks_iff in A as [-> ->]. apply judge_iff. auto.
Qed.
Print Assumptions c323_results.
Theorem c323_failed : forall m l x, In x (failed_criteria m l) <->
  exists k r v lim c tol, In (k, r) l /\ x = (k, v, lim, c) /\ found m (report_names k) v /\ r_limit r = Some lim /\ asks r c tol /\ In c orderings /\ ~ holds tol v lim c.
Proof.
  intros m l x. rewrite failed_iff. split.
  - intros (k & r & v & lim & I & -> & F & L & (v' & lim' & c & tol & F' & L' & A & K & N)). rewrite L in L'. injection L' as <-.
    assert (v' = v) as -> by (apply report_found in F, F'; congruence). pose proof A as A0. apply asks_iff in A as [-> ->]. exists k, r, v, lim, (comparison r), (tolerance r). auto 8.
  - intros (k & r & v & lim & c & tol & I & -> & F & L & A & K & N). exists k, r, v, lim. pose proof A as A0. apply asks_iff in A0 as [-> ->].
    split; [exact I|]. split; [reflexivity|]. split; [exact F|]. split; [exact L|]. exists v, lim, (comparison r), (tolerance r). auto.
Qed.
Print Assumptions c323_failed.
(** if every metric is under the name of its criterion or under that with bars for dots, "failed" means that some result did not pass *)
Theorem c323_agree : forall m l, (forall k r, In (k, r) l -> (exists v, found m (report_names k) v) \/ absent native_names m k) ->
  (native_status m l = Failed <-> exists k d, In (k, d) (acceptance_results m l) /\ d_passed d = Some false).
Proof.
  intros m l N. rewrite c320_failed. destruct (c323_results m l) as [_ R].
  assert (SUB : forall k v, found m (report_names k) v -> found m (native_names k) v).
  { intros k v. unfold report_names, native_names. rewrite !found_cons, !found_nil. tauto. }
  assert (DET : forall k v v', found m (native_names k) v -> found m (native_names k) v' -> v = v').
  { intros k v v' A B. apply native_found in A, B. congruence. }
  split.
  - intros (k & r & I & (v & lim & c & tol & F & L & A & K & X)). exists k, (acceptance_result m k r).
    split; [unfold acceptance_results; apply in_map_iff; exists (k, r); auto|]. cbn [acceptance_result d_passed].
    destruct (N k r I) as [[v' F']|AB]; [|exfalso; rewrite absent_none in AB; exact (AB v F)]. assert (v' = v) as -> by (exact (DET k _ _ (SUB _ _ F') F)).
    apply report_found in F'. rewrite F', L. apply judge_iff. apply asks_iff in A as [<- <-]. split; [exact K|]. split; [discriminate|contradiction].
  - intros (k & d & I & P). unfold acceptance_results in I. apply in_map_iff in I as ([k' r] & E & I). cbn [fst snd] in E. injection E as <- <-. exists k', r. split; [exact I|].
    cbn [acceptance_result d_passed] in P. destruct (report_metric k' m) as [v|] eqn:F; [|discriminate]. destruct (r_limit r) as [lim|] eqn:L; [|discriminate].
    apply judge_iff in P as [P1 P2]. exists v, lim, (comparison r), (tolerance r). split; [apply SUB, report_found, F|]. split; [exact L|]. split; [apply asks_iff; auto|]. split; [exact P1|].
    intros X. apply P2 in X. discriminate.
Qed.
Print Assumptions c323_agree.
Example c323_nonvacuous : exists d, acceptance_results [(t "bbox_x", 1)] [(t "bbox.x", mkrule (Some 2) None None None)] = [(t "bbox.x", d)] /\ d_value d = Some 1 /\ d_passed d = Some true.
Proof.
  eexists. split; [reflexivity|]. split; [reflexivity|]. cbn [acceptance_result snd fst d_passed r_limit]. change (report_metric (t "bbox.x") [(t "bbox_x", 1)]) with (Some 1).
  transitivity (Some (Rleb 1 2)); [reflexivity|]. f_equal. apply Rleb_true. lra.
Qed.

(** ** C324: reports that contradict the verdict *)
(** a failed analysis without failed criteria: an equality that does not hold *)
Theorem c324_no_reason_refuted : forall k v lim, v <> lim ->
  native_status [(k, v)] [(k, mkrule (Some lim) None (Some (t "==")) None)] = Failed /\ failed_criteria [(k, v)] [(k, mkrule (Some lim) None (Some (t "==")) None)] = [].
Proof.
  intros k v lim N. assert (M : metric k [(k, v)] = Some v) by (unfold metric; cbn [dget]; rewrite teq_refl; reflexivity).
  cbn [native_status native_loop failed_criteria r_limit]. unfold native_metric, report_metric. rewrite M. cbn [orelse].
  change (violated _ _ v lim) with (Rltb 0 (Rabs (v - lim))). change (violated4 _ v lim) with false. cbv iota. split; [|reflexivity].
  replace (Rltb 0 (Rabs (v - lim))) with true; [reflexivity|]. symmetry. apply Rltb_true, Rabs_pos_lt. lra.
Qed.
Print Assumptions c324_no_reason_refuted.
(** a failed analysis whose results show no value and no failure: the metric is under the name with dots *)
Theorem c324_no_value_refuted : exists m l d, native_status m l = Failed /\ acceptance_results m l = [(t "bbox_x", d)] /\ d_value d = None /\ d_passed d = None /\ failed_criteria m l = [].
Proof.
  exists [(t "bbox.x", 3)], [(t "bbox_x", mkrule (Some 2) None None None)]. eexists.
  split; [|repeat split; reflexivity]. cbn [native_status native_loop r_limit]. change (native_metric (t "bbox_x") [(t "bbox.x", 3)]) with (Some 3).
  transitivity (if Rltb 2 3 then Failed else Passed); [reflexivity|]. replace (Rltb 2 3) with true by (symmetry; apply Rltb_true; lra). reflexivity.
Qed.
Print Assumptions c324_no_value_refuted.
