From Coq Require Import ZArith String List Bool Lia.
From Verif Require Import Dict Json_Model Meta_Model Meta_Proofs Plan_Model Plan_Spec Plan_Proofs Plan_Proofs2.
Import ListNotations.
Open Scope list_scope.
Section H.
Variable H : host.
Lemma kind_cases kind : In kind check_kinds -> In kind plan_kinds.
Proof. cbn. intuition. Qed.
Lemma plan_says d r : validate_plan H d = Ok r -> says r (plan_error H d) (plan_warning d).
Proof.
  unfold validate_plan. intros E. destruct (missing plan_required d) as [|m0 m] eqn:M.
  2: { apply ok_of in E. subst r.
    assert (NF : ~ forall k, In k plan_required -> has_field d k) by (intros X; apply missing_none in X; congruence).
    eapply says_eqv; [apply says_error|..]; intros e; split.
    - intros ->. apply PE_missing; [rewrite <- M; apply lacking_missing|discriminate].
    - assert (NK : forall kind, ~ plan_of_kind d kind) by (intros kind (X & _); contradiction).
      intros [m' L _|v X _ _|kind e' X _|kind e' X _|kind e' X _|kind e' X _|kind e' X _ _|kind e' X _ _|kind e' X _ _|kind k e' X _ _ _]; try (exfalso; apply (NK _ X)).
      + apply lacking_det in L. rewrite L, M. reflexivity.
      + contradiction.
    - intros [].
    - assert (NK : forall kind, ~ plan_of_kind d kind) by (intros kind (X & _); contradiction).
      intros [kind e' X _|kind e' X _|kind e' X _ _|kind k e' X _ _ _|kind X _ _|kind e' X _]; exact (NK _ X). }
  pose proof (proj1 (missing_none d plan_required) M) as F. cbv zeta in E.
  destruct (F (t "kind")) as [v G]; [cbn; tauto|]. assert (AG : arg (t "kind") d = v) by (unfold arg; rewrite G; reflexivity). rewrite AG in E.
  destruct (in_set v plan_kinds) as [ok|] eqn:I; cbn [bind] in E; [|discriminate]. pose proof (in_set_ok _ _ _ I) as K. destruct ok.
  2: { assert (N : ~ one_of v plan_kinds) by (intros O; apply K in O; discriminate). apply ok_of in E. subst r.
    assert (NK : forall kind, ~ plan_of_kind d kind) by (intros kind (_ & X & Y); rewrite G in X; apply some_inj in X; apply N; exists kind; auto).
    eapply says_eqv; [apply says_error|..]; intros e; split.
    - intros ->. apply PE_kind; auto.
    - intros [m' L NE|v' _ X _|kind e' X _|kind e' X _|kind e' X _|kind e' X _|kind e' X _ _|kind e' X _ _|kind e' X _ _|kind k e' X _ _ _]; try (exfalso; apply (NK _ X)).
      + apply lacking_det in L. rewrite M in L. contradiction.
      + rewrite G in X. apply some_inj in X. subst v'. reflexivity.
    - intros [].
    - intros [kind e' X _|kind e' X _|kind e' X _ _|kind k e' X _ _ _|kind X _ _|kind e' X _]; exact (NK _ X). }
  destruct (proj1 K eq_refl) as (kind & -> & IK).
  assert (PK : plan_of_kind d kind) by (split; [exact F|]; auto).
  assert (UK : forall k', plan_of_kind d k' -> k' = kind) by (intros k' (_ & X & _); rewrite G in X; injection X as ->; reflexivity).
  destruct (optional (t "acceptance") d check_acceptance) as [acc|] eqn:A; cbn [bind] in E; [|discriminate].
  fold (run_check kind d) in E.
  pose proof (says_text H (t "id") d (F (t "id") ltac:(cbn; tauto))) as S1. pose proof (says_text H (t "backend") d (F (t "backend") ltac:(cbn; tauto))) as S2.
  pose proof (says_geometry d) as S3. pose proof (says_acceptance _ _ A) as S4. pose proof (says_unknown (known_fields kind) d) as S6.
  pose proof (mem_spec kind check_kinds) as MK. destruct (mem kind check_kinds) eqn:MC.
  - pose proof (proj1 MK eq_refl) as IC. clear MK.
    destruct (run_check kind d) as [own|] eqn:R; cbn [bind] in E; [|discriminate]. pose proof (says_check _ _ _ R) as S5. apply ok_of in E. subst r.
    eapply says_eqv; [exact (says_both _ _ _ _ _ _ S1 (says_both _ _ _ _ _ _ S2 (says_both _ _ _ _ _ _ S3 (says_both _ _ _ _ _ _ S4 (says_both _ _ _ _ _ _ S5 S6)))))|..]; intros e; unfold or_, never; split.
    + intros [X|[X|[X|[X|[X|[]]]]]]; [eapply PE_id|eapply PE_backend|eapply PE_geometry|eapply PE_acceptance|eapply PE_check]; eauto.
    + intros [m' L NE|v' _ X N|k' e' X Y|k' e' X Y|k' e' X Y|k' e' X Y|k' e' X I' Y|k' e' X I' Y|k' e' X I' Y|k' k e' X I' _ Y]; try (apply UK in X; subst k'); try tauto; try (exfalso; exact (I' IC)).
      * apply lacking_det in L. congruence.
      * rewrite G in X. apply some_inj in X. subst v'. exfalso. apply N. exists kind. auto.
    + intros [[]|[[]|[X|[X|[[]|X]]]]]; [eapply PW_geometry|eapply PW_acceptance|eapply PW_unknown]; eauto.
    + intros [k' e' X Y|k' e' X Y|k' e' X I' Y|k' k e' X I' _ Y|k' X O Y|k' e' X Y]; apply UK in X; subst k'; try tauto; try (exfalso; exact (I' IC)).
      exfalso. destruct O; subst kind; cbn in IC; intuition discriminate.
  - assert (SI : simulation kind) by (intros X; apply MK in X; discriminate). clear MK.
    destruct (check_simulation kind d) as [own|] eqn:R; cbn [bind] in E; [|discriminate]. pose proof (says_simulation _ _ _ R) as S5. apply ok_of in E. subst r.
    eapply says_eqv; [exact (says_both _ _ _ _ _ _ S1 (says_both _ _ _ _ _ _ S2 (says_both _ _ _ _ _ _ S3 (says_both _ _ _ _ _ _ S4 (says_both _ _ _ _ _ _ S5 S6)))))|..]; intros e; unfold or_, never; split.
    + intros [X|[X|[X|[X|[[X|[X|X]]|[]]]]]]; [eapply PE_id|eapply PE_backend|eapply PE_geometry|eapply PE_acceptance|eapply PE_materials|eapply PE_loads|eapply PE_conditions]; eauto. apply bc_iff. reflexivity.
    + intros [m' L NE|v' _ X N|k' e' X Y|k' e' X Y|k' e' X Y|k' e' X Y|k' e' X I' Y|k' e' X I' Y|k' e' X I' Y|k' k e' X I' B Y]; try (apply UK in X; subst k'); try tauto.
      * apply lacking_det in L. congruence.
      * rewrite G in X. apply some_inj in X. subst v'. exfalso. apply N. exists kind. auto.
      * exfalso. exact (SI I').
      * apply bc_iff in B. subst k. tauto.
    + intros [[]|[[]|[X|[X|[[X|[X|(O & N & ->)]]|X]]]]]; [eapply PW_geometry|eapply PW_acceptance|eapply PW_loads|eapply PW_conditions|eapply PW_materials|eapply PW_unknown]; eauto. apply bc_iff. reflexivity.
    + intros [k' e' X Y|k' e' X Y|k' e' X I' Y|k' k e' X I' B Y|k' X O Y|k' e' X Y]; apply UK in X; subst k'; try tauto. apply bc_iff in B. subst k. tauto.
Qed.
Lemma plan_raises d e : validate_plan H d = Err e <-> plan_unhashable d /\ e = TypeErr.
Proof.
  unfold validate_plan. destruct (missing plan_required d) as [|m0 m] eqn:M.
  2: { assert (NF : ~ forall k, In k plan_required -> has_field d k) by (intros X; apply missing_none in X; congruence).
    split; [discriminate|]. intros ([X _|kind l k r (X & _)|kind c (X & _)|kind (X & _)|kind k (X & _)] & _); contradiction. }
  pose proof (proj1 (missing_none d plan_required) M) as F. cbv zeta.
  destruct (F (t "kind")) as [v G]; [cbn; tauto|]. assert (AG : arg (t "kind") d = v) by (unfold arg; rewrite G; reflexivity). rewrite AG.
  destruct (in_set v plan_kinds) as [ok|e'] eqn:I; cbn [bind].
  2: { apply in_set_err in I as [N ->]. split; [intros [= <-]; split; [|reflexivity]; apply PU_kind; [exact F|]; exists v; auto|]. intros (_ & ->). reflexivity. }
  assert (HK : hashable v -> ~ odd_choice (t "kind") d). { intros X (v' & Y & N). rewrite G in Y. apply some_inj in Y. subst. contradiction. }
  assert (HV : hashable v). { split; [intros (l & ->)|intros (l & ->)]; discriminate. }
  specialize (HK HV). pose proof (in_set_ok _ _ _ I) as K. destruct ok.
  2: { assert (N : ~ one_of v plan_kinds) by (intros O; apply K in O; discriminate).
    assert (NK : forall kind, ~ plan_of_kind d kind) by (intros kind (_ & X & Y); rewrite G in X; apply some_inj in X; apply N; exists kind; auto).
    split; [discriminate|]. intros ([_ X|kind l k r X|kind c X|kind X|kind k X] & _); [contradiction|exfalso; exact (NK _ X)..]. }
  destruct (proj1 K eq_refl) as (kind & -> & IK).
  assert (PK : plan_of_kind d kind) by (split; [exact F|]; auto).
  assert (UK : forall k', plan_of_kind d k' -> k' = kind) by (intros k' (_ & X & _); rewrite G in X; injection X as ->; reflexivity).
  destruct (optional (t "acceptance") d check_acceptance) as [acc|e'] eqn:A; cbn [bind].
  2: { apply acceptance_err in A as [(l & k & r & X & Y & O) ->]. split; [intros [= <-]; split; [|reflexivity]; eapply PU_comparison; eauto|]. intros (_ & ->). reflexivity. }
  assert (NA : ~ exists l k r, get (t "acceptance") d = Some (JObj l) /\ In (k, JObj r) l /\ odd_choice (t "comparison") r).
  { intros O. pose proof (proj2 (acceptance_err d TypeErr) (conj O eq_refl)). congruence. }
  fold (run_check kind d). pose proof (mem_spec kind check_kinds) as MK. destruct (mem kind check_kinds) eqn:MC.
  - pose proof (proj1 MK eq_refl) as IC. clear MK. destruct (run_check kind d) as [own|e'] eqn:R; cbn [bind].
    + assert (NC : ~ exists c, get (t "check") d = Some (JObj c) /\ odd_choice (t "property") c).
      { intros O. pose proof (proj2 (check_err kind d TypeErr) (conj O eq_refl)). congruence. }
      split; [discriminate|]. intros ([_ X|k' l k r X Y Z O|k' c X Y Z O|k' X Y Z|k' k X Y Z O] & _); try contradiction; apply UK in X; subst k'; try (exfalso; exact (Y IC)); exfalso; [apply NA; eauto 6|apply NC; eauto].
    + apply check_err in R as [(c & X & O) ->]. split; [intros [= <-]; split; [|reflexivity]; eapply PU_property; eauto|]. intros (_ & ->). reflexivity.
  - assert (SI : simulation kind) by (intros X; apply MK in X; discriminate). clear MK. destruct (check_simulation kind d) as [own|e'] eqn:R; cbn [bind].
    + assert (NC : ~ (odd_item (t "loads") d \/ odd_item (bc_key d) d)).
      { intros O. pose proof (proj2 (simulation_err kind d TypeErr) (conj O eq_refl)). congruence. }
      split; [discriminate|]. intros ([_ X|k' l k r X Y Z O|k' c X Y Z O|k' X Y Z|k' k X Y Z O] & _); try contradiction; apply UK in X; subst k'; exfalso; [apply NA; eauto 6|exact (SI Y)|apply NC; auto|]. apply bc_iff in Z. subst k. apply NC. auto.
    + apply simulation_err in R as [[X|X] ->]; (split; [intros [= <-]; split; [|reflexivity]|intros (_ & ->); reflexivity]); [eapply PU_load; eauto|eapply PU_condition; eauto]. apply bc_iff. reflexivity.
Qed.

Lemma outcome_says k v : says (check_outcome (k, v)) (fun e => ~ a_mapping v /\ e = (dot (t "acceptance_results") k, WrongType v))
  (fun e => exists r f, v = JObj r /\ (f = t "value" \/ f = t "passed") /\ ~ has_field r f /\ e = (dot (t "acceptance_results") k, NoField f)).
Proof.
  assert (W : (exists c, v = JObj c) \/ (~ a_mapping v /\ check_outcome (k, v) = error (dot (t "acceptance_results") k) (WrongType v))).
  { destruct v as [| | | | | |c|]; eauto; right; (split; [apply not_mapping; discriminate|reflexivity]). }
  destruct W as [(r & ->)|[N ->]].
  - cbn [check_outcome snd fst]. set (p := dot _ k).
    assert (A : says (if has (t "value") r then none else warning p (NoField (t "value"))) never (fun e => ~ has_field r (t "value") /\ e = (p, NoField (t "value")))).
    { destruct (has (t "value") r) eqn:L; apply has_split in L; (eapply says_eqv; [apply says_none || apply says_warning|..]); kill. }
    assert (B : says (if has (t "passed") r then none else warning p (NoField (t "passed"))) never (fun e => ~ has_field r (t "passed") /\ e = (p, NoField (t "passed")))).
    { destruct (has (t "passed") r) eqn:L; apply has_split in L; (eapply says_eqv; [apply says_none || apply says_warning|..]); kill. }
    eapply says_eqv; [exact (says_both _ _ _ _ _ _ A B)|..]; intros e; unfold or_, never; split.
    + intros [[]|[]].
    + intros [N _]. exfalso. apply N. exists r. reflexivity.
    + intros [[X Y]|[X Y]]; [exists r, (t "value")|exists r, (t "passed")]; auto.
    + intros (r' & f & [= <-] & [-> | ->] & X & Y); auto.
  - eapply says_eqv; [apply says_error|..]; intros e; split; [auto|intros [_ X]; exact X|intros []|]. intros (r & f & -> & _). apply N. exists r. reflexivity.
Qed.
Lemma outcomes_says l : says (fold_right (fun kv acc => both (check_outcome kv) acc) none l)
  (fun e => exists k v, In (k, v) l /\ ~ a_mapping v /\ e = (dot (t "acceptance_results") k, WrongType v))
  (fun e => exists k r f, In (k, JObj r) l /\ (f = t "value" \/ f = t "passed") /\ ~ has_field r f /\ e = (dot (t "acceptance_results") k, NoField f)).
Proof.
  induction l as [|[k v] l IH].
  - eapply says_eqv; [apply says_none|..]; intros e; (split; [intros []|]); [intros (k & v & [] & _)|intros (k & r & f & [] & _)].
  - cbn [fold_right]. eapply says_eqv; [exact (says_both _ _ _ _ _ _ (outcome_says k v) IH)|..]; intros e; unfold or_; split.
    + intros [X|(k' & v' & I & X)]; [exists k, v; split; [left; reflexivity|exact X]|exists k', v'; split; [right; exact I|exact X]].
    + intros (k' & v' & [J|I] & X); [injection J as <- <-; left; exact X|right; eauto].
    + intros [(r & f & -> & X)|(k' & r & f & I & X)]; [exists k, r, f; split; [left; reflexivity|exact X]|exists k', r, f; split; [right; exact I|exact X]].
    + intros (k' & r & f & [J|I] & X); [injection J as <- J; left; exists r, f; split; [exact J|exact X]|right; exists k', r, f; auto].
Qed.
Lemma artifacts_says l : forall i0, says (check_artifacts i0 l)
  (fun e => exists i v, nth_error l i = Some v /\ ~ a_mapping v /\ e = (at_index (t "artifacts") (i0 + i), WrongType v))
  (fun e => exists i r, nth_error l i = Some (JObj r) /\ ~ has_field r (t "path") /\ e = (at_index (t "artifacts") (i0 + i), NoField (t "path"))).
Proof.
  induction l as [|v l IH]; intros i0.
  - eapply says_eqv; [apply says_none|..]; intros e; (split; [intros []|]); intros ([|i] & x & X & _); discriminate.
  - cbn [check_artifacts]. cbv zeta. set (p := at_index (t "artifacts") i0).
    assert (SH : forall i, (S i0 + i)%nat = (i0 + S i)%nat) by (intros; lia).
    assert (A : says (match v with JObj a => if has (t "path") a then none else warning p (NoField (t "path")) | _ => error p (WrongType v) end)
      (fun e => ~ a_mapping v /\ e = (p, WrongType v)) (fun e => exists r, v = JObj r /\ ~ has_field r (t "path") /\ e = (p, NoField (t "path")))).
    { assert (W : (exists c, v = JObj c) \/ (~ a_mapping v /\ match v with JObj a => if has (t "path") a then none else warning p (NoField (t "path")) | _ => error p (WrongType v) end = error p (WrongType v))).
      { destruct v as [| | | | | |c|]; eauto; right; (split; [apply not_mapping; discriminate|reflexivity]). }
      destruct W as [(r & ->)|[N ->]].
      - destruct (has (t "path") r) eqn:L; apply has_split in L; (eapply says_eqv; [apply says_none || apply says_warning|..]); intros e; unfold never; split.
        + intros [].
        + intros [N _]. apply N. exists r. reflexivity.
        + intros [].
        + intros (r' & [= <-] & X & _). contradiction.
        + intros [].
        + intros [N _]. apply N. exists r. reflexivity.
        + intros ->. exists r. auto.
        + intros (r' & [= <-] & _ & X). exact X.
      - eapply says_eqv; [apply says_error|..]; intros e; split; [auto|intros [_ X]; exact X|intros []|]. intros (r & -> & _). apply N. exists r. reflexivity. }
    eapply says_eqv; [exact (says_both _ _ _ _ _ _ A (IH (S i0)))|..]; intros e; unfold or_; split.
    + intros [X|(i & x & I & X)]; [exists 0%nat, v; rewrite Nat.add_0_r; split; [reflexivity|exact X]|exists (S i), x; rewrite <- SH; auto].
    + intros ([|i] & x & I & X); [apply some_inj in I; subst x; rewrite Nat.add_0_r in X; left; exact X|right; exists i, x; rewrite SH; auto].
    + intros [(r & -> & X)|(i & x & I & X)]; [exists 0%nat, r; rewrite Nat.add_0_r; split; [reflexivity|exact X]|exists (S i), x; rewrite <- SH; auto].
    + intros ([|i] & x & I & X); [apply some_inj in I; rewrite Nat.add_0_r in X; left; exists x; auto|right; exists i, x; rewrite SH; auto].
Qed.
Lemma result_says d r : validate_result H d = Ok r -> says r (result_error H d) (result_warning d).
Proof.
  unfold validate_result. intros E. destruct (missing result_required d) as [|m0 m] eqn:M.
  2: { apply ok_of in E. subst r.
    assert (NF : ~ result_started d) by (intros X; apply missing_none in X; congruence).
    eapply says_eqv; [apply says_error|..]; intros e; split.
    - intros ->. apply RE_missing; [rewrite <- M; apply lacking_missing|discriminate].
    - intros [m' L _|v X _ _|e' X _|e' X _|e' X _|l k v X _ _ _|v X _ _|l i v X _ _ _]; try contradiction. apply lacking_det in L. rewrite L, M. reflexivity.
    - intros [].
    - intros [l k rr f X _ _ _ _|l i rr X _ _ _|e' X _]; contradiction. }
  pose proof (proj1 (missing_none d result_required) M : result_started d) as F. cbv zeta in E.
  destruct (F (t "status")) as [v G]; [cbn; tauto|]. assert (AG : arg (t "status") d = v) by (unfold arg; rewrite G; reflexivity). rewrite AG in E.
  destruct (in_set v statuses) as [ok|] eqn:I; cbn [bind] in E; [|discriminate]. pose proof (in_set_ok _ _ _ I) as K. apply ok_of in E. subst r.
  assert (S0 : says (if ok then none else error (t "status") (NotAllowed v)) (fun e => ~ one_of v statuses /\ e = (t "status", NotAllowed v)) never).
  { destruct ok; (eapply says_eqv; [apply says_none || apply says_error|..]); kill. }
  pose proof (says_text H (t "plan_id") d (F (t "plan_id") ltac:(cbn; tauto))) as S1. pose proof (says_mapping (t "metrics") d) as S2.
  assert (S3 : says (match get (t "acceptance_results") d with None => none | Some (JObj l) => fold_right (fun kv acc => both (check_outcome kv) acc) none l
      | Some v => error (t "acceptance_results") (WrongType v) end)
    (fun e => mapping_error (t "acceptance_results") d e \/ exists l k v, get (t "acceptance_results") d = Some (JObj l) /\ In (k, v) l /\ ~ a_mapping v /\ e = (dot (t "acceptance_results") k, WrongType v))
    (fun e => exists l k r f, get (t "acceptance_results") d = Some (JObj l) /\ In (k, JObj r) l /\ (f = t "value" \/ f = t "passed") /\ ~ has_field r f /\ e = (dot (t "acceptance_results") k, NoField f))).
  { unfold mapping_error. destruct (get (t "acceptance_results") d) as [x|].
    - assert (W : (exists c, x = JObj c) \/ (~ a_mapping x /\ match x with JObj l => fold_right (fun kv acc => both (check_outcome kv) acc) none l | _ => error (t "acceptance_results") (WrongType x) end = error (t "acceptance_results") (WrongType x))).
      { destruct x as [| | | | | |c|]; eauto; right; (split; [apply not_mapping; discriminate|reflexivity]). }
      destruct W as [(l & ->)|[N ->]].
      + eapply says_eqv; [apply outcomes_says|..]; intros e; split.
        * intros (k & y & X). right. exists l, k, y. tauto.
        * intros [(y & [= <-] & N & _)|(l' & k & y & [= <-] & X)]; [exfalso; apply N; exists l; reflexivity|eauto].
        * intros (k & y & f & X). exists l, k, y, f. tauto.
        * intros (l' & k & y & f & [= <-] & X). eauto.
      + eapply says_eqv; [apply says_error|..]; intros e; split.
        * intros ->. left. exists x. auto.
        * intros [(y & X & _ & ->)|(l' & k & y & X & _)]; apply some_inj in X; [subst; reflexivity|]. exfalso. apply N. exists l'. exact X.
        * intros [].
        * intros (l' & k & y & f & X & _). apply some_inj in X. apply N. exists l'. exact X.
    - eapply says_eqv; [apply says_none|..]; intros e; (split; [intros []|]).
      + intros [(y & X & _)|(l' & k & y & X & _)]; discriminate.
      + intros (l' & k & y & f & X & _). discriminate. }
  assert (S4 : says (match get (t "artifacts") d with None => none | Some (JList l) => check_artifacts 0 l | Some v => error (t "artifacts") (WrongType v) end)
    (fun e => (exists v, get (t "artifacts") d = Some v /\ ~ a_list v /\ e = (t "artifacts", WrongType v)) \/
       exists l i v, get (t "artifacts") d = Some (JList l) /\ nth_error l i = Some v /\ ~ a_mapping v /\ e = (at_index (t "artifacts") i, WrongType v))
    (fun e => exists l i r, get (t "artifacts") d = Some (JList l) /\ nth_error l i = Some (JObj r) /\ ~ has_field r (t "path") /\ e = (at_index (t "artifacts") i, NoField (t "path")))).
  { destruct (get (t "artifacts") d) as [x|].
    - assert (W : (exists c, x = JList c) \/ (~ a_list x /\ match x with JList l => check_artifacts 0 l | _ => error (t "artifacts") (WrongType x) end = error (t "artifacts") (WrongType x))).
      { destruct x as [| | | | |c| |]; eauto; right; (split; [apply not_a_list; discriminate|reflexivity]). }
      destruct W as [(l & ->)|[N ->]].
      + eapply says_eqv; [apply artifacts_says|..]; intros e; cbn [Nat.add]; split.
        * intros (k & y & X). right. exists l, k, y. tauto.
        * intros [(y & [= <-] & N & _)|(l' & k & y & [= <-] & X)]; [exfalso; apply N; exists l; reflexivity|eauto].
        * intros (k & y & X). exists l, k, y. tauto.
        * intros (l' & k & y & [= <-] & X). eauto.
      + eapply says_eqv; [apply says_error|..]; intros e; split.
        * intros ->. left. exists x. auto.
        * intros [(y & X & _ & ->)|(l' & k & y & X & _)]; apply some_inj in X; [subst; reflexivity|]. exfalso. apply N. exists l'. exact X.
        * intros [].
        * intros (l' & k & y & X & _). apply some_inj in X. apply N. exists l'. exact X.
    - eapply says_eqv; [apply says_none|..]; intros e; (split; [intros []|]).
      + intros [(y & X & _)|(l' & k & y & X & _)]; discriminate.
      + intros (l' & k & y & X & _). discriminate. }
  pose proof (says_unknown (result_required ++ result_optional) d) as S5.
  eapply says_eqv; [exact (says_both _ _ _ _ _ _ S0 (says_both _ _ _ _ _ _ S1 (says_both _ _ _ _ _ _ S2 (says_both _ _ _ _ _ _ S3 (says_both _ _ _ _ _ _ S4 S5)))))|..]; intros e; unfold or_, never; split.
  - intros [[N ->]|[X|[X|[[X|(l & k & y & Q & J & N & ->)]|[[(y & Q & N & ->)|(l & i & y & Q & J & N & ->)]|[]]]]]];
      [eapply RE_status|eapply RE_plan|eapply RE_metrics|eapply RE_outcomes|eapply RE_outcome|eapply RE_artifacts|eapply RE_artifact]; eauto.
  - intros [m' L NE|y _ X N|e' _ X|e' _ X|e' _ X|l k y _ X Y Z|y _ X Y|l i y _ X Y Z].
    + apply lacking_det in L. congruence.
    + rewrite G in X. apply some_inj in X. subst y. auto.
    + right. left. exact X.
    + do 2 right. left. exact X.
    + do 3 right. left. left. exact X.
    + do 3 right. left. right. exists l, k, y. auto.
    + do 4 right. left. left. eauto.
    + do 4 right. left. right. exists l, i, y. auto.
  - intros [[]|[[]|[[]|[(l & k & y & f & Q & J & O & N & ->)|[(l & i & y & Q & J & N & ->)|X]]]]]; [eapply RW_outcome|eapply RW_artifact|eapply RW_unknown]; eauto.
  - intros [l k y f _ X Y Z N|l i y _ X Y Z|e' _ X].
    + do 3 right. left. exists l, k, y, f. auto.
    + do 4 right. left. exists l, i, y. auto.
    + do 5 right. exact X.
Qed.
Lemma result_raises d e : validate_result H d = Err e <-> (result_started d /\ odd_choice (t "status") d) /\ e = TypeErr.
Proof.
  unfold validate_result. destruct (missing result_required d) as [|m0 m] eqn:M.
  - pose proof (proj1 (missing_none d result_required) M : result_started d) as F. cbv zeta.
    destruct (F (t "status")) as [v G]; [cbn; tauto|]. assert (AG : arg (t "status") d = v) by (unfold arg; rewrite G; reflexivity). rewrite AG.
    destruct (in_set v statuses) as [ok|e'] eqn:I; cbn [bind].
    + split; [discriminate|]. intros ((_ & v' & X & N) & ->). rewrite G in X. apply some_inj in X. subst v'. pose proof (proj2 (in_set_err v statuses TypeErr) (conj N eq_refl)). congruence.
    + apply in_set_err in I as [N ->]. split; [intros [= <-]; split; [|reflexivity]; split; [exact F|]; exists v; auto|]. intros (_ & ->). reflexivity.
  - split; [discriminate|]. intros ((X & _) & _). apply missing_none in X. congruence.
Qed.
End H.
