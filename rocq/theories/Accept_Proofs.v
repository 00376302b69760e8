From Coq Require Import Reals ZArith String List Bool Lra Permutation.
From Verif Require Import Dict Json_Model Meta_Model Meta_Proofs Xform_Model Xform_Proofs Accept_Model Accept_Spec.
Import ListNotations.
Open Scope R_scope.
Open Scope list_scope.

Lemma asks_iff r c tol : asks r c tol <-> c = comparison r /\ tol = tolerance r.
Proof.
  unfold asks, comparison, tolerance. destruct (r_comparison r), (r_tolerance r); split.
  all: try (intros [[X|[X X']] [Y|[Y Y']]]; try discriminate; try injection X as ->; try injection Y as ->; subst; auto).
  all: intros [-> ->]; auto.
Qed.
Lemma found_cons m k names v : found m (k :: names) v <-> metric k m = Some v \/ (metric k m = None /\ found m names v).
Proof. split; [inversion 1; auto|]. intros [X|[X Y]]; [apply F_here, X|apply F_next; auto]. Qed.
Lemma found_nil m v : found m [] v <-> False.
Proof. split; [inversion 1|intros []]. Qed.
Lemma orelse_some {A} (a b : option A) v : orelse a b = Some v <-> a = Some v \/ (a = None /\ b = Some v).
Proof. destruct a; cbn; intuition congruence. Qed.
Lemma native_found k m v : native_metric k m = Some v <-> found m (native_names k) v.
Proof. unfold native_metric, native_names, dots_to_bars, bars_to_dots. rewrite !found_cons, found_nil, !orelse_some. tauto. Qed.
Lemma report_found k m v : report_metric k m = Some v <-> found m (report_names k) v.
Proof. unfold report_metric, report_names, dots_to_bars. rewrite !found_cons, found_nil, !orelse_some. tauto. Qed.
Lemma calculix_found k m v : orelse (metric k m) (metric (mm k) m) = Some v <-> found m (calculix_names k) v.
Proof. unfold calculix_names, mm. rewrite !found_cons, found_nil, !orelse_some. tauto. Qed.
Lemma fenics_found k m v : fenics_metric k m = Some v <-> found m (fenics_names k) v.
Proof. unfold fenics_metric, fenics_names, mm, dots_to_bars. rewrite !found_cons, found_nil, !orelse_some. tauto. Qed.
Lemma absent_none names m k : absent names m k <-> forall v, ~ found m (names k) v.
Proof.
  unfold absent. induction (names k) as [|n l IH].
  - split; [intros _ v; rewrite found_nil; auto|intros _ n []].
  - split.
    + intros X v. rewrite found_cons, (X n (or_introl eq_refl)). intros [Y|[_ Y]]; [discriminate|]. revert v Y. apply IH. intros n' I. apply X. right. exact I.
    + intros X. assert (N : metric n m = None). { destruct (metric n m) eqn:E; [|reflexivity]. exfalso. apply (X r), F_here, E. }
      intros n' [<-|I]; [exact N|]. apply (proj2 IH); [|exact I]. intros v Y. apply (X v), F_next; auto.
Qed.
Lemma none_absent names (f : option R) m k : (forall v, f = Some v <-> found m (names k) v) -> f = None <-> absent names m k.
Proof.
  intros E. rewrite absent_none. destruct f as [x|].
  - split; [discriminate|]. intros N. exfalso. apply (N x), E. reflexivity.
  - split; [|reflexivity]. intros _ v Y. apply E in Y. discriminate.
Qed.

Lemma holds_iff tol v lim c : holds tol v lim c <->
  (c = t "<=" /\ v <= lim) \/ (c = t "<" /\ v < lim) \/ (c = t ">=" /\ v >= lim) \/ (c = t ">" /\ v > lim) \/ (c = t "==" /\ Rabs (v - lim) <= tol) \/ (c = t "~=" /\ Rabs (v - lim) <= tol).
Proof.
  split; [destruct 1; tauto|]. intros [[-> X]|[[-> X]|[[-> X]|[[-> X]|[[-> X]|[-> X]]]]]]; constructor; exact X.
Qed.
Ltac pick := repeat match goal with |- context [teq ?a ?b] => let Q := fresh "Q" in destruct (teq a b) eqn:Q; [apply teq_spec in Q; subst|] end.
Lemma teq_no a b : teq a b = false -> a <> b.
Proof. intros E ->. rewrite teq_refl in E. discriminate. Qed.
Lemma violated_iff c tol v lim : violated c tol v lim = true <-> In c all_comparisons /\ ~ holds tol v lim c.
Proof.
  unfold violated, all_comparisons, orderings. rewrite holds_iff. cbn [In app].
  pick; try (rewrite ?Rltb_true, ?Rleb_true; split; [intros X; split; [tauto|]; intros [[K Y]|[[K Y]|[[K Y]|[[K Y]|[[K Y]|[K Y]]]]]]; try discriminate K; lra|];
    intros [_ X]; apply Rnot_le_lt || apply Rnot_lt_le; intros Y; apply X; (tauto || (assert (Z : v >= lim) by lra; tauto) || (assert (Z : v > lim) by lra; tauto))).
  split; [discriminate|]. intros [I _]. exfalso. repeat match goal with X : teq _ _ = false |- _ => apply teq_no in X end. intuition congruence.
Qed.
Lemma violated4_iff c tol v lim : violated4 c v lim = true <-> In c orderings /\ ~ holds tol v lim c.
Proof.
  unfold violated4, orderings. rewrite holds_iff. cbn [In app].
  pick; try (rewrite ?Rltb_true, ?Rleb_true; split; [intros X; split; [tauto|]; intros [[K Y]|[[K Y]|[[K Y]|[[K Y]|[[K Y]|[K Y]]]]]]; try discriminate K; lra|];
    intros [_ X]; apply Rnot_le_lt || apply Rnot_lt_le; intros Y; apply X; (tauto || (assert (Z : v >= lim) by lra; tauto) || (assert (Z : v > lim) by lra; tauto))).
  split; [discriminate|]. intros [I _]. exfalso. repeat match goal with X : teq _ _ = false |- _ => apply teq_no in X end. intuition congruence.
Qed.
Lemma judge_iff c tol v lim b : judge c tol v lim = Some b <-> In c all_comparisons /\ (b = true <-> holds tol v lim c).
Proof.
  unfold judge, all_comparisons, orderings. rewrite holds_iff. cbn [In app].
  assert (L : forall x y, Rleb x y = b <-> (b = true <-> x <= y)).
  { intros x y. pose proof (Rleb_true x y). destruct (Rleb x y), b; intuition congruence. }
  assert (L' : forall x y, Rltb x y = b <-> (b = true <-> x < y)).
  { intros x y. pose proof (Rltb_true x y). destruct (Rltb x y), b; intuition congruence. }
  assert (SI : forall x : bool, Some x = Some b <-> x = b) by (intros x; split; congruence).
  pick; rewrite ?SI, ?L, ?L'; try (split; [intros X; split; [tauto|]; rewrite X; split; [intros Y|intros [[K Y]|[[K Y]|[[K Y]|[[K Y]|[[K Y]|[K Y]]]]]]; try discriminate K; lra]
    |intros [_ X]; rewrite X; split; [intros [[K Y]|[[K Y]|[[K Y]|[[K Y]|[[K Y]|[K Y]]]]]]; try discriminate K; lra|intros Y]]);
    try (assert (Z : v >= lim) by lra); try (assert (Z : v > lim) by lra); try tauto.
  split; [discriminate|]. intros [I _]. exfalso. repeat match goal with X : teq _ _ = false |- _ => apply teq_no in X end. intuition congruence.
Qed.
Lemma broken_iff names f limit known m k r (test : text -> R -> R -> R -> bool) :
  (forall v, f = Some v <-> found m (names k) v) -> (forall c tol v lim, test c tol v lim = true <-> In c known /\ ~ holds tol v lim c) ->
  broken names limit known m k r <-> match f, limit r with Some v, Some lim => test (comparison r) (tolerance r) v lim = true | _, _ => False end.
Proof.
  intros F T. unfold broken. destruct f as [v|], (limit r) as [lim|]; split.
  - intros (v' & lim' & c & tol & X & [= <-] & A & I & N). apply F in X. injection X as <-. apply asks_iff in A as [-> ->]. apply T. auto.
  - intros X. apply T in X as [I N]. exists v, lim, (comparison r), (tolerance r). split; [apply F; reflexivity|]. split; [reflexivity|]. split; [apply asks_iff; auto|]. auto.
  - intros (v' & lim' & c & tol & X & Y & _). discriminate.
  - intros [].
  - intros (v' & lim' & c & tol & X & _). apply F in X. discriminate.
  - intros [].
  - intros (v' & lim' & c & tol & X & Y & _). discriminate.
  - intros [].
Qed.
Lemma native_loop_iff m l : native_loop m l <> Pending /\ (native_loop m l = Failed <-> exists k r, In (k, r) l /\ broken native_names r_limit all_comparisons m k r).
Proof.
  induction l as [|[k r] l [IH1 IH2]]; cbn [native_loop]; [split; [discriminate|]; split; [discriminate|intros (k & r & [] & _)]|].
  pose proof (broken_iff native_names (native_metric k m) r_limit all_comparisons m k r violated (fun v => native_found k m v) violated_iff) as B.
  assert (STEP : ~ broken native_names r_limit all_comparisons m k r -> (native_loop m l = Failed <-> exists k0 r0, In (k0, r0) ((k, r) :: l) /\ broken native_names r_limit all_comparisons m k0 r0)).
  { intros NB. rewrite IH2. split; intros (k0 & r0 & I & X); exists k0, r0; (split; [|exact X]); [right; exact I|]. destruct I as [J|I]; [injection J as <- <-; contradiction|exact I]. }
  destruct (native_metric k m) as [v|]; [destruct (r_limit r) as [lim|]|]; try (split; [exact IH1|]; apply STEP; rewrite B; auto; fail).
  destruct (violated (comparison r) (tolerance r) v lim) eqn:V.
  - split; [discriminate|]. split; [|reflexivity]. intros _. exists k, r. split; [left; reflexivity|]. apply B. reflexivity.
  - split; [exact IH1|]. apply STEP. rewrite B. discriminate.
Qed.
Lemma calculix_loop_iff m l : forall p, (calculix_loop m p l = Failed <-> exists k r, In (k, r) l /\ broken calculix_names limit_or_mm orderings m k r) /\
  (calculix_loop m p l = Passed <-> p = false /\ forall k r, In (k, r) l -> ~ broken calculix_names limit_or_mm orderings m k r /\ ~ absent calculix_names m k).
Proof.
  induction l as [|[k r] l IH]; intros p; cbn [calculix_loop].
  - destruct p; (split; [split; [discriminate|intros (k & r & [] & _)]|]); (split; [try discriminate|]).
    + intros [X _]. discriminate.
    + intros _. split; [reflexivity|]. intros k r [].
    + reflexivity.
  - pose proof (broken_iff calculix_names (orelse (metric k m) (metric (mm k) m)) limit_or_mm orderings m k r (fun c _ => violated4 c) (fun v => calculix_found k m v) (fun c tol v lim => violated4_iff c tol v lim)) as B.
    pose proof (none_absent calculix_names _ m k (calculix_found k m)) as A.
    assert (STEP : forall p', ~ broken calculix_names limit_or_mm orderings m k r -> (calculix_loop m p' l = Failed <-> exists k0 r0, In (k0, r0) ((k, r) :: l) /\ broken calculix_names limit_or_mm orderings m k0 r0)).
    { intros p' NB. rewrite (proj1 (IH p')). split; intros (k0 & r0 & I & X); exists k0, r0; (split; [|exact X]); [right; exact I|]. destruct I as [J|I]; [injection J as <- <-; contradiction|exact I]. }
    assert (STEP2 : forall p', ~ broken calculix_names limit_or_mm orderings m k r -> ~ absent calculix_names m k ->
       (calculix_loop m p' l = Passed <-> p' = false /\ forall k0 r0, In (k0, r0) ((k, r) :: l) -> ~ broken calculix_names limit_or_mm orderings m k0 r0 /\ ~ absent calculix_names m k0)).
    { intros p' NB NA. rewrite (proj2 (IH p')). split; intros [X Y]; (split; [exact X|]); [|intros k0 r0 I; apply (Y k0 r0); right; exact I]. intros k0 r0 [J|I]; [injection J as <- <-; auto|exact (Y k0 r0 I)]. }
    destruct (orelse (metric k m) (metric (mm k) m)) as [v|].
    + assert (NA : ~ absent calculix_names m k) by (intros X; apply A in X; discriminate).
      change (any_limit r) with (orelse (r_limit r) (r_limit_mm r)). assert (L : orelse (r_limit r) (r_limit_mm r) = limit_or_mm r) by (unfold limit_or_mm, orelse; destruct (r_limit r); reflexivity). rewrite L.
      destruct (limit_or_mm r) as [lim|]; [|split; [apply STEP|apply STEP2]; auto; rewrite B; auto].
      destruct (violated4 (comparison r) v lim) eqn:V.
      * assert (BR : broken calculix_names limit_or_mm orderings m k r) by (apply B; reflexivity).
        split; split.
        -- intros _. exists k, r. split; [left; reflexivity|exact BR].
        -- intros _. reflexivity.
        -- intros X. discriminate X.
        -- intros [_ Y]. exfalso. apply (proj1 (Y k r (or_introl eq_refl))). exact BR.
      * split; [apply STEP|apply STEP2]; auto; rewrite B; discriminate.
    + split; [apply STEP; rewrite B; auto|]. rewrite (proj2 (IH true)). split; [intros [X _]; discriminate|]. intros [_ Y]. exfalso. apply (proj2 (Y k r (or_introl eq_refl))). apply A. reflexivity.
Qed.
Lemma fenics_loop_iff m l : (fenics_loop m l = Passed <-> forall k r, In (k, r) l -> ~ broken fenics_names limit_or_mm orderings m k r /\ ~ absent fenics_names m k) /\
  (fenics_loop m l = Failed <-> exists before k r after, l = before ++ (k, r) :: after /\ broken fenics_names limit_or_mm orderings m k r /\
     forall k0 r0, In (k0, r0) before -> ~ absent fenics_names m k0).
Proof.
  induction l as [|[k r] l [IH1 IH2]]; cbn [fenics_loop].
  - split; [split; [intros _ k r []|reflexivity]|]. split; [discriminate|]. intros ([|x b] & k & r & a & X & _); discriminate.
  - pose proof (broken_iff fenics_names (fenics_metric k m) limit_or_mm orderings m k r (fun c _ => violated4 c) (fun v => fenics_found k m v) (fun c tol v lim => violated4_iff c tol v lim)) as B.
    pose proof (none_absent fenics_names _ m k (fenics_found k m)) as A.
    assert (STEP : ~ broken fenics_names limit_or_mm orderings m k r -> ~ absent fenics_names m k ->
       (fenics_loop m l = Passed <-> forall k0 r0, In (k0, r0) ((k, r) :: l) -> ~ broken fenics_names limit_or_mm orderings m k0 r0 /\ ~ absent fenics_names m k0) /\
       (fenics_loop m l = Failed <-> exists before k0 r0 after, (k, r) :: l = before ++ (k0, r0) :: after /\ broken fenics_names limit_or_mm orderings m k0 r0 /\ forall k1 r1, In (k1, r1) before -> ~ absent fenics_names m k1)).
    { intros NB NA. split.
      - rewrite IH1. split; intros X k0 r0 I; [|apply (X k0 r0); right; exact I]. destruct I as [J|I]; [injection J as <- <-; auto|exact (X k0 r0 I)].
      - rewrite IH2. split.
        + intros (b & k0 & r0 & a & -> & X & Y). exists ((k, r) :: b), k0, r0, a. split; [reflexivity|]. split; [exact X|]. intros k1 r1 [J|I]; [injection J as <- <-; exact NA|exact (Y k1 r1 I)].
        + intros ([|x b] & k0 & r0 & a & X & Y & Z); [injection X as <- <- _; contradiction|]. injection X as <- ->. exists b, k0, r0, a. split; [reflexivity|]. split; [exact Y|]. intros k1 r1 I. apply (Z k1 r1). right. exact I. }
    destruct (fenics_metric k m) as [v|].
    + assert (NA : ~ absent fenics_names m k) by (intros X; apply A in X; discriminate).
      change (any_limit r) with (orelse (r_limit r) (r_limit_mm r)). assert (L : orelse (r_limit r) (r_limit_mm r) = limit_or_mm r) by (unfold limit_or_mm, orelse; destruct (r_limit r); reflexivity). rewrite L.
      destruct (limit_or_mm r) as [lim|]; [|apply STEP; auto; rewrite B; auto].
      destruct (violated4 (comparison r) v lim) eqn:V.
      * assert (BR : broken fenics_names limit_or_mm orderings m k r) by (apply B; reflexivity).
        split; split.
        -- intros X. discriminate X.
        -- intros X. exfalso. apply (proj1 (X k r (or_introl eq_refl))). exact BR.
        -- intros _. exists [], k, r, l. split; [reflexivity|]. split; [exact BR|]. intros k0 r0 [].
        -- intros _. reflexivity.
      * apply STEP; auto. rewrite B. discriminate.
    + assert (AB : absent fenics_names m k) by (apply A; reflexivity). split; (split; [discriminate|]).
      * intros X. exfalso. apply (proj2 (X k r (or_introl eq_refl))). exact AB.
      * intros ([|x b] & k0 & r0 & a & X & Y & Z).
        -- injection X as <- <- _. apply B in Y. destruct (limit_or_mm r); contradiction.
        -- injection X as <- _. exfalso. apply (Z k r); [left; reflexivity|exact AB].
Qed.
Lemma failed_iff m l x : In x (failed_criteria m l) <-> exists k r v lim, In (k, r) l /\ x = (k, v, lim, comparison r) /\ found m (report_names k) v /\ r_limit r = Some lim /\ broken report_names r_limit orderings m k r.
Proof.
  induction l as [|[k r] l IH]; cbn [failed_criteria]; [split; [intros []|intros (k & r & v & lim & [] & _)]|].
  pose proof (broken_iff report_names (report_metric k m) r_limit orderings m k r (fun c _ => violated4 c) (fun v => report_found k m v) (fun c tol v lim => violated4_iff c tol v lim)) as B.
  assert (STEP : ~ broken report_names r_limit orderings m k r -> (In x (failed_criteria m l) <-> exists k0 r0 v lim, In (k0, r0) ((k, r) :: l) /\ x = (k0, v, lim, comparison r0) /\ found m (report_names k0) v /\ r_limit r0 = Some lim /\ broken report_names r_limit orderings m k0 r0)).
  { intros NB. rewrite IH. split; intros (k0 & r0 & v & lim & I & X); exists k0, r0, v, lim; (split; [|exact X]); [right; exact I|]. destruct I as [J|I]; [injection J as <- <-; tauto|exact I]. }
  destruct (report_metric k m) as [v|] eqn:F; [destruct (r_limit r) as [lim|] eqn:L|]; try (apply STEP; rewrite B; auto; fail).
  destruct (violated4 (comparison r) v lim) eqn:V; [|apply STEP; rewrite B; discriminate].
  cbn [In]. rewrite IH. split.
  - intros [<-|(k0 & r0 & v0 & lim0 & I & X)]; [|exists k0, r0, v0, lim0; split; [right; exact I|exact X]].
    exists k, r, v, lim. split; [left; reflexivity|]. split; [reflexivity|]. split; [apply report_found, F|]. split; [exact L|]. apply B. reflexivity.
  - intros (k0 & r0 & v0 & lim0 & [J|I] & X); [|right; exists k0, r0, v0, lim0; split; [exact I|exact X]]. injection J as <- <-. left. destruct X as (-> & X & Y & _). apply report_found in X. congruence.
Qed.
