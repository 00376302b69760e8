From Coq Require Import ZArith String List Bool Lia.
From Verif Require Import Dict Json_Model Meta_Model Meta_Proofs Plan_Model Plan_Spec.
Import ListNotations.
Open Scope list_scope.

(** The issues are exactly these. *)
Definition says (r : issues) (P W : issue -> Prop) : Prop := (forall e, In e (fst r) <-> P e) /\ (forall e, In e (snd r) <-> W e).
Definition never (e : issue) : Prop := False.
Definition or_ (P Q : issue -> Prop) (e : issue) : Prop := P e \/ Q e.
Lemma says_none : says none never never.
Proof. split; intros e; cbn; tauto. Qed.
Lemma says_both a b P W P' W' : says a P W -> says b P' W' -> says (both a b) (or_ P P') (or_ W W').
Proof. intros [A1 A2] [B1 B2]. split; intros e; cbn [both fst snd]; unfold or_; rewrite in_app_iff; [rewrite A1, B1|rewrite A2, B2]; tauto. Qed.
Lemma says_error p w : says (error p w) (fun e => e = (p, w)) never.
Proof. split; intros e; cbn; intuition. Qed.
Lemma says_warning p w : says (warning p w) never (fun e => e = (p, w)).
Proof. split; intros e; cbn; intuition. Qed.
Lemma says_eqv r P W P' W' : says r P W -> (forall e, P e <-> P' e) -> (forall e, W e <-> W' e) -> says r P' W'.
Proof. intros [A B] E F. split; intros e; [rewrite A; apply E|rewrite B; apply F]. Qed.
Lemma says_if (b : bool) r s P W P' W' : says r P W -> says s P' W' -> says (if b then r else s) (fun e => if b then P e else P' e) (fun e => if b then W e else W' e).
Proof. destruct b; auto. Qed.

Lemma has_iff k d : has k d = true <-> has_field d k.
Proof.
  unfold has, dmem, has_field, get. destruct (dget teq k d); split; eauto; try discriminate. intros (v & X). discriminate.
Qed.
Lemma has_not k d : has k d = false <-> ~ has_field d k.
Proof. rewrite <- has_iff. destruct (has k d); split; congruence. Qed.
Lemma get_none k d : get k d = None <-> ~ has_field d k.
Proof. unfold has_field. destruct (get k d); split; try congruence; [intros X; exfalso; apply X; eauto|]. intros _ (v & X). discriminate. Qed.
Lemma in_set_ok v l b : in_set v l = Ok b -> (b = true <-> one_of v l).
Proof.
  unfold one_of. destruct v; cbn [in_set]; intros E; try discriminate E; apply (f_equal (fun x => match x with Ok y => y | _ => true end)) in E; cbv beta iota in E; subst b;
    try (split; [discriminate|intros (s0 & X & _); discriminate]).
  rewrite mem_spec. split; [eauto|]. intros (s0 & [= <-] & I). exact I.
Qed.
Lemma in_set_false v l : in_set v l = Ok false -> ~ one_of v l.
Proof. intros E O. apply (in_set_ok _ _ _ E) in O. discriminate. Qed.
Lemma in_set_err v l e : in_set v l = Err e <-> ~ hashable v /\ e = TypeErr.
Proof.
  assert (G : (exists b, in_set v l = Ok b) /\ hashable v \/ in_set v l = Err TypeErr /\ ~ hashable v).
  { unfold hashable, a_list, a_mapping. destruct v; cbn [in_set]; try (left; split; [eauto|]; split; intros (x & X); discriminate); right; (split; [reflexivity|]); intros [A B]; eauto. }
  destruct G as [((b & ->) & H)|(-> & H)]; (split; [intros X; try discriminate X|]).
  - intros [N _]. contradiction.
  - injection X as <-. auto.
  - intros [_ ->]. reflexivity.
Qed.
Lemma has_split k d (b : bool) : has k d = b -> if b then has_field d k else ~ has_field d k.
Proof. destruct b; [apply has_iff|apply has_not]. Qed.

Ltac kill := unfold or_, never; intros; intuition (try congruence; eauto).

Lemma criterion_says c p r : check_criterion c p = Ok r -> says r (criterion_error p c) (criterion_warning p c).
Proof.
  unfold check_criterion. intros E.
  assert (A : says (if has (t "limit") c then none else error p (NoField (t "limit"))) (fun e => ~ has_field c (t "limit") /\ e = (p, NoField (t "limit"))) never).
  { destruct (has (t "limit") c) eqn:L; apply has_split in L; (eapply says_eqv; [apply says_none || apply says_error|..]); kill. }
  destruct (get (t "comparison") c) as [v|] eqn:C.
  2: { apply (f_equal (fun x => match x with Ok y => y | _ => none end)) in E. cbv beta iota in E. subst r. eapply says_eqv; [exact A|..]; intros e; unfold criterion_error, criterion_warning, never.
    - split; [tauto|]. intros [X|(v & X & _)]; [exact X|congruence].
    - split; [intros []|]. intros (X & _). congruence. }
  destruct (in_set v comparisons) as [ok|] eqn:I; cbn [bind] in E; [|discriminate].
  apply (f_equal (fun x => match x with Ok y => y | _ => none end)) in E. cbv beta iota in E. subst r.
  assert (B : says (if ok then none else error (dot p (t "comparison")) (NotAllowed v)) (fun e => ~ one_of v comparisons /\ e = (dot p (t "comparison"), NotAllowed v)) never).
  { pose proof (in_set_ok _ _ _ I) as K. destruct ok; (eapply says_eqv; [apply says_none || apply says_error|..]); kill. }
  assert (D : says (match v with JStr s => if teq s (t "~=") && negb (has (t "tolerance") c) then warning p NoTolerance else none | _ => none end)
    never (fun e => v = JStr (t "~=") /\ ~ has_field c (t "tolerance") /\ e = (p, NoTolerance))).
  { destruct v as [| | | |s| | |]; try (eapply says_eqv; [apply says_none|..]; [reflexivity|]; intros e; split; [intros []|intros (X & _); discriminate]).
    destruct (teq s (t "~=")) eqn:Q; cbn [andb].
    - apply teq_spec in Q. subst s. destruct (has (t "tolerance") c) eqn:L; apply has_split in L; cbn [negb]; (eapply says_eqv; [apply says_none || apply says_warning|..]); kill.
    - eapply says_eqv; [apply says_none|reflexivity|]. intros e. split; [intros []|]. intros ([= ->] & _). rewrite teq_refl in Q. discriminate. }
  eapply says_eqv; [exact (says_both _ _ _ _ _ _ A (says_both _ _ _ _ _ _ B D))|..]; intros e; unfold criterion_error, criterion_warning, or_, never; rewrite C.
  - split.
    + intros [X|[X|[]]]; [tauto|]. right. exists v. tauto.
    + intros [X|(v' & [= <-] & X)]; tauto.
  - split; [intros [[]|[[]|(-> & X)]]; auto|]. intros ([= ->] & X). tauto.
Qed.
Lemma criterion_err c p e : check_criterion c p = Err e <-> odd_choice (t "comparison") c /\ e = TypeErr.
Proof.
  unfold check_criterion, odd_choice. destruct (get (t "comparison") c) as [v|].
  - destruct (in_set v comparisons) as [ok|e'] eqn:I; cbn [bind].
    + split; [discriminate|]. intros ((v' & [= <-] & N) & ->). exfalso. pose proof (proj2 (in_set_err v comparisons TypeErr) (conj N eq_refl)). congruence.
    + pose proof I as I0. apply in_set_err in I as [N ->]. split; [intros [= <-]; eauto|]. intros (_ & ->). reflexivity.
  - split; [discriminate|]. intros ((v & X & _) & _). discriminate.
Qed.
Definition entry_error (q : text) (l : dict) (e : issue) : Prop :=
  exists k c, In (k, c) l /\ ((~ a_mapping c /\ e = (dot q k, WrongType c)) \/ exists r, c = JObj r /\ criterion_error (dot q k) r e).
Definition entry_warning (q : text) (l : dict) (e : issue) : Prop := exists k r, In (k, JObj r) l /\ criterion_warning (dot q k) r e.
Lemma not_mapping v : (forall d, v <> JObj d) -> ~ a_mapping v.
Proof. intros N (d & ->). exact (N d eq_refl). Qed.
Lemma criteria_says q l : forall r, check_criteria l q = Ok r -> says r (entry_error q l) (entry_warning q l).
Proof.
  induction l as [|[k v] l IH]; intros r E.
  - injection E as <-. eapply says_eqv; [apply says_none|..]; intros e; (split; [intros []|]); [intros (k & c & [] & _)|intros (k & c & [] & _)].
  - assert (W : (exists c, v = JObj c) \/ (~ a_mapping v /\ check_criteria ((k, v) :: l) q = bind (check_criteria l q) (fun b => Ok (both (error (dot q k) (WrongType v)) b)))).
    { destruct v as [| | | | | |c|]; eauto; right; (split; [apply not_mapping; discriminate|reflexivity]). }
    destruct W as [(c & ->)|[N W]].
    + change (bind (check_criterion c (dot q k)) (fun a => bind (check_criteria l q) (fun b => Ok (both a b))) = Ok r) in E.
      destruct (check_criterion c (dot q k)) as [a|] eqn:A; cbn [bind] in E; [|discriminate]. destruct (check_criteria l q) as [b|]; cbn [bind] in E; [|discriminate]. injection E as <-.
      eapply says_eqv; [exact (says_both _ _ _ _ _ _ (criterion_says _ _ _ A) (IH _ eq_refl))|..]; intros e; unfold or_, entry_error, entry_warning; split.
      * intros [X|(k' & c' & I & X)]; [|exists k', c'; split; [right; exact I|exact X]]. exists k, (JObj c). split; [left; reflexivity|]. right. eauto.
      * intros (k' & c' & [J|I] & X); [|right; eauto]. injection J as <- <-. left. destruct X as [[N _]|(r & [= <-] & X)]; [exfalso; apply N; exists c; reflexivity|exact X].
      * intros [X|(k' & c' & I & X)]; [|exists k', c'; split; [right; exact I|exact X]]. exists k, c. split; [left; reflexivity|exact X].
      * intros (k' & c' & [J|I] & X); [|right; eauto]. injection J as <- <-. left. exact X.
    + rewrite W in E. clear W. destruct (check_criteria l q) as [b|]; cbn [bind] in E; [|discriminate]. injection E as <-.
      eapply says_eqv; [exact (says_both _ _ _ _ _ _ (says_error _ _) (IH _ eq_refl))|..]; intros e; unfold or_, entry_error, entry_warning, never; split.
      * intros [X|(k' & c' & I & X)]; [|exists k', c'; split; [right; exact I|exact X]]. exists k, v. split; [left; reflexivity|]. left. auto.
      * intros (k' & c' & [J|I] & X); [|right; eauto]. injection J as <- <-. left. destruct X as [[_ X]|(r & -> & _)]; [exact X|exfalso; apply N; exists r; reflexivity].
      * intros [[]|(k' & c' & I & X)]. exists k', c'; split; [right; exact I|exact X].
      * intros (k' & c' & [J|I] & X); [|right; eauto]. injection J as <- J. subst v. exfalso; apply N; exists c'; reflexivity.
Qed.
Lemma criteria_err q l e : check_criteria l q = Err e <-> (exists k r, In (k, JObj r) l /\ odd_choice (t "comparison") r) /\ e = TypeErr.
Proof.
  induction l as [|[k v] l IH]; [split; [discriminate|intros ((k & r & [] & _) & _)]|].
  assert (W : (exists c, v = JObj c) \/ (~ a_mapping v /\ check_criteria ((k, v) :: l) q = bind (check_criteria l q) (fun b => Ok (both (error (dot q k) (WrongType v)) b)))).
  { destruct v as [| | | | | |c|]; eauto; right; (split; [apply not_mapping; discriminate|reflexivity]). }
  destruct W as [(c & ->)|[N W]].
  - change (check_criteria ((k, JObj c) :: l) q) with (bind (check_criterion c (dot q k)) (fun a => bind (check_criteria l q) (fun b => Ok (both a b)))).
    destruct (check_criterion c (dot q k)) as [a|e'] eqn:A; cbn [bind].
    + assert (Z : ~ odd_choice (t "comparison") c). { intros O. pose proof (proj2 (criterion_err c (dot q k) TypeErr) (conj O eq_refl)). congruence. }
      transitivity (check_criteria l q = Err e); [destruct (check_criteria l q); cbn [bind]; split; intros X; try discriminate X; injection X as ->; reflexivity|].
      rewrite IH. split; intros ((k' & r & I & O) & ->); (split; [|reflexivity]); exists k', r; (split; [|exact O]); [right; exact I|].
      destruct I as [J|I]; [|exact I]. injection J as <- <-. contradiction.
    + apply criterion_err in A as [O ->]. split; [intros [= <-]; split; [|reflexivity]; exists k, c; split; [left; reflexivity|exact O]|]. intros (_ & ->). reflexivity.
  - rewrite W. transitivity (check_criteria l q = Err e); [destruct (check_criteria l q); cbn [bind]; split; intros X; try discriminate X; injection X as ->; reflexivity|].
    rewrite IH. split; intros ((k' & r & I & O) & ->); (split; [|reflexivity]); exists k', r; (split; [|exact O]); [right; exact I|].
    destruct I as [J|I]; [|exact I]. injection J as <- J. subst v. exfalso. apply N. exists r. reflexivity.
Qed.
Lemma some_inj {A} (x y : A) : Some x = Some y -> x = y.
Proof. intros [= ->]. reflexivity. Qed.
Lemma ok_of {A} (x y : A) : Ok x = Ok y -> x = y.
Proof. intros [= ->]. reflexivity. Qed.
Lemma not_a_list v : (forall d, v <> JList d) -> ~ a_list v.
Proof. intros N (d & ->). exact (N d eq_refl). Qed.

Lemma item_says types d p r : check_item types d p = Ok r -> says r (item_error types p d) (item_warning p d).
Proof.
  unfold check_item. intros E.
  assert (A : says (if has (t "id") d then none else warning p (NoField (t "id"))) never (fun e => ~ has_field d (t "id") /\ e = (p, NoField (t "id")))).
  { destruct (has (t "id") d) eqn:L; apply has_split in L; (eapply says_eqv; [apply says_none || apply says_warning|..]); kill. }
  assert (B : says (if has (t "surfaces") d || has (t "strategy") d then none else warning p NoRegion) never (fun e => ~ has_field d (t "surfaces") /\ ~ has_field d (t "strategy") /\ e = (p, NoRegion))).
  { destruct (has (t "surfaces") d) eqn:L; destruct (has (t "strategy") d) eqn:M; apply has_split in L; apply has_split in M; cbn [orb]; (eapply says_eqv; [apply says_none || apply says_warning|..]); kill. }
  pose proof (says_both _ _ _ _ _ _ A B) as R. set (rest := both _ _) in *. clearbody rest. clear A B.
  destruct (get (t "type") d) as [v|] eqn:C.
  - destruct (in_set v types) as [ok|] eqn:I; cbn [bind] in E; [|discriminate]. apply ok_of in E. subst r.
    assert (B : says (if ok then none else error (dot p (t "type")) (NotAllowed v)) (fun e => ~ one_of v types /\ e = (dot p (t "type"), NotAllowed v)) never).
    { pose proof (in_set_ok _ _ _ I) as K. destruct ok; (eapply says_eqv; [apply says_none || apply says_error|..]); kill. }
    eapply says_eqv; [exact (says_both _ _ _ _ _ _ B R)|..]; intros e; unfold item_error, item_warning, or_, never; rewrite ?C.
    + split; [intros [X|[[]|[]]]; right; exists v; tauto|]. intros [[N _]|(v' & [= <-] & X)]; [exfalso; apply N; exists v; exact C|tauto].
    + tauto.
  - apply ok_of in E. subst r. eapply says_eqv; [exact (says_both _ _ _ _ _ _ (says_error _ _) R)|..]; intros e; unfold item_error, item_warning, or_, never; rewrite ?C.
    + split; [intros [X|[[]|[]]]; left; split; [apply get_none, C|exact X]|]. intros [[_ X]|(v & X & _)]; [tauto|discriminate].
    + tauto.
Qed.
Lemma item_err types d p e : check_item types d p = Err e <-> odd_choice (t "type") d /\ e = TypeErr.
Proof.
  unfold check_item, odd_choice. cbv zeta. destruct (get (t "type") d) as [v|].
  - destruct (in_set v types) as [ok|e'] eqn:I; cbn [bind].
    + split; [discriminate|]. intros ((v' & [= <-] & N) & ->). exfalso. pose proof (proj2 (in_set_err v types TypeErr) (conj N eq_refl)). congruence.
    + apply in_set_err in I as [N ->]. split; [intros [= <-]; eauto|]. intros (_ & ->). reflexivity.
  - split; [discriminate|]. intros ((v & X & _) & _). discriminate.
Qed.
Definition items_error (types : list text) (q : text) (i0 : nat) (l : list json) (e : issue) : Prop :=
  exists i x, nth_error l i = Some x /\ ((~ a_mapping x /\ e = (at_index q (i0 + i), WrongType x)) \/ exists r, x = JObj r /\ item_error types (at_index q (i0 + i)) r e).
Definition items_warning (q : text) (i0 : nat) (l : list json) (e : issue) : Prop :=
  exists i r, nth_error l i = Some (JObj r) /\ item_warning (at_index q (i0 + i)) r e.
Lemma items_says types q l : forall i0 r, check_items types q i0 l = Ok r -> says r (items_error types q i0 l) (items_warning q i0 l).
Proof.
  induction l as [|v l IH]; intros i0 r E.
  - apply ok_of in E. subst r. eapply says_eqv; [apply says_none|..]; intros e; (split; [intros []|]); intros ([|i] & c & X & _); discriminate.
  - assert (W : (exists c, v = JObj c) \/ (~ a_mapping v /\ check_items types q i0 (v :: l) = bind (check_items types q (S i0) l) (fun b => Ok (both (error (at_index q i0) (WrongType v)) b)))).
    { destruct v as [| | | | | |c|]; eauto; right; (split; [apply not_mapping; discriminate|reflexivity]). }
    assert (SH : forall i, (S i0 + i)%nat = (i0 + S i)%nat) by (intros; lia).
    destruct W as [(c & ->)|[N W]].
    + change (bind (check_item types c (at_index q i0)) (fun a => bind (check_items types q (S i0) l) (fun b => Ok (both a b))) = Ok r) in E.
      destruct (check_item types c (at_index q i0)) as [a|] eqn:A; cbn [bind] in E; [|discriminate]. destruct (check_items types q (S i0) l) as [b|] eqn:B; cbn [bind] in E; [|discriminate]. apply ok_of in E. subst r.
      eapply says_eqv; [exact (says_both _ _ _ _ _ _ (item_says _ _ _ _ A) (IH _ _ B))|..]; intros e; unfold or_, items_error, items_warning; split.
      * intros [X|(i & x & I & X)]; [|exists (S i), x; rewrite <- SH; split; [exact I|exact X]]. exists 0%nat, (JObj c). rewrite Nat.add_0_r. split; [reflexivity|]. right. eauto.
      * intros ([|i] & x & I & X); cbn [nth_error] in I; [|right; exists i, x; rewrite SH; auto]. injection I as <-. rewrite Nat.add_0_r in X. left. destruct X as [[N _]|(r & [= <-] & X)]; [exfalso; apply N; exists c; reflexivity|exact X].
      * intros [X|(i & x & I & X)]; [|exists (S i), x; rewrite <- SH; split; [exact I|exact X]]. exists 0%nat, c. rewrite Nat.add_0_r. split; [reflexivity|exact X].
      * intros ([|i] & x & I & X); cbn [nth_error] in I; [|right; exists i, x; rewrite SH; auto]. injection I as <-. rewrite Nat.add_0_r in X. left. exact X.
    + rewrite W in E. clear W. destruct (check_items types q (S i0) l) as [b|] eqn:B; cbn [bind] in E; [|discriminate]. apply ok_of in E. subst r.
      eapply says_eqv; [exact (says_both _ _ _ _ _ _ (says_error _ _) (IH _ _ B))|..]; intros e; unfold or_, items_error, items_warning, never; split.
      * intros [X|(i & x & I & X)]; [|exists (S i), x; rewrite <- SH; split; [exact I|exact X]]. exists 0%nat, v. rewrite Nat.add_0_r. split; [reflexivity|]. left. auto.
      * intros ([|i] & x & I & X); cbn [nth_error] in I; [|right; exists i, x; rewrite SH; auto]. apply some_inj in I. subst x. rewrite Nat.add_0_r in X. left. destruct X as [[_ X]|(r & -> & _)]; [exact X|exfalso; apply N; exists r; reflexivity].
      * intros [[]|(i & x & I & X)]. exists (S i), x. rewrite <- SH. split; [exact I|exact X].
      * intros ([|i] & x & I & X); cbn [nth_error] in I; [|right; exists i, x; rewrite SH; auto]. apply some_inj in I. subst v. exfalso; apply N; exists x; reflexivity.
Qed.
Lemma items_err types q l e : forall i0, check_items types q i0 l = Err e <-> (exists r, In (JObj r) l /\ odd_choice (t "type") r) /\ e = TypeErr.
Proof.
  induction l as [|v l IH]; intros i0; [split; [discriminate|intros ((r & [] & _) & _)]|].
  assert (W : (exists c, v = JObj c) \/ (~ a_mapping v /\ check_items types q i0 (v :: l) = bind (check_items types q (S i0) l) (fun b => Ok (both (error (at_index q i0) (WrongType v)) b)))).
  { destruct v as [| | | | | |c|]; eauto; right; (split; [apply not_mapping; discriminate|reflexivity]). }
  destruct W as [(c & ->)|[N W]].
  - change (check_items types q i0 (JObj c :: l)) with (bind (check_item types c (at_index q i0)) (fun a => bind (check_items types q (S i0) l) (fun b => Ok (both a b)))).
    destruct (check_item types c (at_index q i0)) as [a|e'] eqn:A; cbn [bind].
    + assert (Z : ~ odd_choice (t "type") c). { intros O. pose proof (proj2 (item_err types c (at_index q i0) TypeErr) (conj O eq_refl)). congruence. }
      transitivity (check_items types q (S i0) l = Err e); [destruct (check_items types q (S i0) l); cbn [bind]; split; intros X; try discriminate X; injection X as ->; reflexivity|].
      rewrite IH. split; intros ((r & I & O) & ->); (split; [|reflexivity]); exists r; (split; [|exact O]); [right; exact I|].
      destruct I as [J|I]; [|exact I]. injection J as <-. contradiction.
    + apply item_err in A as [O ->]. split; [intros [= <-]; split; [|reflexivity]; exists c; split; [left; reflexivity|exact O]|]. intros (_ & ->). reflexivity.
  - rewrite W. transitivity (check_items types q (S i0) l = Err e); [destruct (check_items types q (S i0) l); cbn [bind]; split; intros X; try discriminate X; injection X as ->; reflexivity|].
    rewrite IH. split; intros ((r & I & O) & ->); (split; [|reflexivity]); exists r; (split; [|exact O]); [right; exact I|].
    destruct I as [J|I]; [|exact I]. subst v. exfalso. apply N. exists r. reflexivity.
Qed.
