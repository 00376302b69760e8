From Coq Require Import ZArith String List Bool Lia.
From Verif Require Import Types_Model Types_Spec.
Import ListNotations.
Open Scope string_scope.
Open Scope list_scope.

Fixpoint ty_ind' (P : typ -> Prop) (H1 : forall n, P (TPrim n)) (H2 : forall n d, P (TGeo n d))
  (H3 : forall n, P (TCurve n)) (H4 : forall n, P (TComp n)) (H5 : forall n, P (TSurf n)) (H6 : forall n, P (TSol n))
  (H7 : forall t, P t -> P (TLst t)) (H8 : P TDict) (H9 : forall t, P t -> P (TOpt t)) (H10 : P TNone)
  (H11 : forall ps r, Forall P ps -> P r -> P (TFun ps r)) (H12 : P TUnknown) (H13 : P TError) (t : typ) : P t :=
  let rec := ty_ind' P H1 H2 H3 H4 H5 H6 H7 H8 H9 H10 H11 H12 H13 in
  match t with
  | TPrim n => H1 n | TGeo n d => H2 n d | TCurve n => H3 n | TComp n => H4 n | TSurf n => H5 n | TSol n => H6 n
  | TLst t => H7 t (rec t) | TDict => H8 | TOpt t => H9 t (rec t) | TNone => H10
  | TFun ps r => H11 ps r
      ((fix go ps : Forall P ps := match ps with [] => Forall_nil _ | p :: ps => Forall_cons _ (rec p) (go ps) end) ps) (rec r)
  | TUnknown => H12 | TError => H13
  end.
Lemma dim_eqb_eq a b : dim_eqb a b = true <-> a = b.
Proof.
  destruct a, b; simpl; split; try discriminate; auto; [intros H; apply Z.eqb_eq in H; congruence|].
  intros H. injection H as ->. apply Z.eqb_refl.
Qed.
Lemma ty_eqb_eq a : forall b, ty_eqb a b = true <-> a = b.
Proof.
  induction a using ty_ind'; intros b; destruct b; simpl; try (split; discriminate); try tauto.
  all: try (rewrite String.eqb_eq; split; congruence).
  - rewrite andb_true_iff, String.eqb_eq, dim_eqb_eq. split; [intros [-> ->]|intros E; injection E]; auto.
  - rewrite IHa. split; congruence.
  - rewrite IHa. split; congruence.
  - rewrite andb_true_iff, IHa.
    match goal with |- ?g _ _ = true /\ _ <-> _ => set (go := g) end.
    assert (forall qs, go ps qs = true <-> ps = qs) as Hgo.
    { clear IHa. induction H as [|p ps Hp Hps IH]; intros [|q qs]; simpl; try (split; discriminate); [tauto|].
      rewrite andb_true_iff, Hp, IH. split; [intros [-> ->]; auto|]. intros E. injection E. auto. }
    rewrite Hgo. split; [intros [-> ->]; auto|]. intros E. injection E. auto.
Qed.
Lemma ty_eqb_refl a : ty_eqb a a = true. Proof. apply ty_eqb_eq. reflexivity. Qed.
Lemma isin_In n l : isin n l = true <-> In n l.
Proof.
  unfold isin. rewrite existsb_exists. split.
  - intros (x & Hx & E). apply String.eqb_eq in E. subst. auto.
  - intros H. exists n. split; auto. apply String.eqb_refl.
Qed.

Lemma refl a : is_assignable_from a a = true.
Proof.
  induction a; simpl; auto; try (rewrite String.eqb_refl; auto).
  - replace (dim_eqb dim dim) with true by (symmetry; apply dim_eqb_eq; auto). reflexivity.
  - exact (ty_eqb_refl (TFun ps a)).
Qed.
Lemma assign_other a b : (forall i, b <> TOpt i) -> is_assignable_from (TOpt a) b = is_assignable_from a b.
Proof. intros H. destruct b; try reflexivity. exfalso. eapply H. reflexivity. Qed.

Ltac geo H := repeat (first [apply orb_true_iff in H; destruct H as [H|H] | apply andb_true_iff in H; destruct H as [H ?]]).
Lemma assign_sound a : forall b, type_ok a -> type_ok b -> is_assignable_from a b = true -> accepts a b.
Proof.
  induction a; intros b Ha Hb H.
  - simpl in H. apply orb_true_iff in H as [H|H].
    + assert (b = TPrim n) as -> by (symmetry; apply ty_eqb_eq; exact H). apply acc_same.
    + apply andb_true_iff in H as [H1 H2]. destruct b; try discriminate.
      apply String.eqb_eq in H1, H2. subst. apply acc_promote.
  - cbn [is_assignable_from] in H. apply orb_true_iff in H as [H|H].
    + assert (b = TGeo n dim) as -> by (symmetry; apply ty_eqb_eq; exact H). apply acc_same.
    + destruct b; try discriminate.
      inversion Ha; subst; inversion Hb; subst; try (vm_compute in H; discriminate); try apply acc_same;
        try (apply acc_point; simpl; auto; fail); try (apply acc_vector; simpl; auto; fail);
        try (apply acc_point'; simpl; auto; fail); try (apply acc_vector'; simpl; auto; fail).
      all: repeat match goal with H : In _ [_; _; _] |- _ => simpl in H; destruct H as [<- | [<- | [<- | []]]] end;
        try (vm_compute in H; discriminate).
  - simpl in H. destruct b; try discriminate. apply String.eqb_eq in H. subst. apply acc_same.
  - simpl in H. apply orb_true_iff in H as [H|H].
    + destruct b; try discriminate. apply String.eqb_eq in H. subst. apply acc_same.
    + destruct b; try discriminate. apply andb_true_iff in H as [H1 H2]. apply String.eqb_eq in H1, H2. subst. apply acc_region.
  - simpl in H. destruct b; try discriminate. apply String.eqb_eq in H. subst. apply acc_same.
  - simpl in H. destruct b; try discriminate. apply String.eqb_eq in H. subst. apply acc_same.
  - simpl in H. destruct b; try discriminate. inversion Ha; inversion Hb; subst. apply acc_list. auto.
  - simpl in H. destruct b; try discriminate. apply acc_same.
  - inversion Ha; subst. destruct b; cbn [is_assignable_from] in H;
      try (apply acc_opt; [constructor; discriminate|auto]; fail).
    inversion Hb; subst. apply acc_opt_opt. auto.
  - simpl in H. destruct b; try discriminate. apply acc_same.
  - cbn [is_assignable_from] in H. apply ty_eqb_eq in H. subst. apply acc_same.
  - apply acc_unknown.
  - apply acc_error.
Qed.
Lemma assign_complete a b : accepts a b -> is_assignable_from a b = true.
Proof.
  induction 1; try reflexivity; auto.
  - apply refl.
  - simpl in H. destruct H as [<- | [<- | []]]; reflexivity.
  - simpl in H. destruct H as [<- | [<- | []]]; reflexivity.
  - simpl in H. destruct H as [<- | [<- | []]]; reflexivity.
  - simpl in H. destruct H as [<- | [<- | []]]; reflexivity.
  - inversion H. subst. rewrite assign_other; auto.
Qed.
Lemma common_accepts a b c : type_ok a -> type_ok b -> common_type a b = Some c ->
  is_assignable_from c a = true /\ is_assignable_from c b = true.
Proof.
  unfold common_type. intros Ha Hb H.
  destruct (is_assignable_from a b) eqn:E1; [injection H as <-; split; [apply refl|auto]|].
  destruct (is_assignable_from b a) eqn:E2; [injection H as <-; split; [auto|apply refl]|].
  destruct (is_numeric a && is_numeric b) eqn:E3.
  - injection H as <-. apply andb_true_iff in E3 as [Na Nb]. destruct a; try discriminate. destruct b; try discriminate.
    cbn [is_numeric] in Na, Nb. apply isin_In in Na, Nb. simpl in Na, Nb.
    destruct Na as [<- | [<- | []]], Nb as [<- | [<- | []]]; split; reflexivity.
  - destruct a; try discriminate. destruct b; try discriminate.
    inversion Ha; subst; inversion Hb; subst; try (vm_compute in E1; discriminate); try (vm_compute in H; discriminate);
      try (vm_compute in H; injection H as <-; split; reflexivity).
    all: repeat match goal with H : In _ [_; _; _] |- _ => simpl in H; destruct H as [<- | [<- | [<- | []]]] end;
      try (vm_compute in H; discriminate); vm_compute in E1; discriminate.
Qed.
Lemma rigid_trans a : forall b c, rigid a -> rigid b -> rigid c ->
  is_assignable_from a b = true -> is_assignable_from b c = true -> is_assignable_from a c = true.
Proof.
  assert (forall n d b, In n ["transform"; "assembly"; "edge"] -> is_assignable_from (TGeo n d) b = true -> b = TGeo n d) as Hgeo.
  { intros n d b Hn H. cbn [is_assignable_from] in H. apply orb_true_iff in H as [H|H]; [symmetry; apply ty_eqb_eq; exact H|].
    exfalso. destruct b; try discriminate.
    simpl in Hn. destruct Hn as [<- | [<- | [<- | []]]]; simpl in H; discriminate. }
  induction a; intros b c Ra Rb Rc H1 H2.
  - simpl in H1. apply orb_true_iff in H1 as [H1|H1].
    + assert (b = TPrim n) as -> by (symmetry; apply ty_eqb_eq; exact H1). exact H2.
    + apply andb_true_iff in H1 as [Hn Hm]. destruct b; try discriminate. apply String.eqb_eq in Hn, Hm. subst.
      cbn [is_assignable_from] in H2. apply orb_true_iff in H2 as [H2|H2]; [|discriminate].
      apply ty_eqb_eq in H2. subst. reflexivity.
  - inversion Ra; subst. apply Hgeo in H1; auto. subst. exact H2.
  - simpl in H1. destruct b; try discriminate. apply String.eqb_eq in H1. subst. exact H2.
  - simpl in H1. destruct b; try discriminate. apply orb_true_iff in H1 as [H1|H1].
    + apply String.eqb_eq in H1. subst. exact H2.
    + apply andb_true_iff in H1 as [Hn Hm]. apply String.eqb_eq in Hn, Hm. subst. cbn [is_assignable_from] in H2.
      apply orb_true_iff in H2 as [H2|H2]; [apply ty_eqb_eq in H2; subst; reflexivity|]. destruct c; discriminate.
  - simpl in H1. destruct b; try discriminate. apply String.eqb_eq in H1. subst. exact H2.
  - simpl in H1. destruct b; try discriminate. apply String.eqb_eq in H1. subst. exact H2.
  - simpl in H1. destruct b; try discriminate. simpl in H2. destruct c; try discriminate.
    inversion Ra; inversion Rb; inversion Rc; subst. simpl. eauto.
  - simpl in H1. destruct b; try discriminate. exact H2.
  - inversion Ra; subst.
    destruct (match b with TOpt _ => true | _ => false end) eqn:Eb.
    + destruct b; try discriminate. inversion Rb; subst. simpl in H1.
      destruct (match c with TOpt _ => true | _ => false end) eqn:Ec.
      * destruct c; try discriminate. inversion Rc; subst. simpl in H2 |- *. eauto.
      * rewrite assign_other in * by (intros i ->; discriminate). eauto.
    + rewrite assign_other in H1 by (intros i ->; discriminate).
      destruct (match c with TOpt _ => true | _ => false end) eqn:Ec.
      * destruct c; try discriminate. exfalso. destruct b; try discriminate Eb; try (inversion Rb; fail);
          try (simpl in H2; rewrite ?andb_false_r in H2; discriminate).
      * rewrite assign_other by (intros i ->; discriminate). eauto.
  - simpl in H1. destruct b; try discriminate. exact H2.
  - cbn [is_assignable_from] in H1. apply ty_eqb_eq in H1. subst. exact H2.
  - inversion Ra.
  - inversion Ra.
Qed.
Lemma opt_none t : is_assignable_from (TOpt t) TNone = is_assignable_from t TNone.
Proof. reflexivity. Qed.
