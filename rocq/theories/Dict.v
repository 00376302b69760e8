(** Python dictionaries: association lists in insertion order.  [dset] replaces a
    value in place or appends, [ddel] removes; CPython's dict keeps this order
    (language guarantee since 3.7). *)
From Coq Require Import List Bool Lia.
Import ListNotations.

Lemma NoDup_app_snoc {A} (l : list A) x : NoDup l -> ~ In x l -> NoDup (l ++ [x]).
Proof.
  induction l as [|a l IH]; simpl; intros H Hn; [repeat constructor; auto|].
  inversion H; subst. constructor; [|apply IH; tauto].
  rewrite in_app_iff. simpl. intros [H1|[H1|[]]]; subst; tauto.
Qed.

Section Dict.
  Context {K V : Type} (eqb : K -> K -> bool).
  Fixpoint dget (k : K) (d : list (K * V)) : option V :=
    match d with
    | [] => None
    | (k', v) :: r => if eqb k k' then Some v else dget k r
    end.
  Fixpoint dset (k : K) (v : V) (d : list (K * V)) : list (K * V) :=
    match d with
    | [] => [(k, v)]
    | (k', v') :: r => if eqb k k' then (k', v) :: r else (k', v') :: dset k v r
    end.
  Fixpoint ddel (k : K) (d : list (K * V)) : list (K * V) :=
    match d with
    | [] => []
    | (k', v') :: r => if eqb k k' then r else (k', v') :: ddel k r
    end.
  Definition dmem (k : K) (d : list (K * V)) : bool :=
    match dget k d with Some _ => true | None => false end.
  Definition keys (d : list (K * V)) : list K := map fst d.

  Hypothesis eqb_spec : forall a b, eqb a b = true <-> a = b.
  Lemma eqb_refl' k : eqb k k = true. Proof. apply eqb_spec; reflexivity. Qed.
  Lemma eqb_neq' a b : a <> b -> eqb a b = false.
  Proof. intros H. destruct (eqb a b) eqn:E; auto. apply eqb_spec in E. congruence. Qed.

  Lemma dget_set_same k v d : dget k (dset k v d) = Some v.
  Proof.
    induction d as [|[k' v'] d IH]; simpl; [rewrite eqb_refl'; auto|].
    destruct (eqb k k') eqn:E; simpl; rewrite E; auto.
  Qed.
  Lemma dget_set_other k k' v d : k <> k' -> dget k (dset k' v d) = dget k d.
  Proof.
    intros H. induction d as [|[k2 v2] d IH]; simpl; [rewrite eqb_neq'; auto|].
    destruct (eqb k' k2) eqn:E; simpl.
    - apply eqb_spec in E. subst k2. rewrite eqb_neq' by auto. reflexivity.
    - destruct (eqb k k2); auto.
  Qed.
  Lemma dget_set k k' v d : dget k (dset k' v d) = if eqb k k' then Some v else dget k d.
  Proof.
    destruct (eqb k k') eqn:E.
    - apply eqb_spec in E. subst. apply dget_set_same.
    - apply dget_set_other. intros ->. rewrite eqb_refl' in E. discriminate.
  Qed.
  Lemma dget_in k v d : dget k d = Some v -> In (k, v) d.
  Proof.
    induction d as [|[k' v'] d IH]; simpl; [discriminate|].
    destruct (eqb k k') eqn:E; intros H.
    - apply eqb_spec in E. subst. injection H as ->. auto.
    - auto.
  Qed.
  Lemma dget_none k d : dget k d = None <-> ~ In k (keys d).
  Proof.
    induction d as [|[k' v'] d IH]; simpl; [tauto|].
    destruct (eqb k k') eqn:E.
    - apply eqb_spec in E. subst. split; [discriminate|]. intros H. exfalso. apply H. auto.
    - rewrite IH. split; [|tauto]. intros H [H1|H1]; [|tauto]. subst. rewrite eqb_refl' in E. discriminate.
  Qed.
  Lemma dget_some_key k d : (exists v, dget k d = Some v) <-> In k (keys d).
  Proof.
    destruct (dget k d) eqn:E.
    - split; eauto. intros _. apply dget_in in E. apply (in_map fst) in E. exact E.
    - split; [intros [v H]; discriminate|]. apply dget_none in E. contradiction.
  Qed.
  Lemma dmem_in k d : dmem k d = true <-> In k (keys d).
  Proof.
    unfold dmem. rewrite <- dget_some_key. destruct (dget k d); split; eauto; try discriminate.
    intros [v H]. discriminate.
  Qed.
  Lemma in_dget k v d : NoDup (keys d) -> In (k, v) d -> dget k d = Some v.
  Proof.
    induction d as [|[k' v'] d IH]; simpl; intros Hn H; [contradiction|].
    inversion Hn; subst. destruct H as [H|H].
    - injection H as -> ->. rewrite eqb_refl'. reflexivity.
    - destruct (eqb k k') eqn:E; auto. apply eqb_spec in E. subst.
      exfalso. apply H2. apply (in_map fst) in H. exact H.
  Qed.
  Lemma keys_set k v d : keys (dset k v d) = if dmem k d then keys d else keys d ++ [k].
  Proof.
    induction d as [|[k' v'] d IH]; simpl; [reflexivity|].
    unfold dmem in *; simpl. destruct (eqb k k') eqn:E; simpl; [reflexivity|].
    rewrite IH. destruct (dget k d); reflexivity.
  Qed.
  Lemma nodup_set k v d : NoDup (keys d) -> NoDup (keys (dset k v d)).
  Proof.
    intros H. rewrite keys_set. destruct (dmem k d) eqn:E; auto.
    apply NoDup_app_snoc; auto. intros Hin. apply dmem_in in Hin. congruence.
  Qed.
  Lemma in_keys_set k k' v d : In k (keys (dset k' v d)) <-> k = k' \/ In k (keys d).
  Proof.
    rewrite keys_set. destruct (dmem k' d) eqn:E.
    - apply dmem_in in E. split; auto. intros [->|H]; auto.
    - rewrite in_app_iff. simpl. firstorder.
  Qed.
  Lemma dget_del_same k d : NoDup (keys d) -> dget k (ddel k d) = None.
  Proof.
    induction d as [|[k' v'] d IH]; simpl; intros Hn; [reflexivity|]. inversion Hn; subst.
    destruct (eqb k k') eqn:E.
    - apply eqb_spec in E. subst. apply dget_none. assumption.
    - simpl. rewrite E. auto.
  Qed.
  Lemma dget_del_other k k' d : k <> k' -> dget k (ddel k' d) = dget k d.
  Proof.
    intros H. induction d as [|[k2 v2] d IH]; simpl; [reflexivity|].
    destruct (eqb k' k2) eqn:E; simpl.
    - apply eqb_spec in E. subst. rewrite eqb_neq' by auto. reflexivity.
    - destruct (eqb k k2); auto.
  Qed.
  Lemma keys_del_incl k d x : In x (keys (ddel k d)) -> In x (keys d).
  Proof.
    induction d as [|[k' v'] d IH]; simpl; [tauto|]. destruct (eqb k k'); simpl; tauto.
  Qed.
  Lemma nodup_del k d : NoDup (keys d) -> NoDup (keys (ddel k d)).
  Proof.
    induction d as [|[k' v'] d IH]; simpl; intros Hn; [constructor|]. inversion Hn; subst.
    destruct (eqb k k'); auto. simpl. constructor; auto. intros H. apply H1. eapply keys_del_incl; eauto.
  Qed.
End Dict.
