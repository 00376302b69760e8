(** Closed polylines and balanced families of sides. *)
From Coq Require Import Reals List Bool ZArith Lra Lia Permutation Arith.
From Verif Require Import Xform_Model Xform_Proofs Fig_Model Solid_Model Solid_Spec Solid_Proofs Prim_Model Prim_Lab Extr_Model Extr_Spec.
Import ListNotations.

(** ** closed polylines *)
Lemma loop_pairs_round {A} (l : list A) : loop_pairs l = round l.
Proof. reflexivity. Qed.
Lemma round_length {A} (l : list A) : length (round l) = length l.
Proof. destruct l as [|a l]; [reflexivity|]. unfold round. rewrite combine_length, app_length. cbn [length]. lia. Qed.
Lemma combine_fst {A B} (l : list A) (m : list B) : length l = length m -> map fst (combine l m) = l.
Proof. revert m. induction l; intros [|b m] H; try discriminate; [reflexivity|]. cbn. f_equal. apply IHl. cbn in H. lia. Qed.
Lemma combine_snd {A B} (l : list A) (m : list B) : length l = length m -> map snd (combine l m) = m.
Proof. revert m. induction l; intros [|b m] H; try discriminate; [reflexivity|]. cbn. f_equal. apply IHl. cbn in H. lia. Qed.
Lemma round_fst {A} (l : list A) : map fst (round l) = l.
Proof. destruct l as [|a l]; [reflexivity|]. apply combine_fst. rewrite app_length. cbn. lia. Qed.
Lemma round_snd {A} (l : list A) : Permutation (map snd (round l)) l.
Proof.
  destruct l as [|a l]; [apply Permutation_refl|]. unfold round. rewrite combine_snd by (rewrite app_length; cbn; lia).
  apply Permutation_sym, Permutation_cons_append.
Qed.
Lemma round_map {A B} (f : A -> B) l : round (map f l) = map (fun e => (f (fst e), f (snd e))) (round l).
Proof.
  assert (G : forall x y, combine (map f x) (map f y) = map (fun e => (f (fst e), f (snd e))) (combine x y)).
  { induction x as [|u x IH]; intros [|v y]; try reflexivity. cbn. f_equal. apply IH. }
  destruct l as [|a l]; [reflexivity|]. unfold round. cbn [map]. rewrite <- G. rewrite map_app. reflexivity.
Qed.
Lemma combine_app {A B} (l l' : list A) (m m' : list B) : length l = length m -> combine (l ++ l') (m ++ m') = combine l m ++ combine l' m'.
Proof. revert m. induction l; intros [|b m] H; try discriminate; [reflexivity|]. cbn. f_equal. apply IHl. cbn in H. lia. Qed.
Lemma combine_swap {A} (l m : list A) : combine m l = map (fun e => (snd e, fst e)) (combine l m).
Proof. revert m. induction l; intros [|b m]; try reflexivity. cbn. f_equal. auto. Qed.
Lemma combine_rev {A B} (l : list A) (m : list B) : length l = length m -> combine (rev l) (rev m) = rev (combine l m).
Proof.
  revert m. induction l; intros [|b m] H; try discriminate; [reflexivity|]. cbn in *. rewrite combine_app by (rewrite !rev_length; lia).
  rewrite IHl by lia. reflexivity.
Qed.
(** going round the other way *)
Lemma round_rev {A} (l : list A) : Permutation (round (rev l)) (map (fun e => (snd e, fst e)) (round l)).
Proof.
  destruct l as [|a l]; [apply Permutation_refl|]. unfold round at 2. rewrite <- combine_swap.
  rewrite (Permutation_rev (combine (l ++ [a]) (a :: l))). rewrite <- combine_rev by (rewrite app_length; cbn; lia).
  rewrite rev_app_distr. cbn [rev app]. destruct (rev l) as [|b m]; [apply Permutation_refl|].
  cbn [app combine]. unfold round. replace ((m ++ [a]) ++ [b]) with ((m ++ [a]) ++ [b]) by reflexivity.
  change (b :: m ++ [a]) with ((b :: m) ++ [a]). rewrite combine_app by (rewrite app_length; cbn; lia).
  cbn [combine]. apply Permutation_sym, Permutation_cons_append.
Qed.
Lemma combine_nth_error {A B} (l : list A) (m : list B) i :
  nth_error (combine l m) i = match nth_error l i, nth_error m i with Some a, Some b => Some (a, b) | _, _ => None end.
Proof.
  revert m i. induction l as [|a l IH]; intros [|b m] [|i]; cbn; try reflexivity.
  - destruct (nth_error l i); reflexivity.
  - apply IH.
Qed.
Lemma removelast_nth {A} (l : list A) i : (S i < length l)%nat -> nth_error (removelast l) i = nth_error l i.
Proof.
  revert i. induction l as [|a l IH]; intros i H; [reflexivity|]. destruct l as [|b l]; [cbn in H; lia|].
  cbn [removelast]. destruct i; [reflexivity|]. cbn [nth_error]. apply IH. cbn in *. lia.
Qed.
Lemma removelast_len {A} (l : list A) : length (removelast l) = (length l - 1)%nat.
Proof. induction l as [|a l IH]; [reflexivity|]. destruct l as [|b l]; [reflexivity|]. cbn [removelast length] in *. rewrite IH. lia. Qed.
Lemma last_default {A} (r : list A) a b : r <> [] -> last r a = last r b.
Proof. induction r as [|x r IH]; [congruence|]. intros _. destruct r as [|y r]; [reflexivity|]. apply IH. discriminate. Qed.
Lemma last_nth {A} (r : list A) a : nth_error (a :: r) (length r) = Some (last r a).
Proof.
  revert a. induction r as [|b r IH]; intros a; [reflexivity|]. cbn [length nth_error]. rewrite IH.
  destruct r as [|c r]; [reflexivity|]. f_equal. change (last (b :: c :: r) a) with (last (c :: r) a). apply last_default. discriminate.
Qed.
Lemma triples_snd {A} (l : list A) : map (fun t : A * A * A => (snd (fst t), snd t)) (loop_triples l) = round l.
Proof.
  destruct l as [|a r]; [reflexivity|]. unfold loop_triples, round.
  assert (L1 : length (last r a :: removelast (a :: r)) = length (a :: r)) by (cbn [length]; rewrite removelast_len; cbn; lia).
  assert (L2 : length (r ++ [a]) = length (a :: r)) by (rewrite app_length; cbn; lia).
  revert L1 L2. generalize (last r a :: removelast (a :: r)) as P. generalize (a :: r) as l. generalize (r ++ [a]) as S. clear.
  intros S l. revert S. induction l as [|x l IH]; intros [|y S] [|z P] H1 H2; try discriminate; [reflexivity|].
  cbn. f_equal. apply IH; cbn in *; lia.
Qed.
Lemma triples_length {A} (l : list A) : length (loop_triples l) = length l.
Proof. rewrite <- (round_length l), <- triples_snd, map_length. reflexivity. Qed.
Lemma triples_consecutive {A} (l : list A) a b c : In (a, b, c) (loop_triples l) -> consecutive l a b c.
Proof.
  intros H. apply In_nth_error in H as [i H].
  assert (Hi : (i < length l)%nat) by (rewrite <- triples_length; apply nth_error_Some; rewrite H; discriminate).
  destruct l as [|x r]; [cbn in Hi; lia|]. set (l := x :: r) in *.
  assert (R : nth_error (round l) i = Some (b, c)).
  { rewrite <- triples_snd, nth_error_map, H. reflexivity. }
  unfold loop_triples in H. fold l in H. cbn [l] in H. fold l in H. rewrite !combine_nth_error in H.
  assert (RF : forall j, nth_error (round l) j = match nth_error l j, nth_error (r ++ [x]) j with Some a, Some b => Some (a, b) | _, _ => None end).
  { intros j. apply combine_nth_error. }
  destruct i as [|i].
  - exists (length r). split.
    + rewrite RF. unfold l. rewrite last_nth. rewrite nth_error_app2, Nat.sub_diag by lia. unfold l in H. cbn [nth_error] in *.
      destruct (r ++ [x]) as [|y z]; [discriminate|]. cbn in H. injection H as -> -> ->. reflexivity.
    + replace (S (length r) mod length l)%nat with 0%nat; [exact R|]. unfold l. cbn [length]. rewrite Nat.mod_same by lia. reflexivity.
  - exists i. rewrite Nat.mod_small by lia. split; [|exact R]. rewrite RF.
    change (nth_error (last r x :: removelast l) (S i)) with (nth_error (removelast l) i) in H.
    rewrite removelast_nth in H by lia. destruct (nth_error l i); [|discriminate].
    assert (E : nth_error (r ++ [x]) i = nth_error l (S i)).
    { subst l. cbn [nth_error]. apply nth_error_app1. cbn in Hi. lia. }
    rewrite E. destruct (nth_error l (S i)); [|discriminate].
    destruct (nth_error (r ++ [x]) (S i)); [|discriminate]. injection H as -> -> ->. reflexivity.
Qed.
Lemma consecutive_in {A} (l : list A) a b c : consecutive l a b c -> In a l /\ In b l /\ In c l.
Proof.
  intros (i & H1 & H2). apply nth_error_In in H1. apply nth_error_In in H2.
  assert (F : forall x y, In (x, y) (round l) -> In x l /\ In y l).
  { intros x y H. split; [rewrite <- (round_fst l); apply in_map_iff; exists (x, y); auto|].
    apply (Permutation_in _ (round_snd l)). apply in_map_iff; exists (x, y); auto. }
  destruct (F _ _ H1), (F _ _ H2). auto.
Qed.
Lemma round_in {A} (l : list A) x y : In (x, y) (round l) -> In x l /\ In y l.
Proof.
  intros H. split; [rewrite <- (round_fst l); apply in_map_iff; exists (x, y); auto|].
  apply (Permutation_in _ (round_snd l)). apply in_map_iff; exists (x, y); auto.
Qed.

(** ** balanced families of sides *)
Section Balanced.
  Context {L : Type}.
  Definition balanced (E : list (L * L)) : Prop := Permutation E (map lback E).
  Lemma lback_inv (e : L * L) : lback (lback e) = e.
  Proof. destruct e; reflexivity. Qed.
  Lemma map_lback_inv (E : list (L * L)) : map lback (map lback E) = E.
  Proof. rewrite map_map. rewrite <- (map_id E) at 2. apply map_ext. apply lback_inv. Qed.
  Lemma balanced_app E F : balanced E -> balanced F -> balanced (E ++ F).
  Proof. unfold balanced. intros H1 H2. rewrite map_app. apply Permutation_app; auto. Qed.
  Lemma balanced_perm E F : Permutation E F -> balanced E -> balanced F.
  Proof. unfold balanced. intros P H. rewrite <- P. rewrite H at 1. apply Permutation_refl. Qed.
  Lemma balanced_pair E : balanced (E ++ map lback E).
  Proof. unfold balanced. rewrite map_app, map_lback_inv. apply Permutation_app_comm. Qed.
  Lemma balanced_back E : balanced E -> balanced (map lback E).
  Proof. unfold balanced. intros H. rewrite map_lback_inv. apply Permutation_sym. exact H. Qed.
End Balanced.
Lemma balanced_map {A B} (f : A -> B) E : balanced E -> balanced (map (fun e => (f (fst e), f (snd e))) E).
Proof.
  unfold balanced. intros H. rewrite map_map. rewrite H at 1. rewrite map_map. apply Permutation_refl.
Qed.
