(** What holds for every program, also one that shares rows. *)
From Coq Require Import Reals List Bool ZArith Lia.
From Verif Require Import Xform_Model Alias_Model Alias_Spec Alias_Proofs.
Import ListNotations.
Open Scope nat_scope.

Definition rg (h : heap) (n : nat) : Prop :=
  length (mats h) = n /\ forall a i, a < n -> i < 4 -> ref (mat h a) i < length (lists h).

Lemma rg_write h n r k x : rg h n -> rg (write h r k x) n.
Proof. intros [L R]. split; [exact L|]. intros a i Ha Hi. rewrite lists_write. now apply R. Qed.
Lemma rg_spread h n m i x : rg h n -> rg (spread h m i x) n.
Proof. intros H. unfold spread. now do 4 apply rg_write. Qed.
Lemma rg_alloc h n v : rg h n -> rg (fst (alloc h v)) n /\ snd (alloc h v) < length (lists (fst (alloc h v))).
Proof.
  intros [L R]. unfold alloc. cbn [fst snd lists]. rewrite app_length. cbn [length]. split; [|lia].
  split; [exact L|]. intros a i Ha Hi. cbn [lists]. rewrite app_length. specialize (R a i Ha Hi).
  unfold mat in *. cbn [mats]. lia.
Qed.
Lemma rg_store h n a i x : rg h n -> i < 4 -> x < length (lists h) -> rg (store h a i x) n.
Proof.
  intros [L R] Hi Hx. split; [unfold store; cbn [mats]; now rewrite lset_length|].
  intros b p Hb Hp. unfold mat, store. cbn [mats lists].
  destruct (Nat.eq_dec a b) as [<-|N].
  - rewrite lset_same by lia. rewrite ref_set_ref by assumption. destruct (Nat.eqb p i); [assumption|now apply R].
  - rewrite lset_other by assumption. now apply R.
Qed.
Lemma rg_setrow h n a i x : rg h n -> i < 4 -> x < length (lists h) -> rg (h_setrow h a i x) n.
Proof. intros H Hi Hx. unfold h_setrow. destruct (o_trans _); [now apply rg_spread|now apply rg_store]. Qed.
Lemma rg_setcol h n a i x : rg h n -> i < 4 -> x < length (lists h) -> rg (h_setcol h a i x) n.
Proof. intros H Hi Hx. unfold h_setcol. destruct (o_trans _); [now apply rg_store|now apply rg_spread]. Qed.
Lemma rg_getrow h n a i : rg h n -> a < n -> i < 4 ->
  rg (fst (h_getrow h a i)) n /\ snd (h_getrow h a i) < length (lists (fst (h_getrow h a i))).
Proof.
  intros H Ha Hi. unfold h_getrow. destruct (o_trans _); [now apply rg_alloc|]. cbn [fst snd].
  split; [assumption|]. now apply H.
Qed.
Lemma rg_getcol h n a i : rg h n -> a < n -> i < 4 ->
  rg (fst (h_getcol h a i)) n /\ snd (h_getcol h a i) < length (lists (fst (h_getcol h a i))).
Proof.
  intros H Ha Hi. unfold h_getcol. destruct (o_trans _); [|now apply rg_alloc]. cbn [fst snd].
  split; [assumption|]. now apply H.
Qed.
Lemma rg_new h n m t : rg h n -> rg (new_matrix h m t) (S n).
Proof.
  intros [L R]. split; [unfold new_matrix; cbn [mats]; rewrite app_length; cbn; lia|].
  intros a i Ha Hi. unfold mat, new_matrix. cbn [mats lists]. rewrite app_length. cbn [length].
  destruct (Nat.eq_dec a n) as [->|N].
  - rewrite app_nth2 by lia. rewrite L, Nat.sub_diag. cbn [nth].
    destruct i as [|[|[|[|i]]]]; cbn [ref Alias_Model.r0 Alias_Model.r1 Alias_Model.r2 Alias_Model.r3]; lia.
  - rewrite app_nth1 by lia. assert (Ha' : a < n) by lia. specialize (R a i Ha' Hi). unfold mat in R. lia.
Qed.
Lemma rg_copy_row h n a b i : rg h n -> a < n -> i < 4 -> rg (copy_row h a b i) n.
Proof.
  intros H Ha Hi. unfold copy_row. pose proof (rg_getrow h n a i H Ha Hi) as G.
  destruct (h_getrow h a i) as [h' x]. cbn [fst snd] in G. now apply rg_setrow.
Qed.
Lemma rg_copy h n a t : rg h n -> a < n -> rg (h_copy h a t) (S n).
Proof.
  intros H Ha. unfold h_copy.
  pose proof (rg_new h n ident_rows false H) as H1.
  set (hh := copy_row _ _ _ 3).
  assert (H2 : rg hh (S n)) by (unfold hh; repeat (apply rg_copy_row; [|lia|lia]); exact H1).
  clearbody hh. destruct H2 as [L R]. destruct H as [L0 _].
  split; [cbn [mats]; now rewrite lset_length|].
  intros b i Hb Hi. unfold mat at 1. cbn [mats lists].
  destruct (Nat.eq_dec (length (mats h)) b) as [<-|N].
  - rewrite lset_same by lia. specialize (R _ i Hb Hi).
    destruct i as [|[|[|[|i]]]]; try lia; exact R.
  - rewrite lset_other by assumption. now apply R.
Qed.

Lemma v_length s o : well_formed s o -> length (v_step s o) = match o with
  | OMatrix _ | ORows _ _ | OCopy _ _ | OMul _ _ | OScale _ _ => S (length s) | _ => length s end.
Proof.
  destruct o; cbn [well_formed v_step]; intros W; rewrite ?app_length; cbn [length]; try lia;
    apply put_length; tauto.
Qed.

Lemma rg_step h s o : rg h (length s) -> well_formed s o -> rg (h_step h o) (length (v_step s o)).
Proof.
  intros H W. rewrite v_length by assumption.
  destruct o as [t|m t|a t|a i j x|a i v|a j v|a i b k|a j b k|a i b k|a j b k|a b|a c];
    cbn [well_formed h_step] in *.
  - now apply rg_new.
  - now apply rg_new.
  - now apply rg_copy.
  - unfold h_set. destruct (o_trans _); now apply rg_write.
  - destruct (rg_alloc h _ v H) as [H' X]. destruct (alloc h v) as [h' x]. now apply rg_setrow.
  - destruct (rg_alloc h _ v H) as [H' X]. destruct (alloc h v) as [h' x]. now apply rg_setcol.
  - destruct W as (Ha & Hb & Hi & Hk). destruct (rg_getrow h _ b k H Hb Hk) as [H' X].
    destruct (h_getrow h b k) as [h' x]. now apply rg_setrow.
  - destruct W as (Ha & Hb & Hi & Hk). destruct (rg_getcol h _ b k H Hb Hk) as [H' X].
    destruct (h_getcol h b k) as [h' x]. now apply rg_setcol.
  - destruct W as (Ha & Hb & Hi & Hk). destruct (rg_getcol h _ b k H Hb Hk) as [H' X].
    destruct (h_getcol h b k) as [h' x]. now apply rg_setrow.
  - destruct W as (Ha & Hb & Hi & Hk). destruct (rg_getrow h _ b k H Hb Hk) as [H' X].
    destruct (h_getrow h b k) as [h' x]. now apply rg_setcol.
  - now apply rg_new.
  - now apply rg_new.
Qed.

Lemma rg_run ops : forall h s, rg h (length s) -> names_exist s ops ->
  rg (fold_left h_step ops h) (length (fold_left v_step ops s)).
Proof.
  induction ops as [|o r IH]; intros h s H W; [exact H|]. destruct W as [W0 W].
  cbn [fold_left]. apply IH; [|exact W]. now apply rg_step.
Qed.

Lemma vget_vset_same v k x : k < 4 -> vget (vset v k x) k = x.
Proof. intros H. destruct v, k as [|[|[|[|k]]]]; try lia; reflexivity. Qed.

Lemma get_set_any h n a i j x : rg h n -> a < n -> i < 4 -> j < 4 -> h_get (h_set h a i j x) a i j = x.
Proof.
  intros [L R] Ha Hi Hj. unfold h_set, h_get. destruct (o_trans (mat h a)) eqn:T;
  rewrite mat_write, T, rd_write_same by (now apply R); now apply vget_vset_same.
Qed.
