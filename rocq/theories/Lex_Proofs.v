(** Proofs about the lexer model: positions, progress, termination. *)
From Coq Require Import ZArith List Bool Lia String.
From Verif Require Import Lex_Model Lex_Spec.
Import ListNotations.
Open Scope Z_scope.
Open Scope list_scope.

Definition len (l : list Z) : Z := Z.of_nat (List.length l).

(** The lexer's position fields agree with the offset. *)
Record wfp (src : list Z) (s : st) : Prop := {
  w_src : s_src s = src;
  w_off : 0 <= s_off s <= len src;
  w_rem : s_rem s = skipn (Z.to_nat (s_off s)) src;
  w_pos : position src (s_off s) = (s_line s, s_col s) }.

Lemma line_col_app a b l c :
  line_col (a ++ b) l c = line_col b (fst (line_col a l c)) (snd (line_col a l c)).
Proof.
  revert l c. induction a as [|x a IH]; intros; simpl; auto.
  destruct (x =? 10); apply IH.
Qed.
Lemma firstn_S_skipn {A} (l : list A) n c r : skipn n l = c :: r -> firstn (S n) l = firstn n l ++ [c].
Proof.
  revert l. induction n as [|n IH]; intros [|x l]; simpl; intros; try discriminate.
  - congruence.
  - f_equal. apply IH. auto.
Qed.
Lemma skipn_S_eq {A} (l : list A) n c r : skipn n l = c :: r -> skipn (S n) l = r.
Proof.
  revert l. induction n as [|n IH]; intros [|x l]; simpl; intros; try discriminate.
  - congruence.
  - apply (IH l). auto.
Qed.
Lemma skipn_cons_lt {A} (l : list A) n c r : skipn n l = c :: r -> (n < List.length l)%nat.
Proof.
  intros H. destruct (Nat.lt_ge_cases n (List.length l)); auto.
  rewrite skipn_all2 in H by auto. discriminate.
Qed.
Lemma wfp_init src : wfp src (init src).
Proof. constructor; simpl; auto. unfold len. lia. Qed.

Lemma advance_wfp src s : wfp src s -> wfp src (advance s).
Proof.
  intros [Hs Ho Hr Hp]. unfold advance. destruct (s_rem s) as [|c r] eqn:E; [constructor; auto; congruence|].
  symmetry in Hr. assert (L := skipn_cons_lt _ _ _ _ Hr).
  assert (P : position src (s_off s + 1) = line_col [c] (s_line s) (s_col s)).
  { unfold position, between in *. rewrite Z.sub_0_r in *. simpl (Z.to_nat 0) in *. simpl skipn in *.
    replace (Z.to_nat (s_off s + 1)) with (S (Z.to_nat (s_off s))) by lia.
    rewrite (firstn_S_skipn _ _ _ _ Hr), line_col_app, Hp. reflexivity. }
  assert (R : skipn (Z.to_nat (s_off s + 1)) src = r).
  { replace (Z.to_nat (s_off s + 1)) with (S (Z.to_nat (s_off s))) by lia. eapply skipn_S_eq; eauto. }
  unfold len in *. simpl in P. destruct (c =? 10); constructor; simpl s_src; simpl s_off; simpl s_rem; simpl s_line; simpl s_col; auto; try congruence; unfold len; lia.
Qed.
Lemma advance_n_wfp src n s : wfp src s -> wfp src (advance_n n s).
Proof. revert s. induction n; simpl; auto using advance_wfp. Qed.
Lemma advance_rem s : s_rem (advance s) = tl (s_rem s).
Proof. unfold advance. destruct (s_rem s) eqn:E; auto. destruct (z =? 10); auto. Qed.
Lemma advance_n_rem n s : s_rem (advance_n n s) = skipn n (s_rem s).
Proof.
  revert s. induction n as [|n IH]; intros; auto. simpl advance_n. rewrite IH, advance_rem.
  destruct (s_rem s); auto. now rewrite skipn_nil.
Qed.
Lemma advance_n_off n s : (n <= List.length (s_rem s))%nat -> s_off (advance_n n s) = s_off s + Z.of_nat n.
Proof.
  revert s. induction n as [|n IH]; intros s H; [simpl; lia|]. simpl advance_n.
  rewrite IH; [|rewrite advance_rem; destruct (s_rem s); simpl in *; lia].
  unfold advance. destruct (s_rem s) as [|c r]; simpl in H; [lia|]. destruct (c =? 10); simpl; lia.
Qed.
Lemma advance_n_same n s :
  s_src (advance_n n s) = s_src s /\ s_stack (advance_n n s) = s_stack s /\
  s_pend (advance_n n s) = s_pend s /\ s_depth (advance_n n s) = s_depth s.
Proof.
  revert s. induction n as [|n IH]; intros; simpl; auto. destruct (IH (advance s)) as (A&B&C&D). 
  rewrite A, B, C, D. unfold advance. destruct (s_rem s); auto. destruct (z =? 10); auto.
Qed.
Lemma count_while_le p l : (count_while p l <= List.length l)%nat.
Proof. induction l; simpl; [lia|]. destruct (p a); lia. Qed.
Lemma comment_len_le l : forall d n, comment_len d l = Some n -> (n <= List.length l)%nat.
Proof.
  assert (H : forall k l d n, (List.length l <= k)%nat -> comment_len d l = Some n -> (n <= List.length l)%nat).
  { induction k as [|k IH]; intros l' d n L H.
    - destruct l'; [|simpl in L; lia]. destruct d; simpl in H; [injection H as <-; lia|discriminate].
    - destruct d; [destruct l'; injection H as <-; lia|]. destruct l' as [|a [|b l2]]; simpl in H; [discriminate|discriminate|].
      simpl in L.
      destruct ((a =? 47) && (b =? 42)).
      { destruct (comment_len (S (S d)) l2) eqn:E; [|discriminate]. injection H as <-. apply IH in E; simpl; lia. }
      destruct ((a =? 42) && (b =? 47)).
      { destruct (comment_len d l2) eqn:E; [|discriminate]. injection H as <-. apply IH in E; simpl; lia. }
      change (option_map S (comment_len (S d) (b :: l2)) = Some n) in H.
      destruct (comment_len (S d) (b :: l2)) eqn:E; [|discriminate]. injection H as <-. apply IH in E; simpl in *; lia. }
  intros d n. apply (H _ l d n (le_n _)).
Qed.

(** A scanning function moved forward: same fields except position (and line-start flag). *)
Record fwd (src : list Z) (s s' : st) : Prop := {
  f_wf : wfp src s'; f_off : s_off s <= s_off s';
  f_stack : s_stack s' = s_stack s; f_pend : s_pend s' = s_pend s; f_depth : s_depth s' = s_depth s }.
Lemma fwd_refl src s : wfp src s -> fwd src s s.
Proof. intros. constructor; auto; lia. Qed.
Lemma fwd_trans src a b c : fwd src a b -> fwd src b c -> fwd src a c.
Proof. intros [A1 A2 A3 A4 A5] [B1 B2 B3 B4 B5]. constructor; auto; try congruence; lia. Qed.
Lemma fwd_n src n s : wfp src s -> fwd src s (advance_n n s).
Proof.
  intros W. destruct (advance_n_same n s) as (A&B&C&D).
  constructor; auto using advance_n_wfp.
  revert s W A B C D. induction n as [|n IH]; intros; simpl; [lia|].
  assert (s_off s <= s_off (advance s)).
  { unfold advance. destruct (s_rem s); [lia|]. destruct (z =? 10); simpl; lia. }
  destruct (advance_n_same n (advance s)) as (A'&B'&C'&D').
  specialize (IH _ (advance_wfp _ _ W) A' B' C' D'). lia.
Qed.
Lemma fwd_1 src s : wfp src s -> fwd src s (advance s).
Proof. apply (fwd_n src 1). Qed.
Lemma fwd_while src p s : wfp src s -> fwd src s (advance_while p s).
Proof. apply fwd_n. Qed.
Lemma off_rem src s : wfp src s -> s_off s = len src - len (s_rem s).
Proof. intros [A B C D]. rewrite C. unfold len in *. rewrite skipn_length. lia. Qed.
Lemma wfp_same src s s' : s_src s' = s_src s -> s_rem s' = s_rem s -> s_off s' = s_off s ->
  s_line s' = s_line s -> s_col s' = s_col s -> wfp src s -> wfp src s'.
Proof. intros A B C D E [F G H I]. constructor; congruence. Qed.
Lemma char_at_rem src s k : wfp src s -> nth_error (s_rem s) k = char_at src (s_off s + Z.of_nat k).
Proof.
  intros [A B C D]. rewrite C. unfold char_at. rewrite Z2Nat.inj_add, Nat2Z.id by lia.
  generalize (Z.to_nat (s_off s)). clear. intros n. revert src. induction n as [|n IH]; intros [|x l]; simpl; auto.
  destruct k; auto.
Qed.
Lemma peek_nonzero s k : peek k s <> 0 -> nth_error (s_rem s) k = Some (peek k s).
Proof.
  unfold peek. revert k. induction (s_rem s) as [|a l IH]; intros [|k]; simpl; intros; try congruence; auto.
Qed.
Lemma peek_len s k : peek k s <> 0 -> (k < List.length (s_rem s))%nat.
Proof. intros H. apply peek_nonzero in H. apply nth_error_Some. congruence. Qed.
Lemma rem_length src s s' : wfp src s -> wfp src s' -> s_off s <= s_off s' ->
  (List.length (s_rem s') <= List.length (s_rem s))%nat.
Proof. intros A B H. apply off_rem in A, B. unfold len in *. lia. Qed.
Lemma rem_length_lt src s s' : wfp src s -> wfp src s' -> s_off s < s_off s' ->
  (List.length (s_rem s') < List.length (s_rem s))%nat.
Proof. intros A B H. apply off_rem in A, B. unfold len in *. lia. Qed.

(** ** Gaps *)
Lemma gap_trans nl src a b c : gap nl src a b -> gap nl src b c -> gap nl src a c.
Proof. induction 1; intros; auto; [eapply gap_char|eapply gap_line|eapply gap_block]; eauto. Qed.
Lemma between_rem src s n : wfp src s -> (n <= List.length (s_rem s))%nat ->
  between src (s_off s) (s_off s + Z.of_nat n) = firstn n (s_rem s).
Proof.
  intros [A B C D] H. unfold between. rewrite C. f_equal. lia.
Qed.
Lemma count_while_cons p c l : count_while p (c :: l) = if p c then S (count_while p l) else O.
Proof. reflexivity. Qed.

Lemma gap_blanks nl src : forall n s, wfp src s -> n = count_while is_blank (s_rem s) ->
  gap nl src (s_off s) (s_off (advance_n n s)).
Proof.
  induction n as [|n IH]; intros s W E; [constructor|]. simpl advance_n.
  destruct (s_rem s) as [|c r] eqn:R; [discriminate|]. simpl in E.
  destruct (is_blank c) eqn:Ec; [|discriminate]. injection E as E.
  assert (O : s_off (advance s) = s_off s + 1).
  { apply (advance_n_off 1). rewrite R. simpl. lia. }
  eapply (gap_char _ _ _ _ c).
  - rewrite <- (Z.add_0_r (s_off s)). change 0 with (Z.of_nat 0). rewrite <- char_at_rem by auto. now rewrite R.
  - unfold is_blank in Ec. destruct (c =? 32) eqn:E1; [apply Z.eqb_eq in E1; auto|].
    destruct (c =? 9) eqn:E2; [apply Z.eqb_eq in E2; auto|discriminate].
  - rewrite <- O. apply IH; [apply advance_wfp; auto|]. rewrite advance_rem, R. auto.
Qed.
Lemma skip_blanks_gap nl src s : wfp src s -> gap nl src (s_off s) (s_off (skip_blanks s)).
Proof. intros. apply gap_blanks; auto. Qed.

Lemma count_while_spec p l : let n := count_while p l in
  (forall k c, (k < n)%nat -> nth_error l k = Some c -> p c = true) /\
  (n = List.length l \/ exists c, nth_error l n = Some c /\ p c = false).
Proof.
  induction l as [|a l [IH1 IH2]]; simpl; [split; [lia|auto]|].
  destruct (p a) eqn:E; simpl.
  - split.
    + intros [|k] c H; simpl; [congruence|]. apply IH1; lia.
    + destruct IH2 as [IH2|IH2]; auto.
  - split; [lia|]. right. eauto.
Qed.
Lemma skip_comment_gap nl src s : wfp src s -> peek 0 s = 35 -> gap nl src (s_off s) (s_off (skip_comment s)) /\
  s_off s < s_off (skip_comment s).
Proof.
  intros W P. unfold skip_comment, advance_while.
  set (p := fun c => negb (c =? 10)). destruct (count_while_spec p (s_rem s)) as [H1 H2].
  assert (L := count_while_le p (s_rem s)).
  rewrite advance_n_off by auto.
  assert (N : (0 < count_while p (s_rem s))%nat).
  { unfold peek in P. destruct (s_rem s) as [|c r]; [simpl in P; lia|]. simpl in P. subst c. simpl. lia. }
  split; [|lia].
  eapply (gap_line _ _ _ (s_off s + Z.of_nat (count_while p (s_rem s)))); [| | | |constructor].
  - rewrite <- (Z.add_0_r (s_off s)). change 0 with (Z.of_nat 0). rewrite <- char_at_rem by auto.
    rewrite <- P. apply peek_nonzero. rewrite P. lia.
  - lia.
  - intros i Hi Hc. replace i with (s_off s + Z.of_nat (Z.to_nat (i - s_off s))) in Hc by lia.
    rewrite <- char_at_rem in Hc by auto. apply H1 in Hc; [discriminate|lia].
  - destruct H2 as [H2|(c&H2&H3)].
    + left. rewrite H2. apply off_rem in W. unfold len in W. lia.
    + right. rewrite <- char_at_rem by auto. rewrite H2. f_equal.
      unfold p in H3. apply negb_false_iff, Z.eqb_eq in H3. auto.
Qed.
Lemma comment_inside l : forall d n, comment_len d l = Some n -> inside d (firstn n l).
Proof.
  assert (H : forall k l d n, (List.length l <= k)%nat -> comment_len d l = Some n -> inside d (firstn n l)).
  { induction k as [|k IH]; intros l' d n L H.
    - destruct l'; [|simpl in L; lia]. destruct d; simpl in H; [injection H as <-; constructor|discriminate].
    - destruct d; [destruct l'; injection H as <-; constructor|]. destruct l' as [|a [|b l2]]; simpl in H; [discriminate|discriminate|].
      simpl in L.
      destruct ((a =? 47) && (b =? 42)) eqn:E1.
      { destruct (comment_len (S (S d)) l2) eqn:E; [|discriminate]. injection H as <-. apply IH in E; [|lia].
        apply andb_prop in E1 as [E1 E2]. apply Z.eqb_eq in E1, E2. subst. simpl. constructor. auto. }
      destruct ((a =? 42) && (b =? 47)) eqn:E2.
      { destruct (comment_len d l2) eqn:E; [|discriminate]. injection H as <-. apply IH in E; [|lia].
        apply andb_prop in E2 as [E2 E3]. apply Z.eqb_eq in E3, E2. subst. simpl. constructor. auto. }
      change (option_map S (comment_len (S d) (b :: l2)) = Some n) in H.
      destruct (comment_len (S d) (b :: l2)) eqn:E; [|discriminate]. injection H as <-.
      apply IH in E; [|simpl in *; lia]. simpl firstn. destruct n0; [inversion E|]. simpl in E |- *.
      apply in_other; auto; intros (r & Hr); injection Hr as -> -> _; discriminate. }
  intros d n. apply (H _ l d n (le_n _)).
Qed.
Lemma skip_mcomment_spec nl src s s' : wfp src s -> peek 0 s = 47 -> peek 1 s = 42 ->
  skip_multiline_comment s = Ok s' -> fwd src s s' /\ gap nl src (s_off s) (s_off s') /\ s_off s + 4 <= s_off s'.
Proof.
  intros W P0 P1 H. unfold skip_multiline_comment in H. cbv zeta in H.
  remember (advance_n 2 s) as s2 eqn:D2.
  destruct (comment_len 1 (s_rem s2)) as [n|] eqn:E; [|discriminate]. injection H as <-.
  assert (R : exists l, s_rem s = 47 :: 42 :: l).
  { unfold peek in *. destruct (s_rem s) as [|a [|b l]]; simpl in *; try lia. subst. eauto. }
  destruct R as [l R].
  assert (W2 : wfp src s2) by (rewrite D2; apply advance_n_wfp; auto).
  assert (R2 : s_rem s2 = l) by (rewrite D2, advance_n_rem, R; auto).
  assert (O2 : s_off s2 = s_off s + 2) by (rewrite D2; apply (advance_n_off 2); rewrite R; simpl; lia).
  assert (L := comment_len_le _ _ _ E). rewrite R2 in *.
  assert (I := comment_inside _ _ _ E).
  assert (N2 : (2 <= n)%nat).
  { destruct l as [|x [|y l]]; [discriminate|discriminate|]. simpl in L.
    destruct n as [|[|n]]; simpl in I; [inversion I| |lia]. inversion I; subst.
    match goal with H : inside 1 [] |- _ => inversion H end. }
  split; [|split].
  - eapply fwd_trans; [rewrite D2; apply (fwd_n src 2); auto|rewrite <- D2; apply fwd_n; auto].
  - rewrite (advance_n_off n) by (rewrite R2; auto). rewrite O2.
    eapply (gap_block _ _ _ (s_off s + 2 + Z.of_nat n) _ (firstn n l)); auto; [|lia|constructor].
    replace (s_off s + 2 + Z.of_nat n) with (s_off s + Z.of_nat (2 + n)) by lia.
    rewrite between_rem by (auto; rewrite R; simpl; lia). now rewrite R.
  - rewrite (advance_n_off n) by (rewrite R2; auto). lia.
Qed.
Lemma skip_comments_spec nl src f s s' : wfp src s -> skip_comments f s = Ok s' -> 
  fwd src s s' /\ gap nl src (s_off s) (s_off s').
Proof.
  revert s. induction f as [|f IH]; intros s W H; simpl in H.
  - injection H as <-. split; [apply fwd_refl; auto|constructor].
  - destruct (peek 0 s =? 35) eqn:E1.
    + apply Z.eqb_eq in E1. assert (F1 : fwd src s (skip_comment s)) by (apply fwd_while; auto).
      assert (F2 : fwd src (skip_comment s) (skip_blanks (skip_comment s))) by (apply fwd_while; apply F1).
      apply IH in H; [|apply F2]. destruct H as [H1 H2]. split.
      * eapply fwd_trans; [|eauto]. eapply fwd_trans; eauto.
      * eapply gap_trans; [apply skip_comment_gap; auto|]. eapply gap_trans; [|eauto].
        apply skip_blanks_gap. apply F1.
    + destruct ((peek 0 s =? 47) && (peek 1 s =? 42)) eqn:E2.
      * apply andb_prop in E2 as [E2 E3]. apply Z.eqb_eq in E3, E2.
        destruct (skip_multiline_comment s) as [s1|] eqn:E; [|discriminate].
        destruct (skip_mcomment_spec nl src _ _ W E2 E3 E) as (F1 & G1 & _).
        assert (F2 : fwd src s1 (skip_blanks s1)) by (apply fwd_while; apply F1).
        apply IH in H; [|apply F2]. destruct H as [H1 H2]. split.
        -- eapply fwd_trans; [|eauto]. eapply fwd_trans; eauto.
        -- eapply gap_trans; [eauto|]. eapply gap_trans; [|eauto]. apply skip_blanks_gap. apply F1.
      * injection H as <-. split; [apply fwd_refl; auto|constructor].
Qed.
Lemma peek_skipn k n s : peek k (advance_n n s) = nth (n + k) (s_rem s) 0.
Proof.
  unfold peek. rewrite advance_n_rem. generalize (s_rem s). induction n as [|n IH]; intros [|x l]; simpl; auto.
  destruct k; auto.
Qed.
(** With enough fuel the comment loop stops at a non-comment. *)
Lemma skip_comments_done src f s s' : wfp src s -> (List.length (s_rem s) < f)%nat ->
  skip_comments f s = Ok s' -> peek 0 s' <> 35 /\ ~ (peek 0 s' = 47 /\ peek 1 s' = 42).
Proof.
  revert s. induction f as [|f IH]; intros s W L H; [lia|]. simpl in H.
  destruct (peek 0 s =? 35) eqn:E1.
  - apply Z.eqb_eq in E1. destruct (skip_comment_gap false src s W E1) as [_ O].
    assert (F1 : fwd src s (skip_comment s)) by (apply fwd_while; auto).
    assert (F2 : fwd src (skip_comment s) (skip_blanks (skip_comment s))) by (apply fwd_while; apply F1).
    apply IH in H; auto; [apply F2|].
    assert (X := rem_length_lt _ _ _ W (f_wf _ _ _ F2)). assert (Y := f_off _ _ _ F2). lia.
  - destruct ((peek 0 s =? 47) && (peek 1 s =? 42)) eqn:E2.
    + apply andb_prop in E2 as [E2 E3]. apply Z.eqb_eq in E3, E2.
      destruct (skip_multiline_comment s) as [s1|] eqn:E; [|discriminate].
      destruct (skip_mcomment_spec false src _ _ W E2 E3 E) as (F1 & G1 & O).
      assert (F2 : fwd src s1 (skip_blanks s1)) by (apply fwd_while; apply F1).
      apply IH in H; auto; [apply F2|].
      assert (X := rem_length_lt _ _ _ W (f_wf _ _ _ F2)). assert (Y := f_off _ _ _ F2). lia.
    + injection H as <-. apply Z.eqb_neq in E1. split; auto. intros [A B]. rewrite A, B in E2. discriminate.
Qed.
