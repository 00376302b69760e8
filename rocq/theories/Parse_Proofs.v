(** The parser terminates, only moves forward, and builds while-free programs. *)
From Coq Require Import ZArith String List Bool Lia.
From Verif Require Import Dict Lex_Model Lex_Proofs2 Ast Parse_Model Parse_Spec.
Import ListNotations.
Open Scope Z_scope.
Open Scope list_scope.

Definition Suf (r ts : list token) : Prop := exists pre, ts = pre ++ r.
Lemma Suf_refl ts : Suf ts ts. Proof. exists []; reflexivity. Qed.
Lemma Suf_trans a b c : Suf a b -> Suf b c -> Suf a c.
Proof. intros [p ->] [q ->]. exists (q ++ p). rewrite app_assoc. reflexivity. Qed.
Lemma Suf_len a b : Suf a b -> (length a <= length b)%nat.
Proof. intros [p ->]. rewrite app_length. lia. Qed.
Lemma Suf_tl a b : Suf a b -> Suf (tl a) b.
Proof.
  intros H. destruct a as [|x a]; [exact H|]. eapply Suf_trans; [|exact H]. exists [x]. reflexivity.
Qed.

(** An '@' token occurs (decorators are the only source of a TypeError). *)
Definition HasAt (ts : list token) : Prop := exists t, In t ts /\ t_type t = AT.
Lemma HasAt_suf a b : Suf a b -> HasAt a -> HasAt b.
Proof. intros [p ->] (t & H1 & H2). exists t. rewrite in_app_iff. auto. Qed.
Definition wp {A} (ts0 : list token) (x : pres A) (Q : A -> list token -> Prop) : Prop :=
  match x with
  | POk a r => Q a r | PErr _ a => Suf a ts0 | PCrash => HasAt ts0 | PFuel => False end.

Lemma wp_mono {A} ts0 ts1 (x : pres A) (Q Q' : A -> list token -> Prop) :
  Suf ts0 ts1 -> (forall a r, Q a r -> Q' a r) -> wp ts0 x Q -> wp ts1 x Q'.
Proof. intros Hs H. destruct x; simpl; auto; [intros; eapply Suf_trans; eauto|]. apply HasAt_suf; auto. Qed.
Lemma wp_bind {A B} ts0 (x : pres A) (f : A -> list token -> pres B) Q :
  wp ts0 x (fun a r => wp ts0 (f a r) Q) -> wp ts0 (bind x f) Q.
Proof. destruct x; simpl; auto. Qed.

Definition fine {A} (p : parser A) (G : A -> Prop) (ts : list token) : Prop :=
  wp ts (p ts) (fun a r => Suf r ts /\ (length r < length ts)%nat /\ G a).

Lemma use_fine {A B} ts0 r (p : parser A) G (f : A -> list token -> pres B) Q :
  fine p G r -> Suf r ts0 ->
  (forall a r', Suf r' ts0 -> (length r' < length r)%nat -> G a -> wp ts0 (f a r') Q) ->
  wp ts0 (bind (p r) f) Q.
Proof.
  intros Hf Hs H. apply wp_bind. eapply wp_mono; [exact Hs| |exact Hf].
  intros a r' (H1 & H2 & H3). apply H; auto. eapply Suf_trans; eauto.
Qed.
Lemma use_fine_ret {A} ts0 r (p : parser A) G (Q : A -> list token -> Prop) :
  fine p G r -> Suf r ts0 ->
  (forall a r', Suf r' ts0 -> (length r' < length r)%nat -> G a -> Q a r') ->
  wp ts0 (p r) Q.
Proof.
  intros Hf Hs H. eapply wp_mono; [exact Hs| |exact Hf].
  intros a r' (H1 & H2 & H3). apply H; auto. eapply Suf_trans; eauto.
Qed.

Lemma check_eq ty ts : check ty ts = true -> cur ts = ty.
Proof. apply teqb_eq. Qed.
Lemma adv_le ts0 r : Suf r ts0 -> Suf (adv r) ts0 /\ (length (adv r) <= length r)%nat.
Proof.
  intros H. unfold adv. destruct (at_end r); [split; auto|]. split; [apply Suf_tl; auto|].
  destruct r; simpl; lia.
Qed.
Lemma adv_lt ts0 r ty : Suf r ts0 -> check ty r = true -> ty <> EOF ->
  Suf (adv r) ts0 /\ (length (adv r) < length r)%nat.
Proof.
  intros H Hc Hn. apply check_eq in Hc. unfold adv, at_end, check. rewrite Hc.
  destruct (teqb ty EOF) eqn:E; [apply teqb_eq in E; contradiction|].
  split; [apply Suf_tl; auto|]. destruct r; simpl in *; [congruence|lia].
Qed.
Lemma adv_lt' ts0 r : Suf r ts0 -> cur r <> EOF ->
  Suf (adv r) ts0 /\ (length (adv r) < length r)%nat.
Proof. intros H Hn. apply (adv_lt ts0 r (cur r)); auto. unfold check. apply teqb_eq. reflexivity. Qed.
Lemma consume_fine ty ts : ty <> EOF -> fine (consume ty) (fun _ => True) ts.
Proof.
  intros Hn. unfold fine, consume. destruct (check ty ts) eqn:E; simpl; [|apply Suf_refl].
  destruct (adv_lt ts ts ty (Suf_refl _) E Hn). auto.
Qed.
Lemma skip_newlines_suf ts0 r : Suf r ts0 -> Suf (skip_newlines r) ts0 /\ (length (skip_newlines r) <= length r)%nat.
Proof.
  induction r as [|t r IH]; intros H; simpl; [auto|].
  destruct (teqb (t_type t) NEWLINE); [|auto].
  apply Suf_tl in H. simpl in H. destruct (IH H). split; auto.
Qed.

(** A parser that may consume nothing. *)
Definition finele {A} (p : parser A) (G : A -> Prop) (ts : list token) : Prop :=
  wp ts (p ts) (fun a r => Suf r ts /\ (length r <= length ts)%nat /\ G a).
Lemma fine_le {A} (p : parser A) G ts : fine p G ts -> finele p G ts.
Proof. apply wp_mono; [apply Suf_refl|]. intros a r (H1 & H2 & H3). repeat split; auto. lia. Qed.
Lemma use_finele {A B} ts0 r (p : parser A) G (f : A -> list token -> pres B) Q :
  finele p G r -> Suf r ts0 ->
  (forall a r', Suf r' ts0 -> (length r' <= length r)%nat -> G a -> wp ts0 (f a r') Q) ->
  wp ts0 (bind (p r) f) Q.
Proof.
  intros Hf Hs H. apply wp_bind. eapply wp_mono; [exact Hs| |exact Hf].
  intros a r' (H1 & H2 & H3). apply H; auto. eapply Suf_trans; eauto.
Qed.
Lemma expect_eol_le ts : finele expect_eol (fun _ => True) ts.
Proof.
  unfold finele, expect_eol. pose proof (adv_le ts ts (Suf_refl _)) as [H1 H2].
  pose proof (Suf_refl ts).
  repeat match goal with |- context [if ?b then _ else _] => destruct b end; simpl; auto 6.
Qed.
Lemma semi_or_eol_le ts : finele semi_or_eol (fun _ => True) ts.
Proof.
  unfold finele, semi_or_eol. destruct (check SEMICOLON ts).
  - pose proof (adv_le ts ts (Suf_refl _)) as [H1 H2]. simpl. auto.
  - apply expect_eol_le.
Qed.

Lemma while_wp {S} ts0 (body : S -> parser (S * bool)) (I : S -> Prop) (s : S) r :
  Suf r ts0 -> I s ->
  (forall s' r', Suf r' ts0 -> (length r' <= length r)%nat -> I s' ->
     wp ts0 (body s' r') (fun sb r'' => Suf r'' ts0 /\ (length r'' <= length r')%nat /\
        (snd sb = true -> (length r'' < length r')%nat) /\ I (fst sb))) ->
  wp ts0 (while body s r) (fun s' r' => Suf r' ts0 /\ (length r' <= length r)%nat /\ I s').
Proof.
  intros Hs HI Hb. unfold while.
  assert (forall n s' r', (length r' < n)%nat -> Suf r' ts0 -> (length r' <= length r)%nat -> I s' ->
    wp ts0 (loop body n s' r') (fun s' r' => Suf r' ts0 /\ (length r' <= length r)%nat /\ I s')) as H.
  { induction n; intros s' r' Hn Hs' Hl HI'; [lia|]. simpl.
    specialize (Hb s' r' Hs' Hl HI'). destruct (body s' r') as [[s2 b] r2| | |]; simpl in *; auto.
    destruct Hb as (H1 & H2 & H3 & H4). destruct b.
    - specialize (H3 eq_refl). apply IHn; auto; lia.
    - simpl. repeat split; auto. lia. }
  apply H; auto.
Qed.
Lemma use_while {S B} ts0 (body : S -> parser (S * bool)) (I : S -> Prop) (s : S) r (f : S -> list token -> pres B) Q :
  Suf r ts0 -> I s ->
  (forall s' r', Suf r' ts0 -> (length r' <= length r)%nat -> I s' ->
     wp ts0 (body s' r') (fun sb r'' => Suf r'' ts0 /\ (length r'' <= length r')%nat /\
        (snd sb = true -> (length r'' < length r')%nat) /\ I (fst sb))) ->
  (forall s' r', Suf r' ts0 -> (length r' <= length r)%nat -> I s' -> wp ts0 (f s' r') Q) ->
  wp ts0 (bind (while body s r) f) Q.
Proof.
  intros Hs HI Hb Hf. apply wp_bind.
  eapply wp_mono; [apply Suf_refl| |exact (while_wp ts0 body I s r Hs HI Hb)].
  intros a r' (H1 & H2 & H3). auto.
Qed.

Lemma Forall_snoc {A} (P : A -> Prop) l a : Forall P l -> P a -> Forall P (l ++ [a]).
Proof. intros. apply Forall_app. auto. Qed.

(** comma_list where each item is fine on every shorter stream. *)
Lemma comma_list_wp {A} ts0 stop (p : parser A) (G : A -> Prop) acc r :
  Suf r ts0 -> Forall G acc ->
  (forall r', Suf r' ts0 -> (length r' < length r)%nat -> fine p G r') ->
  wp ts0 (comma_list stop p acc r) (fun l r' => Suf r' ts0 /\ (length r' <= length r)%nat /\ Forall G l).
Proof.
  intros Hs Ha Hp. unfold comma_list. apply (while_wp ts0 _ (Forall G)); auto.
  intros l r' Hs' Hl HG. destruct (check COMMA r') eqn:E; [|simpl; repeat split; auto; discriminate].
  destruct (adv_lt ts0 r' _ Hs' E ltac:(discriminate)) as [Ha1 Ha2].
  destruct (match stop with Some ty => check ty (adv r') | None => false end).
  - simpl. repeat split; auto; try lia; discriminate.
  - eapply (use_fine ts0 _ p G); [apply Hp; auto; lia|auto|].
    intros a r2 H1 H2 H3. simpl. repeat split; auto; try lia. apply Forall_snoc; auto.
Qed.
Lemma use_comma {A B} ts0 stop (p : parser A) (G : A -> Prop) acc r (f : list A -> list token -> pres B) Q :
  Suf r ts0 -> Forall G acc ->
  (forall r', Suf r' ts0 -> (length r' < length r)%nat -> fine p G r') ->
  (forall l r', Suf r' ts0 -> (length r' <= length r)%nat -> Forall G l -> wp ts0 (f l r') Q) ->
  wp ts0 (bind (comma_list stop p acc r) f) Q.
Proof.
  intros Hs Ha Hp Hf. apply wp_bind.
  eapply wp_mono; [apply Suf_refl| |exact (comma_list_wp ts0 stop p G acc r Hs Ha Hp)].
  intros a r' (H1 & H2 & H3). auto.
Qed.

Record Good (L : nat) (R : rec) : Prop := {
  g_type : forall r, (length r < L)%nat -> fine (r_type R) (fun _ => True) r;
  g_un : forall r, (length r < L)%nat -> fine (r_un R) nw_e r;
  g_bin : forall m r, (length r < L)%nat -> fine (r_bin R m) nw_e r;
  g_cond : forall r, (length r < L)%nat -> fine (r_cond R) nw_e r;
  g_stmt : forall r, (length r < L)%nat -> fine (r_stmt R) nw_s r;
  g_block : forall r, (length r < L)%nat -> fine (r_block R) nw_b r }.

Lemma leqb_spec a b : leqb a b = true <-> a = b.
Proof.
  revert b. induction a as [|x a IH]; destruct b as [|y b]; simpl; try (split; [discriminate|congruence]); [tauto|].
  rewrite andb_true_iff, Z.eqb_eq, IH. split; [intros [-> ->]; auto|]. intros H; injection H as -> ->; auto.
Qed.
Lemma Forall_dset {V} (P : V -> Prop) k v (d : list (name * V)) :
  P v -> Forall (fun kv => P (snd kv)) d -> Forall (fun kv => P (snd kv)) (dset leqb k v d).
Proof.
  intros Hv. induction d as [|[k' v'] d IH]; simpl; intros H; [repeat constructor; auto|].
  inversion H; subst. destruct (leqb k k'); constructor; auto.
Qed.
Lemma Forall_update {V} (P : V -> Prop) (d2 : list (name * V)) : forall d,
  Forall (fun kv => P (snd kv)) d2 -> Forall (fun kv => P (snd kv)) d ->
  Forall (fun kv => P (snd kv)) (fold_left (fun m kv => dset leqb (fst kv) (snd kv) m) d2 d).
Proof.
  induction d2 as [|[k v] d2 IH]; simpl; intros d H1 H2; auto. inversion H1; subst.
  apply IH; auto. apply Forall_dset; auto.
Qed.

Ltac ne := discriminate.
(* consume a token known by check *)
Ltac adv_tac E :=
  match type of E with check ?ty ?r = true =>
    match goal with Hs : Suf r ?t0 |- _ =>
      let A := fresh "A" in let B := fresh "B" in
      destruct (adv_lt t0 r ty Hs E ltac:(ne)) as [A B] end end.
Ltac fin := simpl; repeat split; auto; try lia; try ne; try congruence.
Ltac sub := auto; lia.

Section S.
  Variable R : rec.

  Lemma parse_type_fine ts : Good (length ts) R -> fine (parse_type R) (fun _ => True) ts.
  Proof.
    intros [Ht _ _ _ _ _]. unfold fine, parse_type.
    destruct (is_type_token (cur ts) || check IDENTIFIER ts) eqn:E; [|apply Suf_refl].
    assert (cur ts <> EOF) as Hc.
    { intros H. unfold check in E. rewrite H in E. discriminate. }
    destruct (adv_lt' ts ts (Suf_refl _) Hc) as [A B].
    assert (forall close r, close <> EOF -> Suf r ts -> (length r < length ts)%nat ->
      wp ts (type_args R close r) (fun _ r' => Suf r' ts /\ (length r' < length ts)%nat)) as Ha.
    { intros close r Hcl Hs Hl. unfold type_args.
      eapply (use_fine ts _ (r_type R)); [apply Ht; lia|auto|]. intros a r1 S1 L1 _.
      eapply (use_comma ts None (r_type R) (fun _ => True)); [auto|repeat constructor| |].
      { intros; apply Ht; lia. }
      intros l r2 S2 L2 _. eapply (use_fine ts _ (consume close)); [apply consume_fine; auto|auto|].
      intros _ r3 S3 L3 _. fin. }
    assert (forall t r, Suf r ts -> (length r < length ts)%nat ->
      wp ts (if check QUESTION r then POk (TOptional t) (adv r) else POk t r)
         (fun _ r0 => Suf r0 ts /\ (length r0 < length ts)%nat /\ True)) as Hq.
    { intros t r S0 L0. destruct (check QUESTION r) eqn:Eq; [adv_tac Eq|]; fin. }
    apply wp_bind.
    destruct (check LBRACKET (adv ts)) eqn:E1; [|destruct (check LT (adv ts)) eqn:E2].
    - adv_tac E1. apply wp_bind. eapply wp_mono; [apply Suf_refl| |apply Ha; auto; [ne|lia]].
      intros l r [S1 L1]. simpl. apply Hq; auto.
    - adv_tac E2. apply wp_bind. eapply wp_mono; [apply Suf_refl| |apply Ha; auto; [ne|lia]].
      intros l r [S1 L1]. simpl. apply Hq; auto.
    - simpl. apply Hq; auto.
  Qed.

  Variable L : nat.
  Hypothesis HG : Good L R.
  Lemma e_fine r : (length r < L)%nat -> fine (r_expr R) nw_e r.
  Proof. intros. apply (g_cond L R HG). auto. Qed.

  Definition nw_args (a : args_st) : Prop :=
    Forall nw_e (fst a) /\ Forall (fun kv => nw_e (snd kv)) (snd a).
  Lemma parse_argument_fine a r : nw_args a -> (length r < L)%nat -> fine (parse_argument R a) nw_args r.
  Proof.
    intros [H1 H2] Hl. unfold fine, parse_argument.
    destruct (check IDENTIFIER r && teqb (peek1 r) ASSIGN) eqn:E.
    - apply andb_prop in E as [E _]. assert (Suf r r) as S0 by apply Suf_refl.
      adv_tac E. destruct (adv_le r _ A) as [A2 B2].
      eapply (use_fine r _ (r_expr R)); [apply e_fine; lia|auto|].
      intros v r' S1 L1 G1. simpl. repeat split; auto; [lia|]. simpl. apply Forall_dset; auto.
    - eapply (use_fine r _ (r_expr R)); [apply e_fine; lia|apply Suf_refl|].
      intros v r' S1 L1 G1. simpl. repeat split; auto. simpl. apply Forall_snoc; auto.
  Qed.
  Lemma parse_arguments_fine r : (length r <= L)%nat -> fine (parse_arguments R) nw_args r.
  Proof.
    intros Hl. unfold fine, parse_arguments.
    eapply (use_fine r _ (consume LPAREN)); [apply consume_fine; ne|apply Suf_refl|].
    intros _ r1 S1 L1 _. apply wp_bind.
    assert (forall a r2, Suf r2 r -> (length r2 < length r)%nat -> nw_args a ->
      wp r (do _u, ts <- consume RPAREN r2; POk a ts) (fun a0 r0 => Suf r0 r /\ (length r0 < length r)%nat /\ nw_args a0)) as Hend.
    { intros a r2 S2 L2 Ga. eapply (use_fine r _ (consume RPAREN)); [apply consume_fine; ne|auto|].
      intros _ r3 S3 L3 _. fin; apply Ga. }
    destruct (check RPAREN r1) eqn:E; [simpl; apply Hend; auto; split; constructor|].
    eapply (use_fine r _ (parse_argument R ([], []))).
    { apply parse_argument_fine; [split; constructor|lia]. }
    { auto. }
    intros a r2 S2 L2 Ga.
    eapply wp_mono; [apply Suf_refl| |apply (while_wp r _ nw_args); auto].
    - simpl. intros a' r' (S' & L' & G'). apply Hend; auto. lia.
    - intros a' r' S' L' G'. destruct (check COMMA r') eqn:Ec; [|fin; apply G'].
      adv_tac Ec. destruct (check RPAREN (adv r')); [fin; apply G'|].
      eapply (use_fine r _ (parse_argument R a')); [apply parse_argument_fine; auto; lia|auto|].
      intros a2 r3 S3 L3 G3. fin; apply G3.
  Qed.

  Lemma param_names_wp ts0 f r : Suf r ts0 ->
    wp ts0 (param_names f r) (fun _ r' => Suf r' ts0 /\ (length r' <= length r)%nat /\ True).
  Proof.
    intros Hs. unfold param_names. apply (while_wp ts0 _ (fun _ => True)); auto.
    intros l r' S' L' _. destruct (check COMMA r') eqn:E; [|fin]. adv_tac E.
    destruct (check IDENTIFIER (adv r')) eqn:E2; [adv_tac E2|]; fin.
  Qed.
  Lemma parse_grouped_wp ts0 r : Suf r ts0 -> (length r < L)%nat ->
    wp ts0 (parse_grouped R r) (fun e r' => Suf r' ts0 /\ (length r' < length r)%nat /\ nw_e e).
  Proof.
    intros Hs Hl. unfold parse_grouped.
    eapply (use_fine ts0 _ (r_expr R)); [apply e_fine; auto|auto|]. intros e r1 S1 L1 G1.
    eapply (use_fine ts0 _ (consume RPAREN)); [apply consume_fine; ne|auto|]. intros _ r2 S2 L2 _. fin.
  Qed.
  Lemma parse_grouped_or_lambda_fine r : (length r <= L)%nat -> check LPAREN r = true ->
    fine (parse_grouped_or_lambda R) nw_e r.
  Proof.
    intros Hl Hc. unfold fine, parse_grouped_or_lambda. assert (Suf r r) as S0 by apply Suf_refl. adv_tac Hc.
    assert (wp r (parse_grouped R (adv r)) (fun a r0 => Suf r0 r /\ (length r0 < length r)%nat /\ nw_e a)) as Hg.
    { eapply wp_mono; [apply Suf_refl| |apply parse_grouped_wp; auto; lia].
      intros a r' (? & ? & ?). repeat split; auto; lia. }
    destruct (check RPAREN (adv r)) eqn:E1.
    - adv_tac E1. destruct (check DOUBLE_ARROW (adv (adv r))) eqn:E2; [|auto]. adv_tac E2.
      eapply (use_fine r _ (r_expr R)); [apply e_fine; lia|auto|]. intros e r1 S1 L1 G1. fin. constructor; auto.
    - destruct (check IDENTIFIER (adv r)) eqn:E2; [|auto]. adv_tac E2.
      apply wp_bind. eapply wp_mono; [apply Suf_refl| |apply param_names_wp; auto].
      intros ps r1 (S1 & L1 & _). simpl.
      destruct (check RPAREN r1 && check DOUBLE_ARROW (adv r1)) eqn:E3; [|auto].
      apply andb_prop in E3 as [E3 E4]. adv_tac E3. adv_tac E4.
      eapply (use_fine r _ (r_expr R)); [apply e_fine; lia|auto|]. intros e r2 S2 L2 G2. fin. constructor; auto.
  Qed.

  Definition nw_cl (c : name * expr * list expr) : Prop := nw_e (snd (fst c)) /\ Forall nw_e (snd c).
  Lemma parse_clause_fine r : (length r <= L)%nat -> check FOR r = true -> fine (parse_clause R) nw_cl r.
  Proof.
    intros Hl Hc. unfold fine, parse_clause. assert (Suf r r) as S0 by apply Suf_refl. adv_tac Hc.
    eapply (use_fine r _ (consume IDENTIFIER)); [apply consume_fine; ne|auto|]. intros v r1 S1 L1 _.
    eapply (use_fine r _ (consume IN)); [apply consume_fine; ne|auto|]. intros _ r2 S2 L2 _.
    eapply (use_fine r _ (r_expr R)); [apply e_fine; lia|auto|]. intros it r3 S3 L3 G3.
    unfold parse_conditions. eapply (use_while r _ (Forall nw_e)); auto.
    - intros l r' S' L' G'. destruct (check IF r') eqn:E; [|fin]. adv_tac E.
      eapply (use_fine r _ (r_expr R)); [apply e_fine; lia|auto|]. intros c r4 S4 L4 G4. fin. apply Forall_snoc; auto.
    - intros cs r4 S4 L4 G4. fin.
  Qed.
  Lemma parse_list_literal_fine r : (length r <= L)%nat -> check LBRACKET r = true ->
    fine (parse_list_literal R) nw_e r.
  Proof.
    intros Hl Hc. unfold fine, parse_list_literal. assert (Suf r r) as S0 by apply Suf_refl. adv_tac Hc.
    destruct (check RBRACKET (adv r)) eqn:E1; [adv_tac E1; fin; constructor; constructor|].
    eapply (use_fine r _ (r_expr R)); [apply e_fine; lia|auto|]. intros e r1 S1 L1 G1.
    destruct (check FOR r1) eqn:E2; [|destruct (check RANGE r1) eqn:E3].
    - eapply (use_while r _ (Forall nw_cl)); auto.
      + intros l r' S' L' G'. destruct (check FOR r') eqn:E; [|fin].
        eapply (use_fine r _ (parse_clause R)); [apply parse_clause_fine; auto; lia|auto|].
        intros c r4 S4 L4 G4. fin. apply Forall_snoc; auto.
      + intros cl r2 S2 L2 G2. eapply (use_fine r _ (consume RBRACKET)); [apply consume_fine; ne|auto|].
        intros _ r3 S3 L3 _. fin. constructor; auto.
    - adv_tac E3. eapply (use_fine r _ (r_expr R)); [apply e_fine; lia|auto|]. intros e2 r2 S2 L2 G2.
      eapply (use_fine r _ (consume RBRACKET)); [apply consume_fine; ne|auto|].
      intros _ r3 S3 L3 _. fin. constructor; auto.
    - eapply (use_comma r _ (r_expr R) nw_e); auto; [intros; apply e_fine; lia|].
      intros l r2 S2 L2 G2. eapply (use_fine r _ (consume RBRACKET)); [apply consume_fine; ne|auto|].
      intros _ r3 S3 L3 _. fin. constructor; auto.
  Qed.

  Definition nw_d (d : list (name * expr)) : Prop := Forall (fun kv => nw_e (snd kv)) d.
  Lemma parse_entry_fine d r : nw_d d -> (length r <= L)%nat -> fine (parse_entry R d) nw_d r.
  Proof.
    intros Hd Hl. unfold fine, parse_entry. apply wp_bind.
    assert (forall k r1, Suf r1 r -> (length r1 < length r)%nat ->
      wp r (do _u, r0 <- consume COLON r1; do v, r2 <- r_expr R r0; POk (dset leqb (strval k) v d) r2)
        (fun a r0 => Suf r0 r /\ (length r0 < length r)%nat /\ nw_d a)) as H.
    { intros k r1 S1 L1. eapply (use_fine r _ (consume COLON)); [apply consume_fine; ne|auto|]. intros _ r2 S2 L2 _.
      eapply (use_fine r _ (r_expr R)); [apply e_fine; lia|auto|]. intros v r3 S3 L3 G3. fin. apply Forall_dset; auto. }
    assert (Suf r r) as S0 by apply Suf_refl.
    destruct (check STRING_LITERAL r) eqn:E.
    - adv_tac E. simpl. apply H; auto.
    - eapply (use_fine_ret r _ (consume IDENTIFIER)); [apply consume_fine; ne|auto|]. intros; apply H; auto.
  Qed.
  Lemma parse_dict_entries_fine ts0 r : Suf r ts0 -> (length r <= L)%nat ->
    wp ts0 (parse_dict_entries R r) (fun d r' => Suf r' ts0 /\ (length r' < length r)%nat /\ nw_d d).
  Proof.
    intros Hs Hl. unfold parse_dict_entries. destruct (adv_le ts0 r Hs) as [A B].
    apply wp_bind.
    assert (forall a r2, Suf r2 ts0 -> (length r2 <= length r)%nat -> nw_d a ->
      wp ts0 (do _u, ts <- consume RBRACE r2; POk a ts) (fun a0 r0 => Suf r0 ts0 /\ (length r0 < length r)%nat /\ nw_d a0)) as Hend.
    { intros a r2 S2 L2 Ga. eapply (use_fine ts0 _ (consume RBRACE)); [apply consume_fine; ne|auto|].
      intros _ r3 S3 L3 _. fin. }
    destruct (check RBRACE (adv r)) eqn:E; [simpl; apply Hend; auto; constructor|].
    eapply (use_fine ts0 _ (parse_entry R [])); [apply parse_entry_fine; [constructor|lia]|auto|].
    intros d r1 S1 L1 G1. eapply wp_mono; [apply Suf_refl| |apply (while_wp ts0 _ nw_d); auto].
    - simpl. intros a' r' (S' & L' & G'). apply Hend; auto. lia.
    - intros d' r' S' L' G'. destruct (check COMMA r') eqn:Ec; [|fin].
      adv_tac Ec. destruct (check RBRACE (adv r')); [fin|].
      eapply (use_fine ts0 _ (parse_entry R d')); [apply parse_entry_fine; auto; lia|auto|].
      intros a2 r3 S3 L3 G3. fin.
  Qed.

  Definition nw_if (p : expr * block * list (expr * block) * option block) : Prop :=
    let '(c, t, el, e) := p in
    nw_e c /\ nw_b t /\ Forall (fun cb => nw_e (fst cb) /\ nw_b (snd cb)) el /\ (forall b, e = Some b -> nw_b b).
  Lemma parse_if_parts_fine r : (length r <= L)%nat -> check IF r = true -> fine (parse_if_parts R) nw_if r.
  Proof.
    intros Hl Hc. unfold fine, parse_if_parts. assert (Suf r r) as S0 by apply Suf_refl. adv_tac Hc.
    eapply (use_fine r _ (r_expr R)); [apply e_fine; lia|auto|]. intros c r1 S1 L1 G1.
    eapply (use_fine r _ (consume COLON)); [apply consume_fine; ne|auto|]. intros _ r2 S2 L2 _.
    eapply (use_fine r _ (r_block R)); [apply (g_block L R HG); lia|auto|]. intros t r3 S3 L3 G3.
    eapply (use_while r _ (Forall (fun cb => nw_e (fst cb) /\ nw_b (snd cb)))); auto.
    - intros l r' S' L' G'. destruct (check ELIF r') eqn:E; [|fin]. adv_tac E.
      eapply (use_fine r _ (r_expr R)); [apply e_fine; lia|auto|]. intros c' r5 S5 L5 G5.
      eapply (use_fine r _ (consume COLON)); [apply consume_fine; ne|auto|]. intros _ r6 S6 L6 _.
      eapply (use_fine r _ (r_block R)); [apply (g_block L R HG); lia|auto|]. intros t' r7 S7 L7 G7.
      fin. apply Forall_snoc; auto.
    - intros el r4 S4 L4 G4. destruct (check ELSE r4) eqn:E; [|fin]. adv_tac E.
      eapply (use_fine r _ (consume COLON)); [apply consume_fine; ne|auto|]. intros _ r6 S6 L6 _.
      eapply (use_fine r _ (r_block R)); [apply (g_block L R HG); lia|auto|]. intros t' r7 S7 L7 G7.
      fin.
  Qed.

  Lemma parse_pattern_fine r : fine parse_pattern (fun _ => True) r.
  Proof.
    unfold fine, parse_pattern. assert (Suf r r) as S0 by apply Suf_refl.
    destruct (check UNDERSCORE r) eqn:E1; [adv_tac E1; fin|].
    destruct (check STRING_LITERAL r || check INT_LITERAL r || check FLOAT_LITERAL r || check BOOL_LITERAL r) eqn:E2.
    - repeat (apply orb_prop in E2 as [E2|E2]); adv_tac E2; fin.
    - destruct (check IDENTIFIER r) eqn:E3; [adv_tac E3; fin|auto].
  Qed.
  Lemma parse_match_arm_fine r : (length r <= L)%nat -> fine (parse_match_arm R) (fun a => nw_e (snd a)) r.
  Proof.
    intros Hl. unfold fine, parse_match_arm. assert (Suf r r) as S0 by apply Suf_refl.
    destruct (adv_le r r S0) as [A0 B0].
    assert (Suf (if check IDENTIFIER r then adv r else r) r /\
            (length (if check IDENTIFIER r then adv r else r) <= length r)%nat) as [A B]
      by (destruct (check IDENTIFIER r); auto).
    eapply (use_fine r _ parse_pattern); [apply parse_pattern_fine|auto|]. intros p r1 S1 L1 _.
    eapply (use_fine r _ (consume COLON)); [apply consume_fine; ne|auto|]. intros _ r2 S2 L2 _.
    eapply (use_fine r _ (r_expr R)); [apply e_fine; lia|auto|]. intros b r3 S3 L3 G3.
    destruct (skip_newlines_suf r r3 S3). fin.
  Qed.
  Lemma parse_match_expr_fine r : (length r <= L)%nat -> check MATCH r = true -> fine (parse_match_expr R) nw_e r.
  Proof.
    intros Hl Hc. unfold fine, parse_match_expr. assert (Suf r r) as S0 by apply Suf_refl. adv_tac Hc.
    eapply (use_fine r _ (r_expr R)); [apply e_fine; lia|auto|]. intros c r1 S1 L1 G1.
    eapply (use_fine r _ (consume COLON)); [apply consume_fine; ne|auto|]. intros _ r2 S2 L2 _.
    eapply (use_fine r _ (consume NEWLINE)); [apply consume_fine; ne|auto|]. intros _ r3 S3 L3 _.
    eapply (use_fine r _ (consume INDENT)); [apply consume_fine; ne|auto|]. intros _ r4 S4 L4 _.
    eapply (use_while r _ (Forall (fun a => nw_e (snd a)))); auto.
    - intros l r' S' L' G'. destruct (negb (check DEDENT r') && negb (at_end r')); [|fin].
      destruct (skip_newlines_suf r r' S') as [A1 B1].
      destruct (check DEDENT (skip_newlines r')); [fin|].
      eapply (use_fine r _ (parse_match_arm R)); [apply parse_match_arm_fine; lia|auto|]. intros a r5 S5 L5 G5.
      fin. apply Forall_snoc; auto.
    - intros arms r5 S5 L5 G5. eapply (use_fine r _ (consume DEDENT)); [apply consume_fine; ne|auto|].
      intros _ r6 S6 L6 _. fin. constructor; auto.
  Qed.

  Lemma parse_primary_fine r : (length r <= L)%nat -> fine (parse_primary R) nw_e r.
  Proof.
    intros Hl. unfold fine, parse_primary. assert (Suf r r) as S0 by apply Suf_refl.
    destruct (is_literal (cur r)) eqn:E0.
    { assert (cur r <> EOF) as Hc by (intros H; rewrite H in E0; discriminate).
      destruct (adv_lt' r r S0 Hc). fin. constructor. }
    destruct (check IDENTIFIER r) eqn:E1; [adv_tac E1; fin; constructor|].
    destruct (is_type_token (cur r)) eqn:E2.
    { assert (cur r <> EOF) as Hc by (intros H; rewrite H in E2; discriminate).
      destruct (adv_lt' r r S0 Hc). fin. constructor. }
    destruct (check LPAREN r) eqn:E3; [apply parse_grouped_or_lambda_fine; auto|].
    destruct (check LBRACKET r) eqn:E4; [apply parse_list_literal_fine; auto|].
    destruct (check LBRACE r) eqn:E5.
    { apply wp_bind. eapply wp_mono; [apply Suf_refl| |apply parse_dict_entries_fine; auto].
      intros d r1 (S1 & L1 & G1). fin. constructor; auto. }
    destruct (check IF r) eqn:E6.
    { eapply (use_fine r _ (parse_if_parts R)); [apply parse_if_parts_fine; auto|auto|].
      intros [[[c t] el] e] r1 S1 L1 (G1 & G2 & G3 & G4). fin. constructor; auto. }
    destruct (check MATCH r) eqn:E7; [apply parse_match_expr_fine; auto|]. exact S0.
  Qed.
  Lemma parse_postfix_fine r : (length r <= L)%nat -> fine (parse_postfix R) nw_e r.
  Proof.
    intros Hl. unfold fine, parse_postfix. assert (Suf r r) as S0 by apply Suf_refl.
    eapply (use_fine r _ (parse_primary R)); [apply parse_primary_fine; auto|auto|]. intros e r1 S1 L1 G1.
    eapply wp_mono; [apply Suf_refl| |apply (while_wp r _ nw_e); auto].
    { intros a r' (? & ? & ?). repeat split; auto. lia. }
    intros e' r' S' L' G'. unfold postfix_step.
    destruct (check LPAREN r') eqn:E1.
    { eapply (use_fine r _ (parse_arguments R)); [apply parse_arguments_fine; lia|auto|].
      intros a r2 S2 L2 [G2 G3]. fin. constructor; auto. }
    destruct (check DOT r') eqn:E2.
    { adv_tac E2. eapply (use_fine r _ (consume IDENTIFIER)); [apply consume_fine; ne|auto|]. intros m r2 S2 L2 _.
      destruct (check LPAREN r2); [|fin; constructor; auto].
      eapply (use_fine r _ (parse_arguments R)); [apply parse_arguments_fine; lia|auto|].
      intros a r3 S3 L3 [G2 G3]. fin. constructor; auto. }
    destruct (check LBRACKET r') eqn:E3; [|fin].
    adv_tac E3. eapply (use_fine r _ (r_expr R)); [apply e_fine; lia|auto|]. intros i r2 S2 L2 G2.
    eapply (use_fine r _ (consume RBRACKET)); [apply consume_fine; ne|auto|]. intros _ r3 S3 L3 _.
    fin. constructor; auto.
  Qed.
  Lemma parse_unary_fine r : (length r <= L)%nat -> fine (parse_unary R) nw_e r.
  Proof.
    intros Hl. unfold fine, parse_unary. assert (Suf r r) as S0 by apply Suf_refl.
    destruct (check NOT r || check MINUS r) eqn:E; [|apply parse_postfix_fine; auto].
    assert (Suf (adv r) r /\ (length (adv r) < length r)%nat) as [A B].
    { apply orb_prop in E as [E|E]; adv_tac E; auto. }
    eapply (use_fine r _ (r_un R)); [apply (g_un L R HG); lia|auto|]. intros e r1 S1 L1 G1. fin. constructor; auto.
  Qed.
  Lemma prec_not_eof t p : precedence t = Some p -> t <> EOF.
  Proof. intros H ->. discriminate. Qed.
  Lemma parse_binary_fine m r : (length r <= L)%nat -> fine (r_un R) nw_e r -> fine (parse_binary R m) nw_e r.
  Proof.
    intros Hl Hu. unfold fine, parse_binary. assert (Suf r r) as S0 by apply Suf_refl.
    eapply (use_fine r _ (r_un R)); [exact Hu|auto|]. intros e r1 S1 L1 G1.
    eapply wp_mono; [apply Suf_refl| |apply (while_wp r _ nw_e); auto].
    { intros a r' (? & ? & ?). repeat split; auto. lia. }
    intros e' r' S' L' G'. unfold binary_step.
    destruct (precedence (cur r')) as [p|] eqn:E; [|fin].
    destruct (p <? m); [fin|].
    destruct (adv_lt' r r' S' (prec_not_eof _ _ E)) as [A B].
    eapply (use_fine r _ (r_bin R (if right_associative (cur r') then p else p + 1)));
      [apply (g_bin L R HG); lia|auto|].
    intros e2 r2 S2 L2 G2. fin. constructor; auto.
  Qed.
  Lemma parse_conditional_fine r : (length r <= L)%nat -> fine (r_bin R 0) nw_e r -> fine (parse_conditional R) nw_e r.
  Proof.
    intros Hl Hu. unfold fine, parse_conditional. assert (Suf r r) as S0 by apply Suf_refl.
    eapply (use_fine r _ (r_bin R 0)); [exact Hu|auto|]. intros t r1 S1 L1 G1.
    destruct (check IF r1) eqn:E1; [|fin]. adv_tac E1.
    eapply (use_fine r _ (r_bin R 0)); [apply (g_bin L R HG); lia|auto|]. intros c r2 S2 L2 G2.
    destruct (check ELSE r2) eqn:E2; [|fin]. adv_tac E2.
    eapply (use_fine r _ (r_cond R)); [apply (g_cond L R HG); lia|auto|]. intros f r3 S3 L3 G3.
    fin. constructor; auto.
  Qed.

  Lemma skip_braces_suf ts0 : forall r d acc, Suf r ts0 ->
    Suf (snd (skip_braces d acc r)) ts0 /\ (length (snd (skip_braces d acc r)) <= length r)%nat.
  Proof.
    induction r as [|t r IH]; intros d acc Hs; destruct d as [|d]; simpl; auto.
    pose proof (Suf_tl _ _ Hs) as Ht. simpl in Ht.
    destruct (teqb (t_type t) EOF); [simpl; auto|].
    destruct (teqb (t_type t) LBRACE); [destruct (IH (S (S d)) (acc ++ [t_lexeme t]) Ht); split; auto; lia|].
    destruct (teqb (t_type t) RBRACE).
    - destruct d; [simpl; split; auto|]. destruct (IH (S d) (acc ++ [t_lexeme t]) Ht); split; auto; lia.
    - destruct (IH (S d) (acc ++ [t_lexeme t]) Ht); split; auto; lia.
  Qed.

  (** Statement parsers: [Q] is the common conclusion. *)
  Notation concl ts := (fun a r0 => Suf r0 ts /\ (length r0 < length ts)%nat /\ nw_s a).
  Lemma parse_statement_fine ts : (length ts <= L)%nat ->
    (forall r, Suf r ts -> fine (r_cond R) nw_e r) -> fine (parse_statement R) nw_s ts.
  Proof.
    intros Hl Hcond. unfold fine, parse_statement.
    destruct (skip_newlines_suf ts ts (Suf_refl _)) as [S0 L0].
    set (r := skip_newlines ts) in *. clearbody r.
    destruct (check LET r) eqn:E1.
    { unfold parse_let. adv_tac E1.
      eapply (use_fine ts _ (consume IDENTIFIER)); [apply consume_fine; ne|auto|]. intros n r1 S1 L1 _.
      apply wp_bind.
      assert (forall t r2, Suf r2 ts -> (length r2 <= length r1)%nat ->
        wp ts (do _u, r3 <- consume ASSIGN r2; do e, r4 <- r_expr R r3; do _u0, r5 <- semi_or_eol r4;
               POk (SVar (strval n) t (Some e)) r5) (concl ts)) as H.
      { intros t r2 S2 L2. eapply (use_fine ts _ (consume ASSIGN)); [apply consume_fine; ne|auto|]. intros _ r3 S3 L3 _.
        eapply (use_fine ts _ (r_expr R)); [apply e_fine; lia|auto|]. intros e r4 S4 L4 G4.
        eapply (use_finele ts _ semi_or_eol); [apply semi_or_eol_le|auto|]. intros _ r5 S5 L5 _. fin.
        constructor. intros e' He. injection He as <-. auto. }
      destruct (check COLON r1) eqn:Ec; [|simpl; apply H; auto]. adv_tac Ec.
      eapply (use_fine ts _ (r_type R)); [apply (g_type L R HG); lia|auto|]. intros t r2 S2 L2 _. simpl. apply H; auto; lia. }
    assert (forall eol, (forall x, finele eol (fun _ => True) x) -> cur r <> EOF -> wp ts (parse_assert R eol r) (concl ts)) as Hassert.
    { intros eol He Hne. unfold parse_assert. destruct (adv_lt' ts r S0 Hne) as [A B].
      eapply (use_fine ts _ (r_expr R)); [apply e_fine; lia|auto|]. intros c r1 S1 L1 G1.
      unfold parse_message. apply wp_bind.
      assert (forall m r2, Suf r2 ts -> (length r2 <= length r1)%nat -> (forall e, m = Some e -> nw_e e) ->
        wp ts (do _u, r3 <- eol r2; POk (SAssert c m) r3) (concl ts)) as H.
      { intros m r2 S2 L2 G2. eapply (use_finele ts _ eol); [apply He|auto|]. intros _ r3 S3 L3 _. fin. constructor; auto. }
      destruct (check COMMA r1) eqn:Ec; [|simpl; apply H; auto; discriminate]. adv_tac Ec.
      eapply (use_fine ts _ (r_expr R)); [apply e_fine; lia|auto|]. intros m r2 S2 L2 G2. simpl. apply H; auto; [lia|].
      intros e' Hx. injection Hx as <-. auto. }
    destruct (check REQUIRE r) eqn:E2.
    { apply Hassert; [apply semi_or_eol_le|]. apply check_eq in E2. rewrite E2. ne. }
    destruct (check ASSERT r) eqn:E3.
    { apply Hassert; [apply expect_eol_le|]. apply check_eq in E3. rewrite E3. ne. }
    clear Hassert.
    destruct (check EMIT r) eqn:E4.
    { unfold parse_emit. adv_tac E4.
      eapply (use_fine ts _ (r_expr R)); [apply e_fine; lia|auto|]. intros v r1 S1 L1 G1.
      eapply (use_while ts _ nw_d); [auto|constructor| |].
      - intros d r' S' L' G'. destruct (check COMMA r') eqn:Ec; [|fin]. adv_tac Ec.
        destruct (check IDENTIFIER (adv r') && teqb (peek1 (adv r')) ASSIGN); [|fin].
        destruct (adv_le ts _ A0) as [A1 B1]. destruct (adv_le ts _ A1) as [A2 B2].
        eapply (use_fine ts _ (r_expr R)); [apply e_fine; lia|auto|]. intros e r2 S2 L2 G2. fin. apply Forall_dset; auto.
      - intros m r2 S2 L2 G2. apply wp_bind.
        assert (forall m r2, Suf r2 ts -> (length r2 < length ts)%nat -> nw_d m ->
          wp ts (do _u, r3 <- semi_or_eol r2; POk (SEmit v m) r3) (concl ts)) as H.
        { intros m' r3 S3 L3 G3. eapply (use_finele ts _ semi_or_eol); [apply semi_or_eol_le|auto|].
          intros _ r4 S4 L4 _. fin. constructor; auto. }
        destruct (check WITH r2) eqn:Ew; [|simpl; apply H; auto; lia]. adv_tac Ew.
        apply wp_bind. eapply wp_mono; [apply Suf_refl| |apply parse_dict_entries_fine; auto; lia].
        intros d r3 (S3 & L3 & G3). simpl. apply H; auto; [lia|]. apply Forall_update; auto. }
    destruct (check FOR r) eqn:E5.
    { unfold parse_for. adv_tac E5.
      eapply (use_fine ts _ (consume IDENTIFIER)); [apply consume_fine; ne|auto|]. intros n r1 S1 L1 _.
      eapply (use_fine ts _ (consume IN)); [apply consume_fine; ne|auto|]. intros _ r2 S2 L2 _.
      eapply (use_fine ts _ (r_expr R)); [apply e_fine; lia|auto|]. intros it r3 S3 L3 G3.
      eapply (use_fine ts _ (consume COLON)); [apply consume_fine; ne|auto|]. intros _ r4 S4 L4 _.
      eapply (use_fine ts _ (r_block R)); [apply (g_block L R HG); lia|auto|]. intros b r5 S5 L5 G5.
      fin. constructor; auto. }
    destruct (check WHILE r) eqn:E6; [exact S0|].
    destruct (check IF r) eqn:E7.
    { eapply (use_fine ts _ (parse_if_parts R)); [apply parse_if_parts_fine; auto; lia|auto|].
      intros [[[c t] el] e] r1 S1 L1 (G1 & G2 & G3 & G4). fin. constructor; auto. }
    destruct (check PASS r) eqn:E8.
    { adv_tac E8. eapply (use_finele ts _ expect_eol); [apply expect_eol_le|auto|]. intros _ r1 S1 L1 _. fin. constructor. }
    destruct (check RETURN r) eqn:E9.
    { unfold parse_return. adv_tac E9. apply wp_bind.
      assert (forall v r1, Suf r1 ts -> (length r1 < length ts)%nat -> (forall e, v = Some e -> nw_e e) ->
        wp ts (do _u, r2 <- (if check AS r1 then do _t, r <- r_type R (adv r1); POk tt r else POk tt r1);
               do _u0, r3 <- semi_or_eol r2; POk (SReturn v) r3) (concl ts)) as H.
      { intros v r1 S1 L1 G1. apply wp_bind.
        assert (forall r2, Suf r2 ts -> (length r2 < length ts)%nat ->
          wp ts (do _u0, r3 <- semi_or_eol r2; POk (SReturn v) r3) (concl ts)) as H.
        { intros r2 S2 L2. eapply (use_finele ts _ semi_or_eol); [apply semi_or_eol_le|auto|].
          intros _ r3 S3 L3 _. fin. constructor; auto. }
        destruct (check AS r1) eqn:Ea; [|simpl; apply H; auto]. adv_tac Ea.
        eapply (use_fine ts _ (r_type R)); [apply (g_type L R HG); lia|auto|]. intros _ r2 S2 L2 _. simpl. apply H; auto; lia. }
      destruct (check_any [NEWLINE; DEDENT; EOF] (adv r)); [simpl; apply H; auto; [lia|ne]|].
      eapply (use_fine ts _ (r_expr R)); [apply e_fine; lia|auto|]. intros e r1 S1 L1 G1. simpl. apply H; auto; [lia|].
      intros e' He. injection He as <-. auto. }
    destruct (check PYTHON r) eqn:E10.
    { unfold parse_python_block. adv_tac E10.
      eapply (use_fine ts _ (consume LBRACE)); [apply consume_fine; ne|auto|]. intros _ r1 S1 L1 _.
      destruct (skip_braces_suf ts r1 1 [] S1) as [A1 B1].
      destruct (skip_braces 1 [] r1) as [code r2]. simpl in A1, B1. fin. constructor. }
    destruct (check IDENTIFIER r && teqb (peek1 r) COLON) eqn:E11.
    { unfold parse_var_decl.
      eapply (use_fine ts _ (consume IDENTIFIER)); [apply consume_fine; ne|auto|]. intros n r1 S1 L1 _.
      eapply (use_fine ts _ (consume COLON)); [apply consume_fine; ne|auto|]. intros _ r2 S2 L2 _.
      eapply (use_fine ts _ (r_type R)); [apply (g_type L R HG); lia|auto|]. intros t r3 S3 L3 _.
      apply wp_bind.
      assert (forall i r4, Suf r4 ts -> (length r4 < length ts)%nat -> (forall e, i = Some e -> nw_e e) ->
        wp ts (do _u, r5 <- expect_eol r4; POk (SVar (strval n) (Some t) i) r5) (concl ts)) as H.
      { intros i r4 S4 L4 G4. eapply (use_finele ts _ expect_eol); [apply expect_eol_le|auto|].
        intros _ r5 S5 L5 _. fin. constructor; auto. }
      destruct (check ASSIGN r3) eqn:Ea; [|simpl; apply H; auto; [lia|ne]]. adv_tac Ea.
      eapply (use_fine ts _ (r_expr R)); [apply e_fine; lia|auto|]. intros e r4 S4 L4 G4. simpl. apply H; auto; [lia|].
      intros e' He. injection He as <-. auto. }
    destruct (check IDENTIFIER r && teqb (peek1 r) ASSIGN) eqn:E12.
    { unfold parse_simple_var_decl.
      eapply (use_fine ts _ (consume IDENTIFIER)); [apply consume_fine; ne|auto|]. intros n r1 S1 L1 _.
      eapply (use_fine ts _ (consume ASSIGN)); [apply consume_fine; ne|auto|]. intros _ r2 S2 L2 _.
      eapply (use_fine ts _ (r_expr R)); [apply e_fine; lia|auto|]. intros e r4 S4 L4 G4.
      eapply (use_finele ts _ expect_eol); [apply expect_eol_le|auto|].
      intros _ r5 S5 L5 _. fin. constructor. intros e' He. injection He as <-. auto. }
    eapply (use_fine ts _ (r_expr R)); [apply Hcond; auto|auto|]. intros e r1 S1 L1 G1.
    destruct (check ASSIGN r1) eqn:Ea.
    - adv_tac Ea. eapply (use_fine ts _ (r_expr R)); [apply e_fine; lia|auto|]. intros v r2 S2 L2 G2.
      eapply (use_finele ts _ expect_eol); [apply expect_eol_le|auto|].
      intros _ r3 S3 L3 _. fin. constructor; auto.
    - eapply (use_finele ts _ expect_eol); [apply expect_eol_le|auto|].
      intros _ r3 S3 L3 _. fin. constructor; auto.
  Qed.

  Lemma make_block_nw ss : Forall nw_s ss -> nw_b (make_block ss).
  Proof.
    intros H. unfold make_block.
    assert (Forall nw_s (rev ss)) as Hr by (apply Forall_rev; auto).
    destruct (rev ss) as [|s l]; [constructor; auto; discriminate|].
    pose proof (Forall_inv Hr) as H1. pose proof (Forall_inv_tail Hr) as H2.
    destruct s; try (constructor; auto; discriminate).
    constructor; [apply Forall_rev; auto|]. intros e' He. injection He as <-. inversion H1; auto.
  Qed.
  Lemma parse_block_fine ts : (length ts <= L)%nat -> fine (parse_block R) nw_b ts.
  Proof.
    intros Hl. unfold fine, parse_block.
    destruct (skip_newlines_suf ts ts (Suf_refl _)) as [S0 L0].
    set (r := skip_newlines ts) in *. clearbody r.
    destruct (if check LBRACE r then (LBRACE, RBRACE) else (INDENT, DEDENT)) as [op cl] eqn:Eo.
    assert (op <> EOF /\ cl <> EOF) as [Ho Hc].
    { destruct (check LBRACE r); injection Eo as <- <-; split; ne. }
    eapply (use_fine ts _ (consume op)); [apply consume_fine; auto|auto|]. intros _ r1 S1 L1 _.
    unfold parse_statements. eapply (use_while ts _ (Forall nw_s)); auto.
    - intros l r' S' L' G'. destruct (negb (check cl r') && negb (at_end r')); [|fin].
      destruct (skip_newlines_suf ts r' S') as [A1 B1].
      destruct (check cl (skip_newlines r')); [fin|].
      eapply (use_fine ts _ (r_stmt R)); [apply (g_stmt L R HG); lia|auto|]. intros s r2 S2 L2 G2.
      fin. apply Forall_snoc; auto.
    - intros ss r2 S2 L2 G2. eapply (use_fine ts _ (consume cl)); [apply consume_fine; auto|auto|].
      intros _ r3 S3 L3 _. fin. apply make_block_nw; auto.
  Qed.
End S.

(** Enough recursion depth: each method on [ts] needs 4 levels per token. *)
Lemma build_fine : forall n,
  (forall ts, (4 * length ts + 1 <= n)%nat -> fine (r_type (build n)) (fun _ => True) ts) /\
  (forall ts, (4 * length ts + 1 <= n)%nat -> fine (r_un (build n)) nw_e ts) /\
  (forall m ts, (4 * length ts + 2 <= n)%nat -> fine (r_bin (build n) m) nw_e ts) /\
  (forall ts, (4 * length ts + 3 <= n)%nat -> fine (r_cond (build n)) nw_e ts) /\
  (forall ts, (4 * length ts + 4 <= n)%nat -> fine (r_stmt (build n)) nw_s ts) /\
  (forall ts, (4 * length ts + 1 <= n)%nat -> fine (r_block (build n)) nw_b ts).
Proof.
  induction n as [|n IH]; [repeat split; intros; lia|].
  destruct IH as (I1 & I2 & I3 & I4 & I5 & I6).
  assert (forall L, (4 * L <= n)%nat -> Good L (build n)) as HG.
  { intros L HL. constructor; intros.
    - apply I1; lia. - apply I2; lia. - apply I3; lia. - apply I4; lia. - apply I5; lia. - apply I6; lia. }
  simpl. repeat split; intros.
  - apply parse_type_fine. apply HG. lia.
  - apply (parse_unary_fine _ (length ts)); auto. apply HG. lia.
  - apply (parse_binary_fine _ (length ts)); auto; [apply HG; lia|]. apply I2. lia.
  - apply (parse_conditional_fine _ (length ts)); auto; [apply HG; lia|]. apply I3. lia.
  - apply (parse_statement_fine _ (length ts)); auto; [apply HG; lia|].
    intros r Hr. apply Suf_len in Hr. apply I4. lia.
  - apply (parse_block_fine _ (length ts)); auto. apply HG. lia.
Qed.
Lemma build_good L n : (4 * L <= n)%nat -> Good L (build n).
Proof.
  intros H. destruct (build_fine n) as (I1 & I2 & I3 & I4 & I5 & I6). constructor; intros.
  - apply I1; lia. - apply I2; lia. - apply I3; lia. - apply I4; lia. - apply I5; lia. - apply I6; lia.
Qed.
