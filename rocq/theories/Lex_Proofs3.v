(** Proofs about the lexer model: the whole token stream. *)
From Coq Require Import ZArith List Bool Lia String.
From Verif Require Import Lex_Model Lex_Spec Lex_Proofs Lex_Proofs2.
Import ListNotations.
Open Scope Z_scope.
Open Scope list_scope.

Inductive stream (src : list Z) : st -> list token -> Prop :=
  | sm_eof s t s' : s_pend s = [] -> emits src s t s' -> t_type t = EOF -> stream src s [t]
  | sm_emit s t s' n ts : s_pend s = [] -> emits src s t s' -> t_type t <> EOF -> s_pend s' = repeat t n ->
      (n <> O -> t_type t = DEDENT) -> stream src (set_pend [] s') ts -> stream src s (t :: repeat t n ++ ts)
  | sm_again s s' ts : s_pend s = [] -> s_depth s' = s_depth s -> gap (0 <? s_depth s) src (s_off s) (s_off s') -> s_off s <= s_off s' -> due s' = due s ->
      stream src s' ts -> stream src s ts.

Lemma good_init src : good src (init src).
Proof. constructor; simpl; auto; [apply wfp_init|lia|exists []; auto]. Qed.
Lemma good_nopend src s : good src s -> good src (set_pend [] s).
Proof. intros [A B C D]. constructor; simpl; auto. eapply wfp_same; [| | | | |exact A]; auto. Qed.

Lemma scan_all_total U src f s : good src s -> (measure s < f)%nat -> exists r, scan_all U f s = Some r.
Proof.
  revert s. induction f as [|f IH]; intros s G M; [lia|]. simpl.
  destruct (s_pend s) as [|t r] eqn:P.
  - destruct (scan_token U s) as [st|e] eqn:E; [|eauto]. assert (S := scan_token_spec U src s st G P E).
    destruct st as [t s'|s'].
    + destruct (teqb (t_type t) EOF) eqn:T; [eauto|].
      destruct S. destruct (IH s') as [r R]; auto.
      * destruct e_measure as [X|X]; [|lia]. apply teqb_eq in X. congruence.
      * rewrite R. destruct r; eauto.
    + destruct S as (A & B & C & D & F & DD & M'). apply IH; auto. lia.
  - destruct (scan_pend U src s t r G P) as (E & G' & T & D & M'). rewrite E, T. simpl.
    destruct (IH (set_pend r s)) as [r' R]; auto; [lia|]. rewrite R. destruct r'; eauto.
Qed.
Lemma tokenize_total U src : exists r, tokenize U src = Some r.
Proof.
  apply (scan_all_total U src); [apply good_init|]. unfold measure. simpl. lia.
Qed.
Lemma scan_all_fuel U f k s r : scan_all U f s = Some r -> scan_all U (f + k) s = Some r.
Proof.
  revert s r. induction f as [|f IH]; intros s r H; [discriminate|]. simpl in *.
  destruct (scan_token U s) as [[t s'|s']|e]; auto.
  destruct (teqb (t_type t) EOF); auto.
  destruct (scan_all U f s') as [r'|] eqn:E; [|discriminate]. rewrite (IH _ _ E). auto.
Qed.
Lemma scan_pend_all U src : forall p f s ts, good src s -> s_pend s = p -> scan_all U f s = Some (Ok ts) ->
  exists ts' f', ts = p ++ ts' /\ (f' <= f)%nat /\ scan_all U f' (set_pend [] s) = Some (Ok ts').
Proof.
  induction p as [|t p IH]; intros f s ts G P H.
  - exists ts, f. split; auto. split; auto. destruct s. simpl in *. subst. auto.
  - destruct f as [|f]; [discriminate|]. simpl in H.
    destruct (scan_pend U src s t p G P) as (E & G' & T & _). rewrite E, T in H. simpl in H.
    destruct (scan_all U f (set_pend p s)) as [[ts'|]|] eqn:E2; [|discriminate|discriminate]. injection H as <-.
    destruct (IH f (set_pend p s) ts' G' eq_refl E2) as (ts2 & f' & A & B & C).
    exists ts2, f'. split; [simpl; congruence|]. split; [lia|]. exact C.
Qed.
Lemma scan_all_stream U src : forall f s ts, good src s -> s_pend s = [] -> scan_all U f s = Some (Ok ts) ->
  stream src s ts.
Proof.
  induction f as [f IH] using lt_wf_ind. intros s ts G P H. destruct f as [|f]; [discriminate|]. simpl in H.
  destruct (scan_token U s) as [st|e] eqn:E; [|discriminate]. assert (S := scan_token_spec U src s st G P E).
  destruct st as [t s'|s'].
  - destruct (teqb (t_type t) EOF) eqn:T.
    + injection H as <-. apply teqb_eq in T. eapply sm_eof; eauto.
    + destruct (scan_all U f s') as [[ts'|]|] eqn:E2; [|discriminate|discriminate]. injection H as <-.
      assert (exists n, s_pend s' = repeat t n /\ (n <> O -> t_type t = DEDENT)) as (n & Hn & Hd).
      { destruct (e_pend _ _ _ _ S) as [[X (n & Y)]|X]; [eauto|]. exists O. split; auto. congruence. }
      destruct (scan_pend_all U src _ _ _ _ (e_good _ _ _ _ S) Hn E2) as (ts2 & f' & -> & B & C).
      eapply sm_emit; eauto.
      * intros X. apply teqb_eq in X. congruence.
      * eapply (IH f'); eauto; [lia|]. apply good_nopend. apply S.
  - destruct S as (A & B & C & D & F & DD & M'). eapply sm_again; eauto. lia.
Qed.
Lemma tokenize_stream U src ts : tokenize U src = Some (Ok ts) -> stream src (init src) ts.
Proof. intros H. eapply scan_all_stream; eauto. apply good_init. Qed.

(** ** C01 *)
Lemma stream_eof src s ts : stream src s ts ->
  exists pre e, ts = pre ++ [e] /\ t_type e = EOF /\ Forall (fun t => t_type t <> EOF) pre.
Proof.
  induction 1 as [s t s' P E T | s t s' n ts P E T R D H IH | s s' ts P DD G O D H IH]; auto.
  - exists [], t. auto.
  - destruct IH as (pre & e & -> & A & B). exists (t :: repeat t n ++ pre), e. split; [|split; auto].
    + simpl. now rewrite app_assoc.
    + constructor; auto. apply Forall_app. split; auto. apply Forall_forall. intros x X.
      apply repeat_spec in X. subst; auto.
Qed.

(** ** C02 *)
Definition pos_ok (src : list Z) (l : loc) : Prop :=
  0 <= l_off l <= len src /\ position src (l_off l) = (l_line l, l_col l).
Lemma stream_spans src s ts : stream src s ts -> 0 <= s_off s -> Forall (fun t =>
  pos_ok src (t_start t) /\ pos_ok src (t_end t) /\ l_off (t_start t) <= l_off (t_end t) /\
  (ordinary (t_type t) -> t_lexeme t = between src (l_off (t_start t)) (l_off (t_end t)) /\
     l_off (t_start t) < l_off (t_end t)) /\
  (t_type t = NEWLINE -> between src (l_off (t_start t)) (l_off (t_end t)) = [10])) ts.
Proof.
  assert (K : forall s t s', emits src s t s' -> 0 <= s_off s -> 
    (pos_ok src (t_start t) /\ pos_ok src (t_end t) /\ l_off (t_start t) <= l_off (t_end t) /\
  (ordinary (t_type t) -> t_lexeme t = between src (l_off (t_start t)) (l_off (t_end t)) /\
     l_off (t_start t) < l_off (t_end t)) /\
  (t_type t = NEWLINE -> between src (l_off (t_start t)) (l_off (t_end t)) = [10])) /\
    0 <= s_off s').
  { intros s0 t s' [A B BD C D E F G H I J K] L.
    assert (X := w_off _ _ (g_wf _ _ A)). rewrite D in *. simpl in C. 
    repeat split; auto; try (simpl; lia).
    - apply A.
    - apply F; auto.
    - apply F; auto.
    - intros N. destruct (H N) as [H1 H2]. simpl in H2. simpl. rewrite H2. 
      unfold between, char_at in *. replace (l_off (t_start t) + 1 - l_off (t_start t)) with 1 by lia.
      destruct (nth_error_split _ _ H1) as (l1 & l2 & Q & R). rewrite <- R.
      rewrite Q. rewrite skipn_app, skipn_all, Nat.sub_diag. reflexivity. }
  induction 1 as [s t s' P E T | s t s' n ts P E T R D H IH | s s' ts P DD G O D H IH]; intros L.
  - constructor; auto. apply (K _ _ _ E L).
  - destruct (K _ _ _ E L) as [K1 K2]. constructor; auto. apply Forall_app. split; auto.
    apply Forall_forall. intros x X. apply repeat_spec in X. subst; auto.
  - apply IH. lia.
Qed.
Definition before (a b : token) : Prop :=
  l_off (t_end a) <= l_off (t_start b) \/ (t_type a = DEDENT /\ b = a).
Lemma stream_order src s ts : stream src s ts ->
  Forall (fun t => s_off s <= l_off (t_start t)) ts /\ ForallOrdPairs before ts.
Proof.
  induction 1 as [s t s' P E T | s t s' n ts P E T R D H [IH1 IH2] | s s' ts P DD G O D H [IH1 IH2]].
  - split; repeat constructor. apply E.
  - assert (OE : l_off (t_end t) = s_off s') by (rewrite (e_end _ _ _ _ E); auto).
    assert (OO := e_off _ _ _ _ E). simpl in IH1. split.
    + constructor; [lia|]. apply Forall_app. split.
      * apply Forall_forall. intros x X. apply repeat_spec in X. subst; lia.
      * eapply Forall_impl; [|exact IH1]. simpl. intros; lia.
    + assert (B : Forall (before t) (repeat t n ++ ts)).
      { apply Forall_app. split.
        - apply Forall_forall. intros x X. assert (n <> O) by (intros ->; contradiction).
          apply repeat_spec in X. right. auto.
        - eapply Forall_impl; [|exact IH1]. simpl. intros; left; lia. }
      constructor; auto. clear -IH2 B. induction n as [|n IHn]; simpl in *; auto. inversion B; subst.
      constructor; auto.
  - split; auto. eapply Forall_impl; [|exact IH1]. simpl. intros; lia.
Qed.
Lemma FOP_app {A} (R : A -> A -> Prop) p a q b r : ForallOrdPairs R (p ++ a :: q ++ b :: r) -> R a b.
Proof.
  induction p as [|x p IH]; simpl; intros H; inversion H; subst; auto.
  rewrite Forall_forall in H2. apply H2. apply in_or_app. simpl; auto.
Qed.
(** Neighbouring tokens; d is the bracket depth before the first. *)
Inductive linked3 (src : list Z) : Z -> token -> list token -> Prop :=
  | l3_nil d t : linked3 src d t []
  | l3_gap d t u ts : gap (0 <? bracket_step d (t_type t)) src (l_off (t_end t)) (l_off (t_start u)) ->
      linked3 src (bracket_step d (t_type t)) u ts -> linked3 src d t (u :: ts)
  | l3_dup d t ts : t_type t = DEDENT -> linked3 src d t ts -> linked3 src d t (t :: ts).
Lemma stream_first src s ts : stream src s ts -> exists t r, ts = t :: r /\ gap (0 <? s_depth s) src (s_off s) (l_off (t_start t)).
Proof.
  induction 1 as [s t s' P E T | s t s' n ts P E T R D H IH | s s' ts P DD G O D H IH].
  - exists t, []. split; auto. apply E.
  - exists t, (repeat t n ++ ts). split; auto. apply E.
  - destruct IH as (t & r & -> & A). exists t, r. split; auto. rewrite DD in A. eapply gap_trans; eauto.
Qed.
Lemma stream_linked3 src s ts : stream src s ts -> exists t r, ts = t :: r /\ linked3 src (s_depth s) t r.
Proof.
  induction 1 as [s t s' P E T | s t s' n ts P E T R D H IH | s s' ts P DD G O D H IH].
  - exists t, []. split; auto. constructor.
  - exists t, (repeat t n ++ ts). split; auto. destruct IH as (u & r & -> & L).
    destruct (stream_first _ _ _ H) as (u' & r' & X & G). injection X as <- <-.
    simpl in G, L. rewrite (e_depth _ _ _ _ E) in G, L. clear R. induction n as [|n IHn]; simpl.
    + constructor; auto. rewrite (e_end _ _ _ _ E). exact G.
    + apply l3_dup; auto.
  - rewrite <- DD. auto.
Qed.
Lemma linked3_pair src : forall r d t, linked3 src d t r -> forall pre t1 t2 post, t :: r = pre ++ t1 :: t2 :: post ->
  gap (0 <? fold_left (fun d t => bracket_step d (t_type t)) (pre ++ [t1]) d) src (l_off (t_end t1)) (l_off (t_start t2))
  \/ (t_type t1 = DEDENT /\ t2 = t1).
Proof.
  induction 1 as [d t|d t u ts G H IH|d t ts T H IH]; intros pre t1 t2 post E.
  - destruct pre as [|x [|y pre]]; discriminate.
  - destruct pre as [|x pre]; simpl in E; injection E as <- E; [inversion E; subst; auto|].
    simpl. eauto.
  - destruct pre as [|x pre]; simpl in E; injection E as <- E; [inversion E; subst; auto|].
    destruct (IH _ _ _ _ E) as [X|X]; auto. left. simpl. rewrite T. simpl. exact X.
Qed.
Lemma stream_end src s ts : stream src s ts -> exists pre e, ts = pre ++ [e] /\ t_type e = EOF /\
  l_off (t_start e) = len src.
Proof.
  induction 1 as [s t s' P E T | s t s' n ts P E T R D H IH | s s' ts P DD G O D H IH]; auto.
  - exists [], t. repeat split; auto. apply E; auto.
  - destruct IH as (pre & e & -> & A & B). exists (t :: repeat t n ++ pre), e. split; [|split; auto].
    simpl. now rewrite app_assoc.
Qed.

(** ** C03 *)
Lemma due_pend s p n : s_pend s = repeat p n -> due s = (n + due (set_pend [] s))%nat.
Proof. intros H. unfold due. simpl. rewrite H, repeat_length. lia. Qed.
Lemma unclosed_dedents t n ts : t_type t = DEDENT -> forall d, unclosed d (repeat t n ++ ts) = unclosed (d - n) ts.
Proof.
  intros T. induction n as [|n IH]; intros d; simpl; [now rewrite Nat.sub_0_r|].
  rewrite T, IH. f_equal. lia.
Qed.
Lemma stream_unclosed src s ts : stream src s ts -> forall d, (d <= due s)%nat -> unclosed d ts = O.
Proof.
  induction 1 as [s t s' P E T | s t s' n ts P E T R D H IH | s s' ts P DD G O D H IH]; intros d L.
  - simpl. rewrite T. assert (X := e_due _ _ _ _ E). rewrite T in X. destruct (e_eof _ _ _ _ E T) as [Y _].
    lia.
  - assert (X := e_due _ _ _ _ E). assert (Y := due_pend _ _ _ R). simpl.
    destruct n as [|n].
    + simpl in *. rewrite Y in X. destruct (t_type t); apply IH; simpl in *; lia.
    + assert (TD : t_type t = DEDENT) by (apply D; discriminate). rewrite TD in *.
      rewrite unclosed_dedents by auto. apply IH. lia.
  - apply IH. lia.
Qed.
Lemma count_cons ty t ts : count_ty ty (t :: ts) = ((if teqb (t_type t) ty then 1 else 0) + count_ty ty ts)%nat.
Proof. unfold count_ty. simpl. destruct (teqb (t_type t) ty); auto. Qed.
Lemma count_app ty a b : count_ty ty (a ++ b) = (count_ty ty a + count_ty ty b)%nat.
Proof. unfold count_ty. rewrite filter_app, app_length. auto. Qed.
Lemma count_repeat ty t n : count_ty ty (repeat t n) = if teqb (t_type t) ty then n else O.
Proof.
  induction n as [|n IH]; simpl; [destruct (teqb _ _); auto|]. rewrite count_cons, IH. destruct (teqb (t_type t) ty); lia.
Qed.
Lemma stream_counts src s ts : stream src s ts -> (count_ty INDENT ts + due s <= count_ty DEDENT ts)%nat.
Proof.
  induction 1 as [s t s' P E T | s t s' n ts P E T R D H IH | s s' ts P DD G O D H IH].
  - rewrite !count_cons, T. simpl. assert (X := e_due _ _ _ _ E). rewrite T in X.
    destruct (e_eof _ _ _ _ E T) as [Y _]. lia.
  - assert (X := e_due _ _ _ _ E). assert (Y := due_pend _ _ _ R).
    rewrite !count_cons, !count_app, !count_repeat.
    destruct n as [|n].
    + destruct (t_type t); cbv [teqb tcode Z.eqb Pos.eqb]; lia.
    + assert (TD : t_type t = DEDENT) by (apply D; discriminate). rewrite TD in *. cbv [teqb tcode Z.eqb Pos.eqb]. lia.
  - lia.
Qed.
Lemma nest_dedents t n ts : t_type t = DEDENT -> forall d, (n <= d)%nat -> nest d (repeat t n ++ ts) = nest (d - n) ts.
Proof.
  intros T. induction n as [|n IH]; intros d L; simpl; [now rewrite Nat.sub_0_r|].
  rewrite T. destruct d; [lia|]. rewrite IH by lia. f_equal.
Qed.
Lemma stream_balanced src s ts : stream src s ts -> (count_ty DEDENT ts = count_ty INDENT ts + due s)%nat ->
  nest (due s) ts = Some O.
Proof.
  induction 1 as [s t s' P E T | s t s' n ts P E T R D H IH | s s' ts P DD G O D H IH]; intros C.
  - simpl. rewrite T. assert (X := e_due _ _ _ _ E). rewrite T in X. destruct (e_eof _ _ _ _ E T) as [Y _].
    f_equal. lia.
  - assert (X := e_due _ _ _ _ E). assert (Y := due_pend _ _ _ R). assert (Z := stream_counts _ _ _ H).
    rewrite !count_cons, !count_app, !count_repeat in C.
    destruct n as [|n].
    + simpl app. simpl nest. destruct (t_type t); cbv [teqb tcode Z.eqb Pos.eqb] in C; try (replace (due s) with (due (set_pend [] s')) by lia; apply IH; lia).
      * replace (S (due s)) with (due (set_pend [] s')) by lia. apply IH. lia.
      * assert (Q : due s = S (due (set_pend [] s'))) by lia. rewrite Q. apply IH. lia.
    + assert (TD : t_type t = DEDENT) by (apply D; discriminate). rewrite TD in *. cbv [teqb tcode Z.eqb Pos.eqb] in C.
      change (t :: repeat t (S n) ++ ts) with (repeat t (S (S n)) ++ ts).
      rewrite nest_dedents by (auto; lia).
      replace (due s - S (S n))%nat with (due (set_pend [] s')) by lia. apply IH. lia.
  - rewrite <- D. apply IH. lia.
Qed.
