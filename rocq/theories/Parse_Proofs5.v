(** The minimal-parentheses writer produces phrases of the grammar, and whole
    programs around one expression. *)
From Coq Require Import ZArith String List Bool Lia.
From Verif Require Import Dict Lex_Model Lex_Proofs2 Ast Parse_Model Parse_Spec Parse_Proofs Parse_Proofs3 Parse_Proofs4.
Import ListNotations.
Open Scope Z_scope.
Open Scope list_scope.

Lemma G_down l k e ts : 0 <= l -> l <= k <= 10 -> G k e ts -> G l e ts.
Proof.
  intros H0 Hk. replace k with (l + Z.of_nat (Z.to_nat (k - l))) in * by lia.
  set (d := Z.to_nat (k - l)) in *. clearbody d. clear k. revert l H0 Hk.
  induction d as [|d IH]; intros l H0 Hk H.
  - replace (l + Z.of_nat 0) with l in H by lia. exact H.
  - apply G_up; [lia|]. apply IH; [lia|lia|]. replace (l + 1 + Z.of_nat d) with (l + Z.of_nat (S d)) by lia. exact H.
Qed.
Lemma opwf_level o : opwf o -> 0 <= tree_level o <= 10.
Proof. destruct o; simpl; try lia. intros [H _]. destruct op; simpl in *; lia. Qed.
Lemma level_left op : 1 <= op_level op -> op = DOUBLE_STAR \/ left_op (op_level op) op.
Proof.
  unfold left_op, left_ops. intros H.
  destruct op; simpl in H; try lia; try (left; reflexivity); right;
    match goal with |- context [op_level ?o] => let v := eval compute in (op_level o) in change (op_level o) with v end;
    eexists; (split; [simpl; repeat (first [left; reflexivity | right])|simpl; auto]).
Qed.

Section W.
  Variable at_ : ttype -> value -> token.
  Hypothesis Hty : forall ty v, t_type (at_ ty v) = ty.
  Hypothesis Hv : forall ty v, t_value (at_ ty v) = v.
  Lemma G_paren_at o lvl : opwf o -> 0 <= lvl <= 10 -> G (tree_level o) (tree o) (write at_ o) ->
    G lvl (tree o) (paren at_ (tree_level o <? lvl) (write at_ o)).
  Proof.
    intros Hw Hl H. pose proof (opwf_level o Hw). unfold paren. destruct (tree_level o <? lvl) eqn:E.
    - apply Z.ltb_lt in E. apply (G_down lvl 10); [lia|lia|].
      apply (G_paren (at_ LPAREN VNone) (tree o) (write at_ o) (at_ RPAREN VNone)); [apply Hty| |apply Hty].
      apply (G_down 0 (tree_level o)); [lia|lia|auto].
    - apply Z.ltb_ge in E. apply (G_down lvl (tree_level o)); [lia|lia|auto].
  Qed.
  Lemma write_G o : opwf o -> G (tree_level o) (tree o) (write at_ o).
  Proof.
    induction o as [v lt|n|l IHl op r IHr|op e IHe|t IHt c IHc f IHf]; intros Hw.
    - cbn [tree tree_level write]. pose proof (G_lit (at_ lt v)) as H. rewrite Hty, Hv in H. apply H. exact Hw.
    - cbn [tree tree_level write]. apply G_id. split; [apply Hty|apply Hv].
    - destruct Hw as (Hop & Hl & Hr). specialize (IHl Hl). specialize (IHr Hr).
      destruct (level_left op Hop) as [-> | Hlo].
      + cbn [tree tree_level write op_level]. apply G_pow; [|apply Hty|]; apply G_paren_at; auto; lia.
      + assert (1 <= op_level op <= 7) as Hb by (destruct op; simpl in *; lia).
        assert (write at_ (OBin l op r) =
          paren at_ (tree_level l <? op_level op) (write at_ l) ++ at_ op VNone ::
          paren at_ (tree_level r <? op_level op + 1) (write at_ r)) as ->.
        { destruct op; try reflexivity. exfalso. destruct Hlo as (ops & H1 & H2). simpl in H1.
          repeat (destruct H1 as [H1|H1]; [inversion H1; subst; simpl in H2; intuition discriminate|]). destruct H1. }
        apply G_left; auto; [|apply Hty|]; apply G_paren_at; auto; lia.
    - destruct Hw as (Hop & He). specialize (IHe He). cbn [tree tree_level write].
      destruct Hop as [-> | ->]; [apply G_not|apply G_neg]; try apply Hty; apply G_paren_at; auto; lia.
    - destruct Hw as (Ht & Hc & Hf). cbn [tree tree_level write].
      apply G_cond; try apply Hty; apply G_paren_at; auto; lia.
  Qed.
  Lemma write_whole o : opwf o -> G 0 (tree o) (write at_ o).
  Proof. intros H. pose proof (opwf_level o H). apply (G_down 0 (tree_level o)); [lia|lia|]. apply write_G; auto. Qed.
End W.

Lemma G_use e ts n rest : G 0 e ts -> folC rest -> (4 * length (ts ++ rest) + 3 <= n)%nat ->
  r_expr (build n) (ts ++ rest) = POk e rest.
Proof. intros H. apply use_C. apply (G_SG _ _ _ H). Qed.

(** def f(): NEWLINE INDENT emit e NEWLINE DEDENT EOF *)
Lemma skip_nl_no ts : cur ts <> NEWLINE -> skip_newlines ts = ts.
Proof.
  destruct ts as [|t r]; [reflexivity|]. simpl. intros H. destruct (teqb (t_type t) NEWLINE) eqn:E; auto.
  apply teqb_eq in E. contradiction.
Qed.
Lemma skip_nl_tk t r : tk NEWLINE t -> skip_newlines (t :: r) = skip_newlines r.
Proof. intros H. simpl. rewrite H. reflexivity. Qed.
Ltac tn := simpl; match goal with H : tk _ ?t |- t_type ?t <> _ => rewrite H; discriminate end.

Lemma runs_while_eq {S} (body : S -> parser (S * bool)) s ts s' r : runs body s ts s' r -> while body s ts = POk s' r.
Proof. apply runs_while. Qed.

Lemma emit_stmt n em e ts nl rest : tk EMIT em -> G 0 e ts -> tk NEWLINE nl ->
  (4 * length (ts ++ nl :: rest) + 4 <= n)%nat ->
  r_stmt (build n) (em :: ts ++ nl :: rest) = POk (SEmit e []) rest.
Proof.
  intros Hem He Hnl Hn. destruct n as [|n]; [lia|]. cbn [build step r_stmt]. unfold parse_statement.
  rewrite skip_nl_no by (simpl; rewrite Hem; discriminate). cbv zeta.
  rewrite (check_ne LET), (check_ne REQUIRE), (check_ne ASSERT) by (simpl; rewrite Hem; discriminate).
  rewrite (check_tk EMIT) by auto. unfold parse_emit. rewrite (adv_tk EMIT) by (auto; discriminate).
  rewrite G_use with (e := e) (rest := nl :: rest); auto; [|pl Hnl|lia]. cbn [bind].
  erewrite runs_while.
  2: { apply runs_stop. rewrite (check_ne COMMA) by (simpl; rewrite Hnl; discriminate). reflexivity. }
  cbn [bind]. rewrite (check_ne WITH) by (simpl; rewrite Hnl; discriminate). cbn [bind].
  unfold semi_or_eol. rewrite (check_ne SEMICOLON) by (simpl; rewrite Hnl; discriminate).
  unfold expect_eol. rewrite (check_ne EOF) by (simpl; rewrite Hnl; discriminate).
  rewrite (check_tk NEWLINE), (adv_tk NEWLINE) by (auto; discriminate). reflexivity.
Qed.
Lemma emit_block n nl0 ind em e ts nl ded rest : tk NEWLINE nl0 -> tk INDENT ind -> tk EMIT em -> G 0 e ts ->
  tk NEWLINE nl -> tk DEDENT ded ->
  (4 * length (ts ++ nl :: ded :: rest) + 6 <= n)%nat ->
  r_block (build n) (nl0 :: ind :: em :: ts ++ nl :: ded :: rest) = POk (Block [SEmit e []] None) rest.
Proof.
  intros H0 Hi Hem He Hnl Hd Hn. destruct n as [|n]; [lia|]. cbn [build step r_block]. unfold parse_block.
  rewrite skip_nl_tk by auto. rewrite skip_nl_no by (simpl; rewrite Hi; discriminate). cbv zeta.
  rewrite (check_ne LBRACE) by (simpl; rewrite Hi; discriminate).
  rewrite (consume_tk INDENT) by (auto; discriminate). cbn [bind].
  unfold parse_statements.
  rewrite (runs_while _ [] _ [SEmit e []] (ded :: rest)).
  - cbn [bind]. rewrite (consume_tk DEDENT) by (auto; discriminate). reflexivity.
  - eapply runs_go with (s1 := [SEmit e []]) (r1 := ded :: rest).
    + rewrite (check_ne DEDENT) by (simpl; rewrite Hem; discriminate). unfold Parse_Model.at_end.
      rewrite (check_ne EOF) by (simpl; rewrite Hem; discriminate). cbn [negb andb].
      rewrite skip_nl_no by (simpl; rewrite Hem; discriminate). cbv zeta.
      rewrite (check_ne DEDENT) by (simpl; rewrite Hem; discriminate).
      rewrite emit_stmt with (e := e); [reflexivity|auto|auto|auto|]. lia.
    + simpl. rewrite app_length. simpl. lia.
    + apply runs_stop. rewrite (check_tk DEDENT) by auto. reflexivity.
Qed.

(** A program with one function whose body is [body] (after the colon). *)
Definition prog_head (df nm lp rp co : token) (f : name) : Prop :=
  tk DEF df /\ ident f nm /\ tk LPAREN lp /\ tk RPAREN rp /\ tk COLON co.
Lemma prog_def n df nm lp rp co f ts :
  prog_head df nm lp rp co f ->
  forall b r, r_block (build n) ts = POk b r -> cur r = EOF ->
  (length r <= length ts)%nat ->
  parse_with n (df :: nm :: lp :: rp :: co :: ts) = POk (MkModule None [] [] [] [FunDef f [] None b [] None]) r.
Proof.
  intros (H1 & H2 & H3 & H4 & H5) b r Hb Hr Hlen. apply ident_tk in H2 as [H2 Hv].
  unfold parse_with, parse_module. rewrite skip_nl_no by (simpl; rewrite H1; discriminate). cbv zeta.
  rewrite (check_ne MODULE) by (simpl; rewrite H1; discriminate). cbn [bind].
  rewrite skip_nl_no by (simpl; rewrite H1; discriminate).
  erewrite runs_while.
  2: { apply runs_stop. unfold check_any. simpl cur. rewrite H1. reflexivity. }
  cbn [bind].
  assert (skip_newlines r = r) as Hsr by (apply skip_nl_no; rewrite Hr; discriminate).
  rewrite (runs_while (parse_decl (build n)) _ _ ([], [], [FunDef f [] None b [] None]) r); [reflexivity|].
  apply runs_go with (s1 := ([], [], [FunDef f [] None b [] None])) (r1 := r).
  - unfold parse_decl. unfold Parse_Model.at_end. rewrite (check_ne EOF) by (simpl; rewrite H1; discriminate).
    rewrite skip_nl_no by (simpl; rewrite H1; discriminate). cbv zeta.
    rewrite (check_ne EOF) by (simpl; rewrite H1; discriminate).
    unfold parse_decorators. erewrite runs_while.
    2: { apply runs_stop. rewrite (check_ne AT) by (simpl; rewrite H1; discriminate). reflexivity. }
    cbn [bind]. rewrite (check_ne EOF), (check_ne NATIVE) by (simpl; rewrite H1; discriminate).
    rewrite (check_tk DEF) by auto. cbn [existsb]. unfold parse_function_def.
    rewrite (adv_tk DEF) by (auto; discriminate). rewrite (consume_tk IDENTIFIER) by (auto; discriminate). cbn [bind].
    unfold parse_params. rewrite (consume_tk LPAREN) by (auto; discriminate). cbn [bind].
    rewrite (check_tk RPAREN) by auto. cbn [bind].
    rewrite (consume_tk RPAREN) by (auto; discriminate). cbn [bind].
    rewrite (check_ne ARROW) by (simpl; rewrite H5; discriminate). cbn [bind].
    rewrite (consume_tk COLON) by (auto; discriminate). cbn [bind]. rewrite Hb. cbn [bind]. rewrite Hv, Hsr. reflexivity.
  - simpl. lia.
  - apply runs_stop. unfold parse_decl, Parse_Model.at_end. rewrite (check_cur EOF) by auto. reflexivity.
Qed.
Lemma prog_emit df nm lp rp co f nl0 ind em e ts nl ded eof : prog_head df nm lp rp co f ->
  tk NEWLINE nl0 -> tk INDENT ind -> tk EMIT em -> G 0 e ts -> tk NEWLINE nl -> tk DEDENT ded -> tk EOF eof ->
  parse (df :: nm :: lp :: rp :: co :: nl0 :: ind :: em :: ts ++ [nl; ded; eof]) =
  POk (MkModule None [] [] [] [FunDef f [] None (Block [SEmit e []] None) [] None]) [eof].
Proof.
  intros Hh H0 Hi Hem He Hnl Hd Heof. unfold parse. apply prog_def; auto.
  - apply emit_block; auto. unfold parse_fuel. simpl length. rewrite !app_length. simpl. lia.
  - simpl. lia.
Qed.
Lemma G_unique e1 e2 ts : G 0 e1 ts -> G 0 e2 ts -> e1 = e2.
Proof.
  intros H1 H2. set (eof := Token EOF VNone [] (Loc 0 0 0) (Loc 0 0 0)).
  assert (folC [eof]) as Hf by (pl (eq_refl : t_type eof = EOF)).
  pose proof (G_use e1 ts _ [eof] H1 Hf (le_n _)) as E1. pose proof (G_use e2 ts _ [eof] H2 Hf (le_n _)) as E2.
  rewrite E1 in E2. injection E2. auto.
Qed.

(** A while statement is refused wherever a statement can start. *)
Lemma while_stmt n ts : cur (skip_newlines ts) = WHILE -> r_stmt (build (S n)) ts = PErr EWhile (skip_newlines ts).
Proof.
  intros H. cbn [build step r_stmt]. unfold parse_statement. cbv zeta.
  rewrite (check_ne LET), (check_ne REQUIRE), (check_ne ASSERT), (check_ne EMIT), (check_ne FOR) by (rewrite H; discriminate).
  rewrite (check_cur WHILE) by auto. reflexivity.
Qed.

(** `@native`: the lexer makes `native` a keyword, and the decorator wants an identifier. *)
Lemma native_deco n a nt rest : tk AT a -> tk NATIVE nt -> val_is_meta (t_value nt) = false ->
  parse_with n (a :: nt :: rest) = PErr EUnexpected (nt :: rest).
Proof.
  intros Ha Hn Hv. unfold parse_with, parse_module.
  rewrite skip_nl_no by (simpl; rewrite Ha; discriminate). cbv zeta.
  rewrite (check_ne MODULE) by (simpl; rewrite Ha; discriminate). cbn [bind].
  rewrite skip_nl_no by (simpl; rewrite Ha; discriminate).
  erewrite runs_while.
  2: { apply runs_stop. unfold check_any. simpl cur. rewrite Ha. reflexivity. }
  cbn [bind]. unfold while at 1. cbn [loop].
  unfold parse_decl. unfold Parse_Model.at_end. rewrite (check_ne EOF) by (simpl; rewrite Ha; discriminate).
  rewrite skip_nl_no by (simpl; rewrite Ha; discriminate). cbv zeta.
  rewrite (check_ne EOF) by (simpl; rewrite Ha; discriminate).
  unfold parse_decorators, while. cbn [loop]. rewrite (check_tk AT) by auto. cbn [tl curval]. rewrite Hv.
  unfold parse_decorator. rewrite (adv_tk AT) by (auto; discriminate). unfold consume.
  rewrite (check_ne IDENTIFIER) by (simpl; rewrite Hn; discriminate). reflexivity.
Qed.
