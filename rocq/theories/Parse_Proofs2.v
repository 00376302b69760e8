(** Declarations and modules: termination, forward motion, while-freeness. *)
From Coq Require Import ZArith String List Bool Lia.
From Verif Require Import Dict Lex_Model Lex_Proofs2 Ast Parse_Model Parse_Spec Parse_Proofs.
Import ListNotations.
Open Scope Z_scope.
Open Scope list_scope.

Section D.
  Variable R : rec.
  Variable L : nat.
  Hypothesis HG : Good L R.
  Lemma d_fine r : (length r < L)%nat -> fine (d_expr R) nw_e r.
  Proof. intros. apply (g_cond L R HG). auto. Qed.
  Lemma parse_hint_wp ts0 r : Suf r ts0 -> HasAt ts0 -> (length r < L)%nat ->
    wp ts0 (parse_hint R r) (fun _ r' => Suf r' ts0 /\ (length r' < length r)%nat).
  Proof.
    intros Hs Ha Hl. unfold parse_hint.
    eapply (use_fine ts0 _ (d_expr R)); [apply d_fine; lia|auto|]. intros e r1 S1 L1 _.
    destruct (hint_value e); fin.
  Qed.
  Lemma parse_ui_arg_wp ts0 d r : Suf r ts0 -> HasAt ts0 -> (length r < L)%nat ->
    wp ts0 (parse_ui_arg R d r) (fun _ r' => Suf r' ts0 /\ (length r' < length r)%nat).
  Proof.
    intros S0 Ha Hl. unfold parse_ui_arg.
    eapply (use_fine ts0 _ (consume IDENTIFIER)); [apply consume_fine; ne|auto|]. intros n r1 S1 L1 _.
    eapply (use_fine ts0 _ (consume ASSIGN)); [apply consume_fine; ne|auto|]. intros _ r2 S2 L2 _.
    apply wp_bind. eapply wp_mono; [apply Suf_refl| |apply parse_hint_wp; auto; lia].
    intros h r3 [S3 L3]. fin.
  Qed.
  Lemma check_at r : check AT r = true -> HasAt r.
  Proof.
    intros H. apply check_eq in H. destruct r as [|t r]; simpl in H; [discriminate|]. exists t. simpl. auto.
  Qed.
  Lemma parse_ui_hint_fine r : (length r < L)%nat -> check AT r = true -> fine (parse_ui_hint R) (fun _ => True) r.
  Proof.
    intros Hl Hat. apply check_at in Hat. unfold fine, parse_ui_hint. destruct (adv_le r r (Suf_refl _)) as [A B].
    eapply (use_fine r _ (consume IDENTIFIER)); [apply consume_fine; ne|auto|]. intros n r1 S1 L1 _.
    destruct (negb (leqb (strval n) (codes "ui"))); [auto|].
    eapply (use_fine r _ (consume LPAREN)); [apply consume_fine; ne|auto|]. intros _ r2 S2 L2 _.
    apply wp_bind.
    assert (forall d r3, Suf r3 r -> (length r3 < length r)%nat ->
      wp r (do _u, r4 <- consume RPAREN r3; POk d r4)
        (fun (_ : list (name * hint)) r0 => Suf r0 r /\ (length r0 < length r)%nat /\ True)) as H.
    { intros d r3 S3 L3. eapply (use_fine r _ (consume RPAREN)); [apply consume_fine; ne|auto|]. intros _ r4 S4 L4 _. fin. }
    destruct (check RPAREN r2); [simpl; apply H; auto; lia|].
    apply wp_bind. eapply wp_mono; [apply Suf_refl| |apply parse_ui_arg_wp; auto; lia]. intros d r3 [S3 L3].
    eapply wp_mono; [apply Suf_refl| |apply (while_wp r _ (fun _ => True)); auto].
    - intros d' r' (S' & L' & _). apply H; auto; lia.
    - intros d' r' S' L' _. destruct (check COMMA r') eqn:E; [|fin]. adv_tac E.
      apply wp_bind. eapply wp_mono; [apply Suf_refl| |apply parse_ui_arg_wp; auto; lia]. intros d2 r4 [S4 L4]. fin.
  Qed.
  Lemma parse_parameter_fine r : (length r < L)%nat -> fine (parse_parameter R) nw_param r.
  Proof.
    intros Hl. unfold fine, parse_parameter. assert (Suf r r) as S0 by apply Suf_refl.
    eapply (use_fine r _ (consume IDENTIFIER)); [apply consume_fine; ne|auto|]. intros n r1 S1 L1 _.
    apply wp_bind. eapply wp_mono with (ts0 := r) (Q := fun _ r2 => Suf r2 r /\ (length r2 < length r)%nat); [auto| |].
    2: { destruct (check COLON r1) eqn:E; [|fin]. adv_tac E.
         eapply (use_fine r _ (r_type R)); [apply (g_type L R HG); lia|auto|]. intros t r2 S2 L2 _. fin. }
    intros t r2 [S2 L2].
    apply wp_bind. eapply wp_mono with (ts0 := r) (Q := fun _ r3 => Suf r3 r /\ (length r3 < length r)%nat); [auto| |].
    2: { destruct (check AT r2) eqn:E; [|fin].
         eapply (use_fine r _ (parse_ui_hint R)); [apply parse_ui_hint_fine; auto; lia|auto|]. intros h r3 S3 L3 _. fin. }
    intros u r3 [S3 L3].
    apply wp_bind. eapply wp_mono with (ts0 := r) (Q := fun d r4 => Suf r4 r /\ (length r4 < length r)%nat /\ forall e, d = Some e -> nw_e e); [auto| |].
    2: { destruct (check ASSIGN r3) eqn:E; [|fin]. adv_tac E.
         eapply (use_fine r _ (d_expr R)); [apply d_fine; lia|auto|]. intros e r4 S4 L4 G4. fin. }
    intros d r4 (S4 & L4 & G4). fin.
  Qed.
  Lemma parse_params_fine r : (length r < L)%nat -> fine (parse_params R) (Forall nw_param) r.
  Proof.
    intros Hl. unfold fine, parse_params. assert (Suf r r) as S0 by apply Suf_refl.
    eapply (use_fine r _ (consume LPAREN)); [apply consume_fine; ne|auto|]. intros _ r1 S1 L1 _.
    apply wp_bind.
    assert (forall d r3, Suf r3 r -> (length r3 < length r)%nat -> Forall nw_param d ->
      wp r (do _u, r4 <- consume RPAREN r3; POk d r4)
        (fun ps r0 => Suf r0 r /\ (length r0 < length r)%nat /\ Forall nw_param ps)) as H.
    { intros d r3 S3 L3 G3. eapply (use_fine r _ (consume RPAREN)); [apply consume_fine; ne|auto|]. intros _ r4 S4 L4 _. fin. }
    destruct (check RPAREN r1); [simpl; apply H; auto|].
    eapply (use_fine r _ (parse_parameter R)); [apply parse_parameter_fine; lia|auto|]. intros p r2 S2 L2 G2.
    eapply wp_mono; [apply Suf_refl| |apply (comma_list_wp r (Some RPAREN) (parse_parameter R) nw_param); auto].
    - intros l r3 (S3 & L3 & G3). apply H; auto. lia.
    - intros r' S' L'. apply parse_parameter_fine; lia.
  Qed.

  Lemma id_or_type_fine r : fine id_or_type (fun _ => True) r.
  Proof.
    unfold fine, id_or_type. destruct (check IDENTIFIER r || is_type_token (cur r)) eqn:E; [|apply Suf_refl].
    assert (cur r <> EOF) as Hc by (intros H; unfold check in E; rewrite H in E; discriminate).
    destruct (adv_lt' r r (Suf_refl _) Hc). fin.
  Qed.
  Lemma parse_meta_key_fine r : fine parse_meta_key (fun _ => True) r.
  Proof.
    unfold fine, parse_meta_key. assert (Suf r r) as S0 by apply Suf_refl.
    eapply (use_fine r _ id_or_type); [apply id_or_type_fine|auto|]. intros k r1 S1 L1 _.
    eapply wp_mono; [apply Suf_refl| |apply (while_wp r _ (fun _ => True)); auto].
    - intros k' r' (S' & L' & _). fin.
    - intros k' r' S' L' _. destruct (check DOT r') eqn:E; [|fin]. adv_tac E.
      eapply (use_fine r _ id_or_type); [apply id_or_type_fine|auto|]. intros k2 r2 S2 L2 _. fin.
  Qed.
  Lemma parse_meta_decorator_fine r : (length r < L)%nat -> check AT r = true ->
    fine (parse_meta_decorator R) (fun _ => True) r.
  Proof.
    intros Hl Hc. pose proof (check_at _ Hc) as Hat. unfold fine, parse_meta_decorator. assert (Suf r r) as S0 by apply Suf_refl. adv_tac Hc.
    eapply (use_fine r _ (consume IDENTIFIER)); [apply consume_fine; ne|auto|]. intros n r1 S1 L1 _.
    destruct (negb (leqb (strval n) (codes "meta"))); [auto|].
    eapply (use_fine r _ (consume LPAREN)); [apply consume_fine; ne|auto|]. intros _ r2 S2 L2 _.
    destruct (skip_newlines_suf r r2 S2) as [A3 B3].
    eapply (use_while r _ (fun _ => True)); auto.
    - intros d r' S' L' _. destruct (check RPAREN r') eqn:E; [fin|].
      eapply (use_fine r _ parse_meta_key); [apply parse_meta_key_fine|auto|]. intros k r4 S4 L4 _.
      eapply (use_fine r _ (consume ASSIGN)); [apply consume_fine; ne|auto|]. intros _ r5 S5 L5 _.
      destruct (skip_newlines_suf r r5 S5) as [A6 B6].
      apply wp_bind. eapply wp_mono; [apply Suf_refl| |apply parse_hint_wp; auto; lia]. intros h r6 [S6 L6].
      destruct (skip_newlines_suf r r6 S6) as [A7 B7]. cbv zeta.
      destruct (check COMMA (skip_newlines r6)) eqn:Ec; [|fin]. adv_tac Ec.
      destruct (skip_newlines_suf r _ A0) as [A8 B8]. fin.
    - intros d r3 S3 L3 _. eapply (use_fine r _ (consume RPAREN)); [apply consume_fine; ne|auto|]. intros _ r4 S4 L4 _. fin.
  Qed.
  Lemma parse_decorator_fine r : (length r < L)%nat -> check AT r = true ->
    fine (parse_decorator R) (fun d => Forall nw_e (d_args d)) r.
  Proof.
    intros Hl Hc. unfold fine, parse_decorator. assert (Suf r r) as S0 by apply Suf_refl. adv_tac Hc.
    eapply (use_fine r _ (consume IDENTIFIER)); [apply consume_fine; ne|auto|]. intros n r1 S1 L1 _.
    apply wp_bind. eapply wp_mono with (ts0 := r) (Q := fun a r2 => Suf r2 r /\ (length r2 < length r)%nat /\ Forall nw_e a); [auto| |].
    - intros a r2 (S2 & L2 & G2). eapply (use_finele r _ expect_eol); [apply expect_eol_le|auto|].
      intros _ r3 S3 L3 _. fin.
    - destruct (check LPAREN r1) eqn:E; [|fin]. adv_tac E. cbv zeta. apply wp_bind.
      eapply wp_mono with (ts0 := r) (Q := fun a r2 => Suf r2 r /\ (length r2 < length r)%nat /\ Forall nw_e a); [auto| |].
      + intros a r2 (S2 & L2 & G2). eapply (use_fine r _ (consume RPAREN)); [apply consume_fine; ne|auto|]. intros _ r4 S4 L4 _. fin.
      + destruct (check RPAREN (adv r1)); [fin|].
        eapply (use_fine r _ (d_expr R)); [apply d_fine; lia|auto|]. intros e r4 S4 L4 G4.
        eapply wp_mono; [apply Suf_refl| |apply (comma_list_wp r None (d_expr R) nw_e); auto].
        * intros l r3 (S3 & L3 & G3). fin.
        * intros r' S' L'. apply d_fine; lia.
  Qed.

  Lemma parse_function_def_fine ds meta r : (length r < L)%nat -> Forall (fun d => Forall nw_e (d_args d)) ds ->
    check DEF r = true -> fine (parse_function_def R ds meta) nw_fun r.
  Proof.
    intros Hl Hd Hc. unfold fine, parse_function_def. assert (Suf r r) as S0 by apply Suf_refl. adv_tac Hc.
    eapply (use_fine r _ (consume IDENTIFIER)); [apply consume_fine; ne|auto|]. intros n r1 S1 L1 _.
    eapply (use_fine r _ (parse_params R)); [apply parse_params_fine; lia|auto|]. intros ps r2 S2 L2 G2.
    apply wp_bind. eapply wp_mono with (ts0 := r) (Q := fun _ r3 => Suf r3 r /\ (length r3 < length r)%nat); [auto| |].
    2: { destruct (check ARROW r2) eqn:E; [|fin]. adv_tac E.
         eapply (use_fine r _ (r_type R)); [apply (g_type L R HG); lia|auto|]. intros t r3 S3 L3 _. fin. }
    intros t r3 [S3 L3].
    eapply (use_fine r _ (consume COLON)); [apply consume_fine; ne|auto|]. intros _ r4 S4 L4 _.
    eapply (use_fine r _ (r_block R)); [apply (g_block L R HG); lia|auto|]. intros b r5 S5 L5 G5.
    fin.
  Qed.
  Lemma parse_command_fine meta r : (length r < L)%nat -> check COMMAND r = true ->
    fine (parse_command R meta) nw_fun r.
  Proof.
    intros Hl Hc. unfold fine, parse_command. assert (Suf r r) as S0 by apply Suf_refl. adv_tac Hc.
    eapply (use_fine r _ (consume IDENTIFIER)); [apply consume_fine; ne|auto|]. intros n r1 S1 L1 _.
    eapply (use_fine r _ (parse_params R)); [apply parse_params_fine; lia|auto|]. intros ps r2 S2 L2 G2.
    eapply (use_fine r _ (consume ARROW)); [apply consume_fine; ne|auto|]. intros _ r3 S3 L3 _.
    eapply (use_fine r _ (r_type R)); [apply (g_type L R HG); lia|auto|]. intros t r4 S4 L4 _.
    destruct (adv_le r r4 S4) as [A5 B5].
    assert (Suf (if check COLON r4 then adv r4 else r4) r /\
            (length (if check COLON r4 then adv r4 else r4) <= length r4)%nat) as [A6 B6]
      by (destruct (check COLON r4); auto).
    eapply (use_fine r _ (r_block R)); [apply (g_block L R HG); lia|auto|]. intros b r5 S5 L5 G5.
    fin. constructor.
  Qed.
  Lemma path_component_le r : finele path_component (fun _ => True) r.
  Proof.
    unfold finele, path_component. assert (Suf r r) as S0 by apply Suf_refl.
    destruct (adv_le r r S0). destruct (check IDENTIFIER r); [fin|]. destruct (curval r); fin.
  Qed.
  Lemma parse_use_fine r : fine parse_use (fun _ => True) r.
  Proof.
    unfold fine, parse_use. assert (Suf r r) as S0 by apply Suf_refl.
    destruct (adv_le r r S0) as [A0 B0].
    assert (Suf (if check EXPORT r then adv r else r) r /\
            (length (if check EXPORT r then adv r else r) <= length r)%nat) as [A B]
      by (destruct (check EXPORT r); auto).
    cbv zeta. eapply (use_fine r _ (consume USE)); [apply consume_fine; ne|auto|]. intros _ r1 S1 L1 _.
    eapply (use_finele r _ path_component); [apply path_component_le|auto|]. intros c r2 S2 L2 _.
    eapply (use_while r _ (fun _ => True)); auto.
    - intros l r' S' L' _. destruct (check DOT r') eqn:E; [|fin]. adv_tac E.
      eapply (use_finele r _ path_component); [apply path_component_le|auto|]. intros c' r3 S3 L3 _. fin.
    - intros p r3 S3 L3 _. apply wp_bind.
      eapply wp_mono with (ts0 := r) (Q := fun _ r4 => Suf r4 r /\ (length r4 < length r)%nat); [auto| |].
      + intros a r4 [S4 L4]. eapply (use_finele r _ semi_or_eol); [apply semi_or_eol_le|auto|].
        intros _ r5 S5 L5 _. fin.
      + destruct (negb (check EXPORT r) && check AS r3) eqn:E; [|fin]. apply andb_prop in E as [_ E]. adv_tac E.
        eapply (use_fine r _ (consume IDENTIFIER)); [apply consume_fine; ne|auto|]. intros n r4 S4 L4 _. fin.
  Qed.
  Lemma parse_native_decl_fine r : (length r < L)%nat -> check FN r = true -> fine (parse_native_decl R) nw_native r.
  Proof.
    intros Hl Hc. unfold fine, parse_native_decl. assert (Suf r r) as S0 by apply Suf_refl. adv_tac Hc.
    eapply (use_fine r _ (consume IDENTIFIER)); [apply consume_fine; ne|auto|]. intros n r1 S1 L1 _.
    eapply (use_fine r _ (parse_params R)); [apply parse_params_fine; lia|auto|]. intros ps r2 S2 L2 G2.
    eapply (use_fine r _ (consume ARROW)); [apply consume_fine; ne|auto|]. intros _ r3 S3 L3 _.
    eapply (use_fine r _ (r_type R)); [apply (g_type L R HG); lia|auto|]. intros t r4 S4 L4 _.
    eapply (use_fine r _ (consume SEMICOLON)); [apply consume_fine; ne|auto|]. intros _ r5 S5 L5 _. fin.
  Qed.
  Lemma parse_native_block_fine r : (length r < L)%nat -> check NATIVE r = true ->
    fine (parse_native_block R) (Forall nw_native) r.
  Proof.
    intros Hl Hc. unfold fine, parse_native_block. assert (Suf r r) as S0 by apply Suf_refl. adv_tac Hc.
    eapply (use_fine r _ (consume PYTHON)); [apply consume_fine; ne|auto|]. intros _ r1 S1 L1 _.
    eapply (use_fine r _ (consume LBRACE)); [apply consume_fine; ne|auto|]. intros _ r2 S2 L2 _.
    destruct (skip_braces_suf r r2 1 [] S2) as [A3 B3]. cbv zeta.
    eapply (use_fine r _ (consume EXPORTS)); [apply consume_fine; ne|auto|]. intros _ r3 S3 L3 _.
    eapply (use_fine r _ (consume LBRACE)); [apply consume_fine; ne|auto|]. intros _ r4 S4 L4 _.
    eapply (use_while r _ (Forall nw_native)); auto.
    - intros l r' S' L' G'. destruct (check FN r' && negb (Parse_Model.at_end r')) eqn:E; [|fin].
      apply andb_prop in E as [E _].
      eapply (use_fine r _ (parse_native_decl R)); [apply parse_native_decl_fine; auto; lia|auto|].
      intros d r5 S5 L5 G5. fin. apply Forall_snoc; auto.
    - intros l r5 S5 L5 G5. eapply (use_fine r _ (consume RBRACE)); [apply consume_fine; ne|auto|].
      intros _ r6 S6 L6 _. fin.
  Qed.
  Lemma skip_to_dedent_suf ts0 r : Suf r ts0 -> Suf (skip_to_dedent r) ts0 /\ (length (skip_to_dedent r) <= length r)%nat.
  Proof.
    induction r as [|t r IH]; intros H; simpl; [auto|].
    destruct (teqb (t_type t) DEDENT || teqb (t_type t) EOF); [auto|].
    apply Suf_tl in H. simpl in H. destruct (IH H). split; auto.
  Qed.
  Lemma parse_native_function_fine r : (length r < L)%nat -> check DEF r = true ->
    fine (parse_native_function R) nw_native r.
  Proof.
    intros Hl Hc. unfold fine, parse_native_function. assert (Suf r r) as S0 by apply Suf_refl. adv_tac Hc.
    eapply (use_fine r _ (consume IDENTIFIER)); [apply consume_fine; ne|auto|]. intros n r1 S1 L1 _.
    eapply (use_fine r _ (parse_params R)); [apply parse_params_fine; lia|auto|]. intros ps r2 S2 L2 G2.
    eapply (use_fine r _ (consume ARROW)); [apply consume_fine; ne|auto|]. intros _ r3 S3 L3 _.
    eapply (use_fine r _ (r_type R)); [apply (g_type L R HG); lia|auto|]. intros t r4 S4 L4 _.
    eapply (use_fine r _ (consume COLON)); [apply consume_fine; ne|auto|]. intros _ r5 S5 L5 _.
    destruct (adv_le r r5 S5) as [A6 B6].
    assert (Suf (if check NEWLINE r5 then adv r5 else r5) r /\
            (length (if check NEWLINE r5 then adv r5 else r5) <= length r5)%nat) as [A7 B7]
      by (destruct (check NEWLINE r5); auto).
    cbv zeta. set (r6 := if check NEWLINE r5 then adv r5 else r5) in *. clearbody r6.
    apply wp_bind. eapply wp_mono with (ts0 := r) (Q := fun _ r7 => Suf r7 r /\ (length r7 < length r)%nat); [auto| |].
    - intros _ r7 [S7 L7]. fin.
    - destruct (check INDENT r6) eqn:E; [|fin]. adv_tac E. destruct (skip_to_dedent_suf r _ A0) as [A8 B8].
      eapply (use_fine_ret r _ (consume DEDENT)); [apply consume_fine; ne|auto|]. intros _ r7 S7 L7 _. fin.
  Qed.

  Lemma parse_decorators_wp ts0 r : Suf r ts0 -> (length r < L)%nat ->
    wp ts0 (parse_decorators R r) (fun s r' => Suf r' ts0 /\ (length r' <= length r)%nat /\
      Forall (fun d => Forall nw_e (d_args d)) (fst s)).
  Proof.
    intros Hs Hl. unfold parse_decorators.
    apply (while_wp ts0 _ (fun s : deco_st => Forall (fun d => Forall nw_e (d_args d)) (fst s))); auto; [constructor|].
    intros [ds m] r' S' L' G'. simpl in G'. destruct (check AT r') eqn:E; [|fin].
    destruct (val_is_meta (curval (tl r'))).
    - eapply (use_fine ts0 _ (parse_meta_decorator R)); [apply parse_meta_decorator_fine; auto; lia|auto|].
      intros d r2 S2 L2 _. destruct (skip_newlines_suf ts0 r2 S2). fin.
    - eapply (use_fine ts0 _ (parse_decorator R)); [apply parse_decorator_fine; auto; lia|auto|].
      intros d r2 S2 L2 G2. destruct (skip_newlines_suf ts0 r2 S2). fin. apply Forall_snoc; auto.
  Qed.

  Definition nw_mod (s : mod_st) : Prop :=
    let '(nb, nf, fs) := s in Forall (Forall nw_native) nb /\ Forall nw_native nf /\ Forall nw_fun fs.
  Lemma parse_decl_wp ts0 s r : Suf r ts0 -> (length r < L)%nat -> nw_mod s ->
    wp ts0 (parse_decl R s r) (fun sb r' => Suf r' ts0 /\ (length r' <= length r)%nat /\
        (snd sb = true -> (length r' < length r)%nat) /\ nw_mod (fst sb)).
  Proof.
    intros Hs Hl. destruct s as [[nb nf] fs]. intros HN. unfold parse_decl.
    destruct (Parse_Model.at_end r); [fin; apply HN|].
    destruct (skip_newlines_suf ts0 r Hs) as [S1 L1]. cbv zeta.
    destruct (Parse_Model.at_end (skip_newlines r)); [fin; apply HN|].
    apply wp_bind. eapply wp_mono; [apply Suf_refl| |apply parse_decorators_wp; auto; lia].
    intros [ds meta] r2 (S2 & L2 & G2). simpl in G2. destruct HN as (N1 & N2 & N3).
    destruct (Parse_Model.at_end r2); [fin|].
    destruct (check NATIVE r2) eqn:E1.
    { eapply (use_fine ts0 _ (parse_native_block R)); [apply parse_native_block_fine; auto; lia|auto|].
      intros b r3 S3 L3 G3. destruct (skip_newlines_suf ts0 r3 S3). fin. apply Forall_snoc; auto. }
    destruct (check DEF r2) eqn:E2.
    { destruct (existsb _ ds).
      - eapply (use_fine ts0 _ (parse_native_function R)); [apply parse_native_function_fine; auto; lia|auto|].
        intros b r3 S3 L3 G3. destruct (skip_newlines_suf ts0 r3 S3). fin. apply Forall_snoc; auto.
      - eapply (use_fine ts0 _ (parse_function_def R ds _)); [apply parse_function_def_fine; auto; lia|auto|].
        intros b r3 S3 L3 G3. destruct (skip_newlines_suf ts0 r3 S3). fin. apply Forall_snoc; auto. }
    destruct (check COMMAND r2) eqn:E3; [|simpl; auto].
    eapply (use_fine ts0 _ (parse_command R _)); [apply parse_command_fine; auto; lia|auto|].
    intros b r3 S3 L3 G3. destruct (skip_newlines_suf ts0 r3 S3). fin. apply Forall_snoc; auto.
  Qed.
  Lemma parse_module_wp ts : (length ts < L)%nat ->
    wp ts (parse_module R ts) (fun m r => Suf r ts /\ while_free m).
  Proof.
    intros Hl. unfold parse_module. destruct (skip_newlines_suf ts ts (Suf_refl _)) as [S0 L0].
    cbv zeta. set (r := skip_newlines ts) in *. clearbody r.
    apply wp_bind. eapply wp_mono with (ts0 := ts) (Q := fun _ r1 => Suf r1 ts /\ (length r1 <= length ts)%nat); [apply Suf_refl| |].
    2: { destruct (check MODULE r) eqn:E; [|fin]. adv_tac E.
         eapply (use_fine ts _ (consume IDENTIFIER)); [apply consume_fine; ne|auto|]. intros n r1 S1 L1 _.
         eapply (use_finele ts _ semi_or_eol); [apply semi_or_eol_le|auto|]. intros _ r2 S2 L2 _. fin. }
    intros n r1 [S1 L1]. destruct (skip_newlines_suf ts r1 S1) as [S2 L2].
    eapply (use_while ts _ (fun _ => True)); auto.
    - intros l r' S' L' _. destruct (check_any [USE; EXPORT] r'); [|fin].
      destruct (check EXPORT r' && negb (teqb (peek1 r') USE)); [fin|].
      eapply (use_fine ts _ parse_use); [apply parse_use_fine|auto|]. intros u r3 S3 L3 _.
      destruct (skip_newlines_suf ts r3 S3). fin.
    - intros us r3 S3 L3 _. eapply (use_while ts _ nw_mod); auto; [repeat split; constructor| |].
      + intros s r' S' L' G'. apply parse_decl_wp; auto. lia.
      + intros [[nb nf] fs] r4 S4 L4 (G1 & G2 & G3). fin.
  Qed.
End D.

Lemma parse_with_wp n ts : (parse_fuel (length ts) <= n)%nat ->
  wp ts (parse_with n ts) (fun m r => Suf r ts /\ while_free m).
Proof.
  intros H. unfold parse_with. apply (parse_module_wp _ (S (length ts))); [|lia].
  apply build_good. unfold parse_fuel in H. lia.
Qed.

Lemma loop_end {S} (body : S -> parser (S * bool)) n : forall s r s' r',
  loop body n s r = POk s' r' -> exists s0 r0, body s0 r0 = POk (s', false) r'.
Proof.
  induction n; intros s r s' r' H; [discriminate|]. simpl in H.
  destruct (body s r) as [[s2 b] r2| | |] eqn:E; try discriminate.
  destruct b; [eauto|]. injection H as <- <-. eauto.
Qed.
Lemma bind_ok {A B} (x : pres A) (f : A -> list token -> pres B) b r :
  bind x f = POk b r -> exists a r1, x = POk a r1 /\ f a r1 = POk b r.
Proof. destruct x; simpl; intros H; try discriminate. eauto. Qed.
Lemma parse_decl_stop R s r s' r' : parse_decl R s r = POk (s', false) r' -> Parse_Model.at_end r' = true.
Proof.
  unfold parse_decl. destruct (Parse_Model.at_end r) eqn:E1; [intros H; injection H as <- <-; auto|].
  cbv zeta. destruct (Parse_Model.at_end (skip_newlines r)) eqn:E2; [intros H; injection H as <- <-; auto|].
  intros H. apply bind_ok in H as ([ds m] & r1 & _ & H).
  destruct s as [[nb nf] fs]. destruct (Parse_Model.at_end r1) eqn:E3; [injection H as <- <-; auto|].
  repeat match type of H with
  | (if ?b then _ else _) = _ => destruct b
  | bind _ _ = POk _ _ => apply bind_ok in H as (? & ? & _ & H)
  end; discriminate.
Qed.
Lemma parse_module_end R ts m r : parse_module R ts = POk m r -> Parse_Model.at_end r = true.
Proof.
  unfold parse_module. cbv zeta. intros H.
  apply bind_ok in H as (n & r1 & _ & H). apply bind_ok in H as (us & r2 & _ & H).
  apply bind_ok in H as (s & r3 & H1 & H). apply loop_end in H1 as (s0 & r0 & H1).
  apply parse_decl_stop in H1. destruct s as [[? ?] ?]. injection H as <- <-. auto.
Qed.
