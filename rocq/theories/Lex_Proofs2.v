(** Proofs about the lexer model: each scan step. *)
From Coq Require Import ZArith List Bool Lia String.
From Verif Require Import Lex_Model Lex_Spec Lex_Proofs.
Import ListNotations.
Open Scope Z_scope.
Open Scope list_scope.

Definition all_types : list ttype :=
  [
   INT_LITERAL; FLOAT_LITERAL; STRING_LITERAL; BOOL_LITERAL; IDENTIFIER; MODULE; USE; DEF;
   RETURN; EMIT; IF; ELIF; ELSE; FOR; IN; WHILE; ASSERT; PASS; AS; MATCH; EXPORT; NATIVE;
   COMMAND; LET; REQUIRE; WITH; PYTHON; FN; EXPORTS; CLOSE; CLOSE_C0; CLOSE_C1; TYPE_INT;
   TYPE_FLOAT; TYPE_STRING; TYPE_BOOL; TYPE_POINT; TYPE_POINT2D; TYPE_POINT3D; TYPE_VECTOR;
   TYPE_VECTOR2D; TYPE_VECTOR3D; TYPE_TRANSFORM; TYPE_LINE_SEGMENT; TYPE_ARC; TYPE_CIRCLE;
   TYPE_ELLIPSE; TYPE_PARABOLA; TYPE_HYPERBOLA; TYPE_CATMULLROM; TYPE_NURBS; TYPE_BEZIER;
   TYPE_PATH2D; TYPE_PATH3D; TYPE_PROFILE2D; TYPE_REGION2D; TYPE_LOOP3D; TYPE_SURFACE;
   TYPE_SHELL; TYPE_SOLID; TYPE_LIST; TYPE_DICT; PLUS; MINUS; STAR; SLASH; DOUBLE_SLASH;
   PERCENT; DOUBLE_STAR; LT; GT; LE; GE; EQ; NE; AND; OR; NOT; ASSIGN; PLUS_ASSIGN;
   MINUS_ASSIGN; LBRACE; RBRACE; LPAREN; RPAREN; LBRACKET; RBRACKET; COLON; SEMICOLON; COMMA;
   DOT; ARROW; DOUBLE_ARROW; RANGE; QUESTION; UNDERSCORE; AT; HASH; INDENT; DEDENT; NEWLINE;
   EOF; NATIVE_BLOCK].
Definition tof (z : Z) : ttype := nth (Z.to_nat (z - 1)) all_types PLUS.
Lemma tof_tcode t : tof (tcode t) = t.
Proof. destruct t; reflexivity. Qed.
Definition ordb (t : ttype) : bool :=
  negb (teqb t INDENT || teqb t DEDENT || teqb t NEWLINE || teqb t EOF).
Definition nobr (t : ttype) : bool :=
  match t with LPAREN | LBRACKET | LBRACE | RPAREN | RBRACKET | RBRACE => false | _ => true end.
Lemma nobr_step d t : nobr t = true -> bracket_step d t = d.
Proof. destruct t; intros H; try discriminate H; reflexivity. Qed.
Lemma bracket_step_nonneg d t : 0 <= d -> 0 <= bracket_step d t.
Proof. intros H. destruct t; simpl; try assumption; lia. Qed.
Lemma ordb_ordinary t : ordb t = true -> ordinary t.
Proof. destruct t; intros H; try discriminate H; repeat split; discriminate. Qed.
Lemma teqb_eq a b : teqb a b = true <-> a = b.
Proof.
  unfold teqb. split; [|intros ->; apply Z.eqb_refl]. intros H. apply Z.eqb_eq in H.
  rewrite <- (tof_tcode a), <- (tof_tcode b). congruence.
Qed.

(** A token made from the text between two states. *)
Record tok_ok (src : list Z) (s : st) (t : token) (s' : st) : Prop := {
  k_wf : wfp src s'; k_lt : s_off s < s_off s';
  k_start : t_start t = location s; k_end : t_end t = location s';
  k_lex : t_lexeme t = between src (s_off s) (s_off s');
  k_ord : ordinary (t_type t);
  k_stack : s_stack s' = s_stack s; k_pend : s_pend s' = s_pend s;
  k_depth : s_depth s' = bracket_step (s_depth s) (t_type t) }.

Lemma advance_lt s : s_rem s <> [] -> s_off (advance s) = s_off s + 1.
Proof. intros. apply (advance_n_off 1). destruct (s_rem s); simpl; [congruence|lia]. Qed.
Lemma at_end_false s : at_end s = false -> s_rem s <> [].
Proof. unfold at_end. destruct (s_rem s); congruence. Qed.
Lemma while_lt p s : s_rem s <> [] -> p (peek 0 s) = true -> s_off s < s_off (advance_while p s).
Proof.
  intros N P. unfold advance_while. rewrite advance_n_off by apply count_while_le.
  unfold peek in P. destruct (s_rem s); [congruence|]. simpl in *. rewrite P. lia.
Qed.
Lemma tok_of_fwd src s s' ty v : wfp src s -> fwd src s s' -> s_off s < s_off s' -> ordb ty = true -> nobr ty = true ->
  tok_ok src s (make_token ty v (location s) s') s'.
Proof.
  intros W F L O NB. destruct F as [F1 F2 F3 F4 F5]. constructor; simpl; auto; try congruence.
  - rewrite (w_src _ _ F1). reflexivity.
  - apply ordb_ordinary; auto.
  - rewrite nobr_step; auto.
Qed.
Lemma scan_string_ok U src s t s' : wfp src s -> s_rem s <> [] -> scan_string U s = Ok (t, s') -> tok_ok src s t s'.
Proof.
  intros W N H. unfold scan_string in H. cbv zeta in H.
  assert (F1 := fwd_1 _ _ W). assert (L := advance_lt _ N).
  destruct ((peek 0 (advance s) =? peek 0 s) && (peek 1 (advance s) =? peek 0 s)).
  - remember (advance_n 2 (advance s)) as s2 eqn:D2.
    destruct (mstring_body U (S (List.length (s_rem s2))) (peek 0 s) (s_rem s2)) as [[v n]|]; [|discriminate].
    injection H as <- <-.
    assert (F2 : fwd src (advance s) s2) by (rewrite D2; apply (fwd_n src 2); apply F1).
    assert (F3 : fwd src s2 (advance_n n s2)) by (apply fwd_n; apply F2).
    apply tok_of_fwd; auto.
    + eapply fwd_trans; [eauto|]. eapply fwd_trans; eauto.
    + apply f_off in F2, F3. lia.
  - destruct (string_body U (S (List.length (s_rem (advance s)))) (peek 0 s) (s_rem (advance s))) as [[v n]|]; [|discriminate].
    injection H as <- <-.
    assert (F3 : fwd src (advance s) (advance_n n (advance s))) by (apply fwd_n; apply F1).
    apply tok_of_fwd; auto.
    + eapply fwd_trans; eauto.
    + apply f_off in F3. lia.
Qed.
Lemma scan_based_ok U base isd e src s s1 t s' : wfp src s -> fwd src s s1 -> s_off s < s_off s1 ->
  scan_based U base isd e (location s) s1 = Ok (t, s') -> tok_ok src s t s'.
Proof.
  intros W F L H. unfold scan_based in H. cbv zeta in H.
  destruct (negb (isd (peek 0 (advance s1)))); [discriminate|].
  remember (advance_while (fun c => isd c || (c =? 95)) (advance s1)) as s2 eqn:D.
  destruct (py_int U base _); [|discriminate]. injection H as <- <-.
  assert (F2 : fwd src s s2).
  { eapply fwd_trans; [apply F|]. eapply fwd_trans; [apply fwd_1; apply F|]. rewrite D. apply fwd_while.
    apply (fwd_1 src s1). apply F. }
  change (make_token_l INT_LITERAL (VInt z) (location s) (slice (s_src s2) (l_off (location s)) (s_off s2)) s2)
    with (make_token INT_LITERAL (VInt z) (location s) s2).
  apply tok_of_fwd; auto.
  assert (s_off s1 <= s_off s2); [|lia].
  rewrite D. assert (X : fwd src s1 (advance s1)) by (apply fwd_1; apply F).
  assert (Y := fwd_while src (fun c => isd c || (c =? 95)) (advance s1) (f_wf _ _ _ X)).
  apply f_off in X, Y. lia.
Qed.
Lemma scan_number_ok U src s t s' : wfp src s -> s_rem s <> [] -> is_digit U (peek 0 s) = true ->
  scan_number U s = Ok (t, s') -> tok_ok src s t s'.
Proof.
  intros W N Dg H. unfold scan_number in H. cbv zeta in H.
  assert (L := advance_lt _ N).
  destruct ((peek 0 s =? 48) && ((peek 1 s =? 120) || (peek 1 s =? 88))).
  { eapply scan_based_ok; eauto using fwd_1. lia. }
  destruct ((peek 0 s =? 48) && ((peek 1 s =? 98) || (peek 1 s =? 66))).
  { eapply scan_based_ok; eauto using fwd_1. lia. }
  assert (F1 := fwd_while src (is_digit U) s W). assert (L1 := while_lt _ _ N Dg).
  remember (advance_while (is_digit U) s) as s1 eqn:D1. clear D1.
  assert (G : forall b s2, fwd src s s2 -> s_off s < s_off s2 ->
    (if ((peek 0 s2 =? 101) || (peek 0 s2 =? 69)) &&
       negb (is_digit U (peek 0 (if (peek 0 s2 =? 101) || (peek 0 s2 =? 69)
             then if (peek 0 (advance s2) =? 43) || (peek 0 (advance s2) =? 45) then advance (advance s2) else advance s2
             else s2))) then Err EBadNumber else
     let s3 := (if (peek 0 s2 =? 101) || (peek 0 s2 =? 69)
             then if (peek 0 (advance s2) =? 43) || (peek 0 (advance s2) =? 45) then advance (advance s2) else advance s2
             else s2) in
     let s4 := if (peek 0 s2 =? 101) || (peek 0 s2 =? 69) then advance_while (is_digit U) s3 else s3 in
     let lexeme := slice (s_src s4) (l_off (location s)) (s_off s4) in
     if b || ((peek 0 s2 =? 101) || (peek 0 s2 =? 69)) then
      if u_floatok U lexeme
      then Ok (make_token_l FLOAT_LITERAL (VFloat lexeme) (location s) lexeme s4, s4)
      else Err EBadNumber
    else
      match py_int U 10 lexeme with
      | Some v => Ok (make_token_l INT_LITERAL (VInt v) (location s) lexeme s4, s4)
      | None => Err EBadNumber
      end) = Ok (t, s') -> tok_ok src s t s').
  { clear H. intros b s2 F2 L2. cbv zeta.
    assert (FA : fwd src s2 (advance s2)) by (apply fwd_1; apply F2).
    assert (FB : fwd src (advance s2) (advance (advance s2))) by (apply fwd_1; apply FA).
    set (s3 := if (peek 0 s2 =? 101) || (peek 0 s2 =? 69)
             then if (peek 0 (advance s2) =? 43) || (peek 0 (advance s2) =? 45) then advance (advance s2) else advance s2
             else s2).
    assert (F3 : fwd src s2 s3).
    { unfold s3. destruct ((peek 0 s2 =? 101) || (peek 0 s2 =? 69)); [|apply fwd_refl; apply F2].
      destruct ((peek 0 (advance s2) =? 43) || (peek 0 (advance s2) =? 45)); auto. eapply fwd_trans; eauto. }
    set (s4 := if (peek 0 s2 =? 101) || (peek 0 s2 =? 69) then advance_while (is_digit U) s3 else s3).
    assert (F4 : fwd src s3 s4).
    { unfold s4. destruct ((peek 0 s2 =? 101) || (peek 0 s2 =? 69)); [apply fwd_while|apply fwd_refl]; apply F3. }
    clearbody s4. clearbody s3.
    assert (F5 : fwd src s s4). { eapply fwd_trans; [eauto|]. eapply fwd_trans; eauto. }
    assert (L5 : s_off s < s_off s4). { apply f_off in F3, F4. lia. }
    match goal with |- (if ?c then _ else _) = _ -> _ => destruct c; [discriminate|] end.
    match goal with |- (if ?c then _ else _) = _ -> _ => destruct c end.
    - destruct (u_floatok U _); [|discriminate]. intros E. injection E as <- <-.
      apply (tok_of_fwd src s s4 FLOAT_LITERAL _ W F5 L5); reflexivity.
    - destruct (py_int U 10 _); [|discriminate]. intros E. injection E as <- <-.
      apply (tok_of_fwd src s s4 INT_LITERAL _ W F5 L5); reflexivity. }
  destruct ((peek 0 s1 =? 46) && is_digit U (peek 1 s1)).
  - apply (G true) in H; auto.
    + eapply fwd_trans; [eauto|]. eapply fwd_trans; [apply fwd_1; apply F1|]. apply fwd_while.
      apply (fwd_1 src s1). apply F1.
    + assert (X : fwd src s1 (advance s1)) by (apply fwd_1; apply F1).
      assert (Y := fwd_while src (is_digit U) _ (f_wf _ _ _ X)). apply f_off in X, Y. lia.
  - apply (G false) in H; auto.
Qed.
Lemma keyword_in l t ty : keyword l t = Some ty -> exists k, In (k, ty) t /\ l = codes k.
Proof.
  induction t as [|[k ty'] t IH]; simpl; [discriminate|].
  destruct (leqb l (codes k)) eqn:E.
  - intros [= ->]. exists k. split; auto. clear -E. revert E. generalize (codes k). intros m. revert m.
    induction l as [|x l IH]; intros [|y m]; simpl; intros; try discriminate; auto.
    apply andb_prop in E as [E1 E2]. apply Z.eqb_eq in E1. f_equal; auto.
  - intros H. destruct (IH H) as (k' & H1 & H2). eauto.
Qed.
Lemma keywords_ordinary : forallb (fun p : string * ttype => ordb (snd p) && nobr (snd p)) KEYWORDS = true.
Proof. vm_compute. reflexivity. Qed.
Lemma scan_identifier_ok U src s t s' : wfp src s -> s_rem s <> [] ->
  is_alpha U (peek 0 s) || (peek 0 s =? 95) = true ->
  scan_identifier U s = Ok (t, s') -> tok_ok src s t s'.
Proof.
  intros W N P H. unfold scan_identifier in H. cbv zeta in H.
  set (p := fun c => is_alnum U c || (c =? 95)) in *.
  assert (F := fwd_while src p s W).
  assert (Q : p (peek 0 s) = true).
  { unfold p, is_alnum, is_alpha in *. destruct (peek 0 s <? 128); destruct (peek 0 s =? 95); rewrite ?orb_true_r; auto.
    - rewrite orb_false_r in P. now rewrite P.
    - rewrite orb_false_r in P. now rewrite P. }
  assert (L := while_lt _ _ N Q).
  remember (advance_while p s) as s1. destruct (keyword _ KEYWORDS) as [ty|] eqn:K.
  - injection H as <- <-.
    apply keyword_in in K as (k & K & _). assert (X := keywords_ordinary). rewrite forallb_forall in X.
    specialize (X _ K). apply andb_prop in X as [X1 X2]. eapply tok_of_fwd; eauto.
  - injection H as <- <-. apply tok_of_fwd; auto.
Qed.
Lemma find2_ord c d t ty : forallb (fun p : Z * Z * ttype => ordb (snd p) && nobr (snd p)) t = true -> find2 c d t = Some ty -> ordb ty && nobr ty = true.
Proof.
  induction t as [|[[a b] ty'] t IH]; simpl; [discriminate|]. intros H. apply andb_prop in H as [H1 H2].
  destruct ((c =? a) && (d =? b)); auto. intros [= <-]. auto.
Qed.
Lemma find1_ord c t ty : forallb (fun p : Z * ttype => ordb (snd p) && nobr (snd p)) t = true -> find1 c t = Some ty -> ordb ty && nobr ty = true.
Proof.
  induction t as [|[a ty'] t IH]; simpl; [discriminate|]. intros H. apply andb_prop in H as [H1 H2].
  destruct (c =? a); auto. intros [= <-]. auto.
Qed.
Lemma findb_step c ty d k : find_bracket c brackets = Some (ty, d) -> 0 <= k -> bracket_step k ty = Z.max 0 (k + d).
Proof.
  unfold brackets. simpl. intros H K.
  repeat match type of H with (if ?b then _ else _) = _ => destruct b; [injection H as <- <-; simpl; lia|] end.
  discriminate H.
Qed.
Lemma findb_ord c t ty d : forallb (fun p : Z * ttype * Z => ordb (snd (fst p))) t = true ->
  find_bracket c t = Some (ty, d) -> ordb ty = true.
Proof.
  induction t as [|[[a ty'] d'] t IH]; simpl; [discriminate|]. intros H. apply andb_prop in H as [H1 H2].
  destruct (c =? a); auto. intros [= <- _]. auto.
Qed.
Lemma find2_nz c d t ty : forallb (fun p : Z * Z * ttype => negb (snd (fst p) =? 0)) t = true ->
  find2 c d t = Some ty -> d <> 0.
Proof.
  induction t as [|[[a b] ty'] t IH]; simpl; [discriminate|]. intros H. apply andb_prop in H as [H1 H2].
  destruct ((c =? a) && (d =? b)) eqn:E; auto. apply andb_prop in E as [_ E]. apply Z.eqb_eq in E. subst.
  apply negb_true_iff, Z.eqb_neq in H1. auto.
Qed.
Lemma scan_operator_ok src s t s' : wfp src s -> 0 <= s_depth s -> s_rem s <> [] -> scan_operator s = Ok (t, s') -> tok_ok src s t s'.
Proof.
  intros W DP N H. unfold scan_operator in H. cbv zeta in H.
  assert (L := advance_lt _ N). assert (F := fwd_1 _ _ W).
  destruct (find2 _ _ _) as [ty|] eqn:E2.
  - injection H as <- <-. assert (F2 : fwd src (advance s) (advance (advance s))) by (apply fwd_1; apply F).
    apply tok_of_fwd; auto.
    + eapply fwd_trans; eauto.
    + apply f_off in F2. lia.
    + apply find2_ord in E2; [|reflexivity]. apply andb_prop in E2. tauto.
    + apply find2_ord in E2; [|reflexivity]. apply andb_prop in E2. tauto.
  - destruct (find_bracket _ _) as [[ty d]|] eqn:EB.
    + injection H as <- <-. destruct F as [F1 F2 F3 F4 F5].
      constructor; simpl; auto; try lia.
      * eapply wfp_same; [| | | | |apply F1]; auto.
      * rewrite (w_src _ _ F1). reflexivity.
      * apply ordb_ordinary. eapply findb_ord; [|eauto]. reflexivity.
      * rewrite F5. symmetry. eapply findb_step; eauto.
    + destruct (find1 _ _) as [ty|] eqn:E1; [|discriminate]. injection H as <- <-.
      apply find1_ord in E1; [|reflexivity]. apply andb_prop in E1 as [E1 E3].
      apply tok_of_fwd; auto; lia.
Qed.

(** ** _handle_line_start *)
Lemma pop_above_spec i k k' n : pop_above i k = (k', n) -> (List.length k = n + List.length k')%nat /\
  (hd 0 k' <= i \/ k' = []) /\ (i < hd 0 k -> k <> [] -> (1 <= n)%nat).
Proof.
  revert k' n. induction k as [|t r IH]; simpl; intros k' n H.
  - injection H as <- <-. simpl. repeat split; auto; congruence.
  - destruct (i <? t) eqn:E.
    + destruct (pop_above i r) as [k2 m] eqn:P. injection H as <- <-. destruct (IH _ _ eq_refl) as (A & B & C).
      split; [lia|]. split; auto. intros. lia.
    + injection H as <- <-. apply Z.ltb_ge in E. simpl. split; [lia|]. split; auto. lia.
Qed.
(** The open levels promise closing tokens. *)
Definition due (s : st) : nat := (pred (List.length (s_stack s)) + List.length (s_pend s))%nat.
Definition pend_ok (s : st) : Prop := exists a n d, s_pend s = repeat d n /\ t_type d = DEDENT /\
  t_start d = a /\ t_end d = location s /\ t_lexeme d = [].

Record good (src : list Z) (s : st) : Prop := {
  g_wf : wfp src s;
  g_depth : 0 <= s_depth s;
  g_bot : exists k, s_stack s = k ++ [0] /\ Forall (fun x => 0 < x) k;
  g_pend : Forall (fun d => t_type d = DEDENT) (s_pend s) }.

Lemma pop_above_keep i k k' n : 0 <= i -> Forall (fun x => 0 < x) k -> pop_above i (k ++ [0]) = (k', n) ->
  exists k2, k' = k2 ++ [0] /\ Forall (fun x => 0 < x) k2.
Proof.
  intros I. revert k' n. induction k as [|t r IH]; simpl; intros k' n F H.
  - destruct (i <? 0) eqn:E; [apply Z.ltb_lt in E; lia|]. injection H as <- <-. exists []. auto.
  - inversion F; subst. destruct (i <? t) eqn:E.
    + destruct (pop_above i (r ++ [0])) as [k2 m] eqn:P. injection H as <- <-. eauto.
    + injection H as <- <-. exists (t :: r). auto.
Qed.

Record line_none (src : list Z) (s s' : st) : Prop := {
  ln_fwd : fwd src s s'; ln_gap : forall nl, gap nl src (s_off s) (s_off s') }.
Record line_tok (src : list Z) (s : st) (t : token) (s' : st) : Prop := {
  lt_wf : good src s'; lt_off : s_off s <= s_off s';
  lt_start : t_start t = location s; lt_end : t_end t = location s'; lt_lex : t_lexeme t = [];
  lt_als : s_als s = true /\ s_als s' = false; lt_depth : s_depth s' = s_depth s;
  lt_kind : (t_type t = INDENT /\ s_off s < s_off s' /\ s_pend s' = [] /\
               List.length (s_stack s') = S (List.length (s_stack s))) \/
            (t_type t = DEDENT /\ exists n e, s_pend s' = repeat t n /\ (e <= 1)%nat /\
               List.length (s_stack s) + e = List.length (s_stack s') + S n)%nat }.

Lemma set_als_fwd src s b : wfp src s -> fwd src s (set_als b s).
Proof. intros W. constructor; auto; simpl; try lia. eapply wfp_same; [| | | | |exact W]; auto. Qed.

Lemma handle_line_start_spec src s r : good src s -> s_pend s = [] -> handle_line_start s = Ok r ->
  match r with (None, s') => line_none src s s' | (Some t, s') => line_tok src s t s' end.
Proof.
  intros G P0 H. destruct G as [W Dp (kb & KB & KF) _]. unfold handle_line_start in H. cbv zeta in H.
  destruct (s_als s) eqn:AL; simpl negb in H; cbv iota in H; swap 1 2.
  { injection H as <-. constructor; [apply fwd_refl; auto|intros; constructor]. }
  assert (F1 : fwd src s (skip_blanks s)) by (apply fwd_while; auto).
  assert (G1 := fun nl => skip_blanks_gap nl src s W).
  assert (O1 : s_off (skip_blanks s) = s_off s + Z.of_nat (count_while is_blank (s_rem s))).
  { apply advance_n_off. apply count_while_le. }
  remember (skip_blanks s) as s1 eqn:D1. clear D1.
  destruct ((peek 0 s1 =? 10) || (peek 0 s1 =? 0)).
  { injection H as <-. constructor; auto. eapply fwd_trans; [eauto|]. apply set_als_fwd. apply F1. }
  destruct (peek 0 s1 =? 35) eqn:E35.
  { injection H as <-. apply Z.eqb_eq in E35.
    constructor.
    - eapply fwd_trans; [eauto|]. apply fwd_while. apply F1.
    - intros nl. eapply gap_trans; [apply G1|]. apply (skip_comment_gap nl src s1 (f_wf _ _ _ F1) E35). }
  destruct ((peek 0 s1 =? 47) && (peek 1 s1 =? 42)) eqn:E47.
  { apply andb_prop in E47 as [E2 E3]. apply Z.eqb_eq in E3, E2.
    destruct (skip_multiline_comment s1) as [s2|] eqn:E; [|discriminate]. injection H as <-.
    constructor; [eapply fwd_trans; [eauto|apply (skip_mcomment_spec false src _ _ (f_wf _ _ _ F1) E2 E3 E)]|].
    intros nl. eapply gap_trans; [apply G1|apply (skip_mcomment_spec nl src _ _ (f_wf _ _ _ F1) E2 E3 E)]. }
  assert (F2 : fwd src s (set_als false s1)) by (eapply fwd_trans; [eauto|apply set_als_fwd; apply F1]).
  remember (set_als false s1) as s2 eqn:D2.
  assert (O2 : s_off s2 = s_off s1) by (subst s2; auto).
  assert (A2 : s_als s2 = false) by (subst s2; auto). clear D2.
  destruct (0 <? s_depth s2). { injection H as <-. constructor; auto. now rewrite O2. }
  rewrite <- O2 in O1. assert (G1' : forall nl, gap nl src (s_off s) (s_off s2)) by (intros; rewrite O2; auto).
  set (indent := Z.of_nat (count_while is_blank (s_rem s))) in *.
  assert (I0 : 0 <= indent) by (unfold indent; lia).
  destruct F2 as [W2 F2o F2s F2p F2d].
  assert (WS : forall k, wfp src (set_stack k s2)) by (intros; eapply wfp_same; [| | | | |exact W2]; auto).
  destruct (hd 0 (s_stack s2) <? indent) eqn:Ei.
  { injection H as <-. apply Z.ltb_lt in Ei. assert (0 <= hd 0 (s_stack s2)).
    { rewrite F2s, KB. destruct kb; simpl; [lia|]. inversion KF; lia. }
    assert (GD : good src (set_stack (indent :: s_stack s2) s2)).
    { constructor; auto; simpl; try congruence.
      - exists (indent :: kb). rewrite F2s, KB. split; auto. constructor; auto. lia.
      - rewrite F2p, P0. constructor. }
    constructor; simpl; auto; try congruence.
    left. repeat split; try lia; try congruence. }
  destruct (indent <? hd 0 (s_stack s2)) eqn:Ej; [|injection H as <-; constructor; auto; constructor; auto].
  destruct (pop_above indent (s_stack s2)) as [k n] eqn:PA.
  destruct (pop_above_spec _ _ _ _ PA) as (LA & _ & _). rewrite F2s, KB in PA.
  destruct (pop_above_keep _ _ _ _ I0 KF PA) as (k2 & K2 & KF2). rewrite F2s in LA.
  set (k' := if hd 0 k =? indent then k else indent :: k) in *.
  assert (K' : exists k3, k' = k3 ++ [0] /\ Forall (fun x => 0 < x) k3).
  { unfold k'. destruct (hd 0 k =? indent) eqn:E; [eauto|]. exists (indent :: k2). rewrite K2. split; auto.
    constructor; auto. apply Z.eqb_neq in E. rewrite K2 in E.
    destruct (pop_above_spec _ _ _ _ PA) as (_ & [X|X] & _); [|rewrite K2 in X; destruct k2; discriminate].
    rewrite K2 in X. destruct k2 as [|x k2]; simpl in *; [lia|]. inversion KF2; subst. lia. }
  assert (LK : (List.length k' <= S (List.length k) /\ List.length k <= List.length k')%nat).
  { unfold k'. destruct (hd 0 k =? indent); simpl; lia. }
  destruct n as [|n].
  { injection H as <-. exfalso. rewrite <- KB in PA. rewrite F2s in Ej.
    destruct (pop_above_spec _ _ _ _ PA) as (_ & _ & X). apply Z.ltb_lt in Ej. apply X in Ej; [lia|].
    rewrite KB. destruct kb; discriminate. }
  injection H as <-.
  assert (GD : good src (set_pend (s_pend s2 ++ repeat (make_token_l DEDENT VNone (location s) [] (set_stack k' s2)) n) (set_stack k' s2))).
  { constructor; simpl; auto; try congruence.
    - eapply wfp_same; [| | | | |exact W2]; auto.
    - rewrite F2p, P0. simpl. apply Forall_forall. intros x X. apply repeat_spec in X. subst. auto. }
  constructor; simpl; auto; try congruence.
  right. split; auto. rewrite F2p, P0. simpl. exists n, (List.length k' - List.length k)%nat. repeat split; try lia.
Qed.

(** ** One step of the scanner *)
Definition measure (s : st) : nat :=
  (3 * List.length (s_rem s) + List.length (s_pend s) + 2 * List.length (s_stack s) + (if s_als s then 1 else 0))%nat.

Record emits (src : list Z) (s : st) (t : token) (s' : st) : Prop := {
  e_good : good src s';
  e_gap : gap (0 <? s_depth s) src (s_off s) (l_off (t_start t));
  e_depth : s_depth s' = bracket_step (s_depth s) (t_type t);
  e_off : s_off s <= l_off (t_start t) <= l_off (t_end t);
  e_end : t_end t = location s';
  e_start : position src (l_off (t_start t)) = (l_line (t_start t), l_col (t_start t));
  e_lex : ordinary (t_type t) -> t_lexeme t = between src (l_off (t_start t)) (l_off (t_end t)) /\
            l_off (t_start t) < l_off (t_end t);
  e_pend : (t_type t = DEDENT /\ exists n, s_pend s' = repeat t n) \/ s_pend s' = [];
  e_newline : t_type t = NEWLINE -> char_at src (l_off (t_start t)) = Some 10 /\
                l_off (t_end t) = l_off (t_start t) + 1;
  e_eof : t_type t = EOF -> due s' = O /\ l_off (t_start t) = len src;
  e_due : match t_type t with
          | INDENT => due s' = S (due s)
          | DEDENT => (due s = S (due s') \/ due s = due s')%nat
          | _ => due s' = due s end;
  e_measure : t_type t = EOF \/ (measure s' < measure s)%nat }.

Lemma gap_1 src a : char_at src a = Some 10 -> gap true src a (a + 1).
Proof. intros. eapply gap_char; eauto. constructor. Qed.

Lemma wfp_good src s s' : good src s -> wfp src s' -> s_stack s' = s_stack s -> s_pend s' = s_pend s ->
  0 <= s_depth s' -> good src s'.
Proof. intros [A B C D] W E F G. constructor; auto; rewrite ?E, ?F; auto. Qed.
Lemma match_ord ty (A : Type) (x y z : A) : ordinary ty -> match ty with INDENT => x | DEDENT => y | _ => z end = z.
Proof. intros (A1 & A2 & A3 & A4). destruct ty; congruence. Qed.

Lemma scan_token_spec U src s r : good src s -> s_pend s = [] -> scan_token U s = Ok r ->
  match r with
  | Emit t s' => emits src s t s'
  | Again s' => good src s' /\ s_pend s' = [] /\ s_off s < s_off s' /\ gap (0 <? s_depth s) src (s_off s) (s_off s') /\ due s' = due s
                /\ s_depth s' = s_depth s                /\ (measure s' < measure s)%nat
  end.
Proof.
  intros G P0 H. unfold scan_token in H. rewrite P0 in H.
  destruct (handle_line_start s) as [[[t|] s1]|] eqn:HL; [| |discriminate].
  { injection H as <-. apply (handle_line_start_spec src) in HL; auto.
    destruct HL as [A C D E F [AL1 AL2] DPT K].
    assert (LR := rem_length _ _ _ (g_wf _ _ G) (g_wf _ _ A) C).
    assert (Bt : exists k, s_stack s = k ++ [0]) by (destruct (g_bot _ _ G) as (k & Hk & _); eauto).
    assert (Bt' : exists k, s_stack s1 = k ++ [0]) by (destruct (g_bot _ _ A) as (k & Hk & _); eauto).
    destruct Bt as [kk Bt], Bt' as [kk' Bt'].
    assert (O1 : l_off (t_end t) = s_off s1) by (rewrite E; auto).
    assert (O0 : l_off (t_start t) = s_off s) by (rewrite D; auto).
    constructor; auto.
    - rewrite O0. constructor.
    - destruct K as [[K _]|[K _]]; rewrite K; exact DPT.
    - lia.
    - rewrite D. simpl. apply G.
    - intros (X1 & X2 & X3 & X4). destruct K as [[K _]|[K _]]; congruence.
    - destruct K as [(K1 & K2 & K3 & K4)|(K1 & n & e & K2 & K3 & K4)]; auto. left. eauto.
    - intros X. destruct K as [[K _]|[K _]]; congruence.
    - intros X. destruct K as [[K _]|[K _]]; congruence.
    - destruct K as [(K1 & K2 & K3 & K4)|(K1 & n & e & K2 & K3 & K4)]; rewrite K1.
      + unfold due. rewrite K3, P0, K4, Bt, app_length. simpl. lia.
      + unfold due. rewrite K2, P0, repeat_length. rewrite Bt, Bt', !app_length in *. simpl in *. lia.
    - right. unfold measure. rewrite P0, AL1, AL2.
      destruct K as [(K1 & K2 & K3 & K4)|(K1 & n & e & K2 & K3 & K4)].
      + rewrite K3, K4. assert (X := rem_length_lt _ _ _ (g_wf _ _ G) (g_wf _ _ A) K2). simpl; lia.
      + rewrite K2, repeat_length. simpl; lia. }
  apply (handle_line_start_spec src) in HL; auto. destruct HL as [F1 G1].
  assert (F2 : fwd src s1 (skip_blanks s1)) by (apply fwd_while; apply F1).
  assert (G2 := skip_blanks_gap (0 <? s_depth s) src s1 (f_wf _ _ _ F1)).
  cbv zeta in H. remember (skip_blanks s1) as s2 eqn:D2. clear D2.
  destruct (skip_comments (S (List.length (s_rem s2))) s2) as [s3|] eqn:SC; [|discriminate].
  destruct (skip_comments_spec (0 <? s_depth s) src _ _ _ (f_wf _ _ _ F2) SC) as [F3 G3].
  assert (FF : fwd src s s3) by (eapply fwd_trans; [eauto|eapply fwd_trans; eauto]).
  assert (GG : gap (0 <? s_depth s) src (s_off s) (s_off s3)) by (eapply gap_trans; [eauto|eapply gap_trans; eauto]).
  clear F1 G1 F2 G2 F3 G3 SC.
  destruct FF as [W3 O3 ST3 PE3 DP3].
  destruct (peek 0 s3 =? 10) eqn:E10.
  { apply Z.eqb_eq in E10.
    assert (N3 : s_rem s3 <> []). { unfold peek in E10. destruct (s_rem s3); simpl in E10; congruence. }
    assert (L4 := advance_lt _ N3). assert (F4 := fwd_1 _ _ W3). destruct F4 as [W4 O4 ST4 PE4 DP4].
    assert (C10 : char_at src (s_off s3) = Some 10).
    { rewrite <- (Z.add_0_r (s_off s3)). change 0 with (Z.of_nat 0). rewrite <- char_at_rem by auto.
      rewrite <- E10. apply peek_nonzero. lia. }
    assert (G4 : good src (advance s3)) by (eapply wfp_good; eauto; try congruence; rewrite DP4, DP3; apply G).
    assert (D4 : due (advance s3) = due s) by (unfold due; congruence).
    assert (M4 : (measure (advance s3) < measure s)%nat).
    { assert (X := rem_length_lt _ _ _ (g_wf _ _ G) W4 ltac:(lia)). unfold measure.
      rewrite ST4, PE4, ST3, PE3. destruct (s_als s), (s_als (advance s3)); lia. }
    destruct (s_depth (advance s3) =? 0) eqn:ED0; injection H as <-.
    - constructor; simpl; auto; try lia.
      + apply W3.
      + intros (_ & _ & X & _). congruence.
      + right. congruence.
      + intros X. discriminate.
    - split; auto. split; [congruence|]. split; [lia|]. repeat split; auto; [|congruence].
      eapply gap_trans; eauto. rewrite L4. apply Z.eqb_neq in ED0. assert (DD := g_depth _ _ G).
      replace (0 <? s_depth s) with true by (symmetry; apply Z.ltb_lt; lia). apply gap_1; auto. }
  destruct (at_end s3) eqn:AE.
  { assert (R3 : s_rem s3 = []) by (unfold at_end in AE; destruct (s_rem s3); congruence).
    assert (OE : s_off s3 = len src) by (rewrite (off_rem _ _ W3), R3; unfold len; simpl; lia).
    destruct (g_bot _ _ G) as (kb & KB & KF).
    rewrite ST3, KB, app_length in H. simpl Datatypes.length in H.
    replace (pred (List.length kb + 1)) with (List.length kb) in H by lia.
    rewrite skipn_app, skipn_all, Nat.sub_diag in H. simpl app in H. simpl skipn in H.
    assert (W4 : wfp src (set_stack [0] s3)) by (eapply wfp_same; [| | | | |exact W3]; auto).
    destruct kb as [|x kb]; simpl in H; injection H as <-.
    - assert (G4 : good src (set_stack [0] s3)).
      { constructor; auto; simpl; [rewrite DP3; apply G|exists []; auto|rewrite PE3; apply G]. }
      constructor; simpl; auto; try lia.
      + apply W3.
      + intros (_ & _ & _ & X). congruence.
      + right. congruence.
      + intros X. discriminate.
      + intros _. split; auto. unfold due. simpl. rewrite PE3, P0. reflexivity.
      + unfold due. simpl. rewrite PE3, P0, KB. reflexivity.
    - set (d := make_token_l DEDENT VNone (location s3) [] s3) in *.
      assert (G4 : good src (set_pend (repeat d (List.length kb)) (set_stack [0] s3))).
      { constructor; auto; simpl; [eapply wfp_same; [| | | | |exact W3]; auto|rewrite DP3; apply G|exists []; auto|].
        apply Forall_forall. intros y Y. apply repeat_spec in Y. subst. auto. }
      constructor; simpl; auto; try lia.
      + apply W3.
      + intros (_ & X & _). congruence.
      + left. split; auto. eexists; eauto.
      + intros X. discriminate.
      + intros X. discriminate.
      + left. unfold due. simpl. rewrite repeat_length, P0, KB. simpl. rewrite app_length. simpl. lia.
      + right. assert (X := rem_length _ _ _ (g_wf _ _ G) W3 O3). unfold measure. simpl. rewrite repeat_length, P0, KB.
        simpl. rewrite app_length. simpl. destruct (s_als s3), (s_als s); lia. }
  assert (N3 := at_end_false _ AE).
  assert (TK : forall t s4, (if (peek 0 s3 =? 34) || (peek 0 s3 =? 39) then scan_string U s3
                   else if is_digit U (peek 0 s3) then scan_number U s3
                   else if is_alpha U (peek 0 s3) || (peek 0 s3 =? 95) then scan_identifier U s3
                   else scan_operator s3) = Ok (t, s4) -> tok_ok src s3 t s4).
  { intros t s4. destruct ((peek 0 s3 =? 34) || (peek 0 s3 =? 39)); [apply scan_string_ok; auto|].
    destruct (is_digit U (peek 0 s3)) eqn:ED; [apply scan_number_ok; auto|].
    destruct (is_alpha U (peek 0 s3) || (peek 0 s3 =? 95)) eqn:EA; [apply scan_identifier_ok; auto|].
    apply scan_operator_ok; auto. rewrite DP3. apply G. }
  destruct (if (peek 0 s3 =? 34) || (peek 0 s3 =? 39) then _ else _) as [[t s4]|]; [|discriminate].
  injection H as <-. specialize (TK _ _ eq_refl). destruct TK as [W4 L4 TS TE TL TO TST TP TD].
  assert (OS : l_off (t_start t) = s_off s3) by (rewrite TS; auto).
  assert (OE : l_off (t_end t) = s_off s4) by (rewrite TE; auto).
  assert (D4 : due s4 = due s) by (unfold due; congruence).
  assert (M4 : (measure s4 < measure s)%nat).
  { assert (X := rem_length_lt _ _ _ (g_wf _ _ G) W4 ltac:(lia)). unfold measure.
    rewrite TST, TP, ST3, PE3. destruct (s_als s), (s_als s4); lia. }
  assert (TO' := TO). destruct TO' as (T1 & T2 & T3 & T4).
  constructor; auto; try congruence.
  - eapply wfp_good; eauto; try congruence. rewrite TD. apply bracket_step_nonneg. rewrite DP3. apply G.
  - lia.
  - rewrite TS. apply W3.
  - intros _. split; [congruence|lia].
  - right; congruence.
  - rewrite match_ord; auto.
Qed.
Lemma scan_pend U src s t r : good src s -> s_pend s = t :: r ->
  scan_token U s = Ok (Emit t (set_pend r s)) /\ good src (set_pend r s) /\ t_type t = DEDENT /\
  due s = S (due (set_pend r s)) /\ (measure (set_pend r s) < measure s)%nat.
Proof.
  intros [A B C D] E. unfold scan_token. rewrite E. split; auto. rewrite E in D. inversion D; subst.
  split; [|split; auto; split].
  - constructor; auto. eapply wfp_same; [| | | | |exact A]; auto.
  - unfold due. simpl. rewrite E. simpl. lia.
  - unfold measure. simpl. rewrite E. simpl. destruct (s_als s); lia.
Qed.
