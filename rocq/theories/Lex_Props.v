(** Property theorems about yapcad.dsl.lexer.  Characters are code points; U is what
    Python knows about non-ASCII characters (arbitrary). *)
From Coq Require Import ZArith String List Lia.
From Verif Require Import Lex_Model Lex_Spec Lex_Proofs Lex_Proofs2 Lex_Proofs3 Lex_Proofs4.
Import ListNotations.
Open Scope Z_scope.
Open Scope list_scope.

Definition ASCII : unicode :=
  Unicode (fun _ => false) (fun _ => None) (fun _ => false) (fun _ => false) (fun _ => false) (fun _ => true) 4300.
Definition types (r : option (res (list token))) : list ttype :=
  match r with Some (Ok ts) => map t_type ts | _ => [] end.

(** C01 *)
Theorem c01_tokenize_finishes : forall U src,
  (exists e, tokenize U src = Some (Err e)) \/
  (exists pre eof, tokenize U src = Some (Ok (pre ++ [eof])) /\ t_type eof = EOF /\
     Forall (fun t => t_type t <> EOF) pre).
Proof.
  intros U src. destruct (tokenize_total U src) as [[ts|e] H]; [right|left; eauto].
  destruct (stream_eof _ _ _ (tokenize_stream _ _ _ H)) as (pre & e & -> & A & B). eauto.
Qed.
Print Assumptions c01_tokenize_finishes.
(** The iteration bound of the model is immaterial: more steps change nothing. *)
Theorem c01_bound_immaterial : forall U src k,
  scan_all U (3 * List.length src + 4 + k) (init src) = tokenize U src.
Proof.
  intros. destruct (tokenize_total U src) as [r H]. rewrite H. apply scan_all_fuel. exact H.
Qed.
Print Assumptions c01_bound_immaterial.
Example c01_nonvacuous :
  types (tokenize ASCII (codes "if x: (1 + 0x2f) # c")) =
    [IF; IDENTIFIER; COLON; LPAREN; INT_LITERAL; PLUS; INT_LITERAL; RPAREN; EOF]
  /\ tokenize ASCII (codes "a $") = Some (Err (EUnexpectedChar 36)).
Proof. vm_compute. split; reflexivity. Qed.

(** C02 *)
Theorem c02_token_spans : forall U src ts t, tokenize U src = Some (Ok ts) -> In t ts ->
  let a := t_start t in let b := t_end t in
  0 <= l_off a <= l_off b /\ l_off b <= Z.of_nat (List.length src) /\
  position src (l_off a) = (l_line a, l_col a) /\ position src (l_off b) = (l_line b, l_col b) /\
  (ordinary (t_type t) -> t_lexeme t = between src (l_off a) (l_off b) /\ l_off a < l_off b) /\
  (t_type t = NEWLINE -> between src (l_off a) (l_off b) = [10]).
Proof.
  intros U src ts t H I. assert (S := stream_spans _ _ _ (tokenize_stream _ _ _ H) ltac:(simpl; lia)).
  rewrite Forall_forall in S. destruct (S _ I) as ((A & B) & (C & D) & E & F & G). cbv zeta.
  unfold len in *. repeat split; try tauto; try lia; apply F; auto.
Qed.
Print Assumptions c02_token_spans.
(** In source order, without overlap (several DEDENTs may stand at one place). *)
Theorem c02_source_order : forall U src pre t1 mid t2 post,
  tokenize U src = Some (Ok (pre ++ t1 :: mid ++ t2 :: post)) ->
  l_off (t_end t1) <= l_off (t_start t2) \/ (t_type t1 = DEDENT /\ t2 = t1).
Proof.
  intros U src pre t1 mid t2 post H.
  destruct (stream_order _ _ _ (tokenize_stream _ _ _ H)) as [_ O]. exact (FOP_app before _ _ _ _ _ O).
Qed.
Print Assumptions c02_source_order.
(** Nothing is dropped: text before the first token and between neighbouring tokens is
    blank or comment - a line break is skipped only while a bracket is open - and the
    EOF token stands at the end of the text. *)
Theorem c02_nothing_dropped : forall U src ts, tokenize U src = Some (Ok ts) ->
  (exists t r, ts = t :: r /\ gap false src 0 (l_off (t_start t))) /\
  (forall pre t1 t2 post, ts = pre ++ t1 :: t2 :: post ->
     gap (0 <? open_brackets (pre ++ [t1])) src (l_off (t_end t1)) (l_off (t_start t2)) \/ (t_type t1 = DEDENT /\ t2 = t1)) /\
  (exists pre e, ts = pre ++ [e] /\ t_type e = EOF /\ l_off (t_start e) = Z.of_nat (List.length src)).
Proof.
  intros U src ts H. apply tokenize_stream in H. split; [exact (stream_first _ _ _ H)|]. split.
  - destruct (stream_linked3 _ _ _ H) as (t & r & -> & L). exact (linked3_pair _ _ _ _ L).
  - exact (stream_end _ _ _ H).
Qed.
Print Assumptions c02_nothing_dropped.
Example c02_nonvacuous : exists t1 t2 t3, tokenize ASCII (codes "ab /* x */ +") = Some (Ok [t1; t2; t3]) /\
  t_lexeme t1 = codes "ab" /\ t_start t2 = Loc 1 12 11 /\ t_type t2 = PLUS.
Proof. vm_compute. do 3 eexists. repeat split. Qed.

(** C03: every INDENT is closed by a later DEDENT before EOF. *)
Theorem c03_every_indent_is_closed : forall U src ts, tokenize U src = Some (Ok ts) -> unclosed 0 ts = 0%nat.
Proof. intros U src ts H. apply (stream_unclosed _ _ _ (tokenize_stream _ _ _ H)). simpl. lia. Qed.
Print Assumptions c03_every_indent_is_closed.
(** There are never fewer DEDENTs than INDENTs, and when there are equally many the
    stream is properly nested. *)
Theorem c03_enough_dedents : forall U src ts, tokenize U src = Some (Ok ts) ->
  (count_ty INDENT ts <= count_ty DEDENT ts)%nat.
Proof. intros U src ts H. assert (X := stream_counts _ _ _ (tokenize_stream _ _ _ H)). simpl in X. unfold due in X. simpl in X. lia. Qed.
Print Assumptions c03_enough_dedents.
Theorem c03_balanced_iff_counts_agree : forall U src ts, tokenize U src = Some (Ok ts) ->
  (count_ty DEDENT ts = count_ty INDENT ts <-> balanced ts).
Proof.
  intros U src ts H. split.
  - intros C. apply (stream_balanced _ _ _ (tokenize_stream _ _ _ H)). unfold due. simpl. lia.
  - clear H. unfold balanced. assert (G : forall ts d, nest d ts = Some 0%nat -> (count_ty DEDENT ts = count_ty INDENT ts + d)%nat).
    { clear. induction ts as [|t ts IH]; intros d H; simpl in H; [injection H as ->; reflexivity|].
      rewrite !count_cons.
      destruct (t_type t); cbv [teqb tcode Z.eqb Pos.eqb];
        try (apply IH in H; lia); destruct d; [discriminate|apply IH in H; lia]. }
    intros H. apply G in H. lia.
Qed.
Print Assumptions c03_balanced_iff_counts_agree.
Definition nested_src : list Z := codes "a:" ++ [10] ++ codes "  b:" ++ [10] ++ codes "    c" ++ [10] ++ codes "d".
Example c03_nonvacuous :
  types (tokenize ASCII nested_src) =
    [IDENTIFIER; COLON; NEWLINE; INDENT; IDENTIFIER; COLON; NEWLINE; INDENT; IDENTIFIER; NEWLINE; DEDENT; DEDENT; IDENTIFIER; EOF].
Proof. vm_compute. reflexivity. Qed.

(** C63: but a DEDENT need not close anything - a line indented between two open
    levels makes the stream unbalanced. *)
Theorem c63_stray_dedent_refuted : forall U, exists src ts,
  tokenize U src = Some (Ok ts) /\ ~ balanced ts /\ (count_ty INDENT ts < count_ty DEDENT ts)%nat.
Proof.
  intros U. exists (codes "a" ++ [10] ++ codes "    b" ++ [10] ++ codes "  c" ++ [10]).
  eexists. split; [vm_compute; reflexivity|]. split; [vm_compute; discriminate|vm_compute; lia].
Qed.
Print Assumptions c63_stray_dedent_refuted.
(** C64: a comment is not equivalent to blank space - after a leading /* */ comment an
    INDENT appears in the middle of the line, and the same after a multi-line string. *)
Theorem c64_comment_changes_tokens_refuted : forall U,
  types (tokenize U (codes "x = y")) = [IDENTIFIER; ASSIGN; IDENTIFIER; EOF] /\
  types (tokenize U (codes "/* c */x = y")) = [IDENTIFIER; INDENT; ASSIGN; IDENTIFIER; DEDENT; EOF].
Proof. intros U. split; vm_compute; reflexivity. Qed.
Print Assumptions c64_comment_changes_tokens_refuted.
Theorem c64_string_changes_line_start_refuted : forall U,
  types (tokenize U (codes "x = """""" """""" + y")) = [IDENTIFIER; ASSIGN; STRING_LITERAL; PLUS; IDENTIFIER; EOF] /\
  types (tokenize U (codes "x = """"""" ++ [10] ++ codes """"""" + y"))
    = [IDENTIFIER; ASSIGN; STRING_LITERAL; INDENT; PLUS; IDENTIFIER; DEDENT; EOF].
Proof. intros U. split; vm_compute; reflexivity. Qed.
Print Assumptions c64_string_changes_line_start_refuted.

(** C04: any spelling of a string between quotes (34 or 39) denotes it. *)
Theorem c04_string_literal : forall U q cs txt, q = 34 \/ q = 39 -> spelled q false cs txt ->
  exists t e, tokenize U ([q] ++ txt ++ [q]) = Some (Ok [t; e]) /\ t_type t = STRING_LITERAL /\
    t_value t = VStr cs /\ t_lexeme t = [q] ++ txt ++ [q] /\ t_type e = EOF.
Proof. exact string_token. Qed.
Print Assumptions c04_string_literal.
Theorem c04_triple_quoted_literal : forall U q cs txt, q = 34 \/ q = 39 -> spelled q true cs txt ->
  exists t e, tokenize U ([q; q; q] ++ txt ++ [q; q; q]) = Some (Ok [t; e]) /\ t_type t = STRING_LITERAL /\
    t_value t = VStr cs /\ t_lexeme t = [q; q; q] ++ txt ++ [q; q; q] /\ t_type e = EOF.
Proof. exact mstring_token. Qed.
Print Assumptions c04_triple_quoted_literal.
(** Every string has a spelling: escape the backslash, the quote and the newline. *)
Theorem c04_every_string_has_a_spelling : forall q m cs, q = 34 \/ q = 39 -> exists txt, spelled q m cs txt.
Proof.
  intros q m cs Q. induction cs as [|c cs [txt IH]]; [exists []; constructor|].
  assert (exists t, spells q m c t) as [t T].
  { destruct (Z.eq_dec c 92) as [-> |N]; [eexists; apply sp_backslash|].
    destruct (Z.eq_dec c 10) as [-> |N2]; [eexists; apply sp_newline|].
    destruct (Z.eq_dec c q) as [-> |N3].
    - destruct Q; subst; eexists; [apply sp_dquote|apply sp_squote].
    - exists [c]. apply sp_raw; auto; try congruence. }
  exists (t ++ txt). constructor; auto.
Qed.
Print Assumptions c04_every_string_has_a_spelling.
Example c04_nonvacuous : spelled 34 false [97; 34; 65] ([97] ++ [92; 34] ++ [92; 120; 52; 49] ++ []).
Proof.
  repeat apply spl_cons; [apply sp_raw; [lia|lia|discriminate]|apply sp_dquote| |constructor].
  apply (sp_hex 34 false 52 49 4 1); [apply (hexd_dec 4)|apply (hexd_dec 1)]; lia.
Qed.

(** C05: decimal literals (up to Python's digit limit for int()). *)
Theorem c05_decimal_literal : forall U txt ds, Forall2 decd txt ds -> ds <> [] ->
  (0 < u_maxdigits U -> Z.of_nat (List.length ds) <= u_maxdigits U) ->
  exists t e, tokenize U txt = Some (Ok [t; e]) /\ t_type t = INT_LITERAL /\ t_value t = VInt (horner 10 ds) /\
    t_lexeme t = txt /\ t_type e = EOF.
Proof. exact decimal_token. Qed.
Print Assumptions c05_decimal_literal.
Theorem c05_decimal_over_limit_is_an_error : forall U txt ds, Forall2 decd txt ds ->
  0 < u_maxdigits U < Z.of_nat (List.length ds) -> tokenize U txt = Some (Err EBadNumber).
Proof. exact decimal_too_long. Qed.
Print Assumptions c05_decimal_over_limit_is_an_error.
(** Hexadecimal (0x or 0X) and binary (0b or 0B), underscores allowed after the first digit. *)
Theorem c05_hex_literal : forall U x c d ds l, x = 120 \/ x = 88 -> hexd c d -> us_digits hexd ds l ->
  exists t e, tokenize U (48 :: x :: c :: l) = Some (Ok [t; e]) /\ t_type t = INT_LITERAL /\
    t_value t = VInt (horner 16 (d :: ds)) /\ t_lexeme t = 48 :: x :: c :: l /\ t_type e = EOF.
Proof.
  intros U x c d ds l X. apply (based_token U 16 hexd is_hexdigit x EBadHex); auto.
  intros a b H. destruct (hexd_isdig U a b H) as (A & _ & _ & B & _ & C). auto.
Qed.
Print Assumptions c05_hex_literal.
Theorem c05_binary_literal : forall U x c d ds l, x = 98 \/ x = 66 -> bind c d -> us_digits bind ds l ->
  exists t e, tokenize U (48 :: x :: c :: l) = Some (Ok [t; e]) /\ t_type t = INT_LITERAL /\
    t_value t = VInt (horner 2 (d :: ds)) /\ t_lexeme t = 48 :: x :: c :: l /\ t_type e = EOF.
Proof.
  intros U x c d ds l X. apply (based_token U 2 bind is_bindigit x EBadBinary); auto 6.
  intros a b H. destruct (bin_isdig U a b H) as (A & B & C). repeat split; auto; try lia; apply A.
Qed.
Print Assumptions c05_binary_literal.
Theorem c05_every_natural_has_digits : forall base n, 2 <= base -> 0 <= n ->
  exists ds, ds <> [] /\ Forall (fun d => 0 <= d < base) ds /\ horner base ds = n.
Proof. exact digits_exist. Qed.
Print Assumptions c05_every_natural_has_digits.
Example c05_nonvacuous : Forall2 decd (codes "4070") [4; 0; 7; 0] /\ horner 10 [4; 0; 7; 0] = 4070 /\
  us_digits hexd [15] (codes "_f_") /\ horner 16 [10; 15] = 175.
Proof.
  split; [repeat constructor; lia|]. split; [reflexivity|]. split; [|reflexivity].
  apply usd_us. apply (usd_digit hexd 102 15); [apply (hexd_low 15); lia|]. apply usd_us. constructor.
Qed.
(** An underscore in a decimal literal ends it: two tokens, no error. *)
Theorem c05_decimal_underscore_splits : exists U,
  types (tokenize U (codes "1_000")) = [INT_LITERAL; IDENTIFIER; EOF].
Proof. exists ASCII. vm_compute. reflexivity. Qed.
Print Assumptions c05_decimal_underscore_splits.

(** C65: names. *)
Theorem c65_names : forall U c r, name_start c -> Forall name_char r ->
  (forall k ty, In (k, ty) KEYWORDS -> codes k <> c :: r) ->
  exists t e, tokenize U (c :: r) = Some (Ok [t; e]) /\ t_type t = IDENTIFIER /\ t_value t = VStr (c :: r) /\
    t_lexeme t = c :: r /\ t_type e = EOF.
Proof.
  intros U c r A B N. destruct (name_token U c r A B) as (t & e & H & L & E & T & V).
  destruct (keyword (c :: r) KEYWORDS) as [ty|] eqn:K.
  - apply keyword_in in K as (k & K1 & K2). destruct (N k ty K1). auto.
  - exists t, e. auto.
Qed.
Print Assumptions c65_names.
Theorem c65_reserved_words : forall U w ty, In (w, ty) reserved ->
  exists t e, tokenize U w = Some (Ok [t; e]) /\ t_type t = ty /\ t_type e = EOF.
Proof.
  intros U w ty H. simpl in H.
  repeat (destruct H as [H|H]; [injection H as <- <-; do 2 eexists; (split; [vm_compute; reflexivity|split; reflexivity])|]).
  contradiction.
Qed.
Print Assumptions c65_reserved_words.
Theorem c65_operators : forall U w ty, In (w, ty) operators ->
  exists t e, tokenize U w = Some (Ok [t; e]) /\ t_type t = ty /\ t_type e = EOF.
Proof.
  intros U w ty H. simpl in H.
  repeat (destruct H as [H|H]; [injection H as <- <-; do 2 eexists; (split; [vm_compute; reflexivity|split; reflexivity])|]).
  contradiction.
Qed.
Print Assumptions c65_operators.
Example c65_nonvacuous : (forall k ty, In (k, ty) KEYWORDS -> codes k <> codes "whilst") /\ name_start 119.
Proof.
  split; [|unfold name_start; lia]. intros k ty H E.
  assert (X : forallb (fun p => negb (leqb (codes (fst p)) (codes "whilst"))) KEYWORDS = true) by (vm_compute; reflexivity).
  rewrite forallb_forall in X. specialize (X _ H). cbn [fst] in X. rewrite E in X. discriminate X.
Qed.
