(** Property theorems about yapcad.dsl.parser. *)
From Coq Require Import ZArith String List Bool Lia.
From Verif Require Import Lex_Model Ast Parse_Model Parse_Spec Parse_Proofs Parse_Proofs2 Parse_Proofs3 Parse_Proofs4 Parse_Proofs5 Parse_Proofs6 Lex_Props.
Import ListNotations.
Open Scope Z_scope.
Open Scope list_scope.

(** Tokens of a source text (for the examples). *)
Definition lex (s : string) : list token :=
  match tokenize ASCII (codes s) with Some (Ok ts) => ts | _ => [] end.
Definition nl : string := String (Ascii.ascii_of_nat 10) EmptyString.
Infix "+++" := append (right associativity, at level 60).
Definition tok (ty : ttype) (v : value) : token := Token ty v [] (Loc 0 0 0) (Loc 0 0 0).

(** C06: parsing any list of tokens gives a module, having read everything up to the
    end of the input, or a parser error located at one of the tokens; a TypeError can
    escape only if the stream has an '@'; the model's recursion bound is never hit. *)
Theorem c06_parsing_finishes : forall ts,
  (exists m rest, parse ts = POk m rest /\ (rest = [] \/ exists t r, rest = t :: r /\ t_type t = EOF) /\
     exists read, ts = read ++ rest) \/
  (exists e at_, parse ts = PErr e at_ /\ exists read, ts = read ++ at_) \/
  (parse ts = PCrash /\ exists t, In t ts /\ t_type t = AT).
Proof.
  intros ts. pose proof (parse_with_wp _ ts (le_n _)) as W. unfold parse.
  destruct (parse_with (parse_fuel (length ts)) ts) as [m r|e a| |] eqn:E; simpl in W.
  - left. exists m, r. split; [reflexivity|]. split; [|exact (proj1 W)].
    pose proof (parse_module_end _ _ _ _ E) as He. destruct r as [|t r]; [auto|right].
    exists t, r. split; [reflexivity|]. exact (check_eq _ _ He).
  - right; left. exists e, a. split; [reflexivity|exact W].
  - right; right. split; [reflexivity|exact W].
  - destruct W.
Qed.
Print Assumptions c06_parsing_finishes.
(** The bound is immaterial: any larger one gives the same result. *)
Theorem c06_bound_immaterial : forall ts n, (4 * length ts + 4 <= n)%nat -> parse_with n ts = parse ts.
Proof. exact parse_bound. Qed.
Print Assumptions c06_bound_immaterial.
Example c06_nonvacuous :
  (exists m r, parse (lex ("def f(x: int):" +++ nl +++ "  emit [x for x in [1,2] if x > 1]" +++ nl)) = POk m r /\
     length (m_funs m) = 1%nat) /\
  (exists a, parse (lex "def 3") = PErr EUnexpected a /\ length a = 2%nat).
Proof. split; vm_compute; repeat eexists. Qed.

(** C66: not every failure is a parser error: @meta(x=-"s") raises TypeError. *)
Theorem c66_only_parser_errors_refuted :
  ~ (forall ts, (exists m r, parse ts = POk m r) \/ (exists e a, parse ts = PErr e a)).
Proof.
  intros H. destruct (H (lex ("@meta(x=-'s')" +++ nl +++ "def f():" +++ nl +++ "  emit 1" +++ nl)))
    as [(m & r & E)|(e & a & E)]; vm_compute in E; discriminate.
Qed.
Print Assumptions c66_only_parser_errors_refuted.

(** C07: [G 0 e ts] (Parse_Spec): the tokens ts are a way to write e under the
    documented grammar.  In a program, they are read as e. *)
Theorem c07_reads_back : forall f e ts df nm lp rp co nl0 ind em nl1 ded eof,
  G 0 e ts ->
  map t_type [df; nm; lp; rp; co; nl0; ind; em; nl1; ded; eof] =
    [DEF; IDENTIFIER; LPAREN; RPAREN; COLON; NEWLINE; INDENT; EMIT; NEWLINE; DEDENT; EOF] ->
  t_value nm = VStr f ->
  parse ([df; nm; lp; rp; co; nl0; ind; em] ++ ts ++ [nl1; ded; eof]) =
  POk (MkModule None [] [] [] [FunDef f [] None (Block [SEmit e []] None) [] None]) [eof].
Proof.
  intros f e ts df nm lp rp co nl0 ind em nl1 ded eof He H Hv. injection H; intros.
  apply prog_emit; auto. repeat split; auto.
Qed.
Print Assumptions c07_reads_back.
(** Writing an operator tree with only the needed parentheses and parsing gives it
    back (the tree is at the place of the emitted expression). *)
Theorem c07_minimal_parentheses_roundtrip : forall (at_ : ttype -> value -> token) o f,
  (forall ty v, t_type (at_ ty v) = ty) -> (forall ty v, t_value (at_ ty v) = v) -> opwf o ->
  parse ([at_ DEF VNone; at_ IDENTIFIER (VStr f); at_ LPAREN VNone; at_ RPAREN VNone; at_ COLON VNone;
          at_ NEWLINE VNone; at_ INDENT VNone; at_ EMIT VNone]
         ++ write at_ o ++ [at_ NEWLINE VNone; at_ DEDENT VNone; at_ EOF VNone]) =
  POk (MkModule None [] [] [] [FunDef f [] None (Block [SEmit (tree o) []] None) [] None]) [at_ EOF VNone].
Proof.
  intros at_ o f Ht Hv Ho. apply c07_reads_back; [apply write_whole; auto|simpl; rewrite !Ht; reflexivity|apply Hv].
Qed.
Print Assumptions c07_minimal_parentheses_roundtrip.
(** The writer follows the documented grammar. *)
Theorem c07_writer_in_grammar : forall (at_ : ttype -> value -> token) o,
  (forall ty v, t_type (at_ ty v) = ty) -> (forall ty v, t_value (at_ ty v) = v) -> opwf o ->
  G 0 (tree o) (write at_ o).
Proof. intros at_ o Ht Hv Ho. apply write_whole; auto. Qed.
Print Assumptions c07_writer_in_grammar.
(** The grammar is unambiguous. *)
Theorem c07_unambiguous : forall e1 e2 ts, G 0 e1 ts -> G 0 e2 ts -> e1 = e2.
Proof. exact G_unique. Qed.
Print Assumptions c07_unambiguous.
Example c07_nonvacuous :
  let n x := OName (codes x) in
  let o := OUn NOT (OBin (OBin (n "a"%string) MINUS (OBin (n "b"%string) MINUS (n "c"%string))) STAR
             (OBin (OBin (n "d"%string) DOUBLE_STAR (n "e"%string)) DOUBLE_STAR (OUn MINUS (n "f"%string)))) in
  opwf o /\
  map t_type (write tok o) =
    [NOT; LPAREN; LPAREN; IDENTIFIER; MINUS; LPAREN; IDENTIFIER; MINUS; IDENTIFIER; RPAREN; RPAREN; STAR; LPAREN;
     IDENTIFIER; DOUBLE_STAR; IDENTIFIER; RPAREN; DOUBLE_STAR; MINUS; IDENTIFIER; RPAREN] /\
  map t_type (lex "not ((a - (b - c)) * (d ** e) ** -f)") = map t_type (write tok o) ++ [EOF].
Proof. split; [simpl; repeat split; auto; lia|split; vm_compute; reflexivity]. Qed.

(** C08 *)
Theorem c08_no_while : forall ts m rest, parse ts = POk m rest -> while_free m.
Proof.
  intros ts m r E. pose proof (parse_with_wp _ ts (le_n _)) as W. unfold parse in E. rewrite E in W. exact (proj2 W).
Qed.
Print Assumptions c08_no_while.
(** Wherever a statement can start, `while` is an error. *)
Theorem c08_while_rejected : forall n ts, cur (skip_newlines ts) = WHILE ->
  r_stmt (build (S n)) ts = PErr EWhile (skip_newlines ts).
Proof. exact while_stmt. Qed.
Print Assumptions c08_while_rejected.
Example c08_nonvacuous :
  (exists m r, parse (lex ("def f():" +++ nl +++ "  for x in [1,2]:" +++ nl +++ "    y = x" +++ nl +++ "  emit 1" +++ nl)) = POk m r /\ while_free m) /\
  (exists a, parse (lex ("def f():" +++ nl +++ "  while x:" +++ nl +++ "    y = x" +++ nl)) = PErr EWhile a).
Proof.
  split; [|vm_compute; eauto].
  destruct (parse (lex ("def f():" +++ nl +++ "  for x in [1,2]:" +++ nl +++ "    y = x" +++ nl +++ "  emit 1" +++ nl))) eqn:E; try (vm_compute in E; discriminate).
  do 2 eexists. split; [reflexivity|]. eapply c08_no_while. exact E.
Qed.

(** C67: no @native function can be written: `native` lexes as a keyword, which a
    decorator name cannot be, so every program starting with it is refused. *)
Theorem c67_native_decorator_refuted : forall a nt rest,
  t_type a = AT -> t_type nt = NATIVE -> t_value nt = VStr (codes "native") ->
  parse (a :: nt :: rest) = PErr EUnexpected (nt :: rest).
Proof. intros a nt rest Ha Hn Hv. apply native_deco; auto. rewrite Hv. reflexivity. Qed.
Print Assumptions c67_native_decorator_refuted.
Example c67_nonvacuous : let ts := lex ("@native" +++ nl +++ "def f() -> int:" +++ nl +++ "  y" +++ nl) in
  exists a nt rest, ts = a :: nt :: rest /\ t_type a = AT /\ t_type nt = NATIVE /\ t_value nt = VStr (codes "native").
Proof. vm_compute. repeat eexists. Qed.
