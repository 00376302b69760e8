(** Property theorems about yapcad.dsl's static checker (check) and compile_and_run.
    Programs are given as source lines in the examples; [program] is what they parse to. *)
From Coq Require Import ZArith String List Bool Lia.
From Verif Require Import Cycle_Model Cycle_Spec Cycle_Proofs Dict Lex_Model Ast Types_Model Parse_Model Interp_Model Interp_Proofs3 Builtin_Proofs
  Check_Model Check_Spec Check_Proofs Check_Proofs2 Check_Proofs3 Builtin_Model Compile_Model Lex_Props Parse_Props Interp_Props.
Import ListNotations.
Open Scope Z_scope.
Open Scope list_scope.

(** What check() reports for a source text: its error codes. *)
Definition errors (lines : list string) : option (list string) := option_map k_errs (check_module (program lines)).
(** compile_and_run on the sample host. *)
Definition compile_run (lines : list string) (cmd : string) (given : list (name * data Z unit)) : outcome H0 :=
  fst (compile_and_run ASCII H0 100 60 (codes (source lines)) (codes cmd) given s0).
Definition failure (why : string) : outcome H0 := Returned H0 (failed H0 [] why).

(** * C85: names are declared before they are used *)

(** For plain modules (Check_Spec: special names are not used as variables, calls name their
    function and have no keyword arguments). *)
Theorem c85_declared_before_use : forall builtins methods max_errors m k,
  (0 < max_errors)%nat -> check builtins methods max_errors m = Some k -> k_errs k = [] ->
  forallb (plain_command (special_names builtins m)) (m_funs m) = true ->
  Forall (fun f => scoped_command (special_names builtins m) f = true) (m_funs m).
Proof. intros. eapply accepted; eauto. Qed.
Print Assumptions c85_declared_before_use.
Theorem c85_functions_distinct : forall builtins methods max_errors m k,
  (0 < max_errors)%nat -> check builtins methods max_errors m = Some k -> k_errs k = [] ->
  forallb (plain_command (special_names builtins m)) (m_funs m) = true ->
  distinct (declared_functions m) = true.
Proof. intros. eapply accepted; eauto. Qed.
Print Assumptions c85_functions_distinct.
Definition sample : list string :=
  ["def rect(w: float, h: float = 2.0) -> float:"; "  emit w * h";
   "def total(n: int) -> float:"; "  big: bool = n > 10"; "  for i in [0..n]:"; "    a = rect(sqrt(4.0))"; "    if big:"; "      emit a + i"; "    else:"; "      emit 1.5"]%string.
Example c85_nonvacuous :
  errors sample = Some [] /\ forallb (plain_command (special_names checker_builtins (program sample))) (m_funs (program sample)) = true /\
  length (m_funs (program sample)) = 2%nat /\
  errors ["def f():"; "  y = x"; "  x = 1"; "  emit y"]%string = Some ["E240"%string] /\
  errors ["def f(b: bool):"; "  if b:"; "    x = 1"; "  emit x"]%string = Some ["E240"%string] /\
  errors ["def f():"; "  emit 1"; "def f():"; "  emit 2"]%string = Some ["E201"%string].
Proof. repeat split; computed. Qed.

(** * C86: accepted programs do not run into undefined variables *)

Definition tokens_of (U : unicode) (src : list Z) (ts : list token) : Prop := tokenize U src = Some (Lex_Model.Ok ts).
Theorem c86_no_undefined_variables : forall U H limit fuel src ts m rest cmd given s o s', honest H ->
  tokens_of U src ts -> parse ts = POk m rest ->
  forallb (plain_command (special_names checker_builtins m)) (m_funs m) = true ->
  Forall (fun f => required_first (f_params f) = true /\
                   forallb (fun p => opt_true (scoped (special_names checker_builtins m) []) (p_default p)) (f_params f) = true) (m_funs m) ->
  (forall f, find_command (m_funs m) cmd = Some f -> all_given (f_params f) given = true) ->
  compile_and_run U H limit fuel src cmd given s = (o, s') ->
  o <> Escaped H undefined /\ (forall r, o = Returned H r -> r_error H r <> Some "Undefined variable"%string).
Proof.
  intros U H limit fuel src ts m rest cmd given s o s' Hon T P Hp Hd Hg R. unfold compile_and_run in R. unfold tokens_of in T. rewrite T, P in R.
  destruct (check_module m) as [k|] eqn:C; [|inversion R; subst; split; [discriminate|intros r X; discriminate]].
  unfold has_errors in R. destruct (k_errs k) eqn:E.
  - eapply sound; eauto. assert (A := accepted _ _ _ _ _ (Nat.lt_0_succ 19) C E Hp). destruct A as [A _].
    rewrite Forall_forall in *. intros f Hf. destruct (Hd f Hf). repeat split; auto.
  - inversion R; subst. split; [discriminate|]. intros r X. inversion X. cbn. discriminate.
Qed.
Print Assumptions c86_no_undefined_variables.
Lemma H0_honest : honest H0.
Proof.
  split; intros; try (cbn; discriminate). unfold H0. cbn [h_builtin fst]. destruct vs as [|[d t|] [|]]; try discriminate.
  all: destruct d; try discriminate. destruct (name_eqb n (codes "len")); discriminate.
Qed.
Example c86_nonvacuous :
  honest H0 /\ (exists ts m rest, tokens_of ASCII (codes (source sample)) ts /\ parse ts = POk m rest /\ m = program sample /\
  forallb (plain_command (special_names checker_builtins m)) (m_funs m) = true /\
  Forall (fun f => required_first (f_params f) = true /\
                   forallb (fun p => opt_true (scoped (special_names checker_builtins m) []) (p_default p)) (f_params f) = true) (m_funs m) /\
  (forall f, find_command (m_funs m) (codes "total") = Some f -> all_given (f_params f) [(codes "n", @DInt Z unit 3)] = true)) /\
  compile_run ["def f(n: int):"; "  x = n"; "  for i in [0..n]:"; "    x = x * 2"; "    emit x"]%string "f" [(codes "n", DInt 3)]
    = Returned H0 (Result H0 true (Some (iv 24, [])) [] None).
Proof.
  split; [exact H0_honest|]. split; [|computed].
  assert (T : exists ts, tokens_of ASCII (codes (source sample)) ts /\ ts = lex (source sample)).
  { eexists. split; [unfold tokens_of; vm_compute; reflexivity|vm_compute; reflexivity]. }
  destruct T as (ts & T & Ets). exists ts, (program sample).
  assert (X : exists rest, parse ts = POk (program sample) rest).
  { rewrite Ets. assert (Y : match parse (lex (source sample)) with POk _ _ => True | _ => False end) by (vm_compute; exact I).
    unfold program. destruct (parse (lex (source sample))); try tauto. eexists; reflexivity. }
  destruct X as [rest X]. exists rest. split; [exact T|]. split; [exact X|]. split; [reflexivity|]. split; [computed|]. split.
  - assert (E : exists a b, m_funs (program sample) = [a; b]) by (vm_compute; repeat eexists). destruct E as (a & b & E). rewrite E.
    assert (Q : forallb (fun f => required_first (f_params f) && forallb (fun p => opt_true (scoped (special_names checker_builtins (program sample)) []) (p_default p)) (f_params f))
                  (m_funs (program sample)) = true) by computed.
    rewrite E in Q. cbn [forallb] in Q. rewrite !andb_true_iff in Q. destruct Q as (Q1 & Q2 & _). repeat constructor; tauto.
  - intros f F. assert (Q : match find_command (m_funs (program sample)) (codes "total") with
      | Some f => all_given (f_params f) [(codes "n", @DInt Z unit 3)] | None => true end = true) by computed.
    rewrite F in Q. exact Q.
Qed.

(** * C87: rejected programs do not run *)

(** A result that is not a stage error comes from a source that tokenizes, parses and checks
    without errors; a rejected source leaves the world (geometry, files, Python state) as it was. *)
Theorem c87_only_checked_programs_run : forall U H limit fuel src cmd given s o s',
  compile_and_run U H limit fuel src cmd given s = (o, s') ->
  (exists ts m rest k, tokens_of U src ts /\ parse ts = POk m rest /\ check_module m = Some k /\ k_errs k = [] /\
     execute H limit fuel m cmd given s = (o, s')) \/
  (s' = s /\ match o with Returned _ r => r_success H r = false /\ r_emit H r = None | _ => True end).
Proof.
  intros U H limit fuel src cmd given s o s' R. unfold compile_and_run in R.
  destruct (tokenize U src) as [[ts|e]|] eqn:T; try (right; inversion R; subst; cbn; auto; fail).
  destruct (parse ts) as [m rest| | |] eqn:P; try (right; inversion R; subst; cbn; auto; fail).
  destruct (check_module m) as [k|] eqn:C; try (right; inversion R; subst; cbn; auto; fail).
  unfold has_errors in R. destruct (k_errs k) eqn:E; [left|right; inversion R; subst; cbn; auto]. exists ts, m, rest, k. unfold tokens_of. auto.
Qed.
Print Assumptions c87_only_checked_programs_run.
(** The stages, in order. *)
Theorem c87_type_errors_reported : forall U H limit fuel src ts m rest k cmd given s,
  tokens_of U src ts -> parse ts = POk m rest -> check_module m = Some k -> k_errs k <> [] ->
  compile_and_run U H limit fuel src cmd given s = (Returned H (failed H [] "Type errors"), s).
Proof.
  intros U H limit fuel src ts m rest k cmd given s T P C E. unfold compile_and_run. unfold tokens_of in T. rewrite T, P, C. unfold has_errors.
  destruct (k_errs k); [destruct (E eq_refl)|reflexivity].
Qed.
Print Assumptions c87_type_errors_reported.
Theorem c87_syntax_errors_reported : forall U H limit fuel src cmd given s,
  (forall e, tokenize U src = Some (Lex_Model.Err e) ->
     compile_and_run U H limit fuel src cmd given s = (Returned H (failed H [] "Lexer error"), s)) /\
  (forall ts e at_, tokens_of U src ts -> parse ts = PErr e at_ ->
     compile_and_run U H limit fuel src cmd given s = (Returned H (failed H [] "Parser error"), s)).
Proof. intros. split; [intros e T|intros ts e at_ T P]; unfold compile_and_run, tokens_of in *; [rewrite T|rewrite T, P]; reflexivity. Qed.
Print Assumptions c87_syntax_errors_reported.
Example c87_nonvacuous :
  compile_run ["def f():"; "  emit 1 + true"]%string "f" [] = failure "Type errors" /\
  compile_run ["def f("]%string "f" [] = failure "Parser error" /\
  compile_run ["def f(): emit $"]%string "f" [] = failure "Lexer error" /\
  compile_run ["def f():"; "  emit 1 + 1"]%string "f" [] = Returned H0 (Result H0 true (Some (iv 2, [])) [] None).
Proof. repeat split; computed. Qed.

(** * C88: a return statement crashes the checker *)

Theorem c88_return_checks_refuted : forall builtins methods max_errors commands cur v k,
  (length (k_errs k) < max_errors)%nat ->
  check_stmt builtins methods max_errors commands cur (SReturn v) k = None.
Proof.
  intros builtins methods max_errors commands cur v k L. rewrite stmt_step. unfold unless_full.
  destruct (Nat.leb_spec max_errors (length (k_errs k))); [lia|]. cbn [stmt_body]. destruct v; [|reflexivity].
  unfold cbind, crash. destruct (check_expr _ _ _ _ _ _ _) as [[? ?]|]; reflexivity.
Qed.
Print Assumptions c88_return_checks_refuted.
Theorem c88_return_escapes_refuted :
  compile_run ["def f(x: int) -> int:"; "  emit x"; "  return x"]%string "f" [(codes "x", DInt 1)] = Escaped H0 (EOther "AttributeError").
Proof. computed. Qed.
Print Assumptions c88_return_escapes_refuted.

(** * C89: accepted programs that do fail with undefined variables *)

Theorem c89_earlier_parameter_in_default_refuted :
  errors ["def f(x: int, y: int = x):"; "  emit y"]%string = Some [] /\
  compile_run ["def f(x: int, y: int = x):"; "  emit y"]%string "f" [(codes "x", DInt 1)] = Escaped H0 undefined.
Proof. split; computed. Qed.
Print Assumptions c89_earlier_parameter_in_default_refuted.
Theorem c89_type_name_as_value_refuted :
  errors ["def f():"; "  x = point"; "  emit x"]%string = Some [] /\
  compile_run ["def f():"; "  x = point"; "  emit x"]%string "f" [] = failure "Undefined variable".
Proof. split; computed. Qed.
Print Assumptions c89_type_name_as_value_refuted.
Theorem c89_keyword_argument_refuted :
  errors ["def g(a: int):"; "  emit a"; "def f():"; "  emit g(a=z)"]%string = Some [] /\
  compile_run ["def g(a: int):"; "  emit a"; "def f():"; "  emit g(a=z)"]%string "f" [] = failure "Undefined variable".
Proof. split; computed. Qed.
Print Assumptions c89_keyword_argument_refuted.
Theorem c89_default_before_required_refuted :
  errors ["def g(a: int = 1, b: int):"; "  emit b"; "def f():"; "  emit g(5)"]%string = Some [] /\
  compile_run ["def g(a: int = 1, b: int):"; "  emit b"; "def f():"; "  emit g(5)"]%string "f" [] = failure "Undefined variable".
Proof. split; computed. Qed.
Print Assumptions c89_default_before_required_refuted.

(** * C90: the number of arguments of a command is not checked *)

Theorem c90_command_arity_refuted :
  errors ["def g(a: int):"; "  emit a"; "def f():"; "  emit g()"; "def h():"; "  emit g(1, 2)"]%string = Some [] /\
  compile_run ["def g(a: int):"; "  emit a"; "def f():"; "  emit g()"]%string "f" [] = failure "expects arguments" /\
  compile_run ["def g(a: int):"; "  emit a"; "def h():"; "  emit g(1, 2)"]%string "h" [] = failure "expects arguments".
Proof. repeat split; computed. Qed.
Print Assumptions c90_command_arity_refuted.

(** * C91: programs that would run but are rejected *)

Definition runs_unchecked (lines : list string) (cmd : string) (given : list (name * data Z unit)) (v : rval Z unit) : Prop :=
  fst (run_with given lines cmd) = Returned H0 (Result H0 true (Some (v, [])) [] None).
Theorem c91_unannotated_parameter_refuted :
  runs_unchecked ["def f(x):"; "  emit x + 1"]%string "f" [(codes "x", DInt 1)] (iv 2) /\
  errors ["def f(x):"; "  emit x + 1"]%string = Some ["E250"%string].
Proof. unfold runs_unchecked. split; computed. Qed.
Print Assumptions c91_unannotated_parameter_refuted.
Theorem c91_empty_list_refuted :
  runs_unchecked ["def f():"; "  x: list<int> = []"; "  emit len(x)"]%string "f" [] (iv 0) /\
  errors ["def f():"; "  x: list<int> = []"; "  emit len(x)"]%string = Some ["E210"%string].
Proof. unfold runs_unchecked. split; computed. Qed.
Print Assumptions c91_empty_list_refuted.
Theorem c91_string_concatenation_refuted :
  runs_unchecked ["def f():"; "  emit ""a"" + ""b"""]%string "f" [] (Val (DStr (codes "ab")) (Some STRING)) /\
  errors ["def f():"; "  emit ""a"" + ""b"""]%string = Some ["E250"%string].
Proof. unfold runs_unchecked. split; computed. Qed.
Print Assumptions c91_string_concatenation_refuted.

(** * C11: values do not have the types the checker gave them *)

(** A command declared to emit an int emits a string: a variable declared in a loop body is
    still there in the next turn, where the checker takes the name to mean the outer variable. *)
Theorem c11_emitted_type_refuted :
  errors ["def f() -> int:"; "  x = 1"; "  for i in [0..2]:"; "    emit x + 1"; "    x = ""s"""]%string = Some [] /\
  compile_run ["def f() -> int:"; "  x = 1"; "  for i in [0..2]:"; "    emit x + 1"; "    x = ""s"""]%string "f" []
    = Returned H0 (Result H0 true (Some (Val (DStr (codes "s" ++ H0.(h_str) (DInt 1) tt)) (Some STRING), [])) [] None).
Proof. split; computed. Qed.
Print Assumptions c11_emitted_type_refuted.
(** Parameter values are not checked against the declared types. *)
Theorem c11_parameter_type_refuted :
  errors ["def f(x: int) -> int:"; "  emit x"]%string = Some [] /\
  compile_run ["def f(x: int) -> int:"; "  emit x"]%string "f" [(codes "x", DStr (codes "s"))]
    = Returned H0 (Result H0 true (Some (Val (DStr (codes "s")) (Some INT), [])) [] None).
Proof. split; computed. Qed.
Print Assumptions c11_parameter_type_refuted.
(** An element of a list of numbers is tagged with the type of the first one. *)
Theorem c11_list_element_type_refuted :
  errors ["def f() -> float:"; "  emit [1, 2.5][1]"]%string = Some [] /\
  compile_run ["def f() -> float:"; "  emit [1, 2.5][1]"]%string "f" []
    = Returned H0 (Result H0 true (Some (Val (DFloat 0) (Some INT), [])) [] None).
Proof. split; computed. Qed.
Print Assumptions c11_list_element_type_refuted.

(** * C92: recursion warnings *)

Lemma nth_In {A} (l : list A) a x : nth_error l a = Some x -> In x l. Proof. apply nth_error_In. Qed.
Lemma distinct_NoDup l : distinct l = true -> NoDup l.
Proof.
  induction l as [|n l IH]; cbn; intros X; [constructor|]. apply andb_prop in X as [A B]. constructor; auto.
  intros In_. apply mem_in in In_. rewrite In_ in A. discriminate.
Qed.
Lemma graph_calls m k : check_module m = Some k -> k_errs k = [] ->
  forallb (plain_command (special_names checker_builtins m)) (m_funs m) = true ->
  Forall (fun f => checker_builtins (f_name f) = None /\ type_named (f_name f) = None) (m_funs m) ->
  forall a b, In b (call_graph m k a) <-> command_calls m a b.
Proof.
  intros C E P N a b. assert (G := module_edges _ _ _ _ _ _ (Nat.lt_0_succ 19) C E P).
  destruct (accepted _ _ _ _ _ (Nat.lt_0_succ 19) C E P) as [_ D]. apply distinct_NoDup in D.
  unfold declared_functions in D. assert (D' : NoDup (map f_name (m_funs m))).
  { clear -D. induction (native_names m); cbn in D; auto. inversion D; auto. }
  unfold call_graph, command_calls. split.
  - destruct (nth_error (m_funs m) a) as [f|] eqn:Fa; [|intros []]. intros In_. apply filter_In in In_ as [_ X].
    destruct (nth_error (m_funs m) b) as [g|] eqn:Gb; [|discriminate]. apply existsb_exists in X as ([p q] & Ip & X). apply andb_prop in X as [X1 X2].
    cbn in X1, X2. apply name_eqb_spec in X1, X2. subst. apply G in Ip as (f' & If & Ef & Ib & _). exists f, g. repeat split; auto.
    assert (f' = f); [|subst; auto]. apply In_nth_error in If as [a' Fa']. assert (a' = a); [|subst; congruence].
    eapply NoDup_nth_error; [exact D'| |].
    + rewrite map_length. apply nth_error_Some. congruence.
    + rewrite !nth_error_map, Fa, Fa'. cbn. congruence.
  - intros (f & g & Fa & Gb & Ib). rewrite Fa. apply filter_In. split.
    + apply in_seq. split; [lia|]. cbn. apply nth_error_Some. congruence.
    + rewrite Gb. apply existsb_exists. exists (f_name f, f_name g). split; [|cbn; rewrite !(proj2 (name_eqb_spec _ _) eq_refl); reflexivity].
      apply G. exists f. rewrite Forall_forall in N. destruct (N g (nth_error_In _ _ Gb)). repeat split; auto.
      * eapply nth_error_In; eauto.
      * apply in_map. eapply nth_error_In; eauto.
Qed.
(** Accepted plain modules, no command of which is named like a built-in or a type: there is
    a recursion warning iff some command can reach itself by calls written in the source. *)
Theorem c92_recursion_warned : forall m k, check_module m = Some k -> k_errs k = [] ->
  forallb (plain_command (special_names checker_builtins m)) (m_funs m) = true ->
  Forall (fun f => checker_builtins (f_name f) = None /\ type_named (f_name f) = None) (m_funs m) ->
  exists ws, recursion_warnings m k = Some ws /\ (ws <> [] <-> recursive (command_calls m)).
Proof.
  intros m k C E P N. assert (G := graph_calls m k C E P N). unfold recursion_warnings.
  destruct (check_ok (call_graph m k) (seq 0 (length (m_funs m)))) as (cyc & Ec & F & I).
  { intros a b X. apply G in X as (f & g & _ & Gb & _). apply in_seq. split; [lia|]. cbn. apply nth_error_Some. congruence. }
  unfold warnings. rewrite Ec. cbn. eexists. split; [reflexivity|].
  assert (W : forall l, walk (fun a b => In b (call_graph m k a)) l <-> walk (command_calls m) l).
  { induction l as [|a [|b l] IH]; cbn; try tauto. cbn in IH. rewrite IH, G. tauto. }
  assert (Cy : forall l, is_cycle (fun a b => In b (call_graph m k a)) l <-> is_cycle (command_calls m) l).
  { intros l. unfold is_cycle. rewrite W. tauto. }
  unfold recursive. split.
  - intros Hn. destruct cyc as [|c cyc]; [destruct (Hn eq_refl)|]. inversion F; subst. exists c. apply Cy. assumption.
  - intros [l Hl] Hm. apply map_eq_nil in Hm. apply I in Hm. apply Hm. exists l. apply Cy. exact Hl.
Qed.
Print Assumptions c92_recursion_warned.
Definition evens : list string :=
  ["def even(n: int) -> bool:"; "  emit true if n == 0 else odd(n - 1)"; "def odd(n: int) -> bool:"; "  emit false if n == 0 else even(n - 1)"]%string.
Example c92_nonvacuous :
  (let m := program evens in errors evens = Some [] /\
  forallb (plain_command (special_names checker_builtins m)) (m_funs m) = true /\
  forallb (fun f => match checker_builtins (f_name f), type_named (f_name f) with None, None => true | _, _ => false end) (m_funs m) = true /\
  match check_module m with Some k => recursion_warnings m k | None => None end = Some [W302 [0; 1; 0]%nat] /\
  command_calls m 0 1 /\ command_calls m 1 0) /\
  match check_module (program sample) with Some k => recursion_warnings (program sample) k | None => None end = Some [].
Proof.
  repeat split; try computed.
  - vm_compute. repeat eexists. auto.
  - vm_compute. repeat eexists. auto.
Qed.
(** C93: a recursive command named like a built-in gets no warning (the checker takes the
    call to mean the built-in, the interpreter calls the command). *)
Theorem c93_builtin_name_hides_recursion_refuted :
  let lines := ["def sin(x: float) -> float:"; "  emit sin(x)"]%string in
  errors lines = Some [] /\ command_calls (program lines) 0 0 /\
  match check_module (program lines) with Some k => recursion_warnings (program lines) k | None => None end = Some [] /\
  fst (execute H0 20 60 (program lines) (codes "sin") [(codes "x", DFloat 1)] s0) = failure "Maximum recursion depth".
Proof. cbv zeta. split; [computed|]. split; [vm_compute; repeat eexists; auto|]. split; computed. Qed.
Print Assumptions c93_builtin_name_hides_recursion_refuted.

(** * C94: the checker's built-ins and the interpreter's *)

(** Every built-in both know, except text_solid, can be called with every number of
    arguments from the required to the declared ones. *)
Theorem c94_shared_builtins_agree : forall n g ar, checker_builtins n = Some g -> runtime_arity n = Some ar ->
  n <> codes "text_solid" ->
  forall k, (length (filter (fun p => negb (snd p)) (g_params g)) <= k <= length (g_params g))%nat -> takes ar k = true.
Proof.
  assert (A : forallb (fun kv => match runtime_arity (codes (fst kv)) with
     | Some ar => name_eqb (codes (fst kv)) (codes "text_solid") ||
         (Nat.leb (fst ar) (length (filter (fun p => negb (snd p)) (g_params (snd kv)))) &&
          match snd ar with Some hi => Nat.leb (length (g_params (snd kv))) hi | None => true end)
     | None => true end) builtin_table = true) by (vm_compute; reflexivity).
  intros n g ar C R Nt k Hk. unfold checker_builtins, in_table in C.
  destruct (find (fun kv => name_eqb n (codes (fst kv))) builtin_table) as [[s g']|] eqn:F; [|discriminate]. cbn in C. inversion C; subst g'.
  apply find_some in F as [F1 F2]. apply name_eqb_spec in F2. cbn in F2. subst n. rewrite forallb_forall in A. specialize (A _ F1). cbn [fst snd] in A. rewrite R in A.
  apply orb_true_iff in A as [A|A]; [apply name_eqb_spec in A; contradiction|]. apply andb_true_iff in A as [A1 A2]. apply Nat.leb_le in A1.
  unfold takes. apply andb_true_iff. split; [apply Nat.leb_le; lia|]. destruct (snd ar); auto. apply Nat.leb_le in A2. apply Nat.leb_le. lia.
Qed.
Print Assumptions c94_shared_builtins_agree.
Example c94_nonvacuous : exists g, checker_builtins (codes "cone") = Some g /\ runtime_arity (codes "cone") = Some (3, Some 3)%nat /\
  length (g_params g) = 3%nat /\ length (filter (fun kv => match runtime_arity (codes (fst kv)) with Some _ => true | None => false end) builtin_table) = 138%nat.
Proof. eexists. split; [vm_compute; reflexivity|]. repeat split; vm_compute; reflexivity. Qed.

(** C95: built-ins the checker accepts and the interpreter does not have: a call always
    fails, whatever the arguments, on every host with the real registry. *)
Definition checker_only : list string :=
  ["close"; "closeC0"; "closeC1"; "cylindrical_surface"; "empty_region"; "empty_solid"; "is_empty"; "join"; "loft_surface";
   "path"; "planar_surface"; "planet_gear_with_hub"; "shell"]%string.
Theorem c95_checker_only_builtins_refuted : forall n, In n checker_only ->
  (exists g, checker_builtins (codes n) = Some g) /\
  (forall H cmds limit fuel args named c s r c' s', real_host H ->
     existsb (name_eqb (codes n)) (s_natives H s) = false -> find_command cmds (codes n) = None ->
     eval H cmds limit fuel (ECall (EId (codes n)) args named) c s = (r, c', s') -> forall v, r <> Ok v).
Proof.
  intros n In_. assert (A : forallb (fun n => match checker_builtins (codes n), runtime_arity (codes n) with Some _, None => true | _, _ => false end) checker_only = true)
    by (vm_compute; reflexivity).
  rewrite forallb_forall in A. specialize (A n In_). destruct (checker_builtins (codes n)) as [g|]; [|discriminate].
  destruct (runtime_arity (codes n)) eqn:R; [discriminate|]. split; [eauto|].
  intros H cmds limit [|fuel] args named c s r c' s' RH N F E v; [inversion E; discriminate|].
  destruct (builtin_call _ _ _ _ _ _ _ _ _ _ _ _ N F E) as [(e & ->)|[-> |(vs & s1 & w & _ & B & ->)]]; try discriminate.
  rewrite (rh_unknown _ RH _ _ _ R) in B. discriminate.
Qed.
Print Assumptions c95_checker_only_builtins_refuted.
(** The sample host with the real registry; every registered built-in gives 0. *)
Definition H1 : host := {|
  hF := Z; hO := unit; hW := unit;
  h_float_lit := h_float_lit H0; h_of_int := h_of_int H0; h_binop := h_binop H0; h_neg := h_neg H0; h_eq := h_eq H0; h_cmp := h_cmp H0;
  h_int := h_int H0; h_float := h_float H0; h_bool := h_bool H0; h_str := h_str H0; h_len := h_len H0; h_iter := h_iter H0;
  h_index := h_index H0; h_get := h_get H0; h_member := h_member H0;
  h_builtin := fun n vs w => match runtime_arity n with
    | None => (inr (ERuntime "Unknown built-in function"), w)
    | Some ar => if takes ar (length vs) then (inl (Val (DFloat 0) (Some FLOAT)), w) else (inr (EOther "TypeError"), w) end;
  h_native_block := h_native_block H0; h_native := h_native H0; h_python := h_python H0; h_meta := h_meta H0 |}.
Lemma H1_real : real_host H1.
Proof. split; [intros n vs w R|intros n ar vs w R T]; unfold H1; cbn [h_builtin]; rewrite R; [reflexivity|].
  match goal with |- context [takes ar ?x] => replace (takes ar x) with false by (symmetry; exact T) end. reflexivity.
Qed.
Definition compile_run1 (lines : list string) (cmd : string) : outcome H1 :=
  fst (compile_and_run ASCII H1 100 60 (codes (source lines)) (codes cmd) [] (State H1 tt 0 [] [])).
Theorem c95_accepted_and_fails_refuted :
  compile_run1 ["def f() -> solid:"; "  emit empty_solid()"]%string "f" = Returned H1 (failed H1 [] "Unknown built-in function") /\
  compile_run1 ["def f() -> float:"; "  emit sin(1.0)"]%string "f" = Returned H1 (Result H1 true (Some (Val (DFloat 0) (Some FLOAT), [])) [] None).
Proof. split; computed. Qed.
Print Assumptions c95_accepted_and_fails_refuted.

(** C96: built-ins the interpreter has and the checker rejects. *)
Definition runtime_only : list string :=
  ["chamfer_edges"; "fillet_edges"; "intersect_edges"; "select_bottom_edges"; "select_edges_at_z"; "select_edges_by_direction";
   "select_edges_by_length"; "select_edges_in_z_range"; "select_horizontal_edges"; "select_top_edges"; "select_vertical_edges";
   "subtract_edges"; "union_edges"]%string.
Theorem c96_runtime_only_builtins_refuted : forall n, In n runtime_only ->
  (exists ar, runtime_arity (codes n) = Some ar) /\
  (forall commands cur args named k t k', find_symbol (codes n) (k_scopes k) = None ->
     check_expr checker_builtins checker_methods 20 commands cur (ECall (EId (codes n)) args named) k = Some (t, k') -> k_errs k' <> []).
Proof.
  intros n In_. assert (A : forallb (fun n => match checker_builtins (codes n), runtime_arity (codes n), type_named (codes n) with None, Some _, None => true | _, _, _ => false end) runtime_only = true)
    by (vm_compute; reflexivity).
  rewrite forallb_forall in A. specialize (A n In_). destruct (checker_builtins (codes n)) as [g|] eqn:C; [discriminate|].
  destruct (runtime_arity (codes n)) as [ar|]; [|discriminate]. destruct (type_named (codes n)) eqn:T; [discriminate|]. split; [eauto|].
  intros commands cur args named k t k' F E. rewrite expr_step in E. unfold unless_full in E. cbn [expr_body] in E. rewrite C, T in E.
  destruct (Nat.leb 20 (length (k_errs k))) eqn:L.
  - inversion E; subst. intros X. rewrite X in L. discriminate.
  - unfold cbind, lookup_symbol in E. rewrite F in E. cbn in E. inversion E; subst. cbn. intros X. destruct (app_cons_not_nil _ _ _ (eq_sym X)).
Qed.
Print Assumptions c96_runtime_only_builtins_refuted.

(** C97: too many arguments, and text_solid with the three it requires, are accepted and
    make a TypeError escape. *)
Theorem c97_extra_arguments_refuted : forall builtins methods max_errors commands cur n g args extra k ts k1 u k2,
  builtins n = Some g -> (length (g_params g) <= length args)%nat -> (length (k_errs k) < max_errors)%nat ->
  check_expr builtins methods max_errors commands cur (ECall (EId n) args []) k = Some (ts, k1) ->
  check_expr builtins methods max_errors commands cur extra k1 = Some (u, k2) ->
  exists t, check_expr builtins methods max_errors commands cur (ECall (EId n) (args ++ [extra]) []) k = Some (t, k2).
Proof.
  intros builtins methods max_errors commands cur n g args extra k ts k1 u k2 B L Lk E1 E2. rewrite expr_step in E1. rewrite expr_step. unfold unless_full in E1 |- *. cbn [expr_body] in E1 |- *. rewrite B in E1. rewrite B.
  destruct (Nat.leb_spec max_errors (length (k_errs k))) as [X|_]; [lia|]. clear Lk.
  set (r := length (filter (fun p => negb (snd p)) (g_params g))) in *.
  assert (Rl : (r <= length (g_params g))%nat) by (unfold r; clear; induction (g_params g) as [|p l IH]; cbn; [lia|]; destruct (negb (snd p)); cbn; lia).
  rewrite (proj2 (Nat.ltb_ge (length (args ++ [extra])) r)) by (rewrite app_length; lia). rewrite (proj2 (Nat.ltb_ge (length args) r)) in E1 by lia.
  unfold error_if at 1 in E1. unfold error_if at 1. unfold cbind at 1 in E1. unfold cbind at 1. cbn [cret] in *. unfold cret at 1 in E1. unfold cret at 1.
  apply cbind_some in E1 as (ts1 & k3 & A & E1). cbn in E1. inversion E1; subst k3 ts. clear E1.
  assert (G : exists ts2, arguments (check_expr builtins methods max_errors commands cur) "E272" (map (fun p => snd (fst p)) (g_params g)) (args ++ [extra]) k = Some (ts2, k2)).
  { assert (Lm : (length (map (fun p : name * typ * bool => snd (fst p)) (g_params g)) <= length args)%nat) by (rewrite map_length; exact L).
    revert Lm A. generalize (map (fun p : name * typ * bool => snd (fst p)) (g_params g)). clear -E2. revert ts1 k.
    induction args as [|a args IH]; intros ts1 k ps Lp A.
    - destruct ps; [|cbn in Lp; lia]. cbn in A. inversion A; subst. cbn. unfold cbind. rewrite E2. eexists; reflexivity.
    - cbn in A. apply cbind_some in A as (t & k4 & A1 & A). apply cbind_some in A as (w & k5 & A2 & A). apply cbind_some in A as (ts & k6 & A3 & A).
      inversion A; subst. destruct (IH ts k5 (tl ps)) as [ts2 IH']; [destruct ps; cbn in *; lia|exact A3|].
      cbn. unfold cbind. rewrite A1. rewrite A2. rewrite IH'. eexists; reflexivity. }
  destruct G as [ts2 G]. exists (builtin_type g ts2). unfold cbind. rewrite G. reflexivity.
Qed.
Print Assumptions c97_extra_arguments_refuted.
Theorem c97_type_error_escapes_refuted :
  compile_run1 ["def f() -> float:"; "  emit sin(1.0, 2.0)"]%string "f" = Escaped H1 (EOther "TypeError") /\
  compile_run1 ["def f() -> solid:"; "  emit text_solid(""a"", 1.0, 2.0)"]%string "f" = Escaped H1 (EOther "TypeError").
Proof. split; computed. Qed.
Print Assumptions c97_type_error_escapes_refuted.
