(** Property theorems about yapcad.dsl.runtime (Interpreter.execute).
    [H] is the host Python (floats, geometry, built-ins, inline Python); [limit] is
    recursion_limit; a run that gives [OutOfFuel] is one the model cut short.  The log
    (s_log) records what happened, tagged with the call depth. *)
From Coq Require Import ZArith String List Bool Lia.
From Verif Require Import Dict Lex_Model Ast Types_Model Parse_Model Interp_Model Interp_Spec Interp_Proofs Interp_Proofs2
  Interp_Proofs3 Interp_Proofs4 Interp_Proofs5 Interp_Proofs6 Interp_Proofs7 Lex_Props Parse_Props.
Import ListNotations.
Open Scope Z_scope.
Open Scope list_scope.

(** A small host for the examples: floats are integers, built-in `len` only. *)
Definition H0 : host := {|
  hF := Z; hO := unit; hW := unit;
  h_float_lit := fun _ => 0; h_of_int := fun z => inl z;
  h_binop := fun _ _ _ _ => inr (EOther "TypeError"); h_neg := fun _ _ => inr (EOther "TypeError");
  h_eq := fun _ _ _ => false; h_cmp := fun _ _ _ _ => inr (EOther "TypeError");
  h_int := fun _ _ => inr (EOther "TypeError"); h_float := fun _ _ => inr (EOther "TypeError");
  h_bool := fun _ _ => true; h_str := fun _ _ => []; h_len := fun _ _ => inr (EOther "TypeError");
  h_iter := fun _ _ => None; h_index := fun _ _ _ => inr (EOther "TypeError");
  h_get := fun _ _ _ => inr (EOther "AttributeError"); h_member := fun _ _ _ => inr (ERuntime "no member");
  h_builtin := fun n vs w =>
    (match vs with
     | [Val (DList l) _] => if name_eqb n (codes "len") then inl (Val (DInt (Z.of_nat (length l))) (Some INT)) else inr (ERuntime "Unknown function")
     | _ => inr (ERuntime "Unknown function") end, w);
  h_native_block := fun _ w => (true, w); h_native := fun _ _ w => (inr (ERuntime "native"), w);
  h_python := fun _ _ w => (Some false, w); h_meta := fun _ _ w => (inl tt, w) |}.
Definition s0 : state H0 := State H0 tt 0 [] [].
Fixpoint source (lines : list string) : string :=
  match lines with [] => EmptyString | l :: r => (l +++ nl) +++ source r end.
(** The module a source text is parsed to. *)
Definition program (lines : list string) : modul :=
  match parse (lex (source lines)) with POk m _ => m | _ => MkModule None [] [] [] [] end.
Definition run_with (given : list (name * data Z unit)) (lines : list string) (cmd : string) :=
  execute H0 100 60 (program lines) (codes cmd) given s0.
Definition run (lines : list string) (cmd : string) := run_with [] lines cmd.
Definition iv (z : Z) : rval Z unit := Val (DInt z) (Some INT).
Ltac computed := match goal with |- _ = ?b => vm_cast_no_check (eq_refl b) end.

(** * C12: scoping *)

(** A for or if statement leaves the variables of the scope it stands in alone: afterwards
    a name has a value iff it had one before, and the same value unless the body assigns to
    it (with an assignment statement, not a declaration), a match pattern in the header or
    in the default of some parameter binds it. *)
Theorem c12_block_scope : forall H cmds limit fuel st c s r c' s' n,
  exec H cmds limit fuel st c s = (r, c', s') ->
  (exists x it b, st = SFor x it b) \/ (exists cd t ei e, st = SIf cd t ei e) ->
  c_scopes H c <> [] -> ~ In n (declares st) -> ~ In n (default_binds cmds) ->
  (lookup H n (c_scopes H c') = None <-> lookup H n (c_scopes H c) = None) /\
  (~ In n (assigned st) -> lookup H n (c_scopes H c') = lookup H n (c_scopes H c)).
Proof.
  intros H cmds limit fuel st c s r c' s' n E _ Hne Hd Hb.
  destruct (SS_lookup H cmds _ _ _ _ (proj2 (scope_run H cmds limit fuel) st _ _ _ _ _ E) Hne n Hd Hb) as [A B]. auto.
Qed.
Print Assumptions c12_block_scope.
(** No expression changes a variable (a call gets its own variables), except that match
    patterns bind names. *)
Theorem c12_expressions_change_nothing : forall H cmds limit fuel e c s r c' s' n,
  eval H cmds limit fuel e c s = (r, c', s') -> c_scopes H c <> [] ->
  ~ In n (binds e) -> ~ In n (default_binds cmds) ->
  lookup H n (c_scopes H c') = lookup H n (c_scopes H c).
Proof.
  intros H cmds limit fuel e c s r c' s' n E Hne Hd Hb.
  exact (SE_lookup H cmds _ _ _ (proj1 (scope_run H cmds limit fuel) e _ _ _ _ _ E) Hne n Hd Hb).
Qed.
Print Assumptions c12_expressions_change_nothing.
Example c12_nonvacuous :
  let m := program ["def f():"; "  x = 1"; "  if x > 0:"; "    x = 2"; "    y = 3"; "  emit x"]%string in
  (exists cd t, nth_error (b_stmts (f_body (hd (FunDef [] [] None (Block [] None) [] None) (m_funs m)))) 1 = Some (SIf cd t [] None) /\
     assigned (SIf cd t [] None) = [] /\ declares (SIf cd t [] None) = []) /\
  fst (execute H0 100 60 m (codes "f") [] s0) = Returned H0 (Result H0 true (Some (iv 1, [])) [] None).
Proof. split; [|computed]. vm_compute. repeat eexists. Qed.

(** * C13: termination *)

(** With [enough] fuel (twice the nesting depth of the program per call level) no run is cut
    short, and what execute gives no longer depends on the fuel, provided no parameter
    default contains a call with keyword arguments only. *)
Theorem c13_execution_ends : forall H limit m cmd given s,
  plain_defaults (m_funs m) ->
  fst (execute H limit (enough (m_funs m) limit (s_depth H s)) m cmd given s) <> OutOfFuel H /\
  forall fuel, (enough (m_funs m) limit (s_depth H s) <= fuel)%nat ->
    execute H limit fuel m cmd given s = execute H limit (enough (m_funs m) limit (s_depth H s)) m cmd given s.
Proof.
  intros H limit m cmd given s Hp.
  assert (X : fst (execute H limit (enough (m_funs m) limit (s_depth H s)) m cmd given s) <> OutOfFuel H).
  { destruct (execute H limit (enough (m_funs m) limit (s_depth H s)) m cmd given s) as [o s'] eqn:E. cbn.
    eapply execute_no_fuel; eauto. }
  split; auto. intros fuel Hf. apply execute_mono; auto.
Qed.
Print Assumptions c13_execution_ends.
(** Any two runs that are not cut short agree, whatever the program. *)
Theorem c13_fuel_immaterial : forall H limit n k m cmd given s,
  fst (execute H limit n m cmd given s) <> OutOfFuel H -> fst (execute H limit k m cmd given s) <> OutOfFuel H ->
  execute H limit n m cmd given s = execute H limit k m cmd given s.
Proof.
  intros H limit n k m cmd given s Hn Hk. destruct (Nat.le_ge_cases n k) as [L|L].
  - symmetry. apply execute_mono; auto.
  - apply execute_mono; auto.
Qed.
Print Assumptions c13_fuel_immaterial.
Definition c13_src : list string := ["def f(n: int, k: int = 2 + 3):"; "  emit f(n - 1) if n > 0 else k"]%string.
Definition c13_mod : modul := Eval vm_compute in program c13_src.
Example c13_nonvacuous :
  program c13_src = c13_mod /\ plain_defaults (m_funs c13_mod) /\ enough (m_funs c13_mod) 100 0 = 1313%nat /\
  fst (run_with [(codes "n", DInt 7)] c13_src "f") = Returned H0 (Result H0 true (Some (Nat.iter 7 (fun v => Emitted v []) (iv 5), [])) [] None).
Proof.
  split; [vm_compute; reflexivity|]. split; [|split; [vm_compute; reflexivity|computed]].
  intros f p e Hf Hp He. destruct Hf as [<- | []]. destruct Hp as [<- | [<- | []]]; inversion He. reflexivity.
Qed.
(** C72: without the proviso: def f(x: int = f(y=1), y: int = 0) never finishes, whatever the limit. *)
Theorem c72_every_program_terminates_refuted :
  let m := program ["def f(x: int = f(y=1), y: int = 0):"; "  emit x"]%string in
  (forall limit fuel, execute H0 limit fuel m (codes "f") [] s0 = (OutOfFuel H0, s0)) /\
  ~ (forall H limit m cmd given s, exists fuel, fst (execute H limit fuel m cmd given s) <> OutOfFuel H).
Proof.
  cbv zeta.
  assert (E : program ["def f(x: int = f(y=1), y: int = 0):"; "  emit x"]%string =
    MkModule None [] [] [] [loop_def (codes "f") (codes "x") (codes "y") (Some (TSimple (codes "int"))) 1 0]).
  { vm_compute. reflexivity. }
  rewrite E. clear E.
  pose proof (fun limit fuel => loop_execute H0 (codes "f") (codes "x") (codes "y") limit (Some (TSimple (codes "int"))) 1 0 fuel s0 None []
    ltac:(vm_compute; discriminate) eq_refl) as X.
  split; [exact X|]. intros Hall.
  destruct (Hall H0 100 (MkModule None [] [] [] [loop_def (codes "f") (codes "x") (codes "y") (Some (TSimple (codes "int"))) 1 0])
    (codes "f") [] s0) as [fuel Hf].
  rewrite X in Hf. apply Hf. reflexivity.
Qed.
Print Assumptions c72_every_program_terminates_refuted.

(** * C14: call depth *)

(** Whatever happens (result, failure, escaping exception), the depth counter is what it
    was before, and no command was entered beyond the limit. *)
Theorem c14_depth_bounded_and_restored : forall H limit fuel m cmd given s o s',
  execute H limit fuel m cmd given s = (o, s') ->
  s_depth H s' = s_depth H s /\
  exists l, s_log H s' = s_log H s ++ l /\
    (s_depth H s <= limit -> forall d n, In (EvEnter H d n) l -> s_depth H s <= d <= limit).
Proof.
  intros H limit fuel m cmd given s o s' E. destruct (execute_inv H _ _ _ _ _ _ _ _ E) as (D & l & L & A & K & _).
  split; auto. exists l. split; auto. intros Hs d n Hin. rewrite Forall_forall in A. specialize (A _ Hin).
  specialize (K Hs). rewrite Forall_forall in K. specialize (K _ Hin). cbn in *. lia.
Qed.
Print Assumptions c14_depth_bounded_and_restored.
(** The limit is exact: `def f(): emit f()` enters the body at every depth up to the limit
    and is then reported as a failure. *)
Theorem c14_runaway_recursion_reported : forall H limit fuel s f,
  (2 * Z.to_nat (limit - s_depth H s) + 2 <= fuel)%nat -> s_depth H s <= limit ->
  existsb (name_eqb f) (s_natives H s) = false ->
  exists s' l,
    execute H limit fuel (MkModule None [] [] []
      [FunDef f [] None (Block [SEmit (ECall (EId f) [] []) []] None) [] None]) f [] s =
      (Returned H (Result H false None [] (Some "Maximum recursion depth"%string)), s') /\
    s_depth H s' = s_depth H s /\ s_log H s' = s_log H s ++ l /\
    flat_map (fun e => match e with EvEnter _ d _ => [d] | _ => [] end) l =
      map (fun k => s_depth H s + Z.of_nat k) (seq 0 (S (Z.to_nat (limit - s_depth H s)))).
Proof.
  intros H limit fuel s f Hf Hd Hn. destruct (runaway_execute H f limit fuel s None [] Hf Hd Hn) as (s' & l & E & D & L & N).
  exists s', l. split; [exact E|]. split; auto. split; auto. unfold entered in N. rewrite N. cbn [seq map].
  change (Z.of_nat 0) with 0. rewrite Z.add_0_r. f_equal. clear. generalize (Z.to_nat (limit - s_depth H s)) as k. generalize (s_depth H s) as d.
  intros d k. revert d. induction k as [|k IH]; intros d; auto. cbn. f_equal. rewrite IH, <- (seq_shift k 1), map_map. apply map_ext. intros. lia.
Qed.
Print Assumptions c14_runaway_recursion_reported.
Example c14_nonvacuous :
  existsb (name_eqb (codes "f")) (s_natives H0 s0) = false /\
  fst (execute H0 3 20 (program ["def f():"; "  emit f()"]%string) (codes "f") [] s0) = Returned H0 (Result H0 false None [] (Some "Maximum recursion depth"%string)).
Proof. split; [reflexivity|computed]. Qed.

(** * C15, C16: success *)

(** An assert/require statement records the truth value of its condition. *)
Theorem c15_requirement_recorded : forall H cmds limit n cd msg c s v c1 s1 b,
  eval H cmds limit n cd c s = (Ok v, c1, s1) -> truthy H v c1 s1 = (Ok b, c1, s1) ->
  exists c', exec H cmds limit (S n) (SAssert cd msg) c s =
    (Ok tt, c', State H (s_world H s1) (s_depth H s1) (s_natives H s1) (s_log H s1 ++ [EvAssert H (s_depth H s1) b])).
Proof.
  intros H cmds limit n cd msg c s v c1 s1 b E T.
  change (exec H cmds limit (S n) (SAssert cd msg)) with (exec_body H (eval H cmds limit n) (exec H cmds limit n) (SAssert cd msg)).
  cbn [exec_body]. unfold bind at 1. rewrite E. unfold bind at 1. rewrite T. unfold bind, emit_event. destruct b; eexists; reflexivity.
Qed.
Print Assumptions c15_requirement_recorded.
(** If a requirement evaluated by the executed command itself was false, the execution is
    not a success. *)
Theorem c15_failed_requirement_fails : forall H limit fuel m cmd given s r s' l,
  execute H limit fuel m cmd given s = (Returned H r, s') -> s_log H s' = s_log H s ++ l ->
  In (EvAssert H (s_depth H s) false) l -> r_success H r = false /\ r_fails H r <> [].
Proof.
  intros H limit fuel m cmd given s r s' l E L Hin. destruct (execute_inv H _ _ _ _ _ _ _ _ E) as (_ & l' & L' & _ & _ & X).
  rewrite L in L'. apply app_inv_head in L'. subst l'. destruct (X r eq_refl) as (S1 & _ & F1).
  assert (falses (asserts (s_depth H s) l) <> 0%nat).
  { apply in_split in Hin as (a & b & ->). rewrite asserts_app, falses_app. unfold asserts at 2. cbn. rewrite Z.eqb_refl. cbn. lia. }
  split; [|intros Hn; rewrite Hn in F1; cbn in F1; lia].
  destruct (r_success H r); auto. destruct (proj1 S1 eq_refl) as (_ & _ & ?). contradiction.
Qed.
Print Assumptions c15_failed_requirement_fails.
Example c15_nonvacuous :
  let o := run ["def f():"; "  assert 1 > 2"; "  emit 7"]%string "f" in
  existsb (fun e => match e with EvAssert _ 0 false => true | _ => false end) (s_log H0 (snd o)) = true /\
  fst o = Returned H0 (Result H0 false (Some (iv 7, [])) [None] None).
Proof. split; computed. Qed.
(** C73: but a requirement that fails in a called command is dropped. *)
Theorem c73_called_requirement_fails_refuted :
  ~ (forall H limit fuel m cmd given s r s' l,
       execute H limit fuel m cmd given s = (Returned H r, s') -> s_log H s' = s_log H s ++ l ->
       In false (all_asserts l) -> r_success H r = false).
Proof.
  intros Hall.
  specialize (Hall H0 100 60%nat (program ["def g():"; "  assert 1 > 2"; "  emit 7"; "def f():"; "  emit g()"]%string) (codes "f") [] s0).
  vm_compute in Hall. specialize (Hall _ _ _ eq_refl eq_refl). cbn in Hall. discriminate Hall. tauto.
Qed.
Print Assumptions c73_called_requirement_fails_refuted.

(** execute reports success exactly when no error was raised, the command emitted something
    and none of its own requirements failed; the value is the last one emitted. *)
Theorem c16_success_iff : forall H limit fuel m cmd given s r s',
  execute H limit fuel m cmd given s = (Returned H r, s') ->
  exists l, s_log H s' = s_log H s ++ l /\
    (r_success H r = true <->
       r_error H r = None /\ emits (s_depth H s) l <> [] /\ ~ In false (asserts (s_depth H s) l)) /\
    (r_success H r = true -> r_emit H r = last_opt (emits (s_depth H s) l)).
Proof.
  intros H limit fuel m cmd given s r s' E. destruct (execute_inv H _ _ _ _ _ _ _ _ E) as (_ & l & L & _ & _ & X).
  destruct (X r eq_refl) as (S1 & S2 & _). exists l. split; auto. split; auto. rewrite S1.
  assert (F : falses (asserts (s_depth H s) l) = 0%nat <-> ~ In false (asserts (s_depth H s) l)).
  { unfold falses. generalize (asserts (s_depth H s) l) as bs. clear. induction bs as [|[] bs IH]; cbn.
    - tauto.
    - rewrite IH. split; [intros Hn [Hc|Hc]; [discriminate|tauto]|tauto].
    - split; [discriminate|intros Hn; exfalso; apply Hn; auto]. }
  rewrite F. tauto.
Qed.
Print Assumptions c16_success_iff.
(** An emit statement records the value it emits. *)
Theorem c16_emit_recorded : forall H cmds limit n e c s v c1 s1,
  eval H cmds limit n e c s = (Ok v, c1, s1) ->
  exists c', exec H cmds limit (S n) (SEmit e []) c s =
    (Ok tt, c', State H (s_world H s1) (s_depth H s1) (s_natives H s1) (s_log H s1 ++ [EvEmit H (s_depth H s1) v []])) /\
    c_emit H c' = Some (v, []).
Proof.
  intros H cmds limit n e c s v c1 s1 E.
  change (exec H cmds limit (S n) (SEmit e [])) with (exec_body H (eval H cmds limit n) (exec H cmds limit n) (SEmit e [])).
  cbn [exec_body]. unfold bind at 1. rewrite E. eexists. split; reflexivity.
Qed.
Print Assumptions c16_emit_recorded.
Example c16_nonvacuous :
  (fst (run ["def f():"; "  emit 1"; "  emit 2"; "  assert 2 > 1"]%string "f") = Returned H0 (Result H0 true (Some (iv 2, [])) [] None)) /\
  (fst (run ["def f():"; "  x = 1"; "  assert x > 0"]%string "f") = Returned H0 (Result H0 false None [] (Some "Command did not emit any geometry"%string))).
Proof. split; computed. Qed.

(** * C17: connectives and conditionals *)

(** `and` and `or` evaluate the left operand, then the right one, and give the connective of
    their truth values. *)
Theorem c17_connectives : forall H cmds limit n l r c s a c1 s1 b c2 s2 ta tb,
  eval H cmds limit n l c s = (Ok a, c1, s1) -> eval H cmds limit n r c1 s1 = (Ok b, c2, s2) ->
  (forall c s, truthy H a c s = (Ok ta, c, s)) -> (forall c s, truthy H b c s = (Ok tb, c, s)) ->
  eval H cmds limit (S n) (EBin l AND r) c s = (Ok (Val (DBool (ta && tb)) (Some BOOL)), c2, s2) /\
  eval H cmds limit (S n) (EBin l OR r) c s = (Ok (Val (DBool (ta || tb)) (Some BOOL)), c2, s2).
Proof.
  intros H cmds limit n l r c s a c1 s1 b c2 s2 ta tb E1 E2 Ta Tb. rewrite !eval_S. cbn [eval_body].
  split; unfold bind at 1; rewrite E1; unfold bind at 1; rewrite E2; unfold binop, bind; rewrite ?Ta; destruct ta; cbn; rewrite ?Tb; destruct tb; reflexivity.
Qed.
Print Assumptions c17_connectives.
(** A conditional expression evaluates the condition and the chosen branch only. *)
Theorem c17_conditional : forall H cmds limit n cd t f c s v c1 s1 b,
  eval H cmds limit n cd c s = (Ok v, c1, s1) -> truthy H v c1 s1 = (Ok b, c1, s1) ->
  eval H cmds limit (S n) (ECond cd t f) c s = eval H cmds limit n (if b then t else f) c1 s1.
Proof.
  intros H cmds limit n cd t f c s v c1 s1 b E T. rewrite eval_S. cbn [eval_body]. unfold bind at 1. rewrite E.
  unfold bind. rewrite T. destruct b; reflexivity.
Qed.
Print Assumptions c17_conditional.
Example c17_nonvacuous :
  (fst (run ["def f():"; "  x = 1 > 2 and 2 > 1"; "  y = 1 > 2 or 2 > 1"; "  emit [x, y]"]%string "f") = Returned H0 (Result H0 true (Some (Val (DList [DBool false; DBool true]) (Some (TLst BOOL)), [])) [] None)) /\
  (fst (run ["def f():"; "  emit 1 if 2 > 1 else 1 // 0"]%string "f") = Returned H0 (Result H0 true (Some (iv 1, [])) [] None)).
Proof. split; computed. Qed.
(** C74: a false left operand does not protect the right one: whatever the operands, if the
    right one raises after the left one, so do `and` and `or`. *)
Theorem c74_right_operand_always_evaluated : forall H cmds limit n l op r c s a c1 s1 e c2 s2,
  eval H cmds limit n l c s = (Ok a, c1, s1) -> eval H cmds limit n r c1 s1 = (Raise e, c2, s2) ->
  eval H cmds limit (S n) (EBin l op r) c s = (Raise e, c2, s2).
Proof.
  intros H cmds limit n l op r c s a c1 s1 e c2 s2 E1 E2. rewrite eval_S. cbn [eval_body]. unfold bind. rewrite E1, E2. reflexivity.
Qed.
Print Assumptions c74_right_operand_always_evaluated.
Theorem c74_short_circuit_refuted :
  ~ (forall H cmds limit n l r c s c1 s1,
       eval H cmds limit n l c s = (Ok (Val (DBool false) (Some BOOL)), c1, s1) ->
       eval H cmds limit (S n) (EBin l AND r) c s = (Ok (Val (DBool false) (Some BOOL)), c1, s1)) /\
  fst (run ["def f():"; "  y = 0"; "  ok = y != 0 and 10 // y > 1"; "  emit ok"]%string "f") = Escaped H0 (EOther "ZeroDivisionError").
Proof.
  split; [|computed]. intros Hall.
  specialize (Hall H0 [] 0 5%nat (ELit (VBool false) BOOL_LITERAL)
    (EBin (EBin (ELit (VInt 1) INT_LITERAL) DOUBLE_SLASH (ELit (VInt 0) INT_LITERAL)) GT (ELit (VInt 1) INT_LITERAL)) (create_context H0 []) s0 _ _ eq_refl).
  vm_compute in Hall. discriminate.
Qed.
Print Assumptions c74_short_circuit_refuted.

(** * C18: comprehensions *)
Theorem c18_comprehension_limits : forall H cmds limit fuel e cls c s v c' s',
  eval H cmds limit fuel (EComp e cls) c s = (Ok v, c', s') ->
  (length cls <= 4)%nat /\ exists l t, v = Val (DList l) t /\ Z.of_nat (length l) <= 100000.
Proof.
  intros H cmds limit fuel e cls c s v c' s' E. destruct fuel as [|n]; [inversion E|]. rewrite eval_S in E. cbn [eval_body] in E.
  destruct (comprehension_size H _ e cls c s v c' s' E) as (A & l & t & -> & B). split; auto. exists l, t. split; auto.
  unfold max_size in B. lia.
Qed.
Print Assumptions c18_comprehension_limits.
(** A deeper one is refused before anything is evaluated. *)
Theorem c18_too_deep_refused : forall H cmds limit n e cls c s, (4 < length cls)%nat ->
  eval H cmds limit (S n) (EComp e cls) c s = (Raise (ERuntime "nesting depth exceeds maximum"), c, s).
Proof.
  intros H cmds limit n e cls c s Hl. rewrite eval_S. cbn [eval_body]. unfold comprehension, max_depth.
  apply Nat.ltb_lt in Hl. rewrite Hl. reflexivity.
Qed.
Print Assumptions c18_too_deep_refused.
Example c18_nonvacuous :
  (fst (run ["def f():"; "  emit [x * y for x in [1, 2, 3] if x != 2 for y in [x, 10]]"]%string "f") = Returned H0 (Result H0 true (Some (Val (DList [DInt 1; DInt 10; DInt 9; DInt 30]) (Some (TLst INT)), [])) [] None)) /\
  (fst (run ["def f():"; "  emit [1 for a in [1] for b in [1] for c in [1] for d in [1] for e in [1]]"]%string "f") = Returned H0 (Result H0 false None [] (Some "nesting depth exceeds maximum"%string))).
Proof. split; computed. Qed.

(** * C19: all statements are run, in order *)

(** [path_list] (Interp_Spec) describes the runs of a list of statements: each in turn, a
    taken branch or the turns of a loop in between, until the end, a return or an exception.
    The statements the executed command starts are such a run of its body. *)
Theorem c19_statements_in_order : forall H limit fuel m cmd given s o s' f,
  execute H limit fuel m cmd given s = (o, s') -> o <> OutOfFuel H ->
  find (fun f => name_eqb (f_name f) cmd) (m_funs m) = Some f ->
  exists l, s_log H s' = s_log H s ++ l /\
    ((exists reached, path_list (b_stmts (f_body f)) (started (s_depth H s) l) reached /\
       (forall r, o = Returned H r -> r_success H r = true -> reached <> Raised)) \/
     (started (s_depth H s) l = [] /\ (forall r, o = Returned H r -> r_success H r = false))).
Proof. intros H limit fuel m cmd given s o s' f E Ho Hf. eapply execute_path; eauto. Qed.
Print Assumptions c19_statements_in_order.
(** In particular, a successful run of a body without return statements starts all of its
    statements, in textual order. *)
Theorem c19_straight_line_all_run : forall H limit fuel m cmd given s r s' f,
  execute H limit fuel m cmd given s = (Returned H r, s') -> r_success H r = true ->
  find (fun f => name_eqb (f_name f) cmd) (m_funs m) = Some f ->
  forallb simple (b_stmts (f_body f)) = true ->
  exists l, s_log H s' = s_log H s ++ l /\ started (s_depth H s) l = b_stmts (f_body f).
Proof.
  intros H limit fuel m cmd given s r s' f E Hr Hf Hs.
  destruct (execute_path H limit fuel m cmd given s _ s' f E ltac:(discriminate) Hf) as (l & L & [(re & P & Q)|(_ & Q)]).
  2: { specialize (Q r eq_refl). congruence. }
  exists l. split; auto. specialize (Q r eq_refl Hr). clear -P Q Hs. revert P Hs Q.
  generalize (started (s_depth H s) l) as k. generalize (b_stmts (f_body f)) as ss. clear.
  induction ss as [|st ss IH]; intros k P Hs Q; inversion P; subst; auto; cbn in Hs; apply andb_true_iff in Hs as [Hs1 Hs2].
  - assert (l = [st]) as -> by (match goal with h : path st l RanAll |- _ => inversion h; subst; cbn in Hs1; try discriminate; auto end).
    cbn. f_equal. apply IH; auto.
  - exfalso. match goal with h : path st k re |- _ => inversion h; subst; cbn in Hs1; try discriminate; congruence end.
Qed.
Print Assumptions c19_straight_line_all_run.
Example c19_nonvacuous :
  let o := run ["def f():"; "  x = 1"; "  for i in [1, 2]:"; "    y = i"; "    pass"; "  if x > 5:"; "    emit 1"; "  else:"; "    emit 2"]%string "f" in
  fst o = Returned H0 (Result H0 true (Some (iv 2, [])) [] None) /\ length (started 0 (s_log H0 (snd o))) = 8%nat.
Proof. split; computed. Qed.
(** C75: an expression statement that ends a body is not evaluated: it becomes the block's
    final expression, and replacing those of all commands changes nothing. *)
Theorem c75_final_expressions_ignored : forall (g : fundef -> option expr) H limit fuel m cmd given s,
  execute H limit fuel (MkModule (m_name m) (m_uses m) (m_blocks m) (m_natives m)
    (map (fun f => FunDef (f_name f) (f_params f) (f_ret f) (Block (b_stmts (f_body f)) (g f)) (f_decos f) (f_meta f)) (m_funs m))) cmd given s
  = execute H limit fuel m cmd given s.
Proof. exact execute_final. Qed.
Print Assumptions c75_final_expressions_ignored.
Theorem c75_last_expression_evaluated_refuted :
  (fst (run ["def f():"; "  emit 1"; "  1 // 0"]%string "f") = Returned H0 (Result H0 true (Some (iv 1, [])) [] None)) /\
  (fst (run ["def f():"; "  1 // 0"; "  emit 1"]%string "f") = Escaped H0 (EOther "ZeroDivisionError")).
Proof. split; computed. Qed.
Print Assumptions c75_last_expression_evaluated_refuted.

(** * C20: accumulating in a loop *)

(** Declarations in a loop body do not reach the enclosing variable: after any for loop
    whose body has no assignment statement, every enclosing variable is as before.
    (`x = e` is parsed as a declaration.) *)
Theorem c20_loop_leaves_outer_variables : forall H cmds limit fuel x it b c s r c' s' n,
  exec H cmds limit fuel (SFor x it b) c s = (r, c', s') -> c_scopes H c <> [] ->
  assigned_block b = [] -> ~ In n (binds it) -> ~ In n (default_binds cmds) ->
  lookup H n (c_scopes H c') = lookup H n (c_scopes H c).
Proof.
  intros H cmds limit fuel x it b c s r c' s' n E Hne Ha Hb Hd.
  destruct (c12_block_scope H cmds limit fuel (SFor x it b) c s r c' s' n E ltac:(left; eauto) Hne Hb Hd) as [_ X].
  apply X. cbn [assigned]. rewrite Ha. auto.
Qed.
Print Assumptions c20_loop_leaves_outer_variables.
Theorem c20_accumulate_refuted :
  fst (run ["def f():"; "  total = 0"; "  for x in [1, 2, 3]:"; "    total = total + x"; "  emit total"]%string "f") = Returned H0 (Result H0 true (Some (iv 0, [])) [] None).
Proof. computed. Qed.
Print Assumptions c20_accumulate_refuted.

(** * Further behaviour that surprises *)

(** C76: the name a match pattern binds stays bound afterwards. *)
Theorem c76_match_names_local_refuted :
  fst (run ["def f():"; "  k = 1"; "  y = match 5:"; "    case k: 0"; "  + 1"; "  emit k"]%string "f") = Returned H0 (Result H0 true (Some (iv 5, [])) [] None).
Proof. computed. Qed.
Print Assumptions c76_match_names_local_refuted.
(** C77: exceptions other than RuntimeError escape execute. *)
Theorem c77_exceptions_reported_refuted :
  ~ (forall H limit fuel m cmd given s o s', execute H limit fuel m cmd given s = (o, s') ->
       (exists r, o = Returned H r) \/ o = OutOfFuel H) /\
  (forall H cmds limit n x c s, eval H cmds limit (S (S n))
      (EBin (ELit (VInt x) INT_LITERAL) DOUBLE_SLASH (ELit (VInt 0) INT_LITERAL)) c s = (Raise (EOther "ZeroDivisionError"), c, s)).
Proof.
  split; [|reflexivity]. intros Hall.
  assert (X : fst (run ["def f():"; "  emit 1 // 0"]%string "f") = Escaped H0 (EOther "ZeroDivisionError")) by computed.
  destruct (run ["def f():"; "  emit 1 // 0"]%string "f") as [o s'] eqn:E. cbn [fst] in X. subst o.
  destruct (Hall H0 100 60%nat (program ["def f():"; "  emit 1 // 0"]%string) (codes "f") [] s0 _ _ E) as [[r F]|F]; discriminate.
Qed.
Print Assumptions c77_exceptions_reported_refuted.
(** C78: parameter defaults see the variables of the caller: the same command gives
    different values in different callers. *)
Theorem c78_defaults_independent_of_caller_refuted :
  let src := ["def g(y: int = x):"; "  emit y"; "def f():"; "  x = 1"; "  emit g()"; "def h():"; "  x = 2"; "  emit g()"]%string in
  (fst (run src "f") = Returned H0 (Result H0 true (Some (Emitted (iv 1) [], [])) [] None)) /\
  (fst (run src "h") = Returned H0 (Result H0 true (Some (Emitted (iv 2) [], [])) [] None)).
Proof. split; computed. Qed.
Print Assumptions c78_defaults_independent_of_caller_refuted.
(** C79: keyword arguments are dropped when there is a positional one. *)
Theorem c79_keywords_dropped : forall H cmds limit n f a args named c s,
  eval H cmds limit (S n) (ECall (EId f) (a :: args) named) c s = eval H cmds limit (S n) (ECall (EId f) (a :: args) []) c s.
Proof.
  intros. rewrite !eval_S. cbn [eval_body]. unfold call, bind.
  destruct (mapM H (eval H cmds limit n) (a :: args) c s) as [[[vs|e|] c1] s1] eqn:E; auto.
  apply mapM_length in E. destruct (existsb (name_eqb f) (s_natives H s1)); auto.
  destruct (find_command cmds f); auto. destruct vs as [|v vs]; [discriminate|]. destruct named; reflexivity.
Qed.
Print Assumptions c79_keywords_dropped.
Theorem c79_keywords_honoured_refuted :
  fst (run ["def g(x: int, y: int = 0):"; "  emit y"; "def f():"; "  emit g(1, y=5)"]%string "f") = Returned H0 (Result H0 true (Some (Emitted (iv 0) [], [])) [] None).
Proof. computed. Qed.
Print Assumptions c79_keywords_honoured_refuted.
(** C80: the result of a command cannot be a condition. *)
Theorem c80_command_as_condition_refuted :
  (forall H v md c s, truthy H (Emitted v md) c s = (Raise (EOther "AttributeError"), c, s)) /\
  fst (run ["def g():"; "  emit 2 > 1"; "def f():"; "  if g():"; "    emit 1"; "  emit 2"]%string "f") = Escaped H0 (EOther "AttributeError").
Proof. split; [reflexivity|computed]. Qed.
Print Assumptions c80_command_as_condition_refuted.
(** C81: no method call succeeds. *)
Theorem c81_method_calls_fail_refuted : forall H cmds limit fuel o m args named c s v c' s',
  eval H cmds limit fuel (EMethod o m args named) c s <> (Ok v, c', s').
Proof.
  intros H cmds limit [|n] o m args named c s v c' s' E; [inversion E|]. rewrite eval_S in E. cbn [eval_body] in E.
  apply bind_ok in E as (a & c1 & s1 & _ & E). apply bind_ok in E as (b & c2 & s2 & _ & E). inversion E.
Qed.
Print Assumptions c81_method_calls_fail_refuted.
(** C82: an if expression whose block is selected raises. *)
Theorem c82_if_expressions_refuted : forall H cmds limit fuel cd t ei els c s v c' s',
  eval H cmds limit fuel (EIf cd t ei els) c s = (Ok v, c', s') ->
  els = None /\ v = Val DNone (Some (TOpt INT)).
Proof.
  intros H cmds limit [|n] cd t ei els c s v c' s' E; [inversion E|]. rewrite eval_S in E. cbn [eval_body] in E.
  apply bind_ok in E as (a & c1 & s1 & _ & E). apply bind_ok in E as (b & c2 & s2 & _ & E).
  destruct b; [inversion E|]. destruct els; inversion E; auto.
Qed.
Print Assumptions c82_if_expressions_refuted.
(** C83: an inline Python block sees the outermost variable of each name, not the one that
    shadows it. *)
Theorem c83_python_sees_outermost : forall H n ss, Forall (fun sc => NoDup (map fst sc)) ss ->
  dget name_eqb n (namespace H ss) = option_map (vdata H) (lookup H n (rev ss)).
Proof. exact namespace_spec. Qed.
Print Assumptions c83_python_sees_outermost.
Theorem c83_python_sees_innermost_refuted :
  ~ (forall H n ss v, Forall (fun sc => NoDup (map fst sc)) ss -> lookup H n ss = Some v ->
       dget name_eqb n (namespace H ss) = Some (vdata H v)).
Proof.
  intros Hall. specialize (Hall H0 (codes "x") [[(codes "x", iv 1)]; [(codes "x", iv 2)]] (iv 1)).
  vm_compute in Hall. assert (X : Some (DInt 2) = Some (DInt 1) :> option (data Z unit)); [|discriminate].
  apply Hall; auto. repeat constructor; intros [].
Qed.
Print Assumptions c83_python_sees_innermost_refuted.

(** C84: integer arithmetic, comparisons and connectives mean what they mean in mathematics:
    an expression with a value under [ival]/[bval] evaluates to it, without effect. *)
Theorem c84_integer_expressions : forall H cmds limit env e z c s n,
  (forall x k, env x = Some k -> lookup H x (c_scopes H c) = Some (Val (DInt k) (Some INT))) ->
  ival env e = Some z -> (edepth e <= n)%nat ->
  eval H cmds limit n e c s = (Ok (Val (DInt z) (Some INT)), c, s).
Proof. intros. eapply ival_eval; eauto. Qed.
Print Assumptions c84_integer_expressions.
Theorem c84_boolean_expressions : forall H cmds limit env e b c s n,
  (forall x k, env x = Some k -> lookup H x (c_scopes H c) = Some (Val (DInt k) (Some INT))) ->
  bval env e = Some b -> (edepth e <= n)%nat ->
  eval H cmds limit n e c s = (Ok (Val (DBool b) (Some BOOL)), c, s).
Proof. intros. eapply bval_eval; eauto. Qed.
Print Assumptions c84_boolean_expressions.
Example c84_nonvacuous :
  fst (run ["def f():"; "  a = -7"; "  emit [a // 2, a % 2, 2 ** 10 - a * 3]"]%string "f") = Returned H0 (Result H0 true (Some (Val (DList [DInt (-4); DInt 1; DInt 1045]) (Some (TLst INT)), [])) [] None).
Proof. computed. Qed.
