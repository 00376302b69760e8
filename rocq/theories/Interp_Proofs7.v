(** Comprehension limits, final expressions, runaway recursion, integer arithmetic. *)
From Coq Require Import ZArith String List Bool Lia FunctionalExtensionality.
From Verif Require Import Dict Lex_Model Ast Types_Model Interp_Model Interp_Proofs Interp_Spec Interp_Proofs3.
Import ListNotations.
Open Scope Z_scope.
Open Scope list_scope.

Section Comp.
  Variable H : host.
  Variable ev : expr -> M H (rval (hF H) (hO H)).
  Local Opaque max_size.

  Lemma bind_ok {A B} (m : M H A) (k : A -> M H B) c s b c' s' : bind H m k c s = (Ok b, c', s') ->
    exists a c1 s1, m c s = (Ok a, c1, s1) /\ k a c1 s1 = (Ok b, c', s').
  Proof. unfold bind. destruct (m c s) as [[[a|e|] c1] s1]; intros E; inversion E. exists a, c1, s1. auto. Qed.
  Lemma clauses_size cls e : forall acc c s vs c' s', (List.length acc <= max_size)%nat ->
    clauses H ev cls e acc c s = (Ok vs, c', s') -> (List.length vs <= max_size)%nat.
  Proof.
    induction cls as [|[[x it] conds] cls IH]; cbn [clauses]; intros acc c s vs c' s' Ha E.
    - unfold too_big in E. destruct (Nat.leb_spec max_size (List.length acc)) as [Hb|Hb]; [inversion E|].
      apply bind_ok in E as (v & c1 & s1 & _ & E). inversion E; subst. rewrite app_length. cbn. lia.
    - apply bind_ok in E as (v & c1 & s1 & _ & E). apply bind_ok in E as (o & c2 & s2 & _ & E).
      destruct o as [items|]; [|inversion E]. revert acc c2 s2 Ha E.
      induction items as [|i items IHi]; intros acc c2 s2 Ha E; [inversion E; subst; auto|].
      destruct (too_big H acc); [inversion E|]. apply bind_ok in E as (u & c3 & s3 & _ & E).
      apply bind_ok in E as (b & c4 & s4 & _ & E). destruct b.
      + apply bind_ok in E as (acc' & c5 & s5 & E1 & E2). eapply IHi; [|exact E2]. eapply IH; eauto.
      + eapply IHi; eauto.
  Qed.
  Lemma comprehension_size e cls c s v c' s' : comprehension H ev e cls c s = (Ok v, c', s') ->
    (List.length cls <= max_depth)%nat /\
    exists l t, v = Val (DList l) t /\ (List.length l <= max_size)%nat.
  Proof.
    unfold comprehension. destruct (Nat.ltb_spec max_depth (List.length cls)) as [Hb|Hb]; [intros E; inversion E|].
    intros E. split; auto. apply bind_ok in E as (vs & c1 & s1 & E1 & E2).
    unfold new_scope in E1. destruct (clauses H ev cls e [] _ s) as [[r c2] s2] eqn:Ec. inversion E1; subst.
    apply clauses_size in Ec; [|cbn; lia]. destruct vs; inversion E2; subst; repeat eexists; cbn in *; rewrite ?map_length; lia.
  Qed.
End Comp.

(** Replacing the final expressions of command bodies changes nothing. *)
Section Final.
  Variable g : fundef -> option expr.
  Definition with_final (f : fundef) : fundef :=
    FunDef (f_name f) (f_params f) (f_ret f) (Block (b_stmts (f_body f)) (g f)) (f_decos f) (f_meta f).
  Variable H : host.
  Variables (cmds : list fundef) (limit : Z).
  Lemma find_final n : find_command (map with_final cmds) n = option_map with_final (find_command cmds n).
  Proof.
    unfold find_command. induction cmds as [|f l IH]; cbn; auto. destruct (name_eqb (f_name f) n); auto.
  Qed.
  Lemma call_final ev ex f args : call_command H limit ev ex (with_final f) args = call_command H limit ev ex f args.
  Proof. reflexivity. Qed.
  Lemma run_final fuel : eval H (map with_final cmds) limit fuel = eval H cmds limit fuel /\
    exec H (map with_final cmds) limit fuel = exec H cmds limit fuel.
  Proof.
    induction fuel as [|n [IH1 IH2]]; [split; reflexivity|]. split.
    - extensionality e.
      change (eval_body H (map with_final cmds) limit (eval H (map with_final cmds) limit n) (exec H (map with_final cmds) limit n) e =
              eval_body H cmds limit (eval H cmds limit n) (exec H cmds limit n) e).
      rewrite IH1, IH2. destruct e; try reflexivity. cbn [eval_body]. unfold call. f_equal. extensionality vs.
      destruct e; try reflexivity. extensionality c. extensionality s. rewrite find_final.
      destruct (existsb (name_eqb n0) (s_natives H s)); [reflexivity|].
      destruct (find_command cmds n0); [|reflexivity]. cbn [option_map]. reflexivity.
    - extensionality e.
      change (exec_body H (eval H (map with_final cmds) limit n) (exec H (map with_final cmds) limit n) e =
              exec_body H (eval H cmds limit n) (exec H cmds limit n) e).
      rewrite IH1, IH2. reflexivity.
  Qed.
End Final.
Lemma execute_final g H limit fuel m cmd given s :
  execute H limit fuel (MkModule (m_name m) (m_uses m) (m_blocks m) (m_natives m) (map (with_final g) (m_funs m))) cmd given s
  = execute H limit fuel m cmd given s.
Proof.
  unfold execute. cbn [m_blocks m_funs]. rewrite find_final.
  destruct (run_final g H (m_funs m) limit fuel) as [-> ->].
  destruct (native_blocks H (m_blocks m) s) as [[] s0]; [|reflexivity]. cbn [negb].
  destruct (find_command (m_funs m) cmd) as [f|]; reflexivity.
Qed.

(** * Runaway recursion: def f(): emit f() *)
Section Runaway.
  Variable H : host.
  Variables (f : name) (limit : Z).
  Definition rec_def : fundef := FunDef f [] None (Block [SEmit (ECall (EId f) [] []) []] None) [] None.
  Notation ex := (exec H [rec_def] limit).
  (** The depths at which the body is entered when a run starts at depth d with k levels left. *)
  Fixpoint entries (d : Z) (k : nat) : list Z := match k with O => [] | S k => (d + 1) :: entries (d + 1) k end.
  Definition entered (l : list (event H)) : list Z :=
    flat_map (fun e => match e with EvEnter _ d _ => [d] | _ => [] end) l.
  Lemma entered_app a b : entered (a ++ b) = entered a ++ entered b.
  Proof. apply flat_map_app. Qed.
  Lemma name_refl n : name_eqb n n = true. Proof. apply name_eqb_spec. reflexivity. Qed.
  Definition st0 : stmt := SEmit (ECall (EId f) [] []) [].
  Section Steps.
    Variables (ev : expr -> M H (rval (hF H) (hO H))) (ex0 : stmt -> M H unit).
    Lemma call_step c s : existsb (name_eqb f) (s_natives H s) = false ->
      call H [rec_def] limit ev ex0 (EId f) [] [] c s = call_command H limit ev ex0 rec_def [] c s.
    Proof. intros Hn. unfold call, bind. cbn. rewrite Hn. unfold find_command. cbn. rewrite name_refl. reflexivity. Qed.
    Lemma cc_over c s : limit <= s_depth H s ->
      call_command H limit ev ex0 rec_def [] c s = (Raise (ERuntime "Maximum recursion depth"), c, add_depth H (-1) (add_depth H 1 s)).
    Proof.
      intros Hd. unfold call_command. cbn [s_depth add_depth].
      replace (limit <? s_depth H s + 1) with true by (symmetry; apply Z.ltb_lt; lia). reflexivity.
    Qed.
    Lemma cc_step c s e c' s' : s_depth H s < limit ->
      ex0 st0 (create_context H []) (with_event H (EvStmt H (s_depth H s + 1) st0)
         (with_event H (EvEnter H (s_depth H s + 1) f) (add_depth H 1 s))) = (Raise e, c', s') ->
      call_command H limit ev ex0 rec_def [] c s = (Raise e, c, add_depth H (-1) s').
    Proof.
      intros Hd E. unfold call_command. cbn [s_depth add_depth].
      replace (limit <? s_depth H s + 1) with false by (symmetry; apply Z.ltb_ge; lia).
      cbn. unfold bind, ret. cbn. unfold execute_command, bind, emit_event. cbn. unfold bind, emit_event. cbn.
      unfold with_event in E. cbn in E. fold st0. rewrite E. reflexivity.
    Qed.
  End Steps.
  Lemma exec_step n st : ex (S n) st = exec_body H (eval H [rec_def] limit n) (ex n) st. Proof. reflexivity. Qed.
  Lemma eval_step n e : eval H [rec_def] limit (S n) e = eval_body H [rec_def] limit (eval H [rec_def] limit n) (ex n) e. Proof. reflexivity. Qed.
  Lemma emit_raise n c s e c' s' : call H [rec_def] limit (eval H [rec_def] limit n) (ex n) (EId f) [] [] c s = (Raise e, c', s') ->
    ex (S (S n)) st0 c s = (Raise e, c', s').
  Proof.
    intros E. rewrite exec_step. unfold st0. cbn [exec_body]. rewrite eval_step. cbn [eval_body]. unfold bind at 1. rewrite E. reflexivity.
  Qed.
  Lemma runaway k : forall fuel c s, (2 * k + 2 <= fuel)%nat -> s_depth H s + Z.of_nat k = limit ->
    existsb (name_eqb f) (s_natives H s) = false ->
    exists s' l, ex fuel st0 c s = (Raise (ERuntime "Maximum recursion depth"), c, s') /\
      s_depth H s' = s_depth H s /\ s_log H s' = s_log H s ++ l /\ entered l = entries (s_depth H s) k.
  Proof.
    induction k as [|k IH]; intros fuel c s Hf Hd Hn.
    - destruct fuel as [|[|fuel]]; [lia|lia|]. do 2 eexists. split.
      + eapply emit_raise. rewrite call_step by auto. apply cc_over. lia.
      + cbn. split; [lia|]. split; [symmetry; apply app_nil_r|reflexivity].
    - destruct fuel as [|[|fuel]]; [lia|lia|].
      destruct (IH fuel (create_context H []) (with_event H (EvStmt H (s_depth H s + 1) st0)
         (with_event H (EvEnter H (s_depth H s + 1) f) (add_depth H 1 s)))) as (s' & l & E & D1 & L1 & N1); [lia|cbn; lia|exact Hn|].
      exists (add_depth H (-1) s'), (EvEnter H (s_depth H s + 1) f :: EvStmt H (s_depth H s + 1) st0 :: l). split.
      + eapply emit_raise. rewrite call_step by auto. eapply cc_step; [lia|exact E].
      + unfold entered in *. cbn in D1, L1, N1 |- *. split; [lia|]. rewrite L1, N1, <- !app_assoc. auto.
  Qed.
  Lemma runaway_execute fuel s nm us : (2 * Z.to_nat (limit - s_depth H s) + 2 <= fuel)%nat -> s_depth H s <= limit ->
    existsb (name_eqb f) (s_natives H s) = false ->
    exists s' l, execute H limit fuel (MkModule nm us [] [] [rec_def]) f [] s =
        (Returned H (failed H [] "Maximum recursion depth"), s') /\
      s_depth H s' = s_depth H s /\ s_log H s' = s_log H s ++ l /\
      entered l = s_depth H s :: entries (s_depth H s) (Z.to_nat (limit - s_depth H s)).
  Proof.
    intros Hf Hd Hn.
    destruct (runaway (Z.to_nat (limit - s_depth H s)) fuel (create_context H []) (with_event H (EvStmt H (s_depth H s) st0)
         (with_event H (EvEnter H (s_depth H s) f) s))) as (s' & l & E & D1 & L1 & N1); [exact Hf|cbn; lia|exact Hn|].
    exists s', (EvEnter H (s_depth H s) f :: EvStmt H (s_depth H s) st0 :: l). split.
    - unfold execute. cbn [m_blocks native_blocks negb m_funs]. unfold find_command, find. cbn [f_name rec_def]. rewrite name_refl.
      cbn [wrap_parameters f_params rec_def]. unfold ret. unfold execute_command, bind, emit_event. cbn [f_body rec_def b_stmts stmts f_name].
      unfold bind, emit_event. fold st0. cbn [s_world s_depth s_natives s_log]. cbn [fold_left] .
      unfold with_event in E. cbn [s_world s_depth s_natives s_log] in E. rewrite E. reflexivity.
    - unfold entered in *. cbn in D1, L1, N1 |- *. split; [lia|]. rewrite L1, N1, <- !app_assoc. auto.
  Qed.
End Runaway.

(** * Integer arithmetic *)
Section Arith.
  Variable H : host.
  Variables (cmds : list fundef) (limit : Z).
  Variable env : name -> option Z.
  Notation iv z := (Val (DInt z) (Some INT)).
  Lemma eval_S n e : eval H cmds limit (S n) e = eval_body H cmds limit (eval H cmds limit n) (exec H cmds limit n) e.
  Proof. reflexivity. Qed.
  Lemma eval_bin n l op r c s a b : eval H cmds limit n l c s = (Ok a, c, s) -> eval H cmds limit n r c s = (Ok b, c, s) ->
    eval H cmds limit (S n) (EBin l op r) c s = binop H op a b c s.
  Proof. intros E1 E2. rewrite eval_S. cbn [eval_body]. unfold bind at 1. rewrite E1. unfold bind. rewrite E2. reflexivity. Qed.
  Lemma ival_eval e : forall z c s n, (forall x k, env x = Some k -> lookup H x (c_scopes H c) = Some (iv k)) ->
    ival env e = Some z -> (edepth e <= n)%nat -> eval H cmds limit n e c s = (Ok (iv z), c, s).
  Proof.
    induction e; intros z c s n0 He Ei Hd; cbn in Ei; try discriminate; (destruct n0 as [|n0]; [cbn in Hd; lia|]).
    - destruct v; try discriminate. destruct lt; try discriminate. inversion Ei; subst. reflexivity.
    - rewrite eval_S. cbn [eval_body]. rewrite (He _ _ Ei). reflexivity.
    - destruct (ival env e1) as [x|] eqn:E1; [|discriminate]. destruct (ival env e2) as [y|] eqn:E2; [|discriminate].
      cbn in Hd. rewrite (eval_bin _ _ _ _ _ _ (iv x) (iv y)) by (first [apply IHe1|apply IHe2]; auto; lia).
      destruct op; try discriminate; try (inversion Ei; subst; reflexivity).
      + destruct (y =? 0) eqn:Ey; [discriminate|]. inversion Ei; subst. unfold binop, bind. cbn. rewrite Ey. cbn. reflexivity.
      + destruct (y =? 0) eqn:Ey; [discriminate|]. inversion Ei; subst. unfold binop, bind. cbn. rewrite Ey. cbn.
        rewrite Z.mod_eq by (apply Z.eqb_neq; auto). reflexivity.
      + destruct (y <? 0) eqn:Ey; [discriminate|]. inversion Ei; subst. apply Z.ltb_ge in Ey. apply Z.leb_le in Ey.
        unfold binop, bind. cbn. rewrite Ey. reflexivity.
    - destruct op; try discriminate. destruct (ival env e) as [x|] eqn:E1; [|discriminate]. inversion Ei; subst.
      cbn in Hd. rewrite eval_S. cbn [eval_body]. unfold bind at 1. rewrite (IHe x) by (auto; lia). reflexivity.
  Qed.
  Lemma bval_eval e : forall b c s n, (forall x k, env x = Some k -> lookup H x (c_scopes H c) = Some (iv k)) ->
    bval env e = Some b -> (edepth e <= n)%nat -> eval H cmds limit n e c s = (Ok (bool_val H b), c, s).
  Proof.
    induction e; intros b c s n0 He Ei Hd; cbn in Ei; try discriminate; (destruct n0 as [|n0]; [cbn in Hd; lia|]).
    - destruct v; try discriminate. destruct lt; try discriminate. inversion Ei; subst. reflexivity.
    - cbn in Hd.
      assert (HI : forall x y, ival env e1 = Some x -> ival env e2 = Some y ->
        eval H cmds limit (S n0) (EBin e1 op e2) c s = binop H op (iv x) (iv y) c s).
      { intros x y E1 E2. apply eval_bin; apply ival_eval; auto; lia. }
      assert (HB : forall x y, bval env e1 = Some x -> bval env e2 = Some y ->
        eval H cmds limit (S n0) (EBin e1 op e2) c s = binop H op (bool_val H x) (bool_val H y) c s).
      { intros x y E1 E2. apply eval_bin; [apply IHe1|apply IHe2]; auto; lia. }
      clear IHe1 IHe2.
      destruct op; try (destruct (ival env e1) as [x|]; [|discriminate]; destruct (ival env e2) as [y|]; [|discriminate];
        rewrite (HI _ _ eq_refl eq_refl); inversion Ei; subst; reflexivity);
      (destruct (bval env e1) as [x|]; [|discriminate]; destruct (bval env e2) as [y|]; [|discriminate];
        rewrite (HB _ _ eq_refl eq_refl); inversion Ei; subst; destruct x, y; reflexivity).
    - destruct op; try discriminate. destruct (bval env e) as [x|] eqn:E1; [|discriminate]. inversion Ei; subst.
      cbn in Hd. rewrite eval_S. cbn [eval_body]. unfold bind at 1. rewrite (IHe x) by (auto; lia). reflexivity.
  Qed.
End Arith.

(** * A default that calls its own command by keyword *)
Section Loop.
  Variable H : host.
  Variables (f x y : name) (limit : Z) (t : option ty) (one zero : Z).
  Definition self_call : expr := ECall (EId f) [] [(y, ELit (VInt one) INT_LITERAL)].
  Definition loop_def : fundef :=
    FunDef f [Param x t (Some self_call) None; Param y t (Some (ELit (VInt zero) INT_LITERAL)) None] None
      (Block [SEmit (EId x) []] None) [] None.
  Lemma loop_eval fuel : forall c s, x <> y -> existsb (name_eqb f) (s_natives H s) = false ->
    eval H [loop_def] limit fuel self_call c s = (NoFuel, c, s).
  Proof.
    induction fuel as [|n IH]; intros c s Hxy Hn; [reflexivity|].
    change (eval_body H [loop_def] limit (eval H [loop_def] limit n) (exec H [loop_def] limit n) self_call c s = (NoFuel, c, s)).
    unfold self_call at 1. cbn [eval_body]. unfold call, bind. cbn [mapM ret]. unfold ret. rewrite Hn.
    unfold find_command, find. cbn [f_name loop_def]. rewrite name_refl. cbn [f_params loop_def named_args p_name dget p_default].
    unfold dget. cbn.
    destruct (name_eqb x y) eqn:E; [apply name_eqb_spec in E; congruence|]. unfold bind at 1. rewrite (IH c s Hxy Hn). reflexivity.
  Qed.
  Lemma loop_execute fuel s nm us : x <> y -> existsb (name_eqb f) (s_natives H s) = false ->
    execute H limit fuel (MkModule nm us [] [] [loop_def]) f [] s = (OutOfFuel H, s).
  Proof.
    intros Hxy Hn. unfold execute. cbn [m_blocks native_blocks negb m_funs]. unfold find_command, find. cbn [f_name loop_def].
    rewrite name_refl. cbn [wrap_parameters f_params loop_def p_name p_default dget]. unfold bind.
    rewrite (loop_eval fuel _ s Hxy Hn). reflexivity.
  Qed.
End Loop.

Section Namespace.
  Variable H : host.
  Lemma ns_scope n sc : NoDup (map fst sc) -> forall acc,
    dget name_eqb n (fold_left (fun ns nv => dset name_eqb (fst nv) (vdata H (snd nv)) ns) sc acc) =
    match sget H n sc with Some v => Some (vdata H v) | None => dget name_eqb n acc end.
  Proof.
    induction sc as [|[k v] sc IH]; intros Hn acc; auto. cbn [fold_left fst snd]. inversion Hn; subst.
    rewrite IH by auto. rewrite (dget_set name_eqb name_eqb_spec). unfold sget. cbn [dget].
    destruct (name_eqb n k) eqn:E; auto. apply name_eqb_spec in E. subst.
    destruct (dget name_eqb k sc) eqn:Ed; auto. exfalso. apply H2.
    apply (dget_in name_eqb name_eqb_spec) in Ed. apply in_map_iff. exists (k, r). auto.
  Qed.
  Lemma lookup_app n a b : lookup H n (a ++ b) = match lookup H n a with Some v => Some v | None => lookup H n b end.
  Proof. induction a as [|x a IH]; cbn; auto. destruct (sget H n x); auto. Qed.
  Lemma ns_acc n ss : Forall (fun sc => NoDup (map fst sc)) ss -> forall acc,
    dget name_eqb n (fold_left (fun ns sc => fold_left (fun ns nv => dset name_eqb (fst nv) (vdata H (snd nv)) ns) sc ns) ss acc) =
    match lookup H n (rev ss) with Some v => Some (vdata H v) | None => dget name_eqb n acc end.
  Proof.
    induction 1 as [|sc ss Hn _ IH]; intros acc; auto. cbn [fold_left rev]. rewrite IH, lookup_app. cbn.
    destruct (lookup H n (rev ss)); auto. rewrite ns_scope by auto. destruct (sget H n sc); auto.
  Qed.
  Lemma namespace_spec n ss : Forall (fun sc => NoDup (map fst sc)) ss ->
    dget name_eqb n (namespace H ss) = option_map (vdata H) (lookup H n (rev ss)).
  Proof. intros Hn. unfold namespace. rewrite ns_acc by auto. destruct (lookup H n (rev ss)); auto. Qed.
End Namespace.
