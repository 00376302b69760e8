(** A general induction principle for the interpreter: a relation between (context, state)
    before and after that is closed under the primitive steps holds of every run. *)
From Coq Require Import ZArith String List Bool Lia.
From Verif Require Import Dict Lex_Model Ast Types_Model Interp_Model.
Import ListNotations.
Open Scope Z_scope.
Open Scope list_scope.

Section Inv.
  Variable H : host.
  Notation D := (data (hF H) (hO H)).
  Notation V := (rval (hF H) (hO H)).
  Notation W := (hW H).
  Notation ctx := (ctx H). Notation state := (state H). Notation M := (M H).

  Definition with_world (w : W) (s : state) : state := State H w (s_depth H s) (s_natives H s) (s_log H s).
  Definition with_event (e : event H) (s : state) : state :=
    State H (s_world H s) (s_depth H s) (s_natives H s) (s_log H s ++ [e]).

  Section Prims.
    Variable R : ctx -> state -> ctx -> state -> Prop.
    (** Closed under what an expression does by itself. *)
    Record closed_e : Prop := {
      R_refl : forall c s, R c s c s;
      R_trans : forall c1 s1 c2 s2 c3 s3, R c1 s1 c2 s2 -> R c2 s2 c3 s3 -> R c1 s1 c3 s3;
      R_world : forall c s w, R c s c (with_world w s);
      R_set : forall c s n v sc ss, c_scopes H c = sc :: ss -> R c s (set_scopes H (sset H n v sc :: ss) c) s;
      R_scope : forall c s c' s', R (set_scopes H ([] :: c_scopes H c) c) s c' s' ->
        R c s (set_scopes H (last_n (List.length (c_scopes H c)) (c_scopes H c')) c') s' }.
    (** Closed under what a statement does by itself. *)
    Record closed_s : Prop := {
      R_update : forall c s n v ss, update H n v (c_scopes H c) = Some ss -> R c s (set_scopes H ss c) s;
      R_diag : forall c s, R c s (Ctx H (c_scopes H c) (c_emit H c) (c_fails H c) (S (c_diags H c)) (c_ret H c)) s;
      R_stmt : forall c s st, R c s c (with_event (EvStmt H (s_depth H s) st) s);
      R_assert_ok : forall c s, R c s c (with_event (EvAssert H (s_depth H s) true) s);
      R_assert_fail : forall c s m,
        R c s (Ctx H (c_scopes H c) (c_emit H c) (c_fails H c ++ [m]) (c_diags H c) (c_ret H c))
              (with_event (EvAssert H (s_depth H s) false) s);
      R_emit : forall c s v md,
        R c s (Ctx H (c_scopes H c) (Some (v, md)) (c_fails H c) (c_diags H c) (c_ret H c))
              (with_event (EvEmit H (s_depth H s) v md) s);
      R_ret : forall c s, R c s (Ctx H (c_scopes H c) (c_emit H c) (c_fails H c) (c_diags H c) true) s }.
    Definition inv {A} (m : M A) : Prop := forall c s r c' s', m c s = (r, c', s') -> R c s c' s'.

    Hypothesis CL : closed_e.
    Lemma inv_ret {A} (a : A) : inv (ret H a).
    Proof. intros c s r c' s' E. inversion E; subst. apply R_refl; auto. Qed.
    Lemma inv_raise {A} e : inv (@raise H A e).
    Proof. intros c s r c' s' E. inversion E; subst. apply R_refl; auto. Qed.
    Lemma inv_rte {A} w : inv (@rte H A w).
    Proof. apply inv_raise. Qed.
    Lemma inv_bind {A B} (m : M A) (k : A -> M B) : inv m -> (forall a, inv (k a)) -> inv (bind H m k).
    Proof.
      intros Hm Hk c s r c' s' E. unfold bind in E. destruct (m c s) as [[x c1] s1] eqn:Em.
      pose proof (Hm _ _ _ _ _ Em) as R1. destruct x as [a|e|].
      - eapply R_trans; [exact CL|exact R1|]. eapply Hk; exact E.
      - inversion E; subst. exact R1.
      - inversion E; subst. exact R1.
    Qed.
    Lemma inv_lift {A} (f : W -> try A) : inv (lift H f).
    Proof. intros c s r c' s' E. inversion E; subst. apply R_refl; auto. Qed.
    Lemma inv_liftw {A} (f : W -> try A * W) : inv (liftw H f).
    Proof.
      intros c s r c' s' E. unfold liftw in E. destruct (f (s_world H s)) as [a w]. inversion E; subst.
      apply (R_world CL).
    Qed.
    Lemma inv_set n v : inv (set_variable H n v).
    Proof.
      intros c s r c' s' E. unfold set_variable in E. destruct (c_scopes H c) eqn:Es; inversion E; subst.
      - apply R_refl; auto.
      - eapply R_set; eauto.
    Qed.
    Lemma inv_scope {A} (m : M A) : inv m -> inv (new_scope H m).
    Proof.
      intros Hm c s r c' s' E. unfold new_scope in E.
      destruct (m _ s) as [[x c1] s1] eqn:Em. inversion E; subst. apply R_scope; auto. eapply Hm; eauto.
    Qed.
    Lemma inv_should : inv (should_return H).
    Proof. intros c s r c' s' E. inversion E; subst. apply R_refl; auto. Qed.
    Lemma inv_mapM {A B} (f : A -> M B) l : (forall a, inv (f a)) -> inv (mapM H f l).
    Proof.
      intros Hf. induction l as [|a l IH]; simpl; [apply inv_ret|].
      apply inv_bind; [apply Hf|]. intros b. apply inv_bind; [exact IH|]. intros; apply inv_ret.
    Qed.

    Ltac go := repeat first
      [ apply inv_ret | apply inv_raise | apply inv_rte | apply inv_lift | apply inv_liftw | apply inv_set | apply inv_should
      | apply inv_scope | (apply inv_mapM; intros)
      | (apply inv_bind; [|intros])
      | match goal with |- inv (if ?b then _ else _) => destruct b end
      | match goal with |- inv (match ?x with _ => _ end) => destruct x end ].

    Lemma inv_py_int d : inv (py_int H d). Proof. unfold py_int. go. Qed.
    Lemma inv_py_float d : inv (py_float H d). Proof. unfold py_float. go. Qed.
    Lemma inv_py_bool d : inv (py_bool H d). Proof. unfold py_bool. go. Qed.
    Lemma inv_py_str d : inv (py_str H d). Proof. unfold py_str. go. Qed.
    Lemma inv_int_val d : inv (int_val H d). Proof. unfold int_val. apply inv_bind; [apply inv_py_int|]. intros; go. Qed.
    Lemma inv_float_val d : inv (float_val H d). Proof. unfold float_val. apply inv_bind; [apply inv_py_float|]. intros; go. Qed.
    Lemma inv_truthy v : inv (truthy H v).
    Proof. unfold truthy, nonempty. destruct v; [|go]. destruct (tis t BOOL); [apply inv_py_bool|]. go. Qed.
    Lemma inv_py_arith op a b : inv (py_arith H op a b).
    Proof. unfold py_arith. go. Qed.
    Lemma inv_py_eq a b : inv (py_eq H a b). Proof. unfold py_eq. go. Qed.
    Lemma inv_py_cmp op a b : inv (py_cmp H op a b). Proof. unfold py_cmp. go. Qed.
    Lemma inv_py_index d i : inv (py_index H d i). Proof. unfold py_index. cbv zeta. go. Qed.
    Ltac go2 := repeat first
      [ match goal with |- forall _, inv _ => intro end | first
      [ apply inv_ret | apply inv_raise | apply inv_rte | apply inv_lift | apply inv_liftw
      | apply inv_py_int | apply inv_py_str | apply inv_int_val | apply inv_float_val
      | apply inv_truthy | apply inv_py_arith | apply inv_py_eq | apply inv_py_cmp | apply inv_py_index
      | apply inv_set | apply inv_should
      | apply inv_scope | (apply inv_mapM; intros)
      | (apply inv_bind; [|intros])
      | match goal with |- inv (if ?b then _ else _) => destruct b end
      | match goal with |- inv (match ?x with _ => _ end) => destruct x end
      | assumption | match goal with h : forall _, inv _ |- _ => apply h end ] ].
    Lemma inv_binop op l r : inv (binop H op l r). Proof. unfold binop. go2. Qed.
    Lemma inv_unop op v : inv (unop H op v). Proof. unfold unop. go2. Qed.
    Lemma inv_literal v t : inv (literal H v t). Proof. unfold literal. go2. Qed.

    Section OpenE.
      Variable ev : expr -> M V.
      Hypothesis Hev : forall e, inv (ev e).
    Lemma inv_fill ps : forall acc, inv (fill_defaults H ev ps acc).
    Proof. induction ps; simpl; intros; go2. Qed.
    Lemma inv_meta l : forall acc, inv (eval_meta H ev l acc).
    Proof. induction l as [|[k e] l IH]; simpl; intros; go2. Qed.
    Lemma inv_named ps l : inv (named_args H ev ps l).
    Proof. induction ps; simpl; go2. Qed.
    Lemma inv_conditions l : inv (conditions H ev l).
    Proof. induction l; simpl; go2. Qed.
    Lemma inv_clauses cls e : forall acc, inv (clauses H ev cls e acc).
    Proof.
      induction cls as [|[[x it] cs] cls IH]; simpl; intros acc; [go2|].
      apply inv_bind; [go2|]. intros v. apply inv_bind; [go2|]. intros o. destruct o as [items|]; [|go2].
      revert acc. induction items as [|i items IHi]; intros acc; [go2|].
      destruct (too_big H acc); [go2|]. apply inv_bind; [go2|]. intros _.
      apply inv_bind; [apply inv_conditions|]. intros b. destruct b; [|apply IHi].
      apply inv_bind; [apply IH|]. intros acc'. apply IHi.
    Qed.
    Lemma inv_dict l : forall acc, inv (dict_entries H ev l acc).
    Proof. induction l as [|[k e] l IH]; simpl; intros; go2. Qed.
    Lemma inv_arms v l : inv (match_arms H ev v l).
    Proof. induction l as [|[p e] l IH]; simpl; [go2|]. unfold pattern_matches. go2. Qed.
    End OpenE.

    Hypothesis CS : closed_s.
    Lemma inv_stmt_event st : inv (emit_event H (fun d => EvStmt H d st)).
    Proof. intros c s r c' s' E. inversion E; subst. apply (R_stmt CS). Qed.
    Lemma inv_update n v : inv (update_variable H n v).
    Proof.
      intros c s r c' s' E. unfold update_variable in E. destruct (update H n v (c_scopes H c)) eqn:Es; inversion E; subst.
      - eapply (R_update CS); eauto.
      - apply (R_diag CS).
    Qed.
    Lemma inv_sret : inv (signal_return H).
    Proof. intros c s r c' s' E. inversion E; subst. apply (R_ret CS). Qed.
    Section OpenS.
      Variables (ev : expr -> M V) (ex : stmt -> M unit).
      Hypothesis Hev : forall e, inv (ev e).
      Hypothesis Hex : forall s, inv (ex s).
    Ltac go3 := repeat first
      [ match goal with |- forall _, inv _ => intro end | first
      [ apply inv_ret | apply inv_raise | apply inv_rte | apply inv_lift | apply inv_liftw
      | apply inv_py_int | apply inv_py_str | apply inv_int_val | apply inv_float_val
      | apply inv_truthy | apply inv_py_arith | apply inv_py_eq | apply inv_py_cmp | apply inv_py_index
      | apply inv_set | apply inv_update | apply inv_sret | apply inv_stmt_event | apply inv_should
      | apply inv_scope | (apply inv_mapM; intros)
      | (apply inv_bind; [|intros])
      | match goal with |- inv (if ?b then _ else _) => destruct b end
      | match goal with |- inv (match ?x with _ => _ end) => destruct x end
      | assumption | match goal with h : forall _, inv _ |- _ => apply h end ] ].
    Lemma inv_stmts ss : inv (stmts H ex ss).
    Proof. induction ss; simpl; go3. Qed.
    Lemma inv_for x t b items : inv (for_items H ex x t b items).
    Proof. induction items; simpl; [go3|]. apply inv_bind; [go3|]. intros _. apply inv_bind; [apply inv_stmts|]. intros _. go3. Qed.
    Lemma inv_elifs l els : inv (exec_elifs H ev ex l els).
    Proof.
      induction l as [|[c b] l IH]; simpl; go3; apply inv_stmts.
    Qed.
    Lemma inv_exec_body st : inv (exec_body H ev ex st).
    Proof.
      destruct st; simpl exec_body.
      - destruct init; go3.
      - go3.
      - apply inv_bind; [go3|]. intros v. apply inv_bind; [go3|]. intros t c0 s r c' s' E.
        unfold bind, emit_event in E. destruct t; simpl in E; inversion E; subst.
        + apply (R_assert_ok CS).
        + apply (R_assert_fail CS).
      - apply inv_bind; [go3|]. intros w. apply inv_bind; [apply inv_meta; auto|]. intros md c s r c' s' E.
        unfold bind, emit_event, set_emit in E. inversion E; subst. apply (R_emit CS).
      - destruct v; go3.
      - go3.
      - unfold exec_for. apply inv_bind; [go3|]. intros v. apply inv_bind; [go3|]. intros o. destruct o; [|go3].
        apply inv_scope, inv_for.
      - go3.
      - apply inv_bind; [go3|]. intros v. apply inv_bind; [go3|]. intros b. destruct b; [apply inv_scope, inv_stmts|apply inv_elifs].
      - go3.
      - apply inv_bind.
        + intros c s r c' s' E. destruct (h_python H lexemes (namespace H (c_scopes H c)) (s_world H s)) as [o w].
          inversion E; subst. apply (R_world CL).
        + go3.
    Qed.
    End OpenS.
  End Prims.

  (** [Re] for expressions, [Rs] for statements. *)
  Variables (cmds : list fundef) (limit : Z).
  Variables Re Rs : ctx -> state -> ctx -> state -> Prop.
  Record closed : Prop := {
    CL_e : closed_e Re; CL_es : closed_e Rs; CL_s : closed_s Rs;
    CL_sub : forall c s c' s', Re c s c' s' -> Rs c s c' s';
    CL_call0 : forall c s c1 s1, s_depth H s < limit ->
        Re c (add_depth H 1 s) c1 s1 -> Re c s c1 (add_depth H (-1) s1);
    CL_call : forall c s c1 s1 f ps cc s2 w, s_depth H s < limit -> In f cmds ->
        Re c (add_depth H 1 s) c1 s1 ->
        Rs (create_context H ps) (with_event (EvEnter H (s_depth H s1) (f_name f)) s1) cc s2 ->
        Re c s c1 (add_depth H (-1) (with_world w s2)) }.
  Hypothesis CL : closed.
  Notation inve := (inv Re). Notation invs := (inv Rs).
  Section OpenC.
    Variables (ev : expr -> M V) (ex : stmt -> M unit).
    Hypothesis Hev : forall e, inve (ev e).
    Hypothesis Hex : forall s, invs (ex s).
    Let CE : closed_e Re := CL_e CL.
    Ltac go4 := repeat first
      [ match goal with |- forall _, inv _ _ => intro end | first
      [ apply (inv_ret _ CE) | apply (inv_raise _ CE) | apply (inv_rte _ CE) | apply (inv_lift _ CE) | apply (inv_liftw _ CE)
      | apply (inv_py_int _ CE) | apply (inv_truthy _ CE) | apply (inv_py_index _ CE)
      | (apply (inv_mapM _ CE); intros)
      | (apply (inv_bind _ CE); [|intros])
      | match goal with |- inv _ (if ?b then _ else _) => destruct b end
      | match goal with |- inv _ (match ?x with _ => _ end) => destruct x end
      | assumption | apply Hev ] ].
    Lemma inv_call_command f args : In f cmds -> inve (call_command H limit ev ex f args).
    Proof.
      intros Hf c s r c' s' E. unfold call_command in E.
      destruct (limit <? s_depth H (add_depth H 1 s)) eqn:El.
      - inversion E; subst. destruct s; unfold add_depth; cbn.
        replace (s_depth + 1 + -1) with s_depth by lia. apply (R_refl _ CE).
      - apply Z.ltb_ge in El. unfold add_depth in El; cbn in El.
        destruct ((_ <? _)%nat || (_ <? _)%nat).
        + cbn in E. inversion E; subst. apply (CL_call0 CL); [lia|]. apply (R_refl _ CE).
        + unfold bind in E. destruct (fill_defaults H ev _ _ c (add_depth H 1 s)) as [[x c1] s1] eqn:Ef.
          pose proof (inv_fill _ CE _ Hev _ _ _ _ _ _ _ Ef) as R1.
          destruct x as [ps|e|].
          * destruct (execute_command H ex f (create_context H ps) s1) as [[y cc] s2] eqn:Ec.
            assert (R2 : Rs (create_context H ps) (with_event (EvEnter H (s_depth H s1) (f_name f)) s1) cc s2).
            { unfold execute_command, bind, emit_event in Ec. cbn in Ec.
              eapply (inv_stmts _ (CL_es CL) (CL_s CL)); [|exact Ec]. exact Hex. }
            assert (Hd : s_depth H s < limit) by lia.
            destruct y as [u|e|].
            -- destruct (apply_meta H f cc (s_world H s2)) as [q w].
               destruct q; [destruct (c_emit H cc) as [[v md]|]|]; inversion E; subst;
                 exact (CL_call CL _ _ _ _ f ps _ _ w Hd Hf R1 R2).
            -- inversion E; subst.
               pose proof (CL_call CL _ _ _ _ f ps _ _ (s_world H s2) Hd Hf R1 R2) as R3.
               destruct s2; exact R3.
            -- inversion E; subst.
               pose proof (CL_call CL _ _ _ _ f ps _ _ (s_world H s2) Hd Hf R1 R2) as R3.
               destruct s2; exact R3.
          * inversion E; subst. apply (CL_call0 CL); [lia|exact R1].
          * inversion E; subst. apply (CL_call0 CL); [lia|exact R1].
    Qed.
    Lemma inv_call f args named : inve (call H cmds limit ev ex f args named).
    Proof.
      unfold call. apply (inv_bind _ CE); [go4|]. intros vs. destruct f; try apply (inv_rte _ CE).
      intros c s r c' s' E. destruct (existsb _ _); [eapply (inv_liftw _ CE); exact E|].
      destruct (find_command cmds n) as [f|] eqn:Ef; [|eapply (inv_liftw _ CE); exact E].
      assert (In f cmds) by (apply find_some in Ef; tauto).
      destruct named as [|nm named]; [eapply inv_call_command; eauto|].
      destruct vs; [|eapply inv_call_command; eauto].
      eapply (inv_bind _ CE); [apply (inv_named _ CE _ Hev)| |exact E]. intros a. apply inv_call_command; auto.
    Qed.
    Lemma inv_eval_body e : inve (eval_body H cmds limit ev ex e).
    Proof.
      destruct e; simpl eval_body.
      - apply (inv_literal _ CE).
      - intros c s r c' s' E. destruct (lookup H n (c_scopes H c)); inversion E; subst; apply (R_refl _ CE).
      - apply (inv_bind _ CE); [go4|]. intros. apply (inv_bind _ CE); [go4|]. intros. apply (inv_binop _ CE).
      - apply (inv_bind _ CE); [go4|]. intros. apply (inv_unop _ CE).
      - apply inv_call.
      - go4.
      - go4.
      - go4.
      - destruct l; go4.
      - unfold comprehension. destruct (_ <? _)%nat; [go4|].
        apply (inv_bind _ CE); [apply (inv_scope _ CE), (inv_clauses _ CE _ Hev)|]. go4.
      - go4.
      - go4.
      - go4.
      - apply (inv_bind _ CE); [go4|]. intros. apply (inv_arms _ CE _ Hev).
      - go4.
      - apply (inv_bind _ CE); [apply (inv_dict _ CE _ Hev)|]. go4.
    Qed.
  End OpenC.

  Lemma run_inv fuel :
    (forall e, inve (eval H cmds limit fuel e)) /\ (forall st, invs (exec H cmds limit fuel st)).
  Proof.
    induction fuel as [|n [IHe IHs]]; split.
    - intros e c s r c' s' E. inversion E; subst. apply (R_refl _ (CL_e CL)).
    - intros e c s r c' s' E. inversion E; subst. apply (R_refl _ (CL_es CL)).
    - intros e. apply inv_eval_body; auto.
    - intros e. apply (inv_exec_body _ (CL_es CL) (CL_s CL)); auto.
      intros e0 c s r c' s' E. apply (CL_sub CL). eapply IHe; eauto.
  Qed.
  Lemma wrap_inv fuel ps given : forall acc,
    inve (wrap_parameters H (eval H cmds limit fuel) ps given acc).
  Proof.
    induction ps as [|p ps IH]; intros acc; simpl; [apply (inv_ret _ (CL_e CL))|].
    destruct (dget name_eqb (p_name p) given); [apply IH|]. destruct (p_default p); [|apply IH].
    apply (inv_bind _ (CL_e CL)); auto. apply run_inv; auto.
  Qed.
  Lemma command_inv fuel f c s r c' s' :
    execute_command H (exec H cmds limit fuel) f c s = (r, c', s') ->
    Rs c (with_event (EvEnter H (s_depth H s) (f_name f)) s) c' s'.
  Proof.
    intros E. unfold execute_command, bind, emit_event in E. cbn in E.
    eapply (inv_stmts _ (CL_es CL) (CL_s CL)); [|exact E]. apply run_inv; auto.
  Qed.
End Inv.
