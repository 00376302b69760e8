(** More fuel changes nothing. *)
From Coq Require Import ZArith String List Bool Lia.
From Verif Require Import Dict Lex_Model Ast Types_Model Interp_Model Interp_Proofs Interp_Spec Interp_Proofs4.
Import ListNotations.
Open Scope Z_scope.
Open Scope list_scope.

Section Mono.
  Variable H : host.
  Notation D := (data (hF H) (hO H)).
  Notation V := (rval (hF H) (hO H)).
  Notation M := (M H).
  Definition le {A} (m m' : M A) : Prop := forall c s, fst (fst (m c s)) <> NoFuel -> m' c s = m c s.
  Lemma le_refl {A} (m : M A) : le m m. Proof. intros c s _. reflexivity. Qed.
  Lemma le_bind {A B} (m m' : M A) (k k' : A -> M B) : le m m' -> (forall a, le (k a) (k' a)) -> le (bind H m k) (bind H m' k').
  Proof.
    intros Hm Hk c s E. unfold bind in *. specialize (Hm c s). destruct (m c s) as [[x c1] s1]. cbn in Hm.
    destruct x; cbn in E.
    - rewrite Hm by discriminate. apply Hk. exact E.
    - rewrite Hm by discriminate. reflexivity.
    - congruence.
  Qed.
  Lemma le_scope {A} (m m' : M A) : le m m' -> le (new_scope H m) (new_scope H m').
  Proof.
    intros Hm c s E. unfold new_scope in *. specialize (Hm (set_scopes H ([] :: c_scopes H c) c) s).
    destruct (m _ s) as [[x c1] s1]. cbn in *. rewrite Hm by exact E. reflexivity.
  Qed.
  Ltac les := repeat first
    [ match goal with |- forall _, le _ _ => intro end
    | apply le_refl | assumption
    | (apply le_bind; [|intros])
    | match goal with |- le (if ?b then _ else _) (if ?b then _ else _) => destruct b end
    | match goal with |- le (match ?x with _ => _ end) (match ?x with _ => _ end) => destruct x end
    | match goal with h : forall _, le _ _ |- _ => apply h end ].
  Variables (cmds : list fundef) (limit : Z).
  Section Open.
    Variables (ev ev' : expr -> M V) (ex ex' : stmt -> M unit).
    Hypothesis Hev : forall e, le (ev e) (ev' e).
    Hypothesis Hex : forall s, le (ex s) (ex' s).
    Lemma le_mapM es : le (mapM H ev es) (mapM H ev' es).
    Proof. induction es; cbn; les. Qed.
    Lemma le_conditions es : le (conditions H ev es) (conditions H ev' es).
    Proof. induction es; cbn; les. Qed.
    Lemma le_meta l : forall acc, le (eval_meta H ev l acc) (eval_meta H ev' l acc).
    Proof. induction l as [|[k e] l IH]; cbn; intros; les. Qed.
    Lemma le_dict l : forall acc, le (dict_entries H ev l acc) (dict_entries H ev' l acc).
    Proof. induction l as [|[k e] l IH]; cbn; intros; les. Qed.
    Lemma le_stmts ss : le (stmts H ex ss) (stmts H ex' ss).
    Proof. induction ss; cbn; les. Qed.
    Lemma le_for x t b items : le (for_items H ex x t b items) (for_items H ex' x t b items).
    Proof. induction items; cbn; les. apply le_stmts. Qed.
    Lemma le_elifs els l : le (exec_elifs H ev ex l els) (exec_elifs H ev' ex' l els).
    Proof. induction l as [|[c b] l IH]; cbn; les; apply le_scope, le_stmts. Qed.
    Lemma le_fill ps : forall acc, le (fill_defaults H ev ps acc) (fill_defaults H ev' ps acc).
    Proof. induction ps; cbn; intros; les. Qed.
    Lemma le_call_command f args : le (call_command H limit ev ex f args) (call_command H limit ev' ex' f args).
    Proof.
      intros c s E. unfold call_command in *. destruct (limit <? s_depth H (add_depth H 1 s)); [reflexivity|].
      destruct ((_ <? _)%nat || (_ <? _)%nat); [reflexivity|]. unfold bind in *.
      pose proof (le_fill (skipn (Datatypes.length args) (f_params f)) (bind_args H (f_params f) args) c (add_depth H 1 s)) as Hf.
      destruct (fill_defaults H ev _ _ c (add_depth H 1 s)) as [[x c1] s1]. cbn in Hf.
      destruct x as [ps|e|]; [| |cbn in E; congruence].
      - rewrite Hf by discriminate. unfold execute_command, bind, emit_event in *. cbn in *.
        pose proof (le_stmts (b_stmts (f_body f)) (create_context H ps)
          (State H (s_world H s1) (s_depth H s1) (s_natives H s1) (s_log H s1 ++ [EvEnter H (s_depth H s1) (f_name f)]))) as Hb.
        destruct (stmts H ex _ _ _) as [[y cc] s2]. cbn in Hb.
        destruct y; [rewrite Hb by discriminate; reflexivity|rewrite Hb by discriminate; reflexivity|cbn in E; congruence].
      - rewrite Hf by discriminate. reflexivity.
    Qed.
    Lemma le_named l ps : le (named_args H ev ps l) (named_args H ev' ps l).
    Proof. induction ps; cbn; les. Qed.
    Lemma le_call f args named : le (call H cmds limit ev ex f args named) (call H cmds limit ev' ex' f args named).
    Proof.
      unfold call. apply le_bind; [apply le_mapM|]. intros vs. destruct f; try apply le_refl.
      intros c s E. destruct (existsb _ _); [reflexivity|]. destruct (find_command cmds n) as [f|]; [|reflexivity].
      destruct named; [apply le_call_command; exact E|]. destruct vs; [|apply le_call_command; exact E].
      revert E. apply le_bind; [apply le_named|]. intros. apply le_call_command.
    Qed.
    Lemma le_clauses e cls : forall acc, le (clauses H ev cls e acc) (clauses H ev' cls e acc).
    Proof.
      induction cls as [|[[x it] cs] cls IH]; intros acc; cbn [clauses]; [les|].
      apply le_bind; [les|]. intros v. apply le_bind; [les|]. intros o. destruct o as [items|]; [|les].
      revert acc. induction items as [|i items IHi]; intros acc; [les|]. destruct (too_big H acc); [les|].
      apply le_bind; [les|]. intros _. apply le_bind; [apply le_conditions|]. intros b. destruct b; [|apply IHi].
      apply le_bind; [apply IH|]. intros. apply IHi.
    Qed.
    Lemma le_arms v l : le (match_arms H ev v l) (match_arms H ev' v l).
    Proof. induction l as [|[p e] l IH]; cbn; les. Qed.
    Lemma le_eval_body e : le (eval_body H cmds limit ev ex e) (eval_body H cmds limit ev' ex' e).
    Proof.
      destruct e; cbn [eval_body]; try (les; fail).
      - apply le_call.
      - apply le_bind; [les|]. intros. apply le_bind; [apply le_mapM|]. les.
      - destruct l; [les|]. apply le_bind; [apply le_mapM|]. les.
      - unfold comprehension. destruct (_ <? _)%nat; [les|]. apply le_bind; [apply le_scope, le_clauses|]. les.
      - apply le_bind; [les|]. intros. apply le_arms.
      - apply le_bind; [apply le_dict|]. les.
    Qed.
    Lemma le_exec_body s : le (exec_body H ev ex s) (exec_body H ev' ex' s).
    Proof.
      destruct s; cbn [exec_body]; try (les; fail).
      - apply le_bind; [les|]. intros. apply le_bind; [apply le_meta|]. les.
      - unfold exec_for. apply le_bind; [les|]. intros v. apply le_bind; [les|]. intros o. destruct o; [|les].
        apply le_scope, le_for.
      - apply le_bind; [les|]. intros. apply le_bind; [les|]. intros b. destruct b; [apply le_scope, le_stmts|apply le_elifs].
    Qed.
  End Open.
  Lemma le_step n : (forall e, le (eval H cmds limit n e) (eval H cmds limit (S n) e)) /\
    (forall s, le (exec H cmds limit n s) (exec H cmds limit (S n) s)).
  Proof.
    induction n as [|n [IHe IHs]]; split; intros x.
    - intros c s E. cbn in E. congruence.
    - intros c s E. cbn in E. congruence.
    - apply le_eval_body; auto.
    - apply le_exec_body; auto.
  Qed.
  Lemma le_trans {A} (a b c : M A) : le a b -> le b c -> le a c.
  Proof. intros H1 H2 x s E. specialize (H1 x s E). rewrite <- H1. apply H2. rewrite H1. exact E. Qed.
  Lemma le_fuel n k : (n <= k)%nat -> (forall e, le (eval H cmds limit n e) (eval H cmds limit k e)) /\
    (forall s, le (exec H cmds limit n s) (exec H cmds limit k s)).
  Proof.
    induction 1 as [|k Hk [IHe IHs]]; [split; intros; apply le_refl|].
    split; intros x; eapply le_trans; [apply IHe|apply le_step|apply IHs|apply le_step].
  Qed.
  Lemma le_wrap ev ev' ps given : (forall e, le (ev e) (ev' e)) -> forall acc,
    le (wrap_parameters H ev ps given acc) (wrap_parameters H ev' ps given acc).
  Proof. intros He. induction ps; cbn; intros; les. Qed.
End Mono.

Lemma execute_mono H limit n k m cmd given s :
  (n <= k)%nat -> fst (execute H limit n m cmd given s) <> OutOfFuel H ->
  execute H limit k m cmd given s = execute H limit n m cmd given s.
Proof.
  intros Hk. destruct (le_fuel H (m_funs m) limit n k Hk) as [He Hs]. unfold execute.
  destruct (native_blocks H (m_blocks m) s) as [ok s0]. destruct ok; cbn [negb]; [|reflexivity].
  destruct (find_command (m_funs m) cmd) as [f|]; [|reflexivity].
  pose proof (le_wrap H _ _ (f_params f) given He [] (create_context H []) s0) as Hw.
  destruct (wrap_parameters H (eval H (m_funs m) limit n) _ _ _ _ _) as [[x c1] s1]. cbn in Hw.
  destruct x as [ps|e|]; [| |intros E; exfalso; apply E; reflexivity].
  - rewrite Hw by discriminate. intros E. unfold execute_command, bind, emit_event in *. cbn in *.
    pose proof (le_stmts H _ _ Hs (b_stmts (f_body f)) (create_context H ps)
      (State H (s_world H s1) (s_depth H s1) (s_natives H s1) (s_log H s1 ++ [EvEnter H (s_depth H s1) (f_name f)]))) as Hb.
    destruct (stmts H _ _ _ _) as [[y cc] s2]. cbn in Hb.
    destruct y; [rewrite Hb by discriminate; reflexivity|rewrite Hb by discriminate; reflexivity|cbn in E; congruence].
  - rewrite Hw by discriminate. reflexivity.
Qed.
