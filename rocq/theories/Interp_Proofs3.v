(** Scoping: which variables a statement or an expression can define or change. *)
From Coq Require Import ZArith String List Bool Lia.
From Verif Require Import Dict Lex_Model Ast Types_Model Interp_Model Interp_Proofs Interp_Spec.
Import ListNotations.
Open Scope Z_scope.
Open Scope list_scope.

Lemma name_eqb_spec a : forall b, name_eqb a b = true <-> a = b.
Proof.
  induction a as [|x a IH]; intros [|y b]; cbn; try (split; congruence).
  rewrite andb_true_iff, Z.eqb_eq, IH. split; [intros [-> ->]; auto|intros E; inversion E; auto].
Qed.

Section Scope.
  Variable H : host.
  Variables (cmds : list fundef) (limit : Z).
  Notation D := (data (hF H) (hO H)).
  Notation V := (rval (hF H) (hO H)).
  Notation ctx := (ctx H). Notation M := (M H).
  Notation sget := (sget H). Notation sset := (sset H).
  Notation N := (default_binds cmds).

  Lemma sget_set n m v sc : sget n (sset m v sc) = if name_eqb n m then Some v else sget n sc.
  Proof. apply dget_set. intros; apply name_eqb_spec. Qed.
  Lemma sget_set_other n m v sc : n <> m -> sget n (sset m v sc) = sget n sc.
  Proof. rewrite sget_set. intros Hn. destruct (name_eqb n m) eqn:E; auto. apply name_eqb_spec in E. congruence. Qed.

  Definition SE (B : list name) (c c' : ctx) : Prop :=
    forall sc ss, c_scopes H c = sc :: ss -> exists sc', c_scopes H c' = sc' :: ss /\
      forall n, ~ In n B -> ~ In n N -> sget n sc' = sget n sc.
  Definition se {A} (B : list name) (m : M A) : Prop := forall c s r c' s', m c s = (r, c', s') -> SE B c c'.

  Lemma SE_refl B c : SE B c c. Proof. intros sc ss E. exists sc. auto. Qed.
  Lemma SE_trans B c1 c2 c3 : SE B c1 c2 -> SE B c2 c3 -> SE B c1 c3.
  Proof.
    intros H1 H2 sc ss E. destruct (H1 _ _ E) as (sc1 & E1 & G1). destruct (H2 _ _ E1) as (sc2 & E2 & G2).
    exists sc2. split; auto. intros n Hn Hn'. rewrite G2, G1; auto.
  Qed.
  Lemma SE_mono B B' c c' : incl B B' -> SE B c c' -> SE B' c c'.
  Proof. intros Hi H1 sc ss E. destruct (H1 _ _ E) as (sc1 & E1 & G1). exists sc1. split; auto. Qed.
  Lemma se_mono {A} B B' (m : M A) : se B m -> incl B B' -> se B' m.
  Proof. intros H1 Hi c s r c' s' E. eapply SE_mono; eauto. Qed.
  Lemma se_bind {A C} B (m : M A) (k : A -> M C) : se B m -> (forall a, se B (k a)) -> se B (bind H m k).
  Proof.
    intros Hm Hk c s r c' s' E. unfold bind in E. destruct (m c s) as [[x c1] s1] eqn:Em.
    pose proof (Hm _ _ _ _ _ Em). destruct x.
    - eapply SE_trans; eauto. eapply Hk; eauto.
    - inversion E; subst; auto.
    - inversion E; subst; auto.
  Qed.
  (** Operations that leave the context alone. *)
  Definition pure_c {A} (m : M A) : Prop := forall c s r c' s', m c s = (r, c', s') -> c' = c.
  Lemma pure_se {A} B (m : M A) : pure_c m -> se B m.
  Proof. intros Hp c s r c' s' E. apply Hp in E. subst. apply SE_refl. Qed.
  Lemma pc_any {A} (m : M A) : inv H (fun c _ c' _ => c' = c) m -> pure_c m.
  Proof. auto. Qed.

  Lemma se_set B n v : In n B -> se B (set_variable H n v).
  Proof.
    intros Hn c s r c' s' E sc ss Es. unfold set_variable in E. rewrite Es in E. inversion E; subst. cbn.
    eexists; split; [reflexivity|]. intros m Hm _. apply sget_set_other. intros ->. auto.
  Qed.
  Lemma last_n_app {A} (a b : list A) : last_n (List.length b) (a ++ b) = b.
  Proof.
    unfold last_n. rewrite app_length. replace (List.length a + List.length b - List.length b)%nat with (List.length a) by lia.
    rewrite skipn_app, Nat.sub_diag, skipn_all. reflexivity.
  Qed.
  Lemma se_scope {A} B B' (m : M A) : se B m -> se B' (new_scope H m).
  Proof.
    intros Hm c s r c' s' E sc ss Es. unfold new_scope in E.
    destruct (m (set_scopes H ([] :: c_scopes H c) c) s) as [[x c1] s1] eqn:Em. inversion E; subst. cbn.
    destruct (Hm _ _ _ _ _ Em [] (c_scopes H c)) as (sc1 & E1 & _); [reflexivity|].
    rewrite E1, Es. exists sc. split; [apply (last_n_app [sc1])|auto].
  Qed.

  Ltac pp := intros c s r c' s' E; inversion E; subst; auto.
  Lemma pc_ret {A} (a : A) : pure_c (ret H a). Proof. pp. Qed.
  Lemma pc_raise {A} e : pure_c (@raise H A e). Proof. pp. Qed.
  Lemma pc_rte {A} e : pure_c (@rte H A e). Proof. pp. Qed.
  Lemma pc_lift {A} f : pure_c (@lift H A f). Proof. pp. Qed.
  Lemma pc_liftw {A} f : pure_c (@liftw H A f).
  Proof. intros c s r c' s' E. unfold liftw in E. destruct (f (s_world H s)). inversion E; auto. Qed.
  Lemma pc_event f : pure_c (emit_event H f). Proof. pp. Qed.
  Lemma pc_should : pure_c (should_return H). Proof. pp. Qed.
  Lemma pc_bind {A B} (m : M A) (k : A -> M B) : pure_c m -> (forall a, pure_c (k a)) -> pure_c (bind H m k).
  Proof.
    intros Hm Hk c s r c' s' E. unfold bind in E. destruct (m c s) as [[x c1] s1] eqn:Em.
    apply Hm in Em. subst c1. destruct x; [eapply Hk; eauto|inversion E; auto..].
  Qed.
  Ltac pcs := repeat first
    [ apply pc_ret | apply pc_raise | apply pc_rte | apply pc_lift | apply pc_liftw
    | (apply pc_bind; [|intros])
    | match goal with |- pure_c (if ?b then _ else _) => destruct b end
    | match goal with |- pure_c (match ?x with _ => _ end) => destruct x end ].
  Lemma pc_py_int d : pure_c (py_int H d). Proof. unfold py_int. pcs. Qed.
  Lemma pc_py_float d : pure_c (py_float H d). Proof. unfold py_float. pcs. Qed.
  Lemma pc_int_val d : pure_c (int_val H d). Proof. unfold int_val, py_int. pcs. Qed.
  Lemma pc_float_val d : pure_c (float_val H d). Proof. unfold float_val, py_float. pcs. Qed.
  Lemma pc_truthy v : pure_c (truthy H v). Proof. unfold truthy, nonempty, py_bool. pcs. Qed.
  Lemma pc_py_arith op a b : pure_c (py_arith H op a b). Proof. unfold py_arith. pcs. Qed.
  Lemma pc_py_eq a b : pure_c (py_eq H a b). Proof. unfold py_eq. pcs. Qed.
  Lemma pc_py_cmp op a b : pure_c (py_cmp H op a b). Proof. unfold py_cmp. pcs. Qed.
  Lemma pc_py_str d : pure_c (py_str H d). Proof. unfold py_str. pcs. Qed.
  Lemma pc_py_index d i : pure_c (py_index H d i). Proof. unfold py_index. cbv zeta. pcs. Qed.
  Lemma pc_binop op l r : pure_c (binop H op l r).
  Proof.
    unfold binop. repeat first [apply pc_truthy | apply pc_py_arith | apply pc_py_eq | apply pc_py_cmp | apply pc_py_str
      | apply pc_py_int | apply pc_py_float | apply pc_int_val | apply pc_float_val | progress pcs].
  Qed.
  Lemma pc_unop op v : pure_c (unop H op v).
  Proof. unfold unop. repeat first [apply pc_truthy | apply pc_py_int | apply pc_py_float | apply pc_int_val | apply pc_float_val | progress pcs]. Qed.
  Lemma pc_literal v t : pure_c (literal H v t). Proof. unfold literal. pcs. Qed.

  Ltac ses := repeat first
    [ match goal with |- forall _, se _ _ => intro end
    | apply pure_se; first [ apply pc_ret | apply pc_raise | apply pc_rte | apply pc_lift | apply pc_liftw | apply pc_event
        | apply pc_should | apply pc_py_int | apply pc_truthy | apply pc_py_index | apply pc_binop | apply pc_unop | apply pc_literal
        | apply pc_py_eq ]
    | (apply se_bind; [|intros])
    | match goal with |- se _ (if ?b then _ else _) => destruct b end
    | match goal with |- se _ (match ?x with _ => _ end) => destruct x end ].
  Ltac inc := first [apply incl_refl | unfold incl; intros ? ?; rewrite ?in_app_iff; cbn; tauto].

  Section OpenE.
    Variables (ev : expr -> M V) (ex : stmt -> M unit).
    Hypothesis Hev : forall e, se (binds e) (ev e).
    Lemma ev_in B e : incl (binds e) B -> se B (ev e).
    Proof. intros. eapply se_mono; eauto. Qed.
    Lemma se_mapM B es : incl (flat_map binds es) B -> se B (mapM H ev es).
    Proof.
      induction es as [|e es IH]; cbn; intros Hi; [ses|].
      apply se_bind; [apply ev_in; intros x Hx; apply Hi, in_or_app; auto|]. intros.
      apply se_bind; [apply IH; intros x Hx; apply Hi, in_or_app; auto|]. ses.
    Qed.
    Lemma se_conditions B cs : incl (flat_map binds cs) B -> se B (conditions H ev cs).
    Proof.
      induction cs as [|e es IH]; cbn; intros Hi; [ses|].
      apply se_bind; [apply ev_in; intros x Hx; apply Hi, in_or_app; auto|]. intros.
      ses. apply IH; intros x Hx; apply Hi, in_or_app; auto.
    Qed.
    Lemma se_meta B l : forall acc, incl (flat_map (fun ne => binds (snd ne)) l) B -> se B (eval_meta H ev l acc).
    Proof.
      induction l as [|[k e] l IH]; cbn; intros acc Hi; [ses|].
      apply se_bind; [apply ev_in; intros x Hx; apply Hi, in_or_app; auto|]. intros.
      apply IH; intros x Hx; apply Hi, in_or_app; auto.
    Qed.
    Lemma se_dict B l : forall acc, incl (flat_map (fun ne => binds (snd ne)) l) B -> se B (dict_entries H ev l acc).
    Proof.
      induction l as [|[k e] l IH]; cbn; intros acc Hi; [ses|].
      apply se_bind; [apply ev_in; intros x Hx; apply Hi, in_or_app; auto|]. intros.
      apply IH; intros x Hx; apply Hi, in_or_app; auto.
    Qed.
    Lemma ev_default B f p e : In f cmds -> In p (f_params f) -> p_default p = Some e -> se B (ev e).
    Proof.
      intros Hf Hp He c s r c' s' E sc ss Es. destruct (Hev e _ _ _ _ _ E _ _ Es) as (sc' & E' & G).
      exists sc'. split; auto. intros n Hn Hn'. apply G; auto. intros Hin. apply Hn'.
      unfold default_binds. apply in_flat_map. exists f. split; auto. apply in_flat_map. exists p. split; auto.
      rewrite He. exact Hin.
    Qed.
    Lemma se_fill B f : In f cmds -> forall ps acc, incl ps (f_params f) -> se B (fill_defaults H ev ps acc).
    Proof.
      intros Hf. induction ps as [|p ps IH]; intros acc Hi; cbn; [ses|].
      destruct (p_default p) eqn:Ep.
      - apply se_bind; [eapply ev_default; eauto; apply Hi; left; auto|]. intros. apply IH. intros x Hx; apply Hi; right; auto.
      - apply IH. intros x Hx; apply Hi; right; auto.
    Qed.
    Lemma dget_in_name {T} n (l : list (name * T)) v : dget name_eqb n l = Some v -> In (n, v) l.
    Proof.
      induction l as [|[k w] l IH]; cbn; [discriminate|]. destruct (name_eqb n k) eqn:E; auto.
      intros E1. inversion E1; subst. apply name_eqb_spec in E. subst. auto.
    Qed.
    Lemma se_named B f named : In f cmds -> incl (flat_map (fun ne => binds (snd ne)) named) B ->
      forall ps, incl ps (f_params f) -> se B (named_args H ev ps named).
    Proof.
      intros Hf Hn. induction ps as [|p ps IH]; intros Hi; cbn; [ses|].
      apply se_bind.
      - destruct (dget name_eqb (p_name p) named) eqn:Eg.
        + apply ev_in. intros x Hx. apply Hn. apply in_flat_map. apply dget_in_name in Eg. eexists; split; [exact Eg|auto].
        + destruct (p_default p) eqn:Ep; [|ses]. eapply ev_default; eauto; apply Hi; left; auto.
      - intros. apply se_bind; [apply IH; intros x Hx; apply Hi; right; auto|]. ses.
    Qed.
    Lemma incl_skipn {A} n (l : list A) : incl (skipn n l) l.
    Proof. intros x Hx. rewrite <- (firstn_skipn n l). apply in_or_app; auto. Qed.
    Lemma se_call_command B f args : In f cmds -> se B (call_command H limit ev ex f args).
    Proof.
      intros Hf c s r c' s' E. unfold call_command in E.
      destruct (limit <? s_depth H (add_depth H 1 s)); [inversion E; subst; apply SE_refl|].
      destruct ((_ <? _)%nat || (_ <? _)%nat); [cbn in E; inversion E; subst; apply SE_refl|].
      unfold bind in E. destruct (fill_defaults H ev _ _ c (add_depth H 1 s)) as [[x c1] s1] eqn:Ef.
      eapply (se_fill B f Hf) in Ef; [|apply incl_skipn].
      assert (c' = c1); [|subst; auto].
      destruct x; [|inversion E; auto..].
      destruct (execute_command H ex f (create_context H a) s1) as [[y cc] s2].
      destruct y; [|inversion E; auto..].
      destruct (apply_meta H f cc (s_world H s2)) as [[q|q] w]; [|inversion E; auto].
      destruct (c_emit H cc) as [[v md]|]; inversion E; auto.
    Qed.
    Lemma se_call f args named : se (flat_map binds args ++ flat_map (fun ne => binds (snd ne)) named)
      (call H cmds limit ev ex f args named).
    Proof.
      unfold call. apply se_bind; [apply se_mapM; inc|]. intros vs. destruct f; ses.
      intros c s r c' s' E. destruct (existsb _ _); [eapply pure_se; [apply pc_liftw|exact E]|].
      destruct (find_command cmds n) as [f|] eqn:Ef; [|eapply pure_se; [apply pc_liftw|exact E]].
      assert (Hf : In f cmds) by (apply find_some in Ef; tauto).
      destruct named as [|nm named]; [eapply se_call_command; eauto|].
      destruct vs; [|eapply se_call_command; eauto].
      eapply se_bind; [| |exact E]; [eapply se_named; eauto; [inc|apply incl_refl]|]. intros a. apply se_call_command; auto.
    Qed.
    Fixpoint cl_names (cls : list (name * expr * list expr)) : list name :=
      match cls with [] => [] | (x, it, cs) :: cls => x :: binds it ++ flat_map binds cs ++ cl_names cls end.
    Lemma se_clauses B e : incl (binds e) B -> forall cls acc, incl (cl_names cls) B -> se B (clauses H ev cls e acc).
    Proof.
      intros He. induction cls as [|[[x it] cs] cls IH]; cbn; intros acc Hi.
      - ses; apply ev_in; auto.
      - apply se_bind; [apply ev_in; intros y Hy; apply Hi; right; apply in_or_app; auto|]. intros v.
        apply se_bind; [ses|]. intros o. destruct o as [items|]; [|ses].
        revert acc. induction items as [|i items IHi]; intros acc; [ses|].
        match goal with |- se _ (if ?b then _ else _) => destruct b end; [ses|]. apply se_bind; [apply se_set, Hi; left; auto|]. intros _.
        apply se_bind.
        { apply se_conditions. intros y Hy; apply Hi; right; apply in_or_app; right; apply in_or_app; auto. }
        intros b. destruct b; [|apply IHi].
        apply se_bind; [apply IH; intros y Hy; apply Hi; right; apply in_or_app; right; apply in_or_app; auto|].
        intros acc'. apply IHi.
    Qed.
    Lemma se_arms B v l : incl (flat_map (fun pe => match fst pe with PId n => [n] | _ => [] end ++ binds (snd pe)) l) B ->
      se B (match_arms H ev v l).
    Proof.
      induction l as [|[p e] l IH]; cbn; intros Hi; [ses|].
      apply se_bind.
      - unfold pattern_matches. destruct p; ses. apply se_set. apply Hi. cbn. auto.
      - intros b. destruct b; [apply ev_in|apply IH]; intros x Hx; apply Hi; rewrite !in_app_iff; auto.
    Qed.
    Lemma se_eval_body e : se (binds e) (eval_body H cmds limit ev ex e).
    Proof.
      destruct e; simpl eval_body; cbn [binds].
      - ses.
      - intros c s r c' s' E. destruct (lookup H n (c_scopes H c)); inversion E; subst; apply SE_refl.
      - ses; apply ev_in; inc.
      - ses. apply ev_in; inc.
      - apply se_call.
      - apply se_bind; [apply ev_in; inc|]. intros. apply se_bind; [apply se_mapM; inc|]. ses.
      - ses; apply ev_in; inc.
      - ses; apply ev_in; inc.
      - destruct l; [ses|]. apply se_bind; [apply se_mapM; inc|]. ses.
      - unfold comprehension. destruct (_ <? _)%nat; [ses|].
        apply se_bind; [|ses]. apply se_scope with (B := binds e ++ cl_names clauses). apply se_clauses; inc.
      - ses; apply ev_in; inc.
      - ses; apply ev_in; inc.
      - ses; apply ev_in; inc.
      - apply se_bind; [apply ev_in; inc|]. intros. apply se_arms; inc.
      - ses.
      - apply se_bind; [apply se_dict; inc|]. ses.
    Qed.
  End OpenE.

  (** Statements. *)
  Definition chg (As : list name) (a b : scope H) : Prop :=
    forall n, (~ In n As -> sget n b = sget n a) /\ (sget n b = None <-> sget n a = None).
  Definition SS (Dn As : list name) (c c' : ctx) : Prop :=
    forall sc ss, c_scopes H c = sc :: ss -> exists sc' ss', c_scopes H c' = sc' :: ss' /\ Forall2 (chg As) ss ss' /\
      forall n, ~ In n Dn -> ~ In n N ->
        (~ In n As -> sget n sc' = sget n sc) /\ (sget n sc' = None <-> sget n sc = None).
  Definition sm {A} Dn As (m : M A) : Prop := forall c s r c' s', m c s = (r, c', s') -> SS Dn As c c'.
  Lemma chg_refl As a : chg As a a. Proof. intros n; tauto. Qed.
  Lemma chg_trans As a b c : chg As a b -> chg As b c -> chg As a c.
  Proof.
    intros H1 H2 n. destruct (H1 n) as [A1 B1], (H2 n) as [A2 B2]. split; [intros Hn; rewrite A2, A1; auto|tauto].
  Qed.
  Lemma F2_refl As l : Forall2 (chg As) l l. Proof. induction l; constructor; auto. apply chg_refl. Qed.
  Lemma F2_trans As l : forall m k, Forall2 (chg As) l m -> Forall2 (chg As) m k -> Forall2 (chg As) l k.
  Proof.
    induction l as [|a l IH]; intros m k H1 H2; inversion H1; subst; inversion H2; subst; constructor; eauto.
    eapply chg_trans; eauto.
  Qed.
  Lemma F2_len As l m : Forall2 (chg As) l m -> List.length l = List.length m.
  Proof. induction 1; cbn; auto. Qed.
  Lemma SS_refl Dn As c : SS Dn As c c.
  Proof. intros sc ss E. exists sc, ss. split; auto. split; [apply F2_refl|tauto]. Qed.
  Lemma SS_trans Dn As c1 c2 c3 : SS Dn As c1 c2 -> SS Dn As c2 c3 -> SS Dn As c1 c3.
  Proof.
    intros H1 H2 sc ss E. destruct (H1 _ _ E) as (sc1 & ss1 & E1 & F1 & G1). destruct (H2 _ _ E1) as (sc2 & ss2 & E2 & F2 & G2).
    exists sc2, ss2. split; auto. split; [eapply F2_trans; eauto|]. intros n Hn Hn'.
    destruct (G1 n Hn Hn') as [A1 B1], (G2 n Hn Hn') as [A2 B2]. split; [intros Hx; rewrite A2, A1; auto|tauto].
  Qed.
  Lemma SE_SS B Dn As c c' : incl B Dn -> SE B c c' -> SS Dn As c c'.
  Proof.
    intros Hi H1 sc ss E. destruct (H1 _ _ E) as (sc' & E' & G). exists sc', ss. split; auto. split; [apply F2_refl|].
    intros n Hn Hn'. rewrite (G n) by auto. tauto.
  Qed.
  Lemma se_sm {A} B Dn As (m : M A) : se B m -> incl B Dn -> sm Dn As m.
  Proof. intros Hm Hi c s r c' s' E. eapply SE_SS; eauto. Qed.
  Lemma sm_bind {A C} Dn As (m : M A) (k : A -> M C) : sm Dn As m -> (forall a, sm Dn As (k a)) -> sm Dn As (bind H m k).
  Proof.
    intros Hm Hk c s r c' s' E. unfold bind in E. destruct (m c s) as [[x c1] s1] eqn:Em.
    pose proof (Hm _ _ _ _ _ Em). destruct x.
    - eapply SS_trans; eauto. eapply Hk; eauto.
    - inversion E; subst; auto.
    - inversion E; subst; auto.
  Qed.
  Lemma pure_sm {A} Dn As (m : M A) : pure_c m -> sm Dn As m.
  Proof. intros Hp c s r c' s' E. apply Hp in E. subst. apply SS_refl. Qed.
  Lemma SS_mono Dn Dn' As As' c c' : incl Dn Dn' -> incl As As' -> SS Dn As c c' -> SS Dn' As' c c'.
  Proof.
    intros Hi Ha H1 sc ss E. destruct (H1 _ _ E) as (sc1 & ss1 & E1 & F1 & G1). exists sc1, ss1. split; auto. split.
    - clear -F1 Ha. induction F1; constructor; auto. intros n. destruct (H0 n) as [A1 B1]. split; auto.
    - intros n Hn Hn'. destruct (G1 n) as [A1 B1]; [intros Hx; apply Hn, Hi, Hx|exact Hn'|]. split; [intros Hx; apply A1; intros Hy; apply Hx, Ha, Hy|exact B1].
  Qed.
  Lemma sm_mono {A} Dn Dn' As As' (m : M A) : sm Dn As m -> incl Dn Dn' -> incl As As' -> sm Dn' As' m.
  Proof. intros Hm Hi Ha c s r c' s' E. eapply SS_mono; eauto. Qed.
  (** The scope opened for a block takes its declarations with it. *)
  Lemma sm_scope {A} B Dn As (m : M A) : sm B As m -> sm Dn As (new_scope H m).
  Proof.
    intros Hm c s r c' s' E sc ss Es. unfold new_scope in E.
    destruct (m (set_scopes H ([] :: c_scopes H c) c) s) as [[x c1] s1] eqn:Em. inversion E; subst. cbn.
    destruct (Hm _ _ _ _ _ Em [] (c_scopes H c)) as (sc1 & ss1 & E1 & F1 & _); [reflexivity|].
    rewrite Es in F1. inversion F1; subst. rewrite E1, Es.
    exists y, l'. split; [|split; auto].
    - assert (List.length (sc :: ss) = List.length (y :: l')) as -> by (cbn; f_equal; eapply F2_len; eauto).
      apply (last_n_app [sc1]).
  Qed.
  Lemma update_chg n v ss : forall ss', update H n v ss = Some ss' -> Forall2 (chg [n]) ss ss'.
  Proof.
    induction ss as [|sc ss IH]; cbn; intros ss' E; [discriminate|].
    destruct (sget n sc) eqn:Eg.
    - inversion E; subst. constructor; [|apply F2_refl]. intros m. rewrite sget_set.
      destruct (name_eqb m n) eqn:Em.
      + apply name_eqb_spec in Em. subst. cbn. rewrite Eg. split; [tauto|]. split; discriminate.
      + tauto.
    - destruct (update H n v ss); [|discriminate]. inversion E; subst. constructor; auto. apply chg_refl.
  Qed.
  Lemma sm_update Dn As n v : In n As -> sm Dn As (update_variable H n v).
  Proof.
    intros Hn c s r c' s' E. unfold update_variable in E. destruct (update H n v (c_scopes H c)) eqn:Eu; inversion E; subst.
    - intros sc ss Es. rewrite Es in Eu. apply update_chg in Eu. inversion Eu; subst. exists y, l'. split; auto.
      assert (Hin : incl [n] As) by (intros ? [<-|[]]; auto). split.
      + clear -H4 Hin. induction H4; constructor; auto. intros m. destruct (H0 m). split; auto.
      + intros m _ _. destruct (H2 m). split; auto.
    - intros sc ss Es. cbn. exists sc, ss. split; auto. split; [apply F2_refl|tauto].
  Qed.
  Lemma sm_same {A} Dn As (m : M A) : (forall c s r c' s', m c s = (r, c', s') -> c_scopes H c' = c_scopes H c) -> sm Dn As m.
  Proof. intros Hp c s r c' s' E sc ss Es. apply Hp in E. rewrite E. exists sc, ss. split; auto. split; [apply F2_refl|tauto]. Qed.

  Section OpenS.
    Variables (ev : expr -> M V) (ex : stmt -> M unit).
    Hypothesis Hev : forall e, se (binds e) (ev e).
    Hypothesis Hex : forall s, sm (declares s) (assigned s) (ex s).
    Lemma sm_ev Dn As e : incl (binds e) Dn -> sm Dn As (ev e).
    Proof. intros. eapply se_sm; eauto. Qed.
    Lemma sm_truthy Dn As v : sm Dn As (truthy H v). Proof. apply pure_sm, pc_truthy. Qed.
    Lemma sm_stmts Dn As ss : incl (flat_map declares ss) Dn -> incl (flat_map assigned ss) As -> sm Dn As (stmts H ex ss).
    Proof.
      induction ss as [|s ss IH]; cbn; intros Hd Ha; [apply pure_sm, pc_ret|].
      apply sm_bind; [apply pure_sm, pc_event|]. intros _.
      apply sm_bind; [eapply sm_mono; [apply Hex| |]; intros x Hx; [apply Hd|apply Ha]; apply in_or_app; auto|]. intros _.
      apply sm_bind; [apply pure_sm, pc_should|]. intros b. destruct b; [apply pure_sm, pc_ret|].
      apply IH; intros x Hx; [apply Hd|apply Ha]; apply in_or_app; auto.
    Qed.
    Lemma sm_for As x t body items : incl (flat_map assigned body) As ->
      sm (x :: flat_map declares body) As (for_items H ex x t body items).
    Proof.
      intros Ha. induction items as [|i items IH]; cbn; [apply pure_sm, pc_ret|].
      apply sm_bind; [eapply se_sm; [apply (se_set [x]); left; auto|intros ? [<-|[]]; left; auto]|]. intros _.
      apply sm_bind; [apply sm_stmts; auto; intros y Hy; right; auto|]. intros _.
      apply sm_bind; [apply pure_sm, pc_should|]. intros b. destruct b; [apply pure_sm, pc_ret|]. apply IH.
    Qed.
    Lemma sm_block Dn As b : incl (assigned_block b) As -> sm Dn As (new_scope H (stmts H ex (b_stmts b))).
    Proof.
      intros Ha. destruct b as [ss fin]. apply sm_scope with (B := flat_map declares ss). apply sm_stmts; [apply incl_refl|].
      exact Ha.
    Qed.
    Lemma sm_elifs Dn As els : (forall b, els = Some b -> incl (assigned_block b) As) ->
      forall l, incl (flat_map (fun eb => binds (fst eb)) l) Dn -> incl (flat_map (fun eb => assigned_block (snd eb)) l) As ->
      sm Dn As (exec_elifs H ev ex l els).
    Proof.
      intros He. induction l as [|[c b] l IH]; cbn; intros Hd Ha.
      - destruct els; [apply sm_block; auto|apply pure_sm, pc_ret].
      - apply sm_bind; [apply sm_ev; intros x Hx; apply Hd, in_or_app; auto|]. intros v.
        apply sm_bind; [apply sm_truthy|]. intros t. destruct t.
        + apply sm_block. intros x Hx; apply Ha, in_or_app; auto.
        + apply IH; intros x Hx; [apply Hd|apply Ha]; apply in_or_app; auto.
    Qed.
    Lemma sm_exec_body st : sm (declares st) (assigned st) (exec_body H ev ex st).
    Proof.
      destruct st; simpl exec_body; cbn [declares].
      - destruct init; cbn.
        + apply sm_bind; [apply sm_ev; intros x Hx; right; auto|]. intros v.
          eapply se_sm; [apply (se_set [n]); left; auto|intros ? [<-|[]]; left; auto].
        + apply pure_sm, pc_rte.
      - apply sm_bind; [apply sm_ev, incl_refl|]. intros w. destruct target; try (apply pure_sm, pc_raise).
        apply sm_update. left; auto.
      - apply sm_bind; [apply sm_ev, incl_refl|]. intros v. apply sm_bind; [apply sm_truthy|]. intros t.
        apply sm_bind; [apply pure_sm, pc_event|]. intros _. destruct t; [apply pure_sm, pc_ret|].
        apply sm_same. intros; match goal with h : _ = _ |- _ => inversion h; reflexivity end.
      - apply sm_bind; [apply sm_ev; inc|]. intros w.
        apply sm_bind; [eapply se_sm; [apply se_meta; auto|]; [apply incl_refl|inc]|]. intros md.
        apply sm_bind; [apply pure_sm, pc_event|]. intros _.
        apply sm_same. intros; match goal with h : _ = _ |- _ => inversion h; reflexivity end.
      - assert (Hr : forall Dn As, sm Dn As (signal_return H)).
        { intros. apply sm_same. intros; match goal with h : _ = _ |- _ => inversion h; reflexivity end. }
        destruct v; cbn; auto. apply sm_bind; [apply sm_ev, incl_refl|]. auto.
      - apply pure_sm, pc_ret.
      - unfold exec_for. apply sm_bind; [apply sm_ev, incl_refl|]. intros v.
        apply sm_bind; [apply pure_sm, pc_lift|]. intros o. destruct o.
        + destruct b as [ss fin]. apply sm_scope with (B := x :: flat_map declares ss). apply sm_for. apply incl_refl.
        + destruct (vtype H v) as [[]|]; first [apply pure_sm, pc_raise | apply pure_sm, pc_rte].
      - apply pure_sm, pc_rte.
      - cbn. apply sm_bind; [apply sm_ev; inc|]. intros v. apply sm_bind; [apply sm_truthy|]. intros b. destruct b.
        + apply sm_block. inc.
        + apply sm_elifs; [intros b ->; inc| |]; inc.
      - apply sm_bind; [apply sm_ev, incl_refl|]. intros. apply pure_sm, pc_ret.
      - apply sm_bind.
        + apply sm_same. intros c s r c' s' E. destruct (h_python H lexemes (namespace H (c_scopes H c)) (s_world H s)).
          inversion E; reflexivity.
        + intros [[]|]; first [apply pure_sm, pc_raise | apply pure_sm, pc_rte | apply pure_sm, pc_ret].
    Qed.
  End OpenS.

  Lemma scope_run fuel :
    (forall e, se (binds e) (eval H cmds limit fuel e)) /\
    (forall st, sm (declares st) (assigned st) (exec H cmds limit fuel st)).
  Proof.
    induction fuel as [|n [IHe IHs]]; split.
    - intros e c s r c' s' E. inversion E; subst. apply SE_refl.
    - intros e c s r c' s' E. inversion E; subst. apply SS_refl.
    - intros e. apply se_eval_body; auto.
    - intros e. apply sm_exec_body; auto.
  Qed.

  Lemma lookup_chg As n ss ss' : Forall2 (chg As) ss ss' ->
    (~ In n As -> lookup H n ss' = lookup H n ss) /\ (lookup H n ss' = None <-> lookup H n ss = None).
  Proof.
    induction 1 as [|a b ss ss' Hab _ [IH1 IH2]]; cbn; [tauto|]. destruct (Hab n) as [A1 B1]. split.
    - intros Hn. rewrite A1 by auto. destruct (sget n a); auto.
    - destruct (sget n a), (sget n b); first [tauto | split; intros; discriminate | exfalso; destruct B1 as [B1 B1']; first [discriminate (B1 eq_refl) | discriminate (B1' eq_refl)]].
  Qed.
  Lemma SS_lookup Dn As c c' : SS Dn As c c' -> c_scopes H c <> [] -> forall n, ~ In n Dn -> ~ In n N ->
    (~ In n As -> lookup H n (c_scopes H c') = lookup H n (c_scopes H c)) /\
    (lookup H n (c_scopes H c') = None <-> lookup H n (c_scopes H c) = None).
  Proof.
    intros Hs Hne n Hn Hn'. destruct (c_scopes H c) as [|sc ss] eqn:Es; [congruence|].
    destruct (Hs _ _ Es) as (sc' & ss' & -> & F & G). destruct (G n Hn Hn') as [A1 B1].
    destruct (lookup_chg As n _ _ F) as [L1 L2]. cbn. split.
    - intros Ha. rewrite A1 by auto. destruct (sget n sc); auto.
    - destruct (sget n sc), (sget n sc'); first [tauto | split; intros; discriminate | exfalso; destruct B1 as [B1 B1']; first [discriminate (B1 eq_refl) | discriminate (B1' eq_refl)]].
  Qed.
  Lemma SE_lookup B c c' : SE B c c' -> c_scopes H c <> [] -> forall n, ~ In n B -> ~ In n N ->
    lookup H n (c_scopes H c') = lookup H n (c_scopes H c).
  Proof.
    intros Hs Hne n Hn Hn'. destruct (c_scopes H c) as [|sc ss] eqn:Es; [congruence|].
    destruct (Hs _ _ Es) as (sc' & -> & G). cbn. rewrite (G n Hn Hn'). reflexivity.
  Qed.
End Scope.
