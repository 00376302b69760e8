(** The checker's call graph is the calls of the source. *)
From Coq Require Import ZArith String List Bool Lia.
From Verif Require Import Dict Lex_Model Ast Ast_Ind Types_Model Interp_Model Interp_Proofs3 Check_Model Check_Spec Check_Proofs.
Import ListNotations.
Open Scope list_scope.

Definition FunsOk (ss : list (list (name * symbol))) : Prop :=
  Forall (fun sc => forall n k t, dget name_eqb n sc = Some (k, t) -> k = KCommand \/ k = KFunction -> exists ps r, t = TFun ps r) ss.
(** [m] adds the edges [E]. *)
Definition edges {A} (m : C A) (E : list (name * name)) : Prop :=
  forall k a k', m k = Some (a, k') -> k_errs k' = [] ->
    k_errs k = [] /\ (FunsOk (k_scopes k) -> FunsOk (k_scopes k') /\ forall p, In p (k_calls k') <-> In p (k_calls k) \/ In p E).

Lemma ed_conv {A} (m : C A) E E' : edges m E -> (forall p, In p E <-> In p E') -> edges m E'.
Proof. intros H X k a k' R Y. destruct (H k a k' R Y) as [H1 H2]. split; auto. intros F. destruct (H2 F) as [G1 G2]. split; auto. intros p. rewrite G2, X. tauto. Qed.
Lemma ed_same {A} (m : C A) : (forall k a k', m k = Some (a, k') -> k_errs k' = [] -> k_errs k = [] /\ k_calls k' = k_calls k /\ (FunsOk (k_scopes k) -> FunsOk (k_scopes k'))) -> edges m [].
Proof. intros H k a k' R Y. destruct (H k a k' R Y) as (A1 & A2 & A3). split; auto. intros F. split; auto. intros p. rewrite A2. cbn. tauto. Qed.
Lemma ed_ret {A} (a : A) : edges (cret a) [].
Proof. apply ed_same. intros k b k' E. inversion E; auto. Qed.
Lemma ed_crash {A} E : edges (@crash A) E. Proof. intros k b k' X. discriminate. Qed.
Lemma ed_error c E : edges (error c) E.
Proof. intros k b k' X. inversion X; subst. cbn. intros Y. destruct (app_cons_not_nil _ _ _ (eq_sym Y)). Qed.
Lemma ed_error_then {A} c (f : unit -> C A) E : (forall a, mono (f a)) -> edges (cbind (error c) f) E.
Proof.
  intros Hf k b k' X Y. apply cbind_some in X as (u & k1 & X1 & X2). apply (Hf u _ _ _ X2) in Y.
  inversion X1; subst. cbn in Y. destruct (app_cons_not_nil _ _ _ (eq_sym Y)).
Qed.
Lemma ed_warning c : edges (warning c) [].
Proof. apply ed_same. intros k b k' E. inversion E; auto. Qed.
Lemma ed_python : edges python_flag []. Proof. apply ed_same. intros k b k' E. inversion E; auto. Qed.
Lemma ed_call a b : edges (add_call a b) [(a, b)].
Proof. intros k u k' X. inversion X; subst. cbn. intros Y. split; auto. intros F. split; auto. intros p. rewrite in_app_iff. cbn. tauto. Qed.
Lemma ed_push : edges push_scope [].
Proof. apply ed_same. intros k b k' E. inversion E; subst. cbn. repeat split; auto. intros F. constructor; auto. cbn. discriminate. Qed.
Lemma ed_pop : edges pop_scope [].
Proof.
  apply ed_same. intros k b k' E. unfold pop_scope in E. destruct (k_scopes k) as [|sc [|sc2 r]] eqn:S; inversion E; subst; cbn; auto.
  - rewrite S. auto.
  - rewrite S. auto.
  - repeat split; auto. inversion 1; auto.
Qed.
Lemma ed_define n kd t : (kd = KVariable \/ kd = KParameter) \/ (exists ps r, t = TFun ps r) -> edges (define n (kd, t)) [].
Proof.
  intros Hk. apply ed_same. intros k b k' E. unfold define in E. destruct (k_scopes k) as [|sc r] eqn:S.
  - inversion E; subst. rewrite S. auto.
  - destruct (dget name_eqb n sc) eqn:D; inversion E; subst; cbn; rewrite ?S; repeat split; auto.
    intros F. inversion F as [|? ? F1 F2]; subst. constructor; auto. intros m k2 t2. rewrite dget_set_name. destruct (name_eqb m n); [|apply F1].
    intros X. inversion X; subst. intros Y. destruct Hk as [[-> | ->]|Z]; auto; destruct Y; discriminate.
Qed.
Lemma ed_lookup n : edges (lookup_symbol n) [].
Proof. apply ed_same. intros k b k' E. inversion E; subst. auto. Qed.
Lemma ed_bind {A B} (m : C A) (f : A -> C B) E1 E2 : edges m E1 -> (forall a, edges (f a) E2) -> edges (cbind m f) (E1 ++ E2).
Proof.
  intros Hm Hf k b k' X Y. apply cbind_some in X as (a & k1 & X1 & X2). destruct (Hf a _ _ _ X2 Y) as [Y1 F2].
  destruct (Hm _ _ _ X1 Y1) as [Y0 F1]. split; auto. intros F. destruct (F1 F) as [G1 I1]. destruct (F2 G1) as [G2 I2]. split; auto.
  intros p. rewrite I2, I1, in_app_iff. tauto.
Qed.
Lemma ed_error_if b c : edges (error_if b c) [].
Proof. destruct b; [apply ed_error|apply ed_ret]. Qed.
Lemma ed_each {A} (f : A -> C unit) g l : Forall (fun a => edges (f a) (g a)) l -> edges (each f l) (flat_map g l).
Proof. induction 1; cbn; [apply ed_ret|apply ed_bind; auto]. Qed.
Lemma ed_each0 {A} (f : A -> C unit) l : (forall a, edges (f a) []) -> edges (each f l) [].
Proof. intros H. eapply ed_conv; [apply ed_each with (g := fun _ => []); apply Forall_forall; auto|]. intros p. induction l; cbn; tauto. Qed.
Lemma ed_resolve t : edges (resolve_node t) [].
Proof.
  revert t. fix IH 1. intros [n|n args|t]; cbn [resolve_node].
  - destruct (type_named n); [apply ed_ret|apply ed_error_then; intros; apply mo_ret].
  - destruct (name_eqb n (codes "list")); [|apply ed_error_then; intros; apply mo_ret].
    destruct args as [|a [|]]; try (apply ed_error_then; intros; apply mo_ret).
    change (@nil (name * name)) with (@nil (name * name) ++ []). apply ed_bind; [apply IH|intros; apply ed_ret].
  - change (@nil (name * name)) with (@nil (name * name) ++ []). apply ed_bind; [apply IH|intros; apply ed_ret].
Qed.
Lemma ed_resolve_opt t : edges (resolve_opt t) []. Proof. destruct t; [apply ed_resolve|apply ed_ret]. Qed.

Lemma fm_fm {A B D} (f : B -> list D) (g : A -> list B) l : flat_map f (flat_map g l) = flat_map (fun a => flat_map f (g a)) l.
Proof. induction l; cbn; auto. rewrite flat_map_app, IHl. reflexivity. Qed.

Lemma ed_nil2 {A B} (m : C A) (f : A -> C B) : edges m [] -> (forall a, edges (f a) []) -> edges (cbind m f) [].
Proof. intros. change (@nil (name * name)) with (@nil (name * name) ++ []). apply ed_bind; auto. Qed.
Lemma ed_then {A B} (m : C A) (f : A -> C B) E : edges m E -> (forall a, edges (f a) []) -> edges (cbind m f) E.
Proof. intros. rewrite <- (app_nil_r E). apply ed_bind; auto. Qed.
Lemma ed_before {A B} (m : C A) (f : A -> C B) E : edges m [] -> (forall a, edges (f a) E) -> edges (cbind m f) E.
Proof. intros. change E with ([] ++ E). apply ed_bind; auto. Qed.

Section Check.
  Variables (builtins : name -> option signature) (methods : typ -> name -> option signature) (max_errors : nat).
  Variable commands : list name.
  Hypothesis max_pos : (0 < max_errors)%nat.
  Notation check_expr := (check_expr builtins methods max_errors commands).
  Notation check_stmt := (check_stmt builtins methods max_errors commands).
  Notation check_block := (check_block builtins methods max_errors commands).
  Variable special : name -> bool.

  Lemma ed_unless {A} (a : A) m E : edges m E -> edges (unless_full max_errors a m) E.
  Proof.
    intros Hm k b k' X Y. unfold unless_full in X. destruct (Nat.leb max_errors (length (k_errs k))) eqn:L.
    - inversion X; subst. rewrite Y in L. cbn in L. apply Nat.leb_le in L. lia.
    - eapply Hm; eauto.
  Qed.
  Lemma ed_identifier n : edges (identifier builtins n) [].
  Proof.
    unfold identifier. apply ed_nil2; [apply ed_lookup|]. intros [[kd t]|]; [apply ed_ret|].
    destruct (type_named n), (builtins n); try apply ed_ret. apply ed_error_then. intros; apply mo_ret.
  Qed.
  Ltac ed0 := repeat first
    [ apply ed_ret | apply ed_error_if | (apply ed_error_then; intros; apply mo_ret) | (apply ed_nil2; [|intros])
    | match goal with |- edges (if ?b then _ else _) _ => destruct b end
    | match goal with |- edges (match ?x with _ => _ end) _ => destruct x end ].
  Lemma ed_binary op l r : edges (binary_type op l r) [].
  Proof. unfold binary_type. destruct op; ed0. Qed.
  Lemma ed_unary op t : edges (unary_type op t) [].
  Proof. unfold unary_type. destruct op; ed0. Qed.
  Lemma ed_arguments f code g args : Forall (fun a => edges (f a) (g a)) args -> forall ps, edges (arguments f code ps args) (flat_map g args).
  Proof.
    induction 1; intros ps; cbn; [apply ed_ret|]. eapply ed_conv.
    - eapply ed_bind; [eassumption|]. intros. eapply ed_bind; [|intros; eapply ed_bind; [apply IHForall|intros; apply ed_ret]].
      instantiate (1 := []). destruct ps; ed0.
    - intros p. rewrite !in_app_iff. cbn. tauto.
  Qed.
  Lemma ed_elements f g es : Forall (fun a => edges (f a) (g a)) es -> forall t, edges (elements f t es) (flat_map g es).
  Proof.
    induction 1; intros t; cbn; [apply ed_ret|]. apply ed_bind; auto. intros u. destruct (is_assignable_from t u); auto.
    destruct (common_type t u); auto. eapply ed_conv; [apply ed_bind with (E1 := []); [apply ed_error|intros; apply IHForall]|]. cbn; tauto.
  Qed.
  Lemma ed_arms f s g arms : Forall (fun pe => edges (f (snd pe)) (g pe)) arms -> forall r, edges (arms_type f s r arms) (flat_map g arms).
  Proof.
    induction 1 as [|[p e] arms]; intros r; cbn; [apply ed_ret|]. eapply ed_conv.
    - eapply ed_bind; [|intros; eapply ed_bind; [eassumption|intros; apply IHForall]]. instantiate (1 := []).
      destruct p; try apply ed_ret. destruct (is_assignable_from s (literal_type lt)); [apply ed_ret|apply ed_warning].
    - intros q. rewrite !in_app_iff. cbn. tauto.
  Qed.

  Section Cur.
  Variable cur : fundef.
  Definition edge (n : name) : list (name * name) :=
    match builtins n, type_named n with
    | None, None => if mem n commands then [(f_name cur, n)] else []
    | _, _ => []
    end.

  Lemma ed_call_user n args : (forall ps, edges (arguments (check_expr cur) "E274" ps args) (flat_map edge (flat_map called args))) ->
    edges (s <~ lookup_symbol n;
           match s with
           | Some ((KCommand | KFunction), t) =>
               (if existsb (name_eqb n) commands then add_call (f_name cur) n else cret tt);~
               match t with
               | TFun ps r => arguments (check_expr cur) "E274" ps args;~ cret r
               | _ => cret TUnknown
               end
           | _ => error "E270";~ cret TError
           end) ((if mem n commands then [(f_name cur, n)] else []) ++ flat_map edge (flat_map called args)).
  Proof.
    intros Ha k a k' X Y. apply cbind_some in X as (s & k1 & X1 & X2). inversion X1; subst. clear X1.
    set (E := (if mem n commands then [(f_name cur, n)] else []) ++ flat_map edge (flat_map called args)).
    destruct (find_symbol n (k_scopes k1)) as [[[] t]|] eqn:Fs;
      try (exact (ed_error_then "E270" (fun _ => cret TError) E (fun _ => mo_ret _) _ _ _ X2 Y)).
    1, 2: match type of X2 with ?m _ = _ => assert (G : FunsOk (k_scopes k1) -> edges m E) end.
    1, 3: intros F; assert (exists ps r, t = TFun ps r) as (ps & r & ->);
      [clear -F Fs; unfold symbol in *; induction (k_scopes k1) as [|sc ss IH]; cbn [find_symbol] in Fs; [discriminate|];
       inversion F; subst; destruct (dget name_eqb n sc) as [[kd' t']|] eqn:D; [inversion Fs; subst; eapply H1; eauto|auto]|];
      unfold E; apply ed_bind; [unfold mem; destruct (existsb (name_eqb n) commands); [apply ed_call|apply ed_ret]|];
      intros; eapply ed_conv; [eapply ed_bind; [apply Ha|intros; apply ed_ret]|]; intros p; rewrite in_app_iff; cbn; tauto.
    1, 2: assert (Y0 : k_errs k1 = []); [|split; auto; intros F; destruct (G F _ _ _ X2 Y) as [_ K]; exact (K F)].
    1, 2: clear -X2 Y; apply cbind_some in X2 as (u & k2 & E1 & E2); assert (Y2 : k_errs k2 = []);
      [destruct t; try (inversion E2; subst; assumption); apply cbind_some in E2 as (u2 & k3 & E3 & E4); inversion E4; subst;
       eapply mo_arguments; [|exact E3|exact Y]; apply Forall_forall; intros x _; apply (mo_check builtins methods max_errors commands cur)
      |destruct (existsb (name_eqb n) commands); inversion E1; subst; exact Y2].
  Qed.
  Lemma plain_edges :
    (forall e, plain special e = true -> edges (check_expr cur e) (flat_map edge (called e))) /\
    (forall s, plain_stmt special s = true -> edges (check_stmt cur s) (flat_map edge (called_stmt s))) /\
    (forall b, plain_block special b = true -> edges (check_block cur b) (flat_map edge (called_block b))).
  Proof.
    apply (ast_ind (fun e => plain special e = true -> edges (check_expr cur e) (flat_map edge (called e)))
                   (fun s => plain_stmt special s = true -> edges (check_stmt cur s) (flat_map edge (called_stmt s)))
                   (fun b => plain_block special b = true -> edges (check_block cur b) (flat_map edge (called_block b))));
      intros; rewrite ?expr_step, ?stmt_step, ?block_step; try apply ed_unless; cbn [expr_body stmt_body block_body called called_stmt called_block flat_map];
      rewrite ?flat_map_app.
    all: repeat match goal with
         | H : plain _ _ = true |- _ => progress cbn [plain] in H
         | H : plain_stmt _ _ = true |- _ => progress cbn [plain_stmt opt_true] in H
         | H : plain_block _ _ = true |- _ => progress cbn [plain_block opt_true] in H
         | H : _ && _ = true |- _ => apply andb_prop in H as [? ?]
         end.
    - apply ed_ret.
    - apply ed_identifier.
    - apply ed_bind; auto. intros. apply ed_then; auto. intros; apply ed_binary.
    - apply ed_then; auto. intros; apply ed_unary.
    - destruct f; try discriminate. apply andb_prop in H2 as [P1 P2]. destruct named; [|discriminate].
      assert (Fa : Forall (fun a => edges (check_expr cur a) (flat_map edge (called a))) args).
      { apply Forall_forall. intros a Ia. rewrite Forall_forall in H0. apply H0; auto. rewrite forallb_forall in P1; auto. }
      cbn [flat_map]. rewrite !app_nil_r. cbn [flat_map]. rewrite ?app_nil_r. unfold edge at 1. destruct (builtins n) as [g|] eqn:Bn.
      + apply ed_before; [apply ed_error_if|intros]. rewrite fm_fm. cbn [flat_map app each].
        apply ed_then; [apply ed_arguments; exact Fa|]. intros. apply ed_then; [apply ed_ret|intros; apply ed_ret].
      + destruct (type_named n) eqn:Tn.
        * rewrite fm_fm. cbn. apply ed_then; [apply ed_each|].
          -- apply Forall_forall; intros a Ia. rewrite Forall_forall in Fa. apply ed_then; auto. intros; apply ed_ret.
          -- intros. apply ed_then; [apply ed_ret|intros; apply ed_ret].
        * apply ed_call_user. intros ps. rewrite fm_fm. apply ed_arguments. exact Fa.
    - discriminate.
    - apply ed_then; auto. intros t. destruct (member_ok t m); [apply ed_ret|]. apply ed_nil2; [apply ed_error_if|intros; apply ed_ret].
    - apply ed_bind; auto. intros t. apply ed_then; auto. intros u. apply ed_nil2; [apply ed_error_if|]. intros _.
      destruct t; try (apply ed_nil2; [apply ed_error_if|intros; apply ed_ret]). apply ed_ret.
    - assert (Fa : Forall (fun a => edges (check_expr cur a) (flat_map edge (called a))) l).
      { apply Forall_forall. intros a Ia. rewrite Forall_forall in H. apply H; auto. rewrite forallb_forall in H0; auto. }
      destruct l; [apply ed_ret|]. inversion Fa; subst. rewrite fm_fm. cbn [flat_map]. apply ed_bind; auto. intros t.
      apply ed_then; [apply ed_elements; auto|intros; apply ed_ret].
    - rewrite fm_fm. apply ed_before; [apply ed_push|intros _]. apply ed_bind.
      + apply ed_each. apply Forall_forall. intros [[x it] cs] Ic. rewrite Forall_forall in H0. destruct (H0 _ Ic) as [A1 A2].
        rewrite forallb_forall in H2. specialize (H2 _ Ic). cbn in A1, A2, H2. apply andb_prop in H2 as [B1 B2]. cbn [fst snd].
        rewrite flat_map_app, fm_fm. apply ed_bind; auto. intros t. apply ed_before; [apply ed_define; auto|intros _].
        apply ed_each. apply Forall_forall. intros c Icc. rewrite Forall_forall in A2. rewrite forallb_forall in B2. apply ed_then; auto.
        intros; apply ed_error_if.
      + intros _. apply ed_then; auto. intros t. apply ed_nil2; [apply ed_pop|intros; apply ed_ret].
    - apply ed_bind; auto. intros t. apply ed_then; auto. intros u. repeat (apply ed_nil2; [apply ed_error_if|intros]). apply ed_ret.
    - apply ed_bind; auto. intros v. apply ed_before; [apply ed_error_if|intros _]. apply ed_bind; auto. intros t0. apply ed_then; auto. intros u. ed0.
    - discriminate.
    - rewrite fm_fm. apply ed_bind; auto. intros s0. apply ed_then; [apply ed_arms|intros; apply ed_ret].
      apply Forall_forall. intros pe Ip. rewrite Forall_forall in H0. rewrite forallb_forall in H2. auto.
    - apply ed_before; [apply ed_push|intros _]. apply ed_before; [apply ed_each0; intros; apply ed_nil2; [apply ed_define; auto|intros; apply ed_ret]|intros _].
      apply ed_then; auto. intros. apply ed_nil2; [apply ed_pop|intros; apply ed_ret].
    - rewrite fm_fm. apply ed_then; [apply ed_each|intros; apply ed_ret]. apply Forall_forall. intros ne In_. rewrite Forall_forall in H.
      rewrite forallb_forall in H0. apply ed_then; auto. intros; apply ed_ret.
    - destruct i as [e|]; cbn in *; [|intros k b k' X; discriminate].
      apply ed_then; auto. intros it. apply ed_nil2; [destruct t; ed0; apply ed_resolve|intros]. apply ed_nil2; [apply ed_define; auto|intros; apply ed_error_if].
    - apply ed_bind; auto. intros a. apply ed_then; auto. intros; apply ed_error_if.
    - apply ed_bind; auto. intros a. apply ed_before; [apply ed_error_if|intros _]. destruct m; cbn in *; [|apply ed_ret]. apply ed_then; auto. intros; apply ed_error_if.
    - rewrite fm_fm. apply ed_bind; auto. intros a. apply ed_before.
      + destruct (f_ret cur); ed0. apply ed_resolve.
      + intros _. apply ed_each. apply Forall_forall. intros ne In_. rewrite Forall_forall in H0. rewrite forallb_forall in H2. apply ed_then; auto. intros; apply ed_ret.
    - destruct v as [e|]; cbn in *; [|apply ed_crash]. apply ed_then; auto. intros; apply ed_crash.
    - apply ed_ret.
    - apply ed_bind; auto. intros t. apply ed_before; [apply ed_push|intros _]. apply ed_before; [apply ed_define; auto|intros _].
      apply ed_then; auto. intros; apply ed_pop.
    - apply ed_warning.
    - apply ed_bind; auto. intros v. apply ed_before; [apply ed_error_if|intros _]. apply ed_before; [apply ed_push|intros _].
      apply ed_bind; auto. intros _. apply ed_before; [apply ed_pop|intros _]. rewrite fm_fm. apply ed_bind.
      + apply ed_each. apply Forall_forall. intros cb Ic. rewrite Forall_forall in H1. destruct (H1 _ Ic) as [A1 A2]. rewrite forallb_forall in H5.
        specialize (H5 _ Ic). apply andb_prop in H5 as [B1 B2]. rewrite flat_map_app. apply ed_bind; auto. intros w. apply ed_before; [apply ed_error_if|intros _].
        apply ed_before; [apply ed_push|intros _]. apply ed_then; auto. intros; apply ed_pop.
      + intros _. destruct els; cbn in *; [|apply ed_ret]. apply ed_before; [apply ed_push|intros _]. apply ed_then; auto. intros; apply ed_pop.
    - apply ed_then; auto. intros; apply ed_ret.
    - apply ed_nil2; [apply ed_python|intros; apply ed_warning].
    - rewrite fm_fm. apply ed_bind.
      + apply ed_each. apply Forall_forall. intros st Is. rewrite Forall_forall in H. rewrite forallb_forall in H1. auto.
      + intros _. destruct fin; cbn in *; [|apply ed_ret]. apply ed_then; auto. intros; apply ed_ret.
  Qed.
  End Cur.

  Lemma ed_param cur p : opt_true (plain special) (p_default p) = true ->
    edges (check_param builtins methods max_errors commands cur p)
      (flat_map (edge cur) (match p_default p with Some e => called e | None => [] end)).
  Proof.
    intros P. unfold check_param. apply ed_before; [apply ed_resolve_opt|intros t]. apply ed_before; [apply ed_define; auto|intros ok].
    apply ed_before; [apply ed_error_if|intros _]. destruct (p_default p); cbn in *; [|apply ed_ret].
    apply ed_then; [apply plain_edges; auto|intros; apply ed_error_if].
  Qed.
  Lemma ed_command f : plain_command special f = true ->
    edges (check_command builtins methods max_errors commands f) (flat_map (edge f) (called_command f)).
  Proof.
    intros P. apply andb_prop in P as [P1 P2]. unfold check_command, called_command. rewrite flat_map_app, fm_fm.
    apply ed_before; [apply ed_push|intros _]. apply ed_bind.
    - apply ed_each. apply Forall_forall. intros p Ip. rewrite forallb_forall in P1. apply ed_param. auto.
    - intros _. apply ed_then; [apply plain_edges; auto|intros; apply ed_pop].
  Qed.
  Lemma ed_params ps : edges (param_types ps) [].
  Proof. induction ps; cbn; [apply ed_ret|]. apply ed_nil2; [apply ed_resolve_opt|intros; apply ed_nil2; [assumption|intros; apply ed_ret]]. Qed.
  Lemma ed_native n : edges (register_native n) [].
  Proof. apply ed_nil2; [apply ed_resolve|intros]. apply ed_nil2; [apply ed_params|intros]. apply ed_nil2; [apply ed_define; eauto|intros; apply ed_error_if]. Qed.
  Lemma ed_register f : edges (register_command f) [].
  Proof. apply ed_nil2; [apply ed_resolve_opt|intros]. apply ed_nil2; [apply ed_params|intros]. apply ed_nil2; [apply ed_define; eauto|intros; apply ed_error_if]. Qed.
End Check.

Lemma module_edges builtins methods max_errors m k special : (0 < max_errors)%nat ->
  check builtins methods max_errors m = Some k -> k_errs k = [] -> forallb (plain_command special) (m_funs m) = true ->
  forall a b, In (a, b) (k_calls k) <->
    exists f, In f (m_funs m) /\ f_name f = a /\ In b (called_command f) /\
      builtins b = None /\ type_named b = None /\ In b (map f_name (m_funs m)).
Proof.
  intros Hm Hc X P a b. unfold check in Hc.
  match type of Hc with option_map _ (?c ?k0) = _ => set (cm := c) in *; assert (G : edges cm (flat_map (fun f => flat_map (edge builtins (map f_name (m_funs m)) f) (called_command f)) (m_funs m))) end.
  { unfold cm. apply ed_before; [apply ed_each0; intros; apply ed_nil2; [apply ed_python|intros; apply ed_nil2; [apply ed_each0, ed_native|intros; apply ed_warning]]|intros _].
    apply ed_before; [apply ed_each0; intros; apply ed_nil2; [apply ed_python|intros; apply ed_nil2; [apply ed_native|intros; apply ed_warning]]|intros _].
    apply ed_before; [apply ed_each0, ed_register|intros _]. apply ed_each, Forall_forall. intros f If. rewrite forallb_forall in P. eapply ed_command; eauto. }
  destruct (cm (Kst [[]] [] [] false [])) as [[u k']|] eqn:E; [|discriminate]. cbn in Hc. inversion Hc; subst k'.
  destruct (G _ _ _ E X) as [_ I]. destruct I as [_ I]; [repeat constructor; cbn; discriminate|]. rewrite I. cbn. clear.
  rewrite in_flat_map. split.
  - intros [[]|(f & If & Ib)]. apply in_flat_map in Ib as (n & In_ & Ie). unfold edge in Ie.
    destruct (builtins n) eqn:B; [destruct Ie|]. destruct (type_named n) eqn:T; [destruct Ie|].
    destruct (mem n (map f_name (m_funs m))) eqn:M; [|destruct Ie]. destruct Ie as [Ie|[]]. inversion Ie; subst. exists f. repeat split; auto. apply mem_in. exact M.
  - intros (f & If & <- & Ib & B & T & M). right. exists f. split; auto. apply in_flat_map. exists b. split; auto. unfold edge. rewrite B, T.
    rewrite (proj2 (mem_in b _) M). left. reflexivity.
Qed.
