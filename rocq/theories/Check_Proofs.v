(** What a module the checker accepts looks like. *)
From Coq Require Import ZArith String List Bool Lia.
From Verif Require Import Dict Lex_Model Ast Ast_Ind Types_Model Interp_Model Interp_Proofs3 Check_Model Check_Spec.
Import ListNotations.
Open Scope list_scope.

Lemma cbind_some {A B} (m : C A) (f : A -> C B) k r :
  cbind m f k = Some r -> exists a k1, m k = Some (a, k1) /\ f a k1 = Some r.
Proof. unfold cbind. destruct (m k) as [[a k1]|]; [|discriminate]. eauto. Qed.

(** * Errors are never withdrawn *)
Definition mono {A} (m : C A) : Prop := forall k a k', m k = Some (a, k') -> k_errs k' = [] -> k_errs k = [].
Lemma mo_ret {A} (a : A) : mono (cret a). Proof. intros k b k' E. inversion E; auto. Qed.
Lemma mo_crash {A} : mono (@crash A). Proof. intros k b k' E. discriminate. Qed.
Lemma mo_error c : mono (error c).
Proof. intros k b k' E. inversion E; subst. cbn. intros X. destruct (app_cons_not_nil _ _ _ (eq_sym X)). Qed.
Lemma mo_warning c : mono (warning c). Proof. intros k b k' E. inversion E; auto. Qed.
Lemma mo_python : mono python_flag. Proof. intros k b k' E. inversion E; auto. Qed.
Lemma mo_call a b : mono (add_call a b). Proof. intros k ? k' E. inversion E; auto. Qed.
Lemma mo_push : mono push_scope. Proof. intros k ? k' E. inversion E; auto. Qed.
Lemma mo_pop : mono pop_scope.
Proof. intros k ? k' E. inversion E; subst. destruct (k_scopes k) as [|? [|]]; auto. Qed.
Lemma mo_define n s : mono (define n s).
Proof.
  intros k ? k' E. unfold define in E. destruct (k_scopes k); [inversion E; auto|].
  destruct (dget name_eqb n l); inversion E; auto.
Qed.
Lemma mo_lookup n : mono (lookup_symbol n). Proof. intros k ? k' E. inversion E; auto. Qed.
Lemma mo_bind {A B} (m : C A) (f : A -> C B) : mono m -> (forall a, mono (f a)) -> mono (cbind m f).
Proof. intros Hm Hf k b k' E X. apply cbind_some in E as (a & k1 & E1 & E2). eapply Hm; eauto. eapply Hf; eauto. Qed.
Lemma mo_error_if b c : mono (error_if b c). Proof. destruct b; [apply mo_error|apply mo_ret]. Qed.
Lemma mo_each {A} (f : A -> C unit) l : Forall (fun a => mono (f a)) l -> mono (each f l).
Proof. induction 1; cbn; [apply mo_ret|apply mo_bind; auto]. Qed.
Lemma mo_resolve t : mono (resolve_node t).
Proof.
  revert t. fix IH 1. intros [n|n args|t]; cbn [resolve_node].
  - destruct (type_named n); [apply mo_ret|apply mo_bind; [apply mo_error|intros; apply mo_ret]].
  - destruct (name_eqb n (codes "list")); [|apply mo_bind; [apply mo_error|intros; apply mo_ret]].
    destruct args as [|a [|]]; try (apply mo_bind; [apply mo_error|intros; apply mo_ret]).
    apply mo_bind; [apply IH|intros; apply mo_ret].
  - apply mo_bind; [apply IH|intros; apply mo_ret].
Qed.
Lemma mo_resolve_opt t : mono (resolve_opt t). Proof. destruct t; [apply mo_resolve|apply mo_ret]. Qed.

Ltac mos := repeat first
  [ apply mo_ret | apply mo_crash | apply mo_error | apply mo_warning | apply mo_python | apply mo_call | apply mo_push
  | apply mo_pop | apply mo_define | apply mo_lookup | apply mo_error_if | apply mo_resolve | apply mo_resolve_opt | assumption
  | (apply mo_bind; [|intros])
  | match goal with |- mono (if ?b then _ else _) => destruct b end
  | match goal with |- mono (match ?x with _ => _ end) => destruct x end
  | (apply mo_each; match goal with F : Forall _ ?l |- Forall _ ?l => revert F; apply Forall_impl; intros end) ].

Section Check.
  Variables (builtins : name -> option signature) (methods : typ -> name -> option signature) (max_errors : nat).
  Variable commands : list name.
  Hypothesis max_pos : (0 < max_errors)%nat.
  Notation check_expr := (check_expr builtins methods max_errors commands).
  Notation check_stmt := (check_stmt builtins methods max_errors commands).
  Notation check_block := (check_block builtins methods max_errors commands).

  Lemma mo_unless {A} (a : A) m : mono m -> mono (unless_full max_errors a m).
  Proof. intros Hm k b k' E. unfold unless_full in E. destruct (Nat.leb max_errors (length (k_errs k))); [inversion E; auto|eapply Hm; eauto]. Qed.
  Lemma mo_identifier n : mono (identifier builtins n).
  Proof. unfold identifier. mos. Qed.
  Lemma mo_binary op l r : mono (binary_type op l r).
  Proof. unfold binary_type. destruct op; mos. Qed.
  Lemma mo_unary op t : mono (unary_type op t).
  Proof. unfold unary_type. destruct op; mos. Qed.
  Lemma mo_arguments f code args : Forall (fun a => mono (f a)) args -> forall ps, mono (arguments f code ps args).
  Proof. induction 1; intros ps; cbn; mos. auto. Qed.
  Lemma mo_elements f es : Forall (fun a => mono (f a)) es -> forall t, mono (elements f t es).
  Proof. induction 1; intros t; cbn; mos; auto. Qed.
  Lemma mo_arms f s arms : Forall (fun pe => mono (f (snd pe))) arms -> forall r, mono (arms_type f s r arms).
  Proof. induction 1 as [|[p e] arms]; intros r; cbn; mos; auto. Qed.

  Ltac mo2 := repeat first
    [ apply mo_identifier | apply mo_binary | apply mo_unary
    | apply mo_arguments; assumption | apply mo_elements; assumption | apply mo_arms; assumption
    | progress mos ].

  Section Cur.
  Variable cur : fundef.
  Lemma expr_step e : check_expr cur e =
    unless_full max_errors TError (expr_body builtins methods commands cur (check_expr cur) (check_block cur) e).
  Proof. destruct e; reflexivity. Qed.
  Lemma stmt_step s : check_stmt cur s = unless_full max_errors tt (stmt_body cur (check_expr cur) (check_block cur) s).
  Proof. destruct s; reflexivity. Qed.
  Lemma block_step b : check_block cur b = block_body (check_expr cur) (check_stmt cur) b.
  Proof. destruct b; reflexivity. Qed.
  Lemma mo_check :
    (forall e, mono (check_expr cur e)) /\ (forall s, mono (check_stmt cur s)) /\ (forall b, mono (check_block cur b)).
  Proof.
    apply (ast_ind (fun e => mono (check_expr cur e)) (fun s => mono (check_stmt cur s)) (fun b => mono (check_block cur b)));
      intros; rewrite ?expr_step, ?stmt_step, ?block_step; try apply mo_unless; cbn [expr_body stmt_body block_body].
    all: try solve [mo2].
    - destruct l; [mo2|]. inversion H; subst. mo2.
    - mo2; destruct H0 as [H0 H1]; cbn in *; mo2.
    - mo2. apply mo_each, Forall_forall. intros. mo2.
    - mo2; match goal with h : _ /\ _ |- _ => destruct h end; mo2.
  Qed.
  End Cur.

  (** * Accepted code is scoped *)
  Variable special : name -> bool.
  Definition Env (env : list name) (ss : list (list (name * symbol))) : Prop :=
    forall n, find_symbol n ss <> None -> mem n env = true \/ special n = true.
  Definition Funs (ss : list (list (name * symbol))) : Prop :=
    Forall (fun sc => forall n k t, dget name_eqb n sc = Some (k, t) -> k = KCommand \/ k = KFunction -> special n = true /\ exists ps r, t = TFun ps r) ss.
  Hypothesis special_builtin : forall n g, builtins n = Some g -> special n = true.
  Hypothesis special_type : forall n t, type_named n = Some t -> special n = true.

  Lemma dget_set_name {A} n m (v : A) d : dget name_eqb n (dset name_eqb m v d) = if name_eqb n m then Some v else dget name_eqb n d.
  Proof. apply dget_set. intros; apply name_eqb_spec. Qed.
  Lemma find_fun ss n k t : Funs ss -> find_symbol n ss = Some (k, t) -> k = KCommand \/ k = KFunction -> special n = true /\ exists ps r, t = TFun ps r.
  Proof.
    induction 1 as [|sc ss Hs _ IH]; cbn [find_symbol]; [discriminate|]. unfold symbol in *. destruct (dget name_eqb n sc) as [[k' t']|] eqn:E.
    - intros X Hk. inversion X; subst. exact (Hs n _ _ E Hk).
    - exact IH.
  Qed.

  (** [m] leaves the scopes alone. *)
  Definition keeps {A} (m : C A) : Prop := forall k a k', m k = Some (a, k') -> k_scopes k' = k_scopes k.
  Lemma ke_ret {A} (a : A) : keeps (cret a). Proof. intros k b k' E. inversion E; auto. Qed.
  Lemma ke_crash {A} : keeps (@crash A). Proof. intros k b k' E. discriminate. Qed.
  Lemma ke_error c : keeps (error c). Proof. intros k b k' E. inversion E; auto. Qed.
  Lemma ke_warning c : keeps (warning c). Proof. intros k b k' E. inversion E; auto. Qed.
  Lemma ke_python : keeps python_flag. Proof. intros k b k' E. inversion E; auto. Qed.
  Lemma ke_call a b : keeps (add_call a b). Proof. intros k ? k' E. inversion E; auto. Qed.
  Lemma ke_lookup n : keeps (lookup_symbol n). Proof. intros k ? k' E. inversion E; auto. Qed.
  Lemma ke_bind {A B} (m : C A) (f : A -> C B) : keeps m -> (forall a, keeps (f a)) -> keeps (cbind m f).
  Proof. intros Hm Hf k b k' E. apply cbind_some in E as (a & k1 & E1 & E2). apply Hm in E1. apply Hf in E2. congruence. Qed.
  Lemma ke_error_if b c : keeps (error_if b c). Proof. destruct b; [apply ke_error|apply ke_ret]. Qed.
  Lemma ke_resolve t : keeps (resolve_node t).
  Proof.
    revert t. fix IH 1. intros [n|n args|t]; cbn [resolve_node].
    - destruct (type_named n); [apply ke_ret|apply ke_bind; [apply ke_error|intros; apply ke_ret]].
    - destruct (name_eqb n (codes "list")); [|apply ke_bind; [apply ke_error|intros; apply ke_ret]].
      destruct args as [|a [|]]; try (apply ke_bind; [apply ke_error|intros; apply ke_ret]).
      apply ke_bind; [apply IH|intros; apply ke_ret].
    - apply ke_bind; [apply IH|intros; apply ke_ret].
  Qed.
  Lemma resolve_known t : forall k a k', resolve_node t k = Some (a, k') -> k_errs k' = [] -> known_type t = true.
  Proof.
    revert t. fix IH 1. intros [n|n args|t]; cbn [resolve_node known_type]; intros k a k' E X.
    - destruct (type_named n); auto. apply cbind_some in E as (u & k1 & E1 & E2). inversion E2; subst.
      inversion E1; subst. cbn in X. destruct (app_cons_not_nil _ _ _ (eq_sym X)).
    - destruct (name_eqb n (codes "list")).
      + destruct args as [|b [|]]; try (apply cbind_some in E as (u & k1 & E1 & E2); inversion E2; subst;
          inversion E1; subst; cbn in X; destruct (app_cons_not_nil _ _ _ (eq_sym X))).
        apply cbind_some in E as (u & k1 & E1 & E2). inversion E2; subst. cbn. eapply IH; eauto.
      + apply cbind_some in E as (u & k1 & E1 & E2). inversion E2; subst.
        inversion E1; subst. cbn in X. destruct (app_cons_not_nil _ _ _ (eq_sym X)).
    - apply cbind_some in E as (u & k1 & E1 & E2). inversion E2; subst. eapply IH; eauto.
  Qed.
  Lemma error_if_quiet b c k u k' : error_if b c k = Some (u, k') -> k_errs k' = [] -> b = false /\ k' = k.
  Proof.
    destruct b; cbn; intros E X; inversion E; subst; auto. cbn in X. destruct (app_cons_not_nil _ _ _ (eq_sym X)).
  Qed.
  Lemma define_some n s k b k' sc ss : define n s k = Some (b, k') -> k_scopes k = sc :: ss ->
    (b = false /\ k' = k /\ dget name_eqb n sc <> None) \/
    (b = true /\ dget name_eqb n sc = None /\ k' = set_kscopes (dset name_eqb n s sc :: ss) k).
  Proof.
    unfold define. intros E Es. rewrite Es in E. destruct (dget name_eqb n sc) eqn:G; inversion E; subst.
    - left. repeat split; congruence.
    - right. auto.
  Qed.
  Lemma Env_incl env env' ss : incl env env' -> Env env ss -> Env env' ss.
  Proof.
    intros Hi He n Hn. destruct (He n Hn) as [G|G]; auto. left. unfold mem in *. rewrite existsb_exists in *.
    destruct G as (x & Hx & Hy). exists x. auto.
  Qed.
  Lemma mem_in n l : mem n l = true <-> In n l.
  Proof.
    unfold mem. rewrite existsb_exists. split.
    - intros (x & Hx & E). apply name_eqb_spec in E. subst. auto.
    - intros Hn. exists n. split; auto. apply name_eqb_spec. reflexivity.
  Qed.
  (** The current scope has exactly the names [cur]. *)
  Definition Cur (cur : list name) (sc : list (name * symbol)) : Prop :=
    forall n, dget name_eqb n sc <> None <-> In n cur.
  Lemma Env_cur cur outer sc ss : Cur cur sc -> Env outer ss -> Env (cur ++ outer) (sc :: ss).
  Proof.
    intros Hc He n. cbn. destruct (dget name_eqb n sc) eqn:G.
    - intros _. left. apply mem_in, in_app_iff. left. apply Hc. congruence.
    - intros Hn. destruct (He n Hn) as [X|X]; auto. left. apply mem_in in X. apply mem_in, in_app_iff. auto.
  Qed.
  Lemma Cur_set cur sc n s : Cur cur sc -> Cur (n :: cur) (dset name_eqb n s sc).
  Proof.
    intros Hc m. rewrite dget_set_name. destruct (name_eqb m n) eqn:G.
    - apply name_eqb_spec in G. subst. split; [left; auto|discriminate].
    - rewrite (Hc m). cbn. split; [auto|intros [<-|]; auto]. rewrite (proj2 (name_eqb_spec n n) eq_refl) in G. discriminate.
  Qed.
  Lemma Cur_nil : Cur [] []. Proof. intros n; cbn. split; [congruence|intros []]. Qed.
  Lemma Cur_dup cur sc n : Cur cur sc -> dget name_eqb n sc <> None -> Cur (n :: cur) sc.
  Proof. intros Hc Hn m. rewrite (Hc m). cbn. split; auto. intros [<-|]; auto. apply Hc; auto. Qed.
  Lemma pop_some k k' u sc ss : pop_scope k = Some (u, k') -> k_scopes k = sc :: ss -> ss <> [] ->
    k_scopes k' = ss /\ k_errs k' = k_errs k.
  Proof. unfold pop_scope. intros E Es Hs. rewrite Es in E. destruct ss; [congruence|]. inversion E; subst. auto. Qed.
  Lemma unless_some {A} (a : A) m k b k' : unless_full max_errors a m k = Some (b, k') ->
    (m k = Some (b, k') \/ (k' = k /\ k_errs k <> [])).
  Proof.
    unfold unless_full. destruct (Nat.leb_spec max_errors (length (k_errs k))); auto. intros E. inversion E; subst.
    right. split; auto. intros X. rewrite X in *. cbn in *. lia.
  Qed.

  Section Scoped.
  Variable cur : fundef.
  (** An expression check [f e] behaves like one that leaves the scopes alone and, when
      nothing is reported, has established that [e] is scoped. *)
  Definition okC {A} (m : C A) (holds : list name -> Prop) : Prop := forall k a k',
    m k = Some (a, k') -> k_scopes k <> [] -> k_scopes k' = k_scopes k /\
    (k_errs k' = [] -> Funs (k_scopes k) -> forall env, Env env (k_scopes k) -> holds env).
  Lemma ok_bind {A B} (m : C A) (f : A -> C B) (P Q : list name -> Prop) :
    okC m P -> (forall a, okC (f a) Q) -> (forall a, mono (f a)) -> okC (cbind m f) (fun env => P env /\ Q env).
  Proof.
    intros Hm Hf Mf k b k' E Hk. apply cbind_some in E as (a & k1 & E1 & E2).
    destruct (Hm _ _ _ E1 Hk) as [S1 P1]. destruct (Hf _ _ _ _ E2) as [S2 P2]; [congruence|].
    split; [congruence|]. intros X F env He. split; [eapply P1; eauto; eapply Mf; eauto|].
    rewrite S1 in P2. eapply P2; eauto.
  Qed.
  Lemma ok_keeps {A} (m : C A) : keeps m -> okC m (fun _ => True).
  Proof. intros Hm k a k' E _. split; [eapply Hm; eauto|auto]. Qed.
  Lemma ok_weak {A} (m : C A) (P Q : list name -> Prop) : okC m P -> (forall env, P env -> Q env) -> okC m Q.
  Proof. intros Hm Hi k a k' E Hk. destruct (Hm _ _ _ E Hk) as [S P1]. split; auto. Qed.
  Lemma ok_fail {A} c (a : A) P : okC (error c;~ cret a) P.
  Proof.
    intros k b k' E _. apply cbind_some in E as (u & k1 & E1 & E2). inversion E1; inversion E2; subst. split; auto. cbn.
    intros X. destruct (app_cons_not_nil _ _ _ (eq_sym X)).
  Qed.
  Lemma ok_unless {A} (a : A) m P : okC m P -> okC (unless_full max_errors a m) P.
  Proof.
    intros Hm k b k' E Hk. apply unless_some in E as [E|[-> Hn]]; [eapply Hm; eauto|]. split; auto. congruence.
  Qed.
  Notation ce := (check_expr cur).
  Notation sc := (scoped special).
  Definition okE (e : expr) : Prop := plain special e = true -> okC (ce e) (fun env => sc env e = true).
  Lemma okE_mono e : mono (ce e). Proof. apply mo_check. Qed.

  Ltac kes := repeat first
    [ apply ke_ret | apply ke_crash | apply ke_error | apply ke_warning | apply ke_python | apply ke_call
    | apply ke_lookup | apply ke_error_if | apply ke_resolve
    | (apply ke_bind; [|intros])
    | match goal with |- keeps (if ?b then _ else _) => destruct b end
    | match goal with |- keeps (match ?x with _ => _ end) => destruct x end ].
  Lemma ke_binary op l r : keeps (binary_type op l r). Proof. unfold binary_type. destruct op; kes. Qed.
  Lemma ke_unary op t : keeps (unary_type op t). Proof. unfold unary_type. destruct op; kes. Qed.

  Lemma ok_arguments code args : Forall okE args -> forallb (plain special) args = true -> forall ps,
    okC (arguments ce code ps args) (fun env => forallb (sc env) args = true).
  Proof.
    induction 1 as [|e es He Hes IH]; cbn [forallb arguments]; intros Hp ps.
    - eapply ok_weak; [apply ok_keeps, ke_ret|reflexivity].
    - apply andb_true_iff in Hp as [Hp1 Hp2]. eapply ok_weak.
      + apply ok_bind; [exact (He Hp1)| |].
        * intros t. apply ok_bind; [apply ok_keeps; kes| |].
          -- intros _. apply ok_bind; [apply (IH Hp2)|intros; apply ok_keeps, ke_ret|intros; apply mo_ret].
          -- intros _. apply mo_bind; [|intros; apply mo_ret]. apply mo_arguments, Forall_forall. intros; apply okE_mono.
        * intros t. apply mo_bind; [mos|]. intros _. apply mo_bind; [|intros; apply mo_ret].
          apply mo_arguments, Forall_forall. intros; apply okE_mono.
      + cbn. intros env (A & _ & B & _). rewrite A, B. reflexivity.
  Qed.
  Lemma ok_elements es : Forall okE es -> forallb (plain special) es = true -> forall t,
    okC (elements ce t es) (fun env => forallb (sc env) es = true).
  Proof.
    induction 1 as [|e es He Hes IH]; cbn [forallb elements]; intros Hp t.
    - eapply ok_weak; [apply ok_keeps, ke_ret|reflexivity].
    - apply andb_true_iff in Hp as [Hp1 Hp2].
      assert (Mo : forall t, mono (elements ce t es)) by (intros; apply mo_elements, Forall_forall; intros; apply okE_mono).
      eapply ok_weak.
      + apply ok_bind; [exact (He Hp1)| |].
        * intros u. instantiate (1 := fun env => forallb (sc env) es = true). destruct (is_assignable_from t u); [apply (IH Hp2)|].
          destruct (common_type t u); [apply (IH Hp2)|]. eapply ok_weak.
          -- apply ok_bind; [apply ok_keeps, ke_error|intros; apply (IH Hp2)|intros; apply Mo].
          -- cbn. tauto.
        * intros u. mos; apply Mo.
      + cbn. intros env (A & B). rewrite A, B. reflexivity.
  Qed.
  Lemma ok_arms s arms : Forall (fun pe => okE (snd pe)) arms -> forallb (fun pe => plain special (snd pe)) arms = true -> forall r,
    okC (arms_type ce s r arms) (fun env => forallb (fun pe => sc env (snd pe)) arms = true).
  Proof.
    induction 1 as [|[p e] es He Hes IH]; cbn [forallb arms_type]; intros Hp r.
    - eapply ok_weak; [apply ok_keeps, ke_ret|reflexivity].
    - apply andb_true_iff in Hp as [Hp1 Hp2].
      assert (Mo : forall t, mono (arms_type ce s t es)) by (intros; apply mo_arms, Forall_forall; intros; apply okE_mono).
      eapply ok_weak.
      + apply ok_bind; [apply ok_keeps; kes| |].
        * intros _. apply ok_bind; [exact (He Hp1)|intros; apply (IH Hp2)|intros; apply Mo].
        * intros _. apply mo_bind; [apply okE_mono|intros; apply Mo].
      + cbn. intros env (_ & A & B). rewrite A, B. reflexivity.
  Qed.
  Lemma ok_each {A} (g : A -> C unit) (P : list name -> A -> bool) l :
    Forall (fun a => okC (g a) (fun env => P env a = true) /\ mono (g a)) l ->
    okC (each g l) (fun env => forallb (P env) l = true).
  Proof.
    induction 1 as [|a l [Ha Ma] Hl IH]; cbn [forallb each].
    - eapply ok_weak; [apply ok_keeps, ke_ret|reflexivity].
    - eapply ok_weak.
      + apply ok_bind; [exact Ha|intros; exact IH|]. intros _. apply mo_each. revert Hl. apply Forall_impl. tauto.
      + cbn. intros env (X & Y). rewrite X, Y. reflexivity.
  Qed.
  (** push_scope; ...; pop_scope *)
  Lemma pushed env outer ss : Env outer ss -> env = outer -> Env env ([] :: ss).
  Proof. intros He -> n Hn. apply He. exact Hn. Qed.
  Lemma Funs_set ss sc1 n t : Funs (sc1 :: ss) -> Funs (dset name_eqb n (KVariable, t) sc1 :: ss) /\ Funs (dset name_eqb n (KParameter, t) sc1 :: ss).
  Proof.
    intros F. inversion F; subst. split; constructor; auto; intros m k u Hg; rewrite dget_set_name in Hg;
      (destruct (name_eqb m n); [inversion Hg; subst; intros [X|X]; discriminate|eauto]).
  Qed.
  Lemma Funs_nil ss : Funs ss -> Funs ([] :: ss).
  Proof. intros F. constructor; auto. intros n k t X. discriminate. Qed.
  Lemma Env_set env ss sc1 n t : Env env (sc1 :: ss) -> Env (n :: env) (dset name_eqb n t sc1 :: ss).
  Proof.
    intros He m. cbn [find_symbol]. unfold symbol in *. rewrite dget_set_name. destruct (name_eqb m n) eqn:G.
    - intros _. left. cbn. rewrite G. reflexivity.
    - intros X. destruct (He m) as [Y|Y]; auto. left. cbn. rewrite G. exact Y.
  Qed.
  Lemma Env_more env ss n : Env env ss -> Env (n :: env) ss.
  Proof. apply Env_incl. intros x; right; auto. Qed.
  Lemma mo_cond c : mono (t <~ ce c; error_if (not_bool t) "E294").
  Proof. apply mo_bind; [apply okE_mono|intros; apply mo_error_if]. Qed.
  Lemma mo_clauses cls : mono (each (fun cl => match cl with (x, it, conds) =>
                  t <~ ce it;
                  define x (KVariable, iter_type t);~
                  each (fun c => t <~ ce c; error_if (not_bool t) "E294") conds end) cls).
  Proof.
    apply mo_each, Forall_forall. intros [[x it] cs] _. apply mo_bind; [apply okE_mono|]. intros. apply mo_bind; [apply mo_define|].
    intros. apply mo_each, Forall_forall. intros. apply mo_cond.
  Qed.
  Lemma ok_clauses e cls : Forall (fun cl => okE (snd (fst cl)) /\ Forall okE (snd cl)) cls ->
    forallb (fun cl => plain special (snd (fst cl)) && forallb (plain special) (snd cl)) cls = true ->
    forall k u k' sc1 ss,
    each (fun cl => match cl with (x, it, conds) =>
                  t <~ ce it;
                  define x (KVariable, iter_type t);~
                  each (fun c => t <~ ce c; error_if (not_bool t) "E294") conds end) cls k = Some (u, k') ->
    k_scopes k = sc1 :: ss ->
    exists sc2, k_scopes k' = sc2 :: ss /\
    (k_errs k' = [] -> Funs (sc1 :: ss) -> forall env, Env env (sc1 :: ss) ->
     Funs (sc2 :: ss) /\ exists env', Env env' (sc2 :: ss) /\ (sc env' e = true -> sc env (EComp e cls) = true)).
  Proof.
    induction 1 as [|[[x it] cs] cls [Hi Hc] _ IH]; cbn [forallb each fst snd]; intros Hp k u k' sc1 ss E Es.
    - inversion E; subst. exists sc1. split; auto. intros _ F env He. split; auto. exists env. split; auto.
    - apply andb_true_iff in Hp as [Hp Hp3]. apply andb_true_iff in Hp as [Hp1 Hp2]. cbn [fst snd] in *.
      apply cbind_some in E as (u1 & k1 & E1 & E2).
      apply cbind_some in E1 as (t & k2 & E1 & E3).
      apply cbind_some in E3 as (b & k3 & E3 & E4).
      destruct (Hi Hp1 _ _ _ E1) as [S1 P1]; [congruence|]. rewrite Es in *.
      assert (O : okC (each (fun c => t <~ ce c; error_if (not_bool t) "E294") cs) (fun env => forallb (sc env) cs = true)).
      { apply ok_each. apply Forall_forall. intros c Hin. rewrite Forall_forall in Hc. rewrite forallb_forall in Hp2. split.
        - eapply ok_weak; [apply ok_bind; [exact (Hc c Hin (Hp2 c Hin))|intros; apply ok_keeps, ke_error_if|intros; apply mo_error_if]|].
          cbn. tauto.
        - apply mo_cond. }
      assert (exists sc2, k_scopes k3 = sc2 :: ss /\ (k_errs k3 = k_errs k2) /\
        (Funs (sc1 :: ss) -> Funs (sc2 :: ss)) /\ (forall env, Env env (sc1 :: ss) -> Env (x :: env) (sc2 :: ss))) as (sc2 & D1 & D2 & D3 & D4).
      { destruct (define_some _ _ _ _ _ _ _ E3 S1) as [(_ & -> & _)|(_ & _ & ->)].
        - exists sc1. split; [auto|]. split; [auto|]. split; [auto|]. intros env. apply Env_more.
        - exists (dset name_eqb x (KVariable, iter_type t) sc1). cbn. split; auto. split; auto. split.
          + intros F. apply (Funs_set ss sc1 x (iter_type t) F).
          + intros env. apply Env_set. }
      destruct (O _ _ _ E4) as [S4 P4]; [congruence|]. rewrite D1 in *.
      destruct (IH Hp3 _ _ _ _ _ E2 S4) as (sc3 & S5 & P5). exists sc3. split; auto. intros X F env He.
      assert (X1 : k_errs k1 = []) by (eapply mo_clauses; eauto).
      assert (X3 : k_errs k3 = []).
      { revert X1. eapply mo_each; [|exact E4]. apply Forall_forall. intros; apply mo_cond. }
      rewrite D2 in X3.
      destruct (P5 X (D3 F) (x :: env) (D4 _ He)) as (F3 & env' & He' & Hs). split; auto. exists env'. split; auto.
      intros G. change (sc env it && forallb (sc (x :: env)) cs && sc (x :: env) (EComp e cls) = true).
      rewrite (P1 X3 F env He), (P4 X1 (D3 F) _ (D4 _ He)), (Hs G). reflexivity.
  Qed.
  Lemma ok_lambda_params ps : forall k u k' sc1 ss,
    each (fun p => define p (KParameter, TUnknown);~ cret tt) ps k = Some (u, k') -> k_scopes k = sc1 :: ss ->
    exists sc2, k_scopes k' = sc2 :: ss /\ k_errs k' = k_errs k /\ (Funs (sc1 :: ss) -> Funs (sc2 :: ss)) /\
      (forall env, Env env (sc1 :: ss) -> Env (ps ++ env) (sc2 :: ss)).
  Proof.
    induction ps as [|p ps IH]; cbn [each app]; intros k u k' sc1 ss E Es.
    - inversion E; subst. exists sc1. auto.
    - apply cbind_some in E as (u1 & k1 & E1 & E2). apply cbind_some in E1 as (b & k2 & E1 & E3). inversion E3; subst.
      destruct (define_some _ _ _ _ _ _ _ E1 Es) as [(_ & -> & _)|(_ & _ & ->)].
      + destruct (IH _ _ _ _ _ E2 Es) as (sc2 & A & B & F & G). exists sc2. repeat split; auto.
        intros env He. apply Env_more, G, He.
      + destruct (IH _ _ _ _ _ E2 eq_refl) as (sc2 & A & B & F & G). exists sc2. repeat split; auto.
        * intros H1. apply F. apply (Funs_set ss sc1 p TUnknown H1).
        * intros env He. eapply Env_incl; [|apply G, Env_set, He]. intros n. rewrite in_app_iff. cbn. rewrite in_app_iff. tauto.
  Qed.

  Definition okS (s : stmt) : Prop := plain_stmt special s = true -> forall k u k' sc1 ss,
    check_stmt cur s k = Some (u, k') -> k_scopes k = sc1 :: ss ->
    exists sc2, k_scopes k' = sc2 :: ss /\
    (k_errs k' = [] -> Funs (sc1 :: ss) -> forall cr outer, Cur cr sc1 -> Env outer ss ->
     scoped_stmt special outer cr s = true /\ Cur (declared s ++ cr) sc2 /\ Funs (sc2 :: ss)).
  Definition okB (b : block) : Prop := plain_block special b = true -> forall k u k' sc1 ss,
    check_block cur b k = Some (u, k') -> k_scopes k = sc1 :: ss ->
    exists sc2, k_scopes k' = sc2 :: ss /\
    (k_errs k' = [] -> Funs (sc1 :: ss) -> forall cr outer, Cur cr sc1 -> Env outer ss -> scoped_block special outer cr b = true).

  (** A block checked in a scope of its own. *)
  Lemma ok_nested b : okB b -> plain_block special b = true ->
    okC (push_scope;~ check_block cur b;~ pop_scope) (fun env => scoped_block special env [] b = true).
  Proof.
    intros Hb Hp k u k' E Hk.
    apply cbind_some in E as (u1 & k1 & E1 & E2). inversion E1; subst.
    apply cbind_some in E2 as (t & k2 & E2 & E3).
    destruct (Hb Hp _ _ _ _ _ E2 eq_refl) as (sc2 & S2 & P2).
    destruct (pop_some _ _ _ _ _ E3 S2 Hk) as [S3 X3]. split; auto. rewrite X3. intros X F env He.
    apply P2; auto. - apply Funs_nil; auto. - apply Cur_nil.
  Qed.
  Lemma mo_nested b : mono (push_scope;~ check_block cur b;~ pop_scope).
  Proof. apply mo_bind; [apply mo_push|intros]. apply mo_bind; [apply mo_check|intros; apply mo_pop]. Qed.
  Lemma ok_nested_then {A} b (m : C A) Q : okB b -> plain_block special b = true -> okC m Q -> mono m ->
    okC (push_scope;~ check_block cur b;~ pop_scope;~ m) (fun env => scoped_block special env [] b = true /\ Q env).
  Proof.
    intros Hb Hp Hm Mm k a k' E Hk.
    eapply (ok_bind (push_scope;~ check_block cur b;~ pop_scope) (fun _ => m)); [apply ok_nested; auto|auto|auto| |exact Hk].
    revert E. unfold cbind. destruct (push_scope k) as [[? k1]|]; [|exact (fun E => E)].
    destruct (check_block cur b k1) as [[? k2]|]; [|exact (fun E => E)].
    destruct (pop_scope k2) as [[? ?]|]; exact (fun E => E).
  Qed.
  (** Statements that declare nothing *)
  Lemma okS_of s (m : C unit) (P : list name -> bool) : check_stmt cur s = unless_full max_errors tt m ->
    declared s = [] -> (forall outer cr, scoped_stmt special outer cr s = P (cr ++ outer)) ->
    (plain_stmt special s = true -> okC m (fun env => P env = true)) -> okS s.
  Proof.
    intros Em Hd Hs Ho Hp k u k' sc1 ss E Es. rewrite Em in E. exists sc1.
    destruct (ok_unless _ _ _ (Ho Hp) _ _ _ E) as [S1 P1]; [congruence|]. rewrite Es in *. split; auto.
    intros X F cr outer Hc He. rewrite Hs, Hd. split; [apply P1; auto; apply Env_cur; auto|]. split; auto.
  Qed.

  Ltac momo := repeat first
    [ apply okE_mono | apply (proj2 (proj2 (mo_check cur))) | apply mo_identifier | apply mo_binary | apply mo_unary
    | (apply mo_arguments, Forall_forall; intros; apply okE_mono)
    | (apply mo_elements, Forall_forall; intros; apply okE_mono)
    | (apply mo_arms, Forall_forall; intros; apply okE_mono)
    | apply mo_ret | apply mo_crash | apply mo_error | apply mo_warning | apply mo_python | apply mo_call | apply mo_push
    | apply mo_pop | apply mo_define | apply mo_lookup | apply mo_error_if | apply mo_resolve | apply mo_resolve_opt
    | (apply mo_bind; [|intros])
    | match goal with |- mono (if ?b then _ else _) => destruct b end
    | match goal with |- mono (match ?x with _ => _ end) => destruct x end
    | (apply mo_each, Forall_forall; intros) ].
  Ltac okk := repeat first
    [ match goal with H : okE ?e, P : plain special ?e = true |- okC (ce ?e) _ => exact (H P) end
    | (eapply ok_arguments; eassumption) | (eapply ok_elements; eassumption) | (eapply ok_arms; eassumption)
    | (apply ok_keeps; solve [kes | apply ke_binary | apply ke_unary ])
    | (apply ok_bind; [|intros|intros; solve [momo]]) ].
  Ltac spl := repeat match goal with H : _ && _ = true |- _ => apply andb_true_iff in H as [? ?] end.
  Ltac fin := cbn [scoped]; intros; repeat match goal with H : _ /\ _ |- _ => destruct H end;
    repeat match goal with H : _ = true |- _ => rewrite H; clear H end; reflexivity.
  Lemma ok_check : (forall e, okE e) /\ (forall s, okS s) /\ (forall b, okB b).
  Proof.
    apply (ast_ind okE okS okB).
    all: try (intros; match goal with |- okE _ => intros Hp; rewrite expr_step; apply ok_unless; cbn [expr_body plain] in * end).
    - eapply ok_weak; [apply ok_keeps, ke_ret|reflexivity].
    - intros k a k' E Hk. unfold identifier in E. apply cbind_some in E as (s & k1 & E1 & E2). inversion E1; subst.
      destruct (find_symbol n (k_scopes k1)) as [[kd t]|] eqn:Fs.
      + inversion E2; subst. split; auto. intros _ _ env He. cbn. destruct (He n) as [X|X]; auto; [congruence|].
        rewrite X in Hp. discriminate.
      + destruct (type_named n) eqn:T; [|destruct (builtins n) eqn:B].
        * apply special_type in T. rewrite T in Hp. discriminate.
        * apply special_builtin in B. rewrite B in Hp. discriminate.
        * apply cbind_some in E2 as (u & k2 & E2 & E3). inversion E2; inversion E3; subst. split; auto. cbn.
          intros X. destruct (app_cons_not_nil _ _ _ (eq_sym X)).
    - spl. eapply ok_weak; [okk|fin].
    - eapply ok_weak; [okk|fin].
    - (* call *) destruct f; try discriminate. spl. destruct named; [|discriminate].
      destruct (builtins n) eqn:B.
      + apply special_builtin in B. eapply ok_weak; [|intros env G; cbn [scoped]; rewrite B; exact G].
        eapply ok_weak; [|intros env G; rewrite andb_true_r; exact G]. 
        eapply ok_weak; [okk|]. cbv beta. intros env (_ & A & _). rewrite A. reflexivity.
      + destruct (type_named n) eqn:T.
        * apply special_type in T. eapply ok_weak; [|intros env G; cbn [scoped]; rewrite T, andb_true_r; exact G].
          eapply ok_weak.
          -- apply ok_bind; [|intros; okk|intros; momo]. apply ok_each. apply Forall_forall. intros x Hx. split; [|momo].
             eapply ok_weak; [apply ok_bind; [|intros; apply ok_keeps, ke_ret|intros; momo]|cbn; intros env [G _]; exact G].
             rewrite Forall_forall in H0. match goal with h : forallb _ args = true |- _ => rewrite forallb_forall in h; apply (H0 x Hx (h x Hx)) end.
          -- cbv beta. intros env [A _]. rewrite A. reflexivity.
        * intros k a k' E Hk. apply cbind_some in E as (s & k1 & E1 & E2). inversion E1; subst.
          destruct (find_symbol n (k_scopes k1)) as [[kd t]|] eqn:Fs.
          2:{ apply cbind_some in E2 as (u & k2 & E2 & E3). inversion E2; inversion E3; subst. split; auto. cbn.
              intros X. destruct (app_cons_not_nil _ _ _ (eq_sym X)). }
          assert (Hf : Funs (k_scopes k1) -> forall kd', kd = kd' -> kd' = KCommand \/ kd' = KFunction -> special n = true /\ exists ps r, t = TFun ps r).
          { intros F kd' -> K. eapply find_fun; eauto. }
          assert (G : forall m, (match t with TFun ps r => arguments ce "E274" ps args;~ cret r | _ => cret TUnknown end) = m ->
            okC m (fun env => (exists ps r, t = TFun ps r) -> forallb (sc env) args = true)).
          { intros m <-. destruct t; try (intros k ? ? Em _; inversion Em; subst; split; auto; intros _ _ env _ (? & ? & ?); discriminate).
            eapply ok_weak; [okk|]. cbv beta. tauto. }
          destruct kd; [destruct (ok_fail _ _ (fun _ => False) _ _ _ E2 Hk) as [S P]; split; auto;
            intros X F env He; destruct (P X F env He) | destruct (ok_fail _ _ (fun _ => False) _ _ _ E2 Hk) as [S P]; split; auto;
            intros X F env He; destruct (P X F env He) | |].
          all: apply cbind_some in E2 as (u & k2 & E2 & E3);
            assert (S2 : k_scopes k2 = k_scopes k1) by (revert E2; destruct (existsb (name_eqb n) commands); intros E2; inversion E2; reflexivity);
            destruct (G _ eq_refl _ _ _ E3) as [S P]; [congruence|]; rewrite S2 in *; split; auto; intros X F env He;
            destruct (Hf F _ eq_refl) as [K1 K2]; auto; cbn [scoped]; rewrite K1, (P X F env He K2); reflexivity.
    - (* method *) discriminate.
    - eapply ok_weak; [okk|fin].
    - spl. eapply ok_weak; [okk|fin].
    - (* list *) destruct l as [|e es]; [eapply ok_weak; [apply ok_keeps, ke_ret|reflexivity]|].
      cbn in Hp. spl. inversion H; subst. eapply ok_weak; [okk|]. cbn. intros env (A & B & _). rewrite A, B. reflexivity.
    - (* comprehension *) spl. intros k a k' E Hk.
      apply cbind_some in E as (u1 & k1 & E1 & E2). inversion E1; subst.
      apply cbind_some in E2 as (u2 & k2 & E2 & E3). apply cbind_some in E3 as (t & k3 & E3 & E4).
      apply cbind_some in E4 as (u4 & k4 & E4 & E5). inversion E5; subst.
      destruct (ok_clauses e cls H0 H2 _ _ _ _ _ E2 eq_refl) as (sc2 & S2 & P2).
      destruct (H H1 _ _ _ E3) as [S3 P3]; [congruence|]. rewrite S2 in *.
      destruct (pop_some _ _ _ _ _ E4 S3 Hk) as [S4 X4]. split; auto. rewrite X4. intros X F env He.
      assert (X2 : k_errs k2 = []) by (eapply okE_mono; eauto).
      destruct (P2 X2 (Funs_nil _ F) env He) as (F2 & env' & He' & G). apply G, P3; auto.
    - spl. eapply ok_weak; [okk|fin].
    - spl. eapply ok_weak; [okk|fin].
    - discriminate.
    - spl. eapply ok_weak; [okk|]. cbn. intros env (A & B & _). rewrite A, B. reflexivity.
    - (* lambda *) intros k a k' E Hk.
      apply cbind_some in E as (u1 & k1 & E1 & E2). inversion E1; subst.
      apply cbind_some in E2 as (u2 & k2 & E2 & E3). apply cbind_some in E3 as (t & k3 & E3 & E4).
      apply cbind_some in E4 as (u4 & k4 & E4 & E5). inversion E5; subst.
      destruct (ok_lambda_params ps _ _ _ _ _ E2 eq_refl) as (sc2 & S2 & X2 & F2 & P2).
      destruct (H Hp _ _ _ E3) as [S3 P3]; [congruence|]. rewrite S2 in *.
      destruct (pop_some _ _ _ _ _ E4 S3 Hk) as [S4 X4]. split; auto. rewrite X4. intros X F env He.
      cbn [scoped]. apply P3; auto. apply F2, Funs_nil, F.
    - (* dict *) eapply ok_weak.
      + apply ok_bind; [|intros; apply ok_keeps, ke_ret|intros; momo]. apply (ok_each _ (fun env ne => sc env (snd ne))).
        apply Forall_forall. intros x Hx. split; [|momo]. rewrite Forall_forall in H. rewrite forallb_forall in Hp.
        eapply ok_weak; [apply ok_bind; [apply (H x Hx (Hp x Hx))|intros; apply ok_keeps, ke_ret|intros; momo]|cbv beta; tauto].
      + cbn [scoped]. cbv beta. tauto.
    - (* declaration *)
      intros n t i Hi Hp k u k' sc1 ss E Es. rewrite stmt_step in E. apply unless_some in E as [E|[-> Hn]]; [|exists sc1; split; auto; congruence].
      cbn [stmt_body] in E. destruct i as [e|]; [|discriminate].
      apply cbind_some in E as (it & k1 & E1 & E2). cbn in Hi, Hp.
      destruct (Hi Hp _ _ _ E1) as [S1 P1]; [congruence|]. rewrite Es in *.
      apply cbind_some in E2 as (vt & k2 & E2 & E3). apply cbind_some in E3 as (b & k3 & E3 & E4).
      assert (T : k_scopes k2 = k_scopes k1 /\ (k_errs k2 = [] -> k_errs k1 = [] /\ opt_true known_type t = true)).
      { destruct t as [t|]; [|inversion E2; subst; auto].
        apply cbind_some in E2 as (d & k5 & E2 & E5). apply cbind_some in E5 as (b5 & k6 & E5 & E6). inversion E6; subst.
        rewrite (ke_error_if _ _ _ _ _ E5), (ke_resolve _ _ _ _ E2). split; auto. intros X.
        apply (mo_error_if _ _ _ _ _ E5) in X. split; [eapply mo_resolve; eauto|]. cbn. eapply resolve_known; eauto. }
      destruct T as [S2 T]. rewrite S1 in S2.
      destruct (define_some _ _ _ _ _ _ _ E3 S2) as [(-> & -> & G)|(-> & G & ->)].
      + exists sc1. cbn in E4. inversion E4; subst. cbn. split; auto. intros X. destruct (app_cons_not_nil _ _ _ (eq_sym X)).
      + cbn in E4. inversion E4; subst. cbn. exists (dset name_eqb n (KVariable, vt) sc1). split; auto.
        intros X F cr outer Hc He. destruct (T X) as [X1 T1]. rewrite T1. split; [|split].
        * rewrite (P1 X1 F (cr ++ outer) (Env_cur _ _ _ _ Hc He)). cbn. destruct (mem n cr) eqn:M; auto.
          apply mem_in, Hc in M. congruence.
        * apply Cur_set, Hc.
        * apply (Funs_set ss sc1 n vt F).
    - (* assignment *) intros t v Ht Hv. eapply okS_of with (P := fun env => sc env t && sc env v); [apply stmt_step|reflexivity|reflexivity|].
      cbn. intros Hp. spl. eapply ok_weak; [okk|fin].
    - (* require *) intros c m Hc Hm. eapply okS_of with (P := fun env => sc env c && opt_true (sc env) m); [apply stmt_step|reflexivity|reflexivity|].
      cbn. intros Hp. spl. destruct m; cbn in *.
      + eapply ok_weak; [okk|fin].
      + eapply ok_weak; [okk|fin].
    - (* emit *) intros v m Hv Hm. eapply okS_of with (P := fun env => sc env v && forallb (fun ne => sc env (snd ne)) m);
        [apply stmt_step|reflexivity|reflexivity|].
      cbn. intros Hp. spl. eapply ok_weak.
      + apply ok_bind; [okk| |intros; momo]. intros t. apply ok_bind; [apply ok_keeps; kes|intros|intros; momo].
        apply (ok_each _ (fun env ne => sc env (snd ne))).
        apply Forall_forall. intros x Hx. split; [|momo]. rewrite Forall_forall in Hm. rewrite forallb_forall in H0.
        eapply ok_weak; [apply ok_bind; [apply (Hm x Hx (H0 x Hx))|intros; apply ok_keeps, ke_ret|intros; momo]|cbv beta; tauto].
      + cbv beta. intros env (A & _ & B). rewrite A, B. reflexivity.
    - (* return *) intros v Hv Hp k u k' sc1 ss E Es. rewrite stmt_step in E. apply unless_some in E as [E|[-> Hn]]; [|exists sc1; split; auto; congruence].
      cbn [stmt_body] in E. destruct v; [apply cbind_some in E as (? & ? & _ & E)|]; discriminate.
    - (* pass *) eapply okS_of with (P := fun env => true); [apply stmt_step|reflexivity|reflexivity|].
      cbn. intros Hp. eapply ok_weak; [apply ok_keeps, ke_ret|reflexivity].
    - (* for *) intros x it b Hi Hb. eapply okS_of with (P := fun env => sc env it && scoped_block special env [x] b);
        [apply stmt_step|reflexivity|reflexivity|].
      cbn. intros Hp. spl. intros k u k' E Hk.
      apply cbind_some in E as (t & k1 & E1 & E2). apply cbind_some in E2 as (u2 & k2 & E2 & E3). inversion E2; subst.
      apply cbind_some in E3 as (d & k3 & E3 & E4). apply cbind_some in E4 as (w & k4 & E4 & E5).
      destruct (Hi H _ _ _ E1 Hk) as [S1 P1].
      destruct (define_some _ _ _ _ _ [] (k_scopes k1) E3 eq_refl) as [(-> & -> & G)|(-> & G & ->)]; [destruct (G eq_refl)|].
      destruct (Hb H0 _ _ _ _ _ E4 eq_refl) as (sc2 & S2 & P2).
      destruct (pop_some _ _ _ _ _ E5 S2) as [S4 X4]; [congruence|]. split; [congruence|]. rewrite X4. intros X F env He.
      assert (X1 : k_errs k1 = []) by (pose proof (proj2 (proj2 (mo_check cur)) b _ _ _ E4 X) as Y; exact Y).
      rewrite (P1 X1 F env He). cbn. rewrite S1 in P2. apply P2; auto.
      + apply (Funs_set _ [] x (iter_type t)), Funs_nil, F.
      + apply Cur_set, Cur_nil.
    - (* while *) intros c b _ _. eapply okS_of with (P := fun env => true); [apply stmt_step|reflexivity|reflexivity|].
      cbn. intros Hp. eapply ok_weak; [apply ok_keeps, ke_warning|reflexivity].
    - (* if *) intros c t elifs els Hc Ht Hel Hels.
      eapply okS_of with (P := fun env => sc env c && scoped_block special env [] t
        && forallb (fun cb => sc env (fst cb) && scoped_block special env [] (snd cb)) elifs
        && opt_true (scoped_block special env []) els); [apply stmt_step|reflexivity|reflexivity|].
      cbn [stmt_body plain_stmt]. intros Hp. spl.
      assert (M : mono (match els with Some b => push_scope;~ check_block cur b;~ pop_scope | None => cret tt end)) by momo.
      assert (M2 : mono (each (fun cb => v <~ ce (fst cb); error_if (not_bool v) "E227";~
        push_scope;~ check_block cur (snd cb);~ pop_scope) elifs)).
      { apply mo_each, Forall_forall. intros x _. momo. }
      eapply ok_weak.
      + apply ok_bind; [exact (Hc H)| |intros; momo].
        * intros v. apply ok_bind; [apply ok_keeps; kes| |].
          -- intros _. apply ok_nested_then; [exact Ht|assumption| |].
             ++ apply ok_bind; [|intros _|intros; exact M].
                ** apply (ok_each _ (fun env cb => sc env (fst cb) && scoped_block special env [] (snd cb))).
                   apply Forall_forall. intros x Hx. split; [|momo]. rewrite Forall_forall in Hel.
                   match goal with h : forallb _ elifs = true |- _ => rewrite forallb_forall in h; specialize (h x Hx) end. spl.
                   destruct (Hel x Hx) as [H6 H7]. eapply ok_weak.
                   --- apply ok_bind; [apply H6; auto| |intros; momo]. intros. apply ok_bind; [apply ok_keeps; kes|intros; apply ok_nested; auto|intros; momo].
                   --- cbv beta. intros env (A & _ & B). rewrite A, B. reflexivity.
                ** instantiate (1 := fun env => opt_true (scoped_block special env []) els = true).
                   destruct els; cbn in *; [apply ok_nested; auto|eapply ok_weak; [apply ok_keeps, ke_ret|reflexivity]].
             ++ momo.
          -- intros _. momo.
      + cbv beta. intros env (A & _ & B & D & F). rewrite A, B, D, F. reflexivity.
    - (* expression *) intros e He. eapply okS_of with (P := fun env => sc env e); [apply stmt_step|reflexivity|reflexivity|].
      cbn. intros Hp. eapply ok_weak; [okk|cbv beta; tauto].
    - (* python *) intros l. eapply okS_of with (P := fun env => true); [apply stmt_step|reflexivity|reflexivity|].
      cbn. intros Hp. eapply ok_weak; [apply ok_keeps; kes|reflexivity].
    - (* block *) intros ss fin Hss Hfin Hp k u k' sc1 st E Es. rewrite block_step in E. cbn [block_body] in E.
      cbn [plain_block] in Hp. spl. rename H into Hp. rename H0 into Hq.
      assert (M : mono (match fin with Some e => t <~ ce e; cret (Some t) | None => cret None end)) by momo.
      revert Hss Hp k sc1 E Es. induction ss as [|s ss IH]; intros Hss Hp k sc1 E Es.
      + assert (O : okC (match fin with Some e => t <~ ce e; cret (Some t) | None => cret None end) (fun env => opt_true (sc env) fin = true)).
        { destruct fin; cbn in *; [eapply ok_weak; [okk|cbv beta; tauto]|eapply ok_weak; [apply ok_keeps, ke_ret|reflexivity]]. }
        cbn [each] in E. apply cbind_some in E as (u1 & k1 & E1 & E2). inversion E1; subst.
        destruct (O _ _ _ E2) as [S P]; [congruence|]. rewrite Es in *. exists sc1. split; auto.
        intros X F cr outer Hc He. cbn. apply P; auto. apply Env_cur; auto.
      + cbn [each forallb] in *. spl. apply Forall_cons_iff in Hss as [H2 H3].
        assert (E' : exists k1, check_stmt cur s k = Some (tt, k1) /\
          (each (check_stmt cur) ss;~ match fin with Some e => t <~ ce e; cret (Some t) | None => cret None end) k1 = Some (u, k')).
        { apply cbind_some in E as (u1 & k1 & E1 & E2). apply cbind_some in E1 as (u2 & k2 & E1 & E3). destruct u2.
          exists k2. split; auto. unfold cbind. rewrite E3. exact E2. }
        destruct E' as (k1 & E1 & E2). destruct (H2 H _ _ _ _ _ E1 Es) as (sc2 & S2 & P2).
        destruct (IH H3 H0 _ _ E2 S2) as (sc3 & S3 & P3). exists sc3. split; auto. intros X F cr outer Hc He.
        assert (X1 : k_errs k1 = []).
        { eapply mo_bind; [| |exact E2|exact X]; [|intros; exact M]. apply mo_each, Forall_forall. intros; apply mo_check. }
        destruct (P2 X1 F cr outer Hc He) as (A & B & D).
        change (scoped_stmt special outer cr s && scoped_block special outer (declared s ++ cr) (Block ss fin) = true).
        rewrite A, (P3 X D _ _ B He). reflexivity.
  Qed.
  Lemma mo_param p : mono (check_param builtins methods max_errors commands cur p).
  Proof. unfold check_param. momo. Qed.
  Lemma resolve_opt_known t k a k' : resolve_opt t k = Some (a, k') -> k_scopes k' = k_scopes k /\
    (k_errs k' = [] -> opt_true known_type t = true).
  Proof.
    destruct t; cbn; intros E; [|inversion E; auto]. split; [eapply ke_resolve; eauto|]. eapply resolve_known; eauto.
  Qed.
  Lemma ok_params ps : forallb (fun p => opt_true (plain special) (p_default p)) ps = true -> forall k u k' sc1 ss,
    each (check_param builtins methods max_errors commands cur) ps k = Some (u, k') -> k_scopes k = sc1 :: ss ->
    exists sc2, k_scopes k' = sc2 :: ss /\
    (k_errs k' = [] -> Funs (sc1 :: ss) -> forall seen, Cur seen sc1 -> Env [] ss ->
     scoped_params special seen ps = true /\ Cur (rev (map p_name ps) ++ seen) sc2 /\ Funs (sc2 :: ss)).
  Proof.
    induction ps as [|p ps IH]; cbn [each forallb map rev app scoped_params]; intros Hp k u k' sc1 ss E Es.
    - inversion E; subst. exists sc1. auto.
    - spl. apply cbind_some in E as (u1 & k1 & E1 & E2). unfold check_param in E1.
      apply cbind_some in E1 as (t & k2 & E1 & E3). apply cbind_some in E3 as (ok & k3 & E3 & E4).
      apply cbind_some in E4 as (u4 & k4 & E4 & E5).
      destruct (resolve_opt_known _ _ _ _ E1) as [S1 T1]. rewrite Es in S1.
      assert (D : exists sc2, k_scopes k4 = sc2 :: ss /\ (k_errs k4 = [] -> k_errs k2 = [] /\
        (Funs (sc1 :: ss) -> Funs (sc2 :: ss)) /\ forall cr, Cur cr sc1 -> Cur (p_name p :: cr) sc2 /\ mem (p_name p) cr = false)).
      { destruct (define_some _ _ _ _ _ _ _ E3 S1) as [(-> & -> & G)|(-> & G & ->)].
        - exists sc1. cbn in E4. inversion E4; subst. split; auto. cbn. intros X. destruct (app_cons_not_nil _ _ _ (eq_sym X)).
        - cbn in E4. inversion E4; subst. cbn. eexists. split; [reflexivity|]. intros X. split; auto. split.
          + intros F. apply (Funs_set ss sc1 (p_name p) t F).
          + intros cr Hc. split; [apply Cur_set, Hc|]. destruct (mem (p_name p) cr) eqn:M; auto. apply mem_in, Hc in M. congruence. }
      destruct D as (sc2 & D1 & D2).
      assert (O : k_scopes k1 = k_scopes k4 /\ (k_errs k1 = [] -> k_errs k4 = [] /\
         (Funs (k_scopes k4) -> forall env, Env env (k_scopes k4) -> opt_true (sc env) (p_default p) = true))).
      { destruct (p_default p) as [e|]; [|inversion E5; subst; auto].
        apply cbind_some in E5 as (d & k5 & E5 & E6). destruct (proj1 ok_check e H _ _ _ E5) as [S5 P5]; [congruence|].
        rewrite (ke_error_if _ _ _ _ _ E6). split; auto. intros X. apply (mo_error_if _ _ _ _ _ E6) in X. split; [eapply okE_mono; eauto|].
        intros F env He. apply P5; auto. }
      destruct O as [S5 P5]. destruct (IH H0 _ _ _ sc2 ss E2) as (sc3 & S3 & P3); [congruence|]. exists sc3. split; auto.
      intros X F seen Hc He.
      assert (X1 : k_errs k1 = []).
      { eapply mo_each; [|exact E2|exact X]. apply Forall_forall. intros; apply mo_param. }
      destruct (P5 X1) as [X4 P6]. destruct (D2 X4) as (X2 & F2 & C2). destruct (C2 _ Hc) as [C3 C4].
      destruct (P3 X (F2 F) _ C3 He) as (A & B & G). rewrite <- app_assoc. cbn. split; [|split]; auto.
      rewrite C4, (T1 X2), A. cbn. rewrite D1 in P6. rewrite (P6 (F2 F) (p_name p :: seen)); auto.
      eapply Env_incl; [|exact (Env_cur _ [] _ _ C3 He)]. rewrite app_nil_r. intros ? G1; exact G1.
  Qed.
End Scoped.

  (** The whole module *)
  Lemma mo_param_types ps : mono (param_types ps).
  Proof. induction ps; cbn; mos. Qed.
  Lemma ke_param_types ps : keeps (param_types ps).
  Proof. induction ps; cbn; [apply ke_ret|]. apply ke_bind; [|intros; apply ke_bind; auto; intros; apply ke_ret].
    destruct (p_type a); [apply ke_resolve|apply ke_ret]. Qed.
  Lemma ok_command f : plain_command special f = true -> forall k u k' glob,
    check_command builtins methods max_errors commands f k = Some (u, k') -> k_scopes k = [glob] ->
    k_scopes k' = [glob] /\ (k_errs k' = [] -> Funs [glob] -> Env [] [glob] ->
      scoped_params special [] (f_params f) = true /\ scoped_block special [] (rev (map p_name (f_params f))) (f_body f) = true).
  Proof.
    unfold plain_command, check_command. intros Hp k u k' glob E Es. apply andb_true_iff in Hp as [Hp1 Hp2].
    apply cbind_some in E as (u1 & k1 & E1 & E). inversion E1; subst. apply cbind_some in E as (u2 & k2 & E2 & E).
    apply cbind_some in E as (t & k3 & E3 & E4).
    destruct (ok_params f _ Hp1 _ _ _ [] [glob] E2) as (sc2 & S2 & P2); [cbn; rewrite Es; reflexivity|].
    destruct (proj2 (proj2 (ok_check f)) (f_body f) Hp2 _ _ _ _ _ E3 S2) as (sc3 & S3 & P3).
    destruct (pop_some _ _ _ _ _ E4 S3) as [S4 X4]; [discriminate|]. split; auto. rewrite X4. intros X F He.
    assert (X2 : k_errs k2 = []) by (eapply mo_check; eauto).
    destruct (P2 X2 (Funs_nil _ F) [] Cur_nil He) as (A & B & G). split; auto.
    rewrite app_nil_r in B. apply P3; auto.
  Qed.
  Lemma mo_command f : mono (check_command builtins methods max_errors commands f).
  Proof.
    unfold check_command. apply mo_bind; [apply mo_push|intros]. apply mo_bind; [apply mo_each, Forall_forall; intros; apply mo_param|intros].
    apply mo_bind; [apply mo_check|intros; apply mo_pop].
  Qed.
  Lemma ok_commands fs : forallb (plain_command special) fs = true -> forall k u k' glob,
    each (check_command builtins methods max_errors commands) fs k = Some (u, k') -> k_scopes k = [glob] ->
    (k_errs k' = [] -> Funs [glob] -> Env [] [glob] -> Forall (fun f =>
      scoped_params special [] (f_params f) = true /\ scoped_block special [] (rev (map p_name (f_params f))) (f_body f) = true) fs).
  Proof.
    induction fs as [|f fs IH]; cbn [each forallb]; intros Hp k u k' glob E Es X F He; [constructor|].
    apply andb_true_iff in Hp as [Hp1 Hp2]. apply cbind_some in E as (u1 & k1 & E1 & E2).
    destruct (ok_command f Hp1 _ _ _ _ E1 Es) as [S1 P1]. constructor; [|eapply IH; eauto].
    apply P1; auto. eapply mo_each; [|exact E2|exact X]. apply Forall_forall. intros; apply mo_command.
  Qed.

  Definition grows {X} (names : X -> list name) (good : X -> bool) (m : X -> C unit) : Prop :=
    forall x, mono (m x) /\ forall k u k' sc1, m x k = Some (u, k') -> k_scopes k = [sc1] ->
    exists sc2, k_scopes k' = [sc2] /\ (k_errs k' = [] -> good x = true /\
      (forall cr, Cur cr sc1 -> Funs [sc1] -> NoDup cr -> Forall (fun n => special n = true) (names x) ->
        Cur (rev (names x) ++ cr) sc2 /\ Funs [sc2] /\ NoDup (rev (names x) ++ cr))).
  Lemma grows_each {X} names good (m : X -> C unit) : grows names good m -> grows (flat_map names) (forallb good) (each m).
  Proof.
    intros Hm l. split; [apply mo_each, Forall_forall; intros; apply Hm|].
    induction l as [|x l IH]; cbn [each flat_map forallb]; intros k u k' sc1 E Es.
    - inversion E; subst. exists sc1. auto.
    - apply cbind_some in E as (u1 & k1 & E1 & E2). destruct (Hm x) as [Mx Px].
      destruct (Px _ _ _ _ E1 Es) as (sc2 & S2 & P2). destruct (IH _ _ _ _ E2 S2) as (sc3 & S3 & P3).
      exists sc3. split; auto. intros X3. assert (X1 : k_errs k1 = []).
      { eapply mo_each; [|exact E2|exact X3]. apply Forall_forall. intros; apply Hm. }
      destruct (P2 X1) as [G1 G2]. destruct (P3 X3) as [G3 G4]. rewrite G1, G3. split; auto.
      intros cr Hc F Nd Hs. apply Forall_app in Hs as [Hs1 Hs2].
      destruct (G2 cr Hc F Nd Hs1) as (A & B & D). rewrite rev_app_distr, <- app_assoc. apply G4; auto.
  Qed.
  Lemma grows_register {X} (nm : X -> name) (r : X -> C typ) (ps : X -> list param) (known : X -> bool) kd code :
    kd = KFunction \/ kd = KCommand ->
    (forall x, mono (r x)) -> (forall x k a k', r x k = Some (a, k') -> k_scopes k' = k_scopes k /\ (k_errs k' = [] -> known x = true)) ->
    grows (fun x => [nm x]) (fun x => known x && forallb (fun p => opt_true known_type (p_type p)) (ps x))
      (fun x => t <~ r x; ts <~ param_types (ps x); ok <~ define (nm x) (kd, TFun ts t); error_if (negb ok) code).
  Proof.
    intros Hkd Mr Kr x. split.
    { apply mo_bind; [apply Mr|intros]. apply mo_bind; [apply mo_param_types|intros]. apply mo_bind; [apply mo_define|intros; apply mo_error_if]. }
    intros k u k' sc1 E Es. apply cbind_some in E as (t & k1 & E1 & E). apply cbind_some in E as (ts & k2 & E2 & E).
    apply cbind_some in E as (ok & k3 & E3 & E4). destruct (Kr _ _ _ _ E1) as [S1 T1].
    pose proof (ke_param_types _ _ _ _ E2) as S2. rewrite S1, Es in S2.
    assert (K : k_errs k2 = [] -> forallb (fun p => opt_true known_type (p_type p)) (ps x) = true).
    { clear - E2. revert k1 ts k2 E2. induction (ps x) as [|p l IH]; cbn [param_types forallb]; intros k1 ts k2 E Xe; auto.
      apply cbind_some in E as (t & k3 & E1 & E). apply cbind_some in E as (ts' & k4 & E2 & E). inversion E; subst.
      rewrite (IH _ _ _ E2 Xe), andb_true_r. apply (resolve_opt_known _ _ _ _ E1). eapply mo_param_types; eauto. }
    destruct (define_some _ _ _ _ _ _ _ E3 S2) as [(-> & -> & G)|(-> & G & ->)]; cbn in E4; inversion E4; subst.
    - exists sc1. split; auto. cbn. intros X1. destruct (app_cons_not_nil _ _ _ (eq_sym X1)).
    - eexists. split; [reflexivity|]. cbn. intros X1. rewrite (K X1), T1; [|eapply mo_param_types; eauto]. split; auto.
      intros cr Hc F Nd Hs. inversion Hs; subst. split; [apply Cur_set, Hc|]. split.
      + constructor; [|constructor]. intros n k5 t5. rewrite dget_set_name. destruct (name_eqb n (nm x)) eqn:N.
        * apply name_eqb_spec in N. subst. intros Y _. inversion Y; subst. eauto.
        * inversion F; subst. eauto.
      + constructor; auto. intros Hin. apply Hc in Hin. congruence.
  Qed.
  Lemma grows_wrap {X} names good (m : X -> C unit) c : grows names good m ->
    grows names good (fun x => python_flag;~ m x;~ warning c).
  Proof.
    intros Hm x. destruct (Hm x) as [Mx Px]. split.
    { apply mo_bind; [apply mo_python|intros]. apply mo_bind; [auto|intros; apply mo_warning]. }
    intros k u k' sc1 E Es. apply cbind_some in E as (u1 & k1 & E1 & E). inversion E1; subst.
    apply cbind_some in E as (u2 & k2 & E2 & E3). inversion E3; subst. apply (Px _ _ _ _ E2 Es).
  Qed.
End Check.

Lemma distinct_nodup l : NoDup l -> distinct l = true.
Proof.
  induction 1; cbn; auto. rewrite IHNoDup, andb_true_r. destruct (mem x l) eqn:M; auto. apply mem_in in M. contradiction.
Qed.
Lemma flat_map_single {A B} (f : A -> B) l : flat_map (fun x => [f x]) l = map f l.
Proof. induction l; cbn; congruence. Qed.
Lemma flat_map_flat_map {A B} (f : A -> B) ll : flat_map (flat_map (fun x => [f x])) ll = map f (concat ll).
Proof. induction ll; cbn; auto. rewrite map_app, flat_map_single, IHll. reflexivity. Qed.

Lemma accepted builtins methods max_errors m k :
  (0 < max_errors)%nat -> check builtins methods max_errors m = Some k -> k_errs k = [] ->
  forallb (plain_command (special_names builtins m)) (m_funs m) = true ->
  Forall (fun f => scoped_command (special_names builtins m) f = true) (m_funs m) /\ distinct (declared_functions m) = true.
Proof.
  intros Hmax Hc X Hp. unfold check in Hc.
  match type of Hc with option_map _ (?r) = _ => destruct r as [[u k']|] eqn:E; [|discriminate] end.
  cbn in Hc. inversion Hc; subst k'. clear Hc. set (sp := special_names builtins m) in *.
  apply cbind_some in E as (u1 & k1 & E1 & E). apply cbind_some in E as (u2 & k2 & E2 & E). apply cbind_some in E as (u3 & k3 & E3 & E4).
  assert (Sb : forall n g, builtins n = Some g -> sp n = true) by (intros n g G; unfold sp, special_names; rewrite G; reflexivity).
  assert (St : forall n g, type_named n = Some g -> sp n = true).
  { intros n g G. unfold sp, special_names. rewrite G. rewrite orb_true_r. reflexivity. }
  assert (Sd : Forall (fun n => sp n = true) (declared_functions m)).
  { apply Forall_forall. intros n Hn. unfold sp, special_names. rewrite (proj2 (mem_in n _) Hn). apply orb_true_r. }
  assert (Gn : grows sp (fun x => [n_name x]) (fun x => known_type (n_ret x) && forallb (fun p => opt_true known_type (p_type p)) (n_params x)) register_native).
  { apply (grows_register sp n_name (fun x => resolve_node (n_ret x)) n_params (fun x => known_type (n_ret x)) KFunction "E205"); auto.
    - intros; apply mo_resolve.
    - intros x j a j' G. split; [eapply ke_resolve; eauto|eapply resolve_known; eauto]. }
  assert (Gf : grows sp (fun x => [f_name x]) (fun x => opt_true known_type (f_ret x) && forallb (fun p => opt_true known_type (p_type p)) (f_params x)) register_command).
  { apply (grows_register sp f_name (fun x => resolve_opt (f_ret x)) f_params (fun x => opt_true known_type (f_ret x)) KCommand "E201"); auto.
    - intros; apply mo_resolve_opt.
    - intros x j a j' G. eapply resolve_opt_known; eauto. }
  destruct (grows_each _ _ _ _ (grows_wrap _ _ _ _ "W212" (grows_each _ _ _ _ Gn)) (m_blocks m)) as [_ P1].
  destruct (grows_each _ _ _ _ (grows_wrap _ _ _ _ "W213" Gn) (m_natives m)) as [M2 P2].
  destruct (grows_each _ _ _ _ Gf (m_funs m)) as [M3 P3].
  destruct (P1 _ _ _ [] E1 eq_refl) as (s1 & S1 & Q1). destruct (P2 _ _ _ _ E2 S1) as (s2 & S2 & Q2).
  destruct (P3 _ _ _ _ E3 S2) as (s3 & S3 & Q3).
  assert (X3 : k_errs k3 = []).
  { eapply mo_each; [|exact E4|exact X]. apply Forall_forall. intros; apply mo_command. }
  assert (X2 : k_errs k2 = []) by (eapply M3; eauto). assert (X1 : k_errs k1 = []) by (eapply M2; eauto).
  rewrite flat_map_flat_map in Q1. rewrite flat_map_single in Q2. rewrite flat_map_single in Q3.
  unfold declared_functions, native_names in Sd. apply Forall_app in Sd as [Sd Sf]. apply Forall_app in Sd as [Sb1 Sn].
  destruct (Q1 X1) as [_ R1]. destruct (Q2 X2) as [_ R2]. destruct (Q3 X3) as [T3 R3].
  destruct (R1 [] Cur_nil) as (A1 & B1 & D1); auto; [constructor; [intros ? ? ? Y; discriminate|constructor]|constructor|].
  destruct (R2 _ A1 B1 D1 Sn) as (A2 & B2 & D2). destruct (R3 _ A2 B2 D2 Sf) as (A3 & B3 & D3).
  rewrite app_nil_r, <- rev_app_distr, <- rev_app_distr in A3, D3.
  split.
  - assert (He : Env sp [] [s3]).
    { intros n Hn. right. unfold sp, special_names. rewrite (proj2 (mem_in n _)); [apply orb_true_r|].
      unfold declared_functions, native_names. rewrite in_rev. apply A3. cbn in Hn. destruct (dget name_eqb n s3); [discriminate|auto]. }
    pose proof (ok_commands builtins methods max_errors _ Hmax sp Sb St (m_funs m) Hp _ _ _ _ E4 S3 X B3 He) as G.
    rewrite Forall_forall in *. intros f Hf. destruct (G f Hf) as [G1 G2]. unfold scoped_command. rewrite G1, G2. cbn.
    rewrite forallb_forall in T3. specialize (T3 f Hf). apply andb_true_iff in T3. tauto.
  - apply distinct_nodup. apply NoDup_rev in D3. rewrite rev_involutive in D3. exact D3.
Qed.
