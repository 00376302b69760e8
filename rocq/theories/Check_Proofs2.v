(** Accepted programs never meet an undefined variable. *)
From Coq Require Import ZArith String List Bool Lia.
From Verif Require Import Dict Lex_Model Ast Types_Model Interp_Model Interp_Proofs Interp_Proofs3 Check_Model Check_Spec Check_Proofs.
Import ListNotations.
Open Scope list_scope.

Section Safe.
  Variable H : host.
  Hypothesis Hon : honest H.
  Variable fns : name -> bool.
  Variables (cmds : list fundef) (limit : Z).
  Notation D := (data (hF H) (hO H)).
  Notation V := (rval (hF H) (hO H)).
  Notation ctx := (ctx H). Notation M := (M H).
  Notation sget := (sget H). Notation sset := (sset H).
  Notation ret := (ret H). Notation bind := (bind H). Notation raise := (raise H). Notation rte := (rte H).

  Definition names_in (a b : scope H) : Prop := forall n, sget n a <> None -> sget n b <> None.
  Definition grow (c c' : ctx) : Prop := Forall2 names_in (c_scopes H c) (c_scopes H c').
  Definition cov (env : list name) (c : ctx) : Prop :=
    c_scopes H c <> [] /\ forall n, In n env -> lookup H n (c_scopes H c) <> None.
  Definition safe {A} (env env' : list name) (m : M A) : Prop := forall c s r c' s', m c s = (r, c', s') -> cov env c ->
    r <> Raise undefined /\ grow c c' /\ (forall a, r = Ok a -> cov env' c').

  Lemma F2_names ss : Forall2 names_in ss ss.
  Proof. induction ss; constructor; auto. intros n Hn; auto. Qed.
  Lemma grow_refl c : grow c c. Proof. apply F2_names. Qed.
  Lemma grow_trans a b c : grow a b -> grow b c -> grow a c.
  Proof.
    unfold grow. intros H1. generalize (c_scopes H c). induction H1 as [|x y l l' Hxy _ IH]; intros k H2; inversion H2; subst; constructor; auto.
    intros n Hn; auto.
  Qed.
  Lemma grow_lookup ss ss' n : Forall2 names_in ss ss' -> lookup H n ss <> None -> lookup H n ss' <> None.
  Proof.
    induction 1 as [|a b ss ss' Hab _ IH]; cbn; auto. intros Hn. destruct (sget n b) eqn:Eb; [discriminate|].
    destruct (sget n a) eqn:Ea; auto. exfalso. apply (Hab n); congruence.
  Qed.
  Lemma grow_cov env c c' : grow c c' -> cov env c -> cov env c'.
  Proof.
    intros G [Hn Hc]. split.
    - intros E. unfold grow in G. rewrite E in G. inversion G. congruence.
    - intros n Hin. eapply grow_lookup; eauto.
  Qed.
  Lemma cov_incl env env' c : incl env' env -> cov env c -> cov env' c.
  Proof. intros Hi [Hn Hc]. split; auto. Qed.
  Lemma safe_weak {A} e1 e2 f1 f2 (m : M A) : safe e1 f1 m -> incl e1 e2 -> incl f2 f1 -> safe e2 f2 m.
  Proof.
    intros Hm H1 H2 c s r c' s' E Hc. destruct (Hm _ _ _ _ _ E (cov_incl _ _ _ H1 Hc)) as (A1 & A2 & A3).
    split; auto. split; auto. intros a Ha. eapply cov_incl; eauto.
  Qed.
  Lemma safe_keep {A} e f (m : M A) : safe e f m -> safe e e m.
  Proof.
    intros Hm c s r c' s' E Hc. destruct (Hm _ _ _ _ _ E Hc) as (A1 & A2 & A3). split; auto. split; auto.
    intros a _. eapply grow_cov; eauto.
  Qed.
  Lemma safe_bind {A B} e1 e2 e3 (m : M A) (k : A -> M B) : safe e1 e2 m -> (forall a, safe e2 e3 (k a)) -> safe e1 e3 (bind m k).
  Proof.
    intros Hm Hk c s r c' s' E Hc. unfold Interp_Model.bind in E. destruct (m c s) as [[x c1] s1] eqn:Em.
    destruct (Hm _ _ _ _ _ Em Hc) as (A1 & A2 & A3). destruct x.
    - destruct (Hk a _ _ _ _ _ E (A3 _ eq_refl)) as (B1 & B2 & B3). split; auto. split; auto. eapply grow_trans; eauto.
    - inversion E; subst. split; [congruence|]. split; auto. discriminate.
    - inversion E; subst. split; [discriminate|]. split; auto. discriminate.
  Qed.
  (** Operations on values *)
  Definition quiet {A} (m : M A) : Prop := forall c s r c' s', m c s = (r, c', s') -> r <> Raise undefined /\ c' = c.
  Lemma quiet_safe {A} env (m : M A) : quiet m -> safe env env m.
  Proof. intros Hq c s r c' s' E Hc. destruct (Hq _ _ _ _ _ E) as [A1 ->]. split; auto. split; [apply grow_refl|auto]. Qed.
  Lemma q_ret {A} (a : A) : quiet (ret a). Proof. intros c s r c' s' E. inversion E; subst. split; [discriminate|auto]. Qed.
  Lemma q_raise {A} e : e <> undefined -> quiet (@Interp_Model.raise H A e).
  Proof. intros He c s r c' s' E. inversion E; subst. split; [congruence|auto]. Qed.
  Lemma q_lift {A} (f : hW H -> try A) : (forall w, f w <> inr undefined) -> quiet (lift H f).
  Proof.
    intros Hf c s r c' s' E. inversion E; subst. split; auto. specialize (Hf (s_world H s')). destruct (f (s_world H s')); cbn; congruence.
  Qed.
  Lemma q_liftw {A} (f : hW H -> try A * hW H) : (forall w, fst (f w) <> inr undefined) -> quiet (liftw H f).
  Proof.
    intros Hf c s r c' s' E. unfold liftw in E. specialize (Hf (s_world H s)). destruct (f (s_world H s)) as [a w]. inversion E; subst.
    split; auto. destruct a; cbn in *; congruence.
  Qed.
  Lemma q_event f : quiet (emit_event H f). Proof. intros c s r c' s' E. inversion E; subst. split; [discriminate|auto]. Qed.
  Lemma q_should : quiet (should_return H). Proof. intros c s r c' s' E. inversion E; subst. split; [discriminate|auto]. Qed.
  Lemma q_bind {A B} (m : M A) (k : A -> M B) : quiet m -> (forall a, quiet (k a)) -> quiet (bind m k).
  Proof.
    intros Hm Hk c s r c' s' E. unfold Interp_Model.bind in E. destruct (m c s) as [[x c1] s1] eqn:Em.
    destruct (Hm _ _ _ _ _ Em) as [A1 ->]. destruct x; [eapply Hk; eauto|inversion E; subst; split; auto; congruence..].
  Qed.
  Ltac hon := intros; first [apply (ho_of_int H Hon) | apply (ho_binop H Hon) | apply (ho_neg H Hon) | apply (ho_cmp H Hon) | apply (ho_int H Hon)
    | apply (ho_float H Hon) | apply (ho_len H Hon) | apply (ho_index H Hon) | apply (ho_get H Hon) | apply (ho_member H Hon)
    | apply (ho_builtin H Hon) | apply (ho_native H Hon) | discriminate].
  Ltac qs := repeat first
    [ apply q_ret | (apply q_raise; discriminate) | (unfold Interp_Model.rte; apply q_raise; discriminate) | (apply q_lift; hon) | (apply q_liftw; hon)
    | (apply q_bind; [|intros])
    | match goal with |- quiet (if ?b then _ else _) => destruct b end
    | match goal with |- quiet (match ?x with _ => _ end) => destruct x end ].
  Lemma q_py_int d : quiet (py_int H d). Proof. unfold py_int. qs. Qed.
  Lemma q_py_float d : quiet (py_float H d). Proof. unfold py_float. qs. Qed.
  Lemma q_int_val d : quiet (int_val H d). Proof. unfold int_val, py_int. qs. Qed.
  Lemma q_float_val d : quiet (float_val H d). Proof. unfold float_val, py_float. qs. Qed.
  Lemma q_truthy v : quiet (truthy H v). Proof. unfold truthy, nonempty, py_bool. qs. Qed.
  Lemma q_py_arith op a b : quiet (py_arith H op a b). Proof. unfold py_arith. qs. Qed.
  Lemma q_py_eq a b : quiet (py_eq H a b). Proof. unfold py_eq. qs. Qed.
  Lemma q_py_cmp op a b : quiet (py_cmp H op a b). Proof. unfold py_cmp. qs. Qed.
  Lemma q_py_str d : quiet (py_str H d). Proof. unfold py_str. qs. Qed.
  Lemma q_py_index d i : quiet (py_index H d i). Proof. unfold py_index. cbv zeta. qs. Qed.
  Lemma q_binop op l r : quiet (binop H op l r).
  Proof.
    unfold binop. repeat first [apply q_truthy | apply q_py_arith | apply q_py_eq | apply q_py_cmp | apply q_py_str
      | apply q_py_int | apply q_py_float | apply q_int_val | apply q_float_val | progress qs].
  Qed.
  Lemma q_unop op v : quiet (unop H op v).
  Proof. unfold unop. repeat first [apply q_truthy | apply q_py_int | apply q_py_float | apply q_int_val | apply q_float_val | progress qs]. Qed.
  Lemma q_literal v t : quiet (literal H v t). Proof. unfold literal. qs. Qed.

  (** Variables *)
  Lemma lookup_set_same n v sc ss : lookup H n (sset n v sc :: ss) <> None.
  Proof. cbn. rewrite sget_set. rewrite (proj2 (name_eqb_spec n n) eq_refl). discriminate. Qed.
  Lemma names_set n v sc : names_in sc (sset n v sc).
  Proof. intros m Hm. rewrite sget_set. destruct (name_eqb m n); [discriminate|auto]. Qed.
  Lemma safe_set env n v : safe env (n :: env) (set_variable H n v).
  Proof.
    intros c s r c' s' E Hc. unfold set_variable in E. destruct (c_scopes H c) as [|sc ss] eqn:Es; [destruct Hc; congruence|].
    inversion E; subst. assert (G : grow c (set_scopes H (sset n v sc :: ss) c)).
    { unfold grow. rewrite Es. cbn. constructor; [apply names_set|apply F2_names]. }
    split; [discriminate|]. split; auto. intros a _. destruct (grow_cov _ _ _ G Hc) as [G1 G2]. split; auto.
    intros m [<-|Hm]; auto. apply lookup_set_same.
  Qed.
  Lemma update_names n v ss : forall ss', update H n v ss = Some ss' -> Forall2 names_in ss ss'.
  Proof.
    induction ss as [|sc ss IH]; cbn; intros ss' E; [discriminate|]. destruct (sget n sc) eqn:Eg.
    - inversion E; subst. constructor; [apply names_set|apply F2_names].
    - destruct (update H n v ss); [|discriminate]. inversion E; subst. constructor; auto. intros m Hm; auto.
  Qed.
  Lemma safe_update env n v : safe env env (update_variable H n v).
  Proof.
    intros c s r c' s' E Hc. unfold update_variable in E. destruct (update H n v (c_scopes H c)) eqn:Eu; inversion E; subst.
    - assert (G : grow c (set_scopes H l c)) by (apply (update_names _ _ _ _ Eu)).
      split; [discriminate|]. split; auto. intros a _. eapply grow_cov; eauto.
    - split; [discriminate|]. split; [apply F2_names|]. intros a _. destruct Hc. split; auto.
  Qed.
  Lemma safe_same {A} env (m : M A) : (forall c s r c' s', m c s = (r, c', s') -> r <> Raise undefined /\ c_scopes H c' = c_scopes H c) -> safe env env m.
  Proof.
    intros Hm c s r c' s' E Hc. destruct (Hm _ _ _ _ _ E) as [A1 A2]. split; auto.
    assert (G : grow c c') by (unfold grow; rewrite A2; apply F2_names). split; auto. intros. eapply grow_cov; eauto.
  Qed.
  Lemma safe_scope {A} env env' (m : M A) : safe env env' m -> safe env env (new_scope H m).
  Proof.
    intros Hm c s r c' s' E Hc. unfold new_scope in E.
    destruct (m (set_scopes H ([] :: c_scopes H c) c) s) as [[x c1] s1] eqn:Em. inversion E; subst.
    destruct (Hm _ _ _ _ _ Em) as (A1 & A2 & _).
    { destruct Hc as [Hn Hc]. split; [discriminate|]. intros n Hin. cbn. auto. }
    split; auto. unfold grow in A2. cbn in A2. inversion A2 as [|a0 y l0 l' Hx0 Hf Ha0 Eb]; subst.
    assert (G : grow c (set_scopes H (last_n (List.length (c_scopes H c)) (y :: l')) c1)).
    { change (Forall2 names_in (c_scopes H c) (last_n (List.length (c_scopes H c)) (y :: l'))). replace (List.length (c_scopes H c)) with (List.length l').
      - change (y :: l') with ([y] ++ l'). rewrite last_n_app. auto.
      - clear - Hf. induction Hf; cbn; auto. }
    split; auto. intros a _. eapply grow_cov; eauto.
  Qed.

  Hypothesis Hcmds : Forall (fun f => scoped_command fns f = true /\ required_first (f_params f) = true /\
     forallb (fun p => opt_true (scoped fns []) (p_default p)) (f_params f) = true) cmds.

  Section Open.
    Variables (ev : expr -> M V) (ex : stmt -> M unit).
    Hypothesis Hev : forall env e, scoped fns env e = true -> safe env env (ev e).
    Hypothesis Hex : forall outer cur s, scoped_stmt fns outer cur s = true ->
      safe (cur ++ outer) ((declared s ++ cur) ++ outer) (ex s).

    Ltac sfs := repeat first
      [ match goal with |- forall _, safe _ _ _ => intro end
      | apply quiet_safe; first [ apply q_ret | (apply q_raise; discriminate) | (unfold Interp_Model.rte; apply q_raise; discriminate)
          | (apply q_lift; hon) | (apply q_liftw; hon) | apply q_event | apply q_should
          | apply q_py_int | apply q_truthy | apply q_py_index | apply q_binop | apply q_unop | apply q_literal | apply q_py_eq ]
      | (apply Hev; assumption)
      | (eapply safe_bind; [|intros])
      | match goal with |- safe _ _ (if ?b then _ else _) => destruct b end
      | match goal with |- safe _ _ (match ?x with _ => _ end) => destruct x end ].
    Ltac spl := repeat match goal with h : _ && _ = true |- _ => apply andb_true_iff in h as [? ?] end.

    Lemma sf_mapM env es : forallb (scoped fns env) es = true -> safe env env (mapM H ev es).
    Proof. induction es as [|e es IH]; cbn; intros; spl; sfs; auto. Qed.
    Lemma sf_conditions env cs : forallb (scoped fns env) cs = true -> safe env env (conditions H ev cs).
    Proof. induction cs as [|e es IH]; cbn; intros; spl; sfs; auto. Qed.
    Lemma sf_meta env l : forall acc, forallb (fun ne => scoped fns env (snd ne)) l = true -> safe env env (eval_meta H ev l acc).
    Proof. induction l as [|[k e] l IH]; cbn; intros; spl; sfs; auto. Qed.
    Lemma sf_dict env l : forall acc, forallb (fun ne => scoped fns env (snd ne)) l = true -> safe env env (dict_entries H ev l acc).
    Proof. induction l as [|[k e] l IH]; cbn; intros; spl; sfs; auto. Qed.
    Lemma sf_default env e : scoped fns [] e = true -> safe env env (ev e).
    Proof. intros Hs. apply safe_keep with (f := []). eapply safe_weak; [apply (Hev [] e Hs)|intros ? []|apply incl_refl]. Qed.

    Definition has (acc : list (name * V)) (n : name) : Prop := dget name_eqb n acc <> None.
    Lemma has_set acc n v m : has (dset name_eqb n v acc) m <-> m = n \/ has acc m.
    Proof.
      unfold has. rewrite dget_set_name. destruct (name_eqb m n) eqn:E.
      - apply name_eqb_spec in E. split; auto. discriminate.
      - split; auto. intros [->|]; auto. rewrite (proj2 (name_eqb_spec n n) eq_refl) in E. discriminate.
    Qed.
    Lemma sf_fill env ps : forallb (fun p => opt_true (scoped fns []) (p_default p)) ps = true ->
      forall acc, safe env env (fill_defaults H ev ps acc).
    Proof.
      induction ps as [|p ps IH]; cbn; intros Hs acc; spl; sfs.
      - apply sf_default. destruct (p_default p); cbn in *; congruence.
      - auto.
      - auto.
    Qed.
    Lemma fill_has ps : forall acc c s ps' c' s', fill_defaults H ev ps acc c s = (Ok ps', c', s') ->
      (forall n, has acc n -> has ps' n) /\ (forall p, In p ps -> has_default p = true -> has ps' (p_name p)).
    Proof.
      induction ps as [|p ps IH]; cbn; intros acc c s ps' c' s' E.
      - inversion E; subst. split; auto. intros ? [].
      - destruct (p_default p) eqn:Ep.
        + unfold Interp_Model.bind in E. destruct (ev e c s) as [[[v| |] c1] s1]; try discriminate.
          destruct (IH _ _ _ _ _ _ E) as [A1 A2]. split.
          * intros n Hn. apply A1, has_set. auto.
          * intros q [<-|Hq] Hd; auto. apply A1, has_set. auto.
        + destruct (IH _ _ _ _ _ _ E) as [A1 A2]. split; auto. intros q [<-|Hq] Hd; auto. unfold has_default in Hd. rewrite Ep in Hd. discriminate.
    Qed.
    Lemma bind_args_has ps args p : In p (firstn (List.length args) ps) -> has (bind_args H ps args) (p_name p).
    Proof.
      unfold bind_args. assert (G : forall ps args acc, (forall q, In q (firstn (List.length args) ps) \/ has acc (p_name q) ->
        has (fold_left (fun acc pv => dset name_eqb (p_name (fst pv)) (snd pv) acc) (combine ps args) acc) (p_name q))).
      { clear. induction ps as [|p ps IH]; intros args acc q.
        - rewrite firstn_nil. cbn. tauto.
        - destruct args as [|v args]; cbn; [tauto|]. intros Hq. apply IH.
          destruct Hq as [[<-|Hq]|Hq]; auto; right; apply has_set; auto. }
      intros Hp. apply G. auto.
    Qed.
    Lemma skipped_defaults ps : required_first ps = true -> forall n,
      (List.length (filter (fun p => negb (has_default p)) ps) <= n)%nat -> forall p, In p (skipn n ps) -> has_default p = true.
    Proof.
      induction ps as [|p ps IH]; intros Hr n Hn q Hq; [rewrite skipn_nil in Hq; destruct Hq|].
      cbn [required_first filter] in Hr, Hn. destruct (has_default p) eqn:Ed; cbn [negb List.length] in Hn.
      - rewrite forallb_forall in Hr. destruct n; cbn in Hq; [destruct Hq as [<-|Hq]; auto|].
        apply Hr. rewrite <- (firstn_skipn n ps). apply in_or_app; auto.
      - destruct n; [lia|]. cbn in Hq. apply (IH Hr n); auto. lia.
    Qed.
    Lemma cov_create ps env : (forall n, In n env -> has ps n) -> cov env (create_context H ps).
    Proof.
      intros Hps. split; [discriminate|]. intros n Hn. cbn. apply Hps in Hn. unfold has in Hn.
      assert (G : forall l acc, (has l n \/ has acc n) -> has (fold_left (fun sc nv => sset (fst nv) (snd nv) sc) l acc) n).
      { clear. induction l as [|[m v] l IH]; intros acc Hl; cbn; [destruct Hl as [Hl|]; auto; destruct (Hl eq_refl)|]. apply IH.
        unfold has in *. cbn in Hl. destruct (name_eqb n m) eqn:E.
        - right. apply name_eqb_spec in E. subst. apply has_set. auto.
        - destruct Hl as [Hl|Hl]; auto. right. apply has_set. auto. }
      specialize (G ps [] (or_introl Hn)). unfold has in G. unfold Interp_Model.sget.
      match goal with |- match ?x with _ => _ end <> None => destruct x; [discriminate|exact G] end.
    Qed.
    Lemma sf_stmts outer fin ss : forall cur, scoped_block fns outer cur (Block ss fin) = true -> safe (cur ++ outer) [] (stmts H ex ss).
    Proof.
      induction ss as [|s ss IH]; intros cur Hs.
      - eapply safe_weak; [apply quiet_safe, q_ret|apply incl_refl|intros ? []].
      - change (scoped_stmt fns outer cur s && scoped_block fns outer (declared s ++ cur) (Block ss fin) = true) in Hs. spl. cbn [stmts].
        eapply safe_bind; [apply quiet_safe, q_event|intros _]. eapply safe_bind; [apply Hex; eauto|intros _].
        eapply safe_bind; [apply quiet_safe, q_should|intros b]. destruct b; [|apply IH; auto].
        eapply safe_weak; [apply quiet_safe, q_ret|apply incl_refl|intros ? []].
    Qed.
    Lemma body_safe f ps : In f cmds -> (forall p, In p (f_params f) -> has ps (p_name p)) -> forall s r c' s',
      execute_command H ex f (create_context H ps) s = (r, c', s') -> r <> Raise undefined.
    Proof.
      intros Hf Hps s r c' s' E. rewrite Forall_forall in Hcmds. destruct (Hcmds f Hf) as (Hs & _ & _). unfold scoped_command in Hs. spl.
      destruct (f_body f) as [ss fin] eqn:Eb.
      unfold execute_command in E. rewrite Eb in E.
      assert (G : safe (rev (map p_name (f_params f)) ++ []) [] (bind (emit_event H (fun d => EvEnter H d (f_name f))) (fun _ => stmts H ex ss))).
      { eapply safe_bind; [apply quiet_safe, q_event|intros _]. eapply sf_stmts; eauto. }
      apply (G _ _ _ _ _ E). apply cov_create. intros n Hn. rewrite app_nil_r, <- in_rev, in_map_iff in Hn.
      destruct Hn as (p & <- & Hp). auto.
    Qed.
    Lemma meta_quiet f cc w : fst (apply_meta H f cc w) <> inr undefined.
    Proof. unfold apply_meta. destruct (f_meta f) as [[|]|]; [discriminate| |discriminate]. destruct (c_emit H cc) as [[v md]|]; [apply (ho_meta H Hon)|discriminate]. Qed.
    Lemma sf_call_command env f args : In f cmds -> safe env env (call_command H limit ev ex f args).
    Proof.
      intros Hf c s r c' s' E Hc. unfold call_command in E.
      assert (Hd := proj1 (Forall_forall _ _) Hcmds f Hf). destruct Hd as (_ & Hr & Hdf).
      destruct (Z.ltb limit (s_depth H (add_depth H 1 s))).
      { inversion E; subst. split; [discriminate|]. split; [apply grow_refl|discriminate]. }
      destruct ((_ <? _)%nat || (_ <? _)%nat) eqn:En;
        [cbn in E; inversion E; subst; split; [discriminate|]; split; [apply grow_refl|discriminate]|].
      unfold Interp_Model.bind in E. destruct (fill_defaults H ev _ _ c (add_depth H 1 s)) as [[x c1] s1] eqn:Ef.
      assert (Hsk : forallb (fun p => opt_true (scoped fns []) (p_default p)) (skipn (List.length args) (f_params f)) = true).
      { rewrite forallb_forall in *. intros p Hp. apply Hdf. rewrite <- (firstn_skipn (List.length args) (f_params f)). apply in_or_app; auto. }
      destruct (sf_fill env _ Hsk _ _ _ _ _ _ Ef Hc) as (F1 & F2 & F3).
      assert (K : c' = c1 -> r <> Raise undefined -> r <> Raise undefined /\ grow c c' /\ (forall a, r = Ok a -> cov env c')).
      { intros -> Hu. split; auto. split; auto. intros a _. eapply grow_cov; eauto. }
      destruct x; [|inversion E; subst; apply K; auto; congruence|inversion E; subst; apply K; auto; congruence].
      assert (Ha : forall p, In p (f_params f) -> has a (p_name p)).
      { destruct (fill_has _ _ _ _ _ _ _ Ef) as [G1 G2]. intros p Hp. rewrite <- (firstn_skipn (List.length args) (f_params f)) in Hp.
        apply in_app_or in Hp as [Hp|Hp]; [apply G1, bind_args_has; auto|]. apply G2; auto.
        apply (skipped_defaults _ Hr (List.length args)); auto. apply orb_false_iff in En as [En _]. apply Nat.ltb_ge in En. auto. }
      pose proof (body_safe f a Hf Ha s1) as Hb.
      destruct (execute_command H ex f (create_context H a) s1) as [[y cc] s2]. specialize (Hb _ _ _ eq_refl).
      destruct y; [|inversion E; subst; apply K; auto; congruence|inversion E; subst; apply K; auto; congruence].
      pose proof (meta_quiet f cc (s_world H s2)) as Hm.
      destruct (apply_meta H f cc (s_world H s2)) as [[q|q] w]; [|inversion E; subst; apply K; auto; cbn in Hm; congruence].
      destruct (c_emit H cc) as [[v md]|]; inversion E; subst; apply K; auto; discriminate.
    Qed.
    Lemma sf_call env f args : scoped fns env (ECall f args []) = true -> safe env env (call H cmds limit ev ex f args []).
    Proof.
      cbn [scoped]. intros Hs. spl. unfold call. eapply safe_bind; [apply sf_mapM; auto|]. intros vs. destruct f; sfs.
      intros c s r c' s' E Hc. destruct (existsb _ _); [eapply (quiet_safe env (liftw H (h_native H n (map (vdata H) vs)))); [apply q_liftw; hon|exact E|exact Hc]|].
      destruct (find_command cmds n) as [f|] eqn:Ef; [|eapply (quiet_safe env (liftw H (h_builtin H n vs))); [apply q_liftw; hon|exact E|exact Hc]].
      eapply sf_call_command; [|exact E|exact Hc]. apply find_some in Ef. tauto.
    Qed.
    Lemma sf_clauses e : forall cls env acc, scoped fns env (EComp e cls) = true -> safe env env (clauses H ev cls e acc).
    Proof.
      induction cls as [|[[x it] cs] cls IH]; intros env acc Hs.
      - change (scoped fns env e = true) in Hs. cbn. sfs.
      - change (scoped fns env it && forallb (scoped fns (x :: env)) cs && scoped fns (x :: env) (EComp e cls) = true) in Hs. spl.
        cbn [clauses]. eapply safe_bind; [sfs|]. intros v. eapply safe_bind; [sfs|]. intros o. destruct o as [items|]; [|sfs].
        revert acc. induction items as [|i items IHi]; intros acc; [sfs|].
        match goal with |- safe _ _ (if ?b then _ else _) => destruct b end; [sfs|]. eapply safe_bind; [apply safe_set|]. intros _.
        eapply safe_bind; [apply sf_conditions; auto|]. intros b.
        assert (G : forall acc0, safe (x :: env) env
          ((fix go (items : list D) (acc : list V) : M (list V) :=
                 match items with
                 | [] => ret acc
                 | i :: items =>
                     if too_big H acc then rte "result size exceeds maximum"
                     else bind (set_variable H x (Val i (elem_type H v))) (fun _ =>
                       bind (conditions H ev cs) (fun ok =>
                       if ok then bind (clauses H ev cls e acc) (fun acc => go items acc)
                       else go items acc))
                 end) items acc0)).
        { intros acc0. eapply safe_weak; [apply IHi|intros ? ?; right; auto|apply incl_refl]. }
        destruct b; [|apply G]. eapply safe_bind; [apply IH; auto|]. intros acc'. apply G.
    Qed.
    Lemma sf_arms env v l : forallb (fun pe => scoped fns env (snd pe)) l = true -> safe env env (match_arms H ev v l).
    Proof.
      induction l as [|[p e] l IH]; cbn; intros; spl; [sfs|]. eapply safe_bind.
      - unfold pattern_matches. instantiate (1 := env). destruct p; try solve [sfs].
        eapply safe_bind; [eapply safe_keep, safe_set|]. sfs.
      - intros b. destruct b; sfs; auto.
    Qed.
    Lemma lookup_mem env n c : cov env c -> mem n env = true -> lookup H n (c_scopes H c) <> None.
    Proof. intros [_ Hc] Hm. apply Hc, mem_in, Hm. Qed.
    Lemma sf_eval_body env e : scoped fns env e = true -> safe env env (eval_body H cmds limit ev ex e).
    Proof.
      destruct e; simpl eval_body; intros Hs; try (cbn [scoped] in Hs; spl).
      - sfs.
      - intros c s r c' s' E Hc. pose proof (lookup_mem _ _ _ Hc Hs). destruct (lookup H n (c_scopes H c)); [|congruence].
        inversion E; subst. split; [discriminate|]. split; [apply grow_refl|auto].
      - sfs.
      - sfs.
      - destruct named; [|discriminate]. apply sf_call. cbn [scoped]. rewrite H0, H2. reflexivity.
      - discriminate.
      - sfs.
      - sfs.
      - destruct l; [sfs|]. eapply safe_bind; [apply sf_mapM; auto|]. sfs.
      - unfold comprehension. destruct (_ <? _)%nat; [sfs|]. eapply safe_bind; [|sfs]. eapply safe_scope, sf_clauses; eauto.
      - sfs.
      - sfs.
      - discriminate.
      - eapply safe_bind; [sfs|]. intros. apply sf_arms; auto.
      - sfs.
      - eapply safe_bind; [apply sf_dict; auto|]. sfs.
    Qed.
    Lemma sf_block outer b : scoped_block fns outer [] b = true -> safe outer outer (new_scope H (stmts H ex (b_stmts b))).
    Proof. destruct b as [ss fin]. intros Hs. eapply safe_scope. apply (sf_stmts outer fin ss [] Hs). Qed.
    Lemma sf_for x t outer fin body items : scoped_block fns outer [x] (Block body fin) = true ->
      safe outer outer (for_items H ex x t body items).
    Proof.
      intros Hs. induction items as [|i items IH]; cbn [for_items]; [sfs|].
      eapply safe_keep. eapply safe_bind; [apply safe_set|]. intros _.
      eapply safe_bind; [eapply safe_keep; apply (sf_stmts outer fin body [x] Hs)|]. intros _.
      eapply safe_bind; [apply quiet_safe, q_should|]. intros b. instantiate (1 := outer).
      eapply safe_weak; [|intros y Hy; right; exact Hy|apply incl_refl]. destruct b; [sfs|apply IH].
    Qed.
    Lemma sf_elifs env els : opt_true (scoped_block fns env []) els = true ->
      forall l, forallb (fun cb => scoped fns env (fst cb) && scoped_block fns env [] (snd cb)) l = true ->
      safe env env (exec_elifs H ev ex l els).
    Proof.
      intros He. induction l as [|[c b] l IH]; cbn; intros Hs; spl.
      - destruct els; [apply sf_block; auto|sfs].
      - eapply safe_bind; [sfs|]. intros v. eapply safe_bind; [sfs|]. intros t. destruct t; [apply sf_block; auto|auto].
    Qed.
    Lemma sf_exec_body outer cur st : scoped_stmt fns outer cur st = true ->
      safe (cur ++ outer) ((declared st ++ cur) ++ outer) (exec_body H ev ex st).
    Proof.
      destruct st; simpl exec_body; cbn [scoped_stmt declared app]; intros Hs; spl; try discriminate.
      - destruct init; [|discriminate]. eapply safe_bind; [sfs|]. intros v. apply safe_set.
      - eapply safe_bind; [sfs|]. intros w. destruct target; sfs. apply safe_update.
      - eapply safe_bind; [sfs|]. intros v. eapply safe_bind; [sfs|]. intros t. eapply safe_bind; [sfs|]. intros _. destruct t; [sfs|].
        apply safe_same. intros c0 s r c' s' E. inversion E; subst. split; [discriminate|auto].
      - eapply safe_bind; [sfs|]. intros w. eapply safe_bind; [apply sf_meta; auto|]. intros md. eapply safe_bind; [sfs|]. intros _.
        apply safe_same. intros c s r c' s' E. inversion E; subst. split; [discriminate|auto].
      - sfs.
      - unfold exec_for. eapply safe_bind; [sfs|]. intros v. eapply safe_bind; [sfs|]. intros o. destruct o; [|sfs].
        destruct b as [ss fin]. eapply safe_scope. eapply sf_for; eauto.
      - sfs.
      - eapply safe_bind; [sfs|]. intros v. eapply safe_bind; [sfs|]. intros b. destruct b; [apply sf_block; auto|].
        apply sf_elifs; auto.
      - eapply safe_bind; [sfs|]. sfs.
      - eapply safe_bind.
        + apply safe_same. intros c s r c' s' E. destruct (h_python H lexemes (namespace H (c_scopes H c)) (s_world H s)).
          inversion E; subst. split; [discriminate|auto].
        + intros [[]|]; sfs.
    Qed.
  End Open.

  Lemma safe_run fuel :
    (forall env e, scoped fns env e = true -> safe env env (eval H cmds limit fuel e)) /\
    (forall outer cur st, scoped_stmt fns outer cur st = true -> safe (cur ++ outer) ((declared st ++ cur) ++ outer) (exec H cmds limit fuel st)).
  Proof.
    assert (Z : forall A e f, @safe A e f (fun c s => (NoFuel, c, s))).
    { intros A e f c s r c' s' E Hc. inversion E; subst. split; [discriminate|]. split; [apply grow_refl|discriminate]. }
    induction fuel as [|n [IHe IHs]]; split; intros.
    - apply Z.
    - apply Z.
    - apply sf_eval_body; auto.
    - apply sf_exec_body; auto.
  Qed.
End Safe.

Lemma sound H (Hon : honest H) fns limit fuel m cmd given s o s' :
  Forall (fun f => scoped_command fns f = true /\ required_first (f_params f) = true /\
     forallb (fun p => opt_true (scoped fns []) (p_default p)) (f_params f) = true) (m_funs m) ->
  (forall f, find_command (m_funs m) cmd = Some f -> all_given (f_params f) given = true) ->
  execute H limit fuel m cmd given s = (o, s') ->
  o <> Escaped H undefined /\ (forall r, o = Returned H r -> r_error H r <> Some "Undefined variable"%string).
Proof.
  intros Hcmds Hg E. unfold execute in E.
  destruct (native_blocks H (m_blocks m) s) as [ok s1]. destruct ok; cbn [negb] in E.
  2:{ inversion E; subst. split; [discriminate|]. intros r X. inversion X; subst. cbn. discriminate. }
  destruct (find_command (m_funs m) cmd) as [f|] eqn:Ef.
  2:{ inversion E; subst. split; [discriminate|]. intros r X. inversion X; subst. cbn. discriminate. }
  specialize (Hg f eq_refl). assert (Hf : In f (m_funs m)) by (apply find_some in Ef; tauto).
  destruct (safe_run H Hon fns (m_funs m) limit Hcmds fuel) as [Se Ss].
  assert (Hw : forall ps acc c s r c' s', wrap_parameters H (eval H (m_funs m) limit fuel) ps given acc c s = (r, c', s') ->
    c_scopes H c <> [] -> forallb (fun p => opt_true (scoped fns []) (p_default p)) ps = true -> all_given ps given = true ->
    r <> Raise undefined /\ forall a, r = Ok a -> (forall n, has H acc n -> has H a n) /\ (forall p, In p ps -> has H a (p_name p))).
  { clear - Se Hon. induction ps as [|p ps IH]; cbn; intros acc c s r c' s' E Hc Hd Ha.
    - inversion E; subst. split; [discriminate|]. intros a X. inversion X; subst. split; auto. intros ? [].
    - apply andb_true_iff in Hd as [Hd1 Hd2]. apply andb_true_iff in Ha as [Ha1 Ha2].
      assert (K : forall v c1 s1, c_scopes H c1 <> [] ->
         wrap_parameters H (eval H (m_funs m) limit fuel) ps given (dset name_eqb (p_name p) v acc) c1 s1 = (r, c', s') ->
         r <> Raise undefined /\ forall a, r = Ok a -> (forall n, has H acc n -> has H a n) /\ (forall q, p = q \/ In q ps -> has H a (p_name q))).
      { intros v c1 s1 Hc1 E1. destruct (IH _ _ _ _ _ _ E1 Hc1 Hd2 Ha2) as [A1 A2]. split; auto. intros a X. destruct (A2 a X) as [B1 B2]. split.
        - intros n Hn. apply B1, has_set. auto.
        - intros q [<-|Hq]; auto. apply B1, has_set. auto. }
      destruct (dget name_eqb (p_name p) given) eqn:Eg; [eapply K; eauto|].
      destruct (p_default p) as [e|] eqn:Ep.
      + unfold Interp_Model.bind in E. destruct (eval H (m_funs m) limit fuel e c s) as [[x c1] s1] eqn:Ee.
        destruct (Se [] e Hd1 _ _ _ _ _ Ee) as (A1 & A2 & A3); [split; auto; intros ? []|].
        destruct x; [|inversion E; subst; split; [congruence|discriminate]|inversion E; subst; split; [congruence|discriminate]].
        eapply K; [|exact E]. apply (A3 a eq_refl).
      + unfold has_default in Ha1. rewrite Ep in Ha1. discriminate. }
  rewrite Forall_forall in Hcmds. destruct (Hcmds f Hf) as (Hs & Hr & Hd).
  destruct (wrap_parameters _ _ _ _ _ _ _) as [[x c1] s2] eqn:Ew.
  destruct (Hw _ _ _ _ _ _ _ Ew) as [W1 W2]; auto; [discriminate|].
  destruct x.
  - destruct (W2 a eq_refl) as [_ W3].
    assert (Hb : forall s3 r c' s', execute_command H (exec H (m_funs m) limit fuel) f (create_context H a) s3 = (r, c', s') -> r <> Raise undefined).
    { intros s3 r c' s4. apply (body_safe H fns (m_funs m) (proj2 (Forall_forall _ _) Hcmds) _ Ss f a Hf W3). }
    destruct (execute_command _ _ _ _ _) as [[y cc] s3] eqn:Ex. apply Hb in Ex.
    destruct y as [u|[why|why]|].
    + pose proof (meta_quiet H Hon f cc (s_world H s3)) as Hm. destruct (apply_meta H f cc (s_world H s3)) as [[q|q] w].
      * destruct (c_fails H cc), (c_emit H cc); inversion E; subst; (split; [discriminate|]); intros r X; inversion X; subst; cbn; discriminate.
      * inversion E; subst. cbn in Hm. split; [congruence|discriminate].
    + inversion E; subst. split; [discriminate|]. intros r X. inversion X; subst. cbn. intros Y. inversion Y; subst. apply Ex. reflexivity.
    + inversion E; subst. split; discriminate.
    + inversion E; subst. split; discriminate.
  - inversion E; subst. split; [congruence|discriminate].
  - inversion E; subst. split; discriminate.
Qed.
