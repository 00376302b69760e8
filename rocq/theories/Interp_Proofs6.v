(** The order in which the statements of a body are run. *)
From Coq Require Import ZArith String List Bool Lia.
From Verif Require Import Dict Lex_Model Ast Types_Model Interp_Model Interp_Proofs Interp_Spec Interp_Proofs2.
Import ListNotations.
Open Scope Z_scope.
Open Scope list_scope.

Section Path.
  Variable H : host.
  Variables (cmds : list fundef) (limit : Z).
  Notation ctx := (ctx H). Notation state := (state H). Notation M := (M H).
  Notation V := (rval (hF H) (hO H)).
  Notation inve := (inv H (Re H limit)).

  Definition reach {A} (r : res A) (c : ctx) : reached :=
    match r with Raise _ => Raised | _ => if c_ret H c then Returned_ else RanAll end.
  Definition ps {A} (P : list stmt -> reached -> Prop) (m : M A) : Prop := forall c s r c' s',
    c_ret H c = false -> m c s = (r, c', s') -> r <> NoFuel ->
    s_depth H s' = s_depth H s /\ exists l, s_log H s' = s_log H s ++ l /\ P (started (s_depth H s) l) (reach r c').

  Lemma started_app d (l m : list (event H)) : started d (l ++ m) = started d l ++ started d m.
  Proof. unfold started. apply flat_map_app. Qed.
  Lemma above_started d (l : list (event H)) : Forall (fun e => d < ev_depth e) l -> started d l = [].
  Proof.
    induction 1 as [|e l He Hl IH]; [reflexivity|]. unfold started in *. cbn.
    rewrite IH. destruct e; cbn in *; auto; replace (d0 =? d) with false by (symmetry; apply Z.eqb_neq; lia); auto.
  Qed.

  Lemma ps_pre {A B} (P : list stmt -> reached -> Prop) (m : M A) (k : A -> M B) :
    inve m -> (forall a, ps P (k a)) -> P [] Raised -> ps P (bind H m k).
  Proof.
    intros Hm Hk Hp c s r c' s' Hc E Hr. unfold bind in E. destruct (m c s) as [[x c1] s1] eqn:Em.
    destruct (Hm _ _ _ _ _ Em) as (D1 & _ & _ & G1 & l1 & L1 & A1 & _).
    destruct x as [a|e|].
    - destruct (Hk a c1 s1 r c' s') as (D2 & l2 & L2 & P2); auto; [congruence|]. split; [congruence|].
      exists (l1 ++ l2). rewrite L2, L1, app_assoc. split; auto. rewrite started_app, (above_started _ _ A1). rewrite D1 in P2. exact P2.
    - inversion E; subst. split; auto. exists l1. split; auto. rewrite (above_started _ _ A1). exact Hp.
    - inversion E; subst. congruence.
  Qed.
  Lemma ps_inve {A} (P : list stmt -> reached -> Prop) (m : M A) : inve m -> P [] RanAll -> P [] Raised -> ps P m.
  Proof.
    intros Hm H1 H2 c s r c' s' Hc E Hr. destruct (Hm _ _ _ _ _ E) as (D1 & _ & _ & G1 & l1 & L1 & A1 & _).
    split; auto. exists l1. split; auto. rewrite (above_started _ _ A1). destruct r; cbn; auto; [rewrite G1, Hc; auto|congruence].
  Qed.
  Lemma ps_scope {A} P (m : M A) : ps P m -> ps P (new_scope H m).
  Proof.
    intros Hm c s r c' s' Hc E Hr. unfold new_scope in E. destruct (m _ s) as [[x c1] s1] eqn:Em. inversion E; subst.
    assert (X : c_ret H (set_scopes H ([] :: c_scopes H c) c) = false) by exact Hc.
    destruct (Hm _ _ _ _ _ X Em Hr) as (D & l & L & Q). split; auto; exists l; split; auto.
  Qed.
  Lemma ps_mono {A} (P Q : list stmt -> reached -> Prop) (m : M A) : (forall l r, P l r -> Q l r) -> ps P m -> ps Q m.
  Proof. intros Hpq Hm c s r c' s' Hc E Hr. destruct (Hm _ _ _ _ _ Hc E Hr) as (D & l & L & X). eauto. Qed.

  Section Open.
    Variables (ev : expr -> M V) (ex : stmt -> M unit).
    Hypothesis Hev : forall e, inve (ev e).
    Hypothesis Hex : forall st, ps (fun l r => path st (st :: l) r) (ex st).
    Let CE := CL_e _ _ _ _ _ (log_closed H cmds limit).

    Lemma ps_stmts ss : ps (path_list ss) (stmts H ex ss).
    Proof.
      induction ss as [|st ss IH]; intros c s r c' s' Hc E Hr; cbn in E.
      - inversion E; subst. split; auto. exists []. rewrite app_nil_r. split; auto. cbn. rewrite Hc. constructor.
      - unfold bind, emit_event in E. cbn in E.
        match type of E with context [ex st c ?s0] => destruct (ex st c s0) as [[x c1] s1] eqn:Ex end.
        assert (Hx : x <> NoFuel) by (intros ->; inversion E; congruence).
        destruct (Hex st _ _ _ _ _ Hc Ex Hx) as (D1 & l1 & L1 & P1). cbn in D1, L1, P1.
        set (e0 := EvStmt H (s_depth H s) st) in *.
        assert (S0 : started (s_depth H s) (e0 :: l1) = st :: started (s_depth H s) l1)
          by (unfold started, e0; cbn; rewrite Z.eqb_refl; reflexivity).
        destruct x as [u|e|]; [| |congruence].
        + cbn in E, P1. destruct (c_ret H c1) eqn:Er.
          * inversion E; subst. split; auto. exists (e0 :: l1). rewrite L1, <- app_assoc. split; auto.
            rewrite S0. cbn. rewrite Er. apply pl_stop; auto. discriminate.
          * destruct (IH _ _ _ _ _ Er E Hr) as (D2 & l2 & L2 & P2). split; [congruence|].
            exists (e0 :: l1 ++ l2). rewrite L2, L1, <- !app_assoc. split; auto.
            change (e0 :: l1 ++ l2) with ((e0 :: l1) ++ l2). rewrite started_app, S0. rewrite D1 in P2.
            apply pl_cons; auto.
        + inversion E; subst. split; auto. exists (e0 :: l1). rewrite L1, <- app_assoc. split; auto.
          rewrite S0. apply pl_stop; auto. discriminate.
    Qed.
    Lemma ps_for x t body items : ps (path_loop body) (for_items H ex x t body items).
    Proof.
      induction items as [|i items IH]; intros c s r c' s' Hc E Hr; cbn in E.
      - inversion E; subst. split; auto. exists []. rewrite app_nil_r. split; auto. cbn. rewrite Hc. constructor.
      - unfold bind in E. destruct (set_variable H x (Val i t) c s) as [[y c0] s0] eqn:Es.
        destruct (inv_set _ _ CE _ _ _ _ _ _ _ Es) as (D0 & _ & _ & G0 & l0 & L0 & A0 & _).
        assert (exists u, y = Ok u) as [u ->] by (unfold set_variable in Es; destruct (c_scopes H c); inversion Es; eauto).
        destruct (stmts H ex body c0 s0) as [[z c1] s1] eqn:Eb.
        assert (Hz : z <> NoFuel) by (intros ->; inversion E; congruence).
        rewrite Hc in G0. destruct (ps_stmts body _ _ _ _ _ G0 Eb Hz) as (D1 & l1 & L1 & P1). rewrite D0 in P1, D1.
        destruct z as [u'|e|]; [| |congruence].
        + cbn in E, P1. destruct (c_ret H c1) eqn:Er.
          * inversion E; subst. split; auto. exists (l0 ++ l1). rewrite L1, L0, app_assoc. split; auto.
            rewrite started_app, (above_started _ _ A0). cbn. rewrite Er. apply lp_stop; auto. discriminate.
          * destruct (IH _ _ _ _ _ Er E Hr) as (D2 & l2 & L2 & P2). split; [congruence|].
            exists (l0 ++ l1 ++ l2). rewrite L2, L1, L0, !app_assoc. split; auto.
            rewrite <- app_assoc, !started_app, (above_started _ _ A0). rewrite D1 in P2. cbn [app]. apply lp_cons; auto.
        + inversion E; subst. split; auto. exists (l0 ++ l1). rewrite L1, L0, app_assoc. split; auto.
          rewrite started_app, (above_started _ _ A0). apply lp_stop; auto. discriminate.
    Qed.
    Lemma ps_elifs c t all elifs els : incl elifs all ->
      ps (fun l r => path (SIf c t all els) (SIf c t all els :: l) r) (exec_elifs H ev ex elifs els).
    Proof.
      induction elifs as [|[c1 [ss fin]] elifs IH]; intros Hi; cbn.
      - destruct els as [[ss fin]|].
        + apply ps_scope. eapply ps_mono; [|apply ps_stmts]. cbn. intros l r Hl. apply path_else; auto.
        + apply ps_inve; [apply (inv_ret _ _ CE)|apply path_no_branch|apply path_raise].
      - apply ps_pre; [auto| |constructor]. intros v. apply ps_pre; [apply (inv_truthy _ _ CE)| |constructor]. intros [].
        + apply ps_scope. eapply ps_mono; [|apply ps_stmts]. cbn. intros l r Hl.
          eapply path_elif; eauto. apply Hi; left; reflexivity.
        + apply IH. intros x Hx. apply Hi. right; auto.
    Qed.
    (** What a statement does by itself starts no further statement. *)
    Definition quiet {A} (m : M A) : Prop := forall c s r c' s', m c s = (r, c', s') ->
      s_depth H s' = s_depth H s /\ c_ret H c' = c_ret H c /\
      exists l, s_log H s' = s_log H s ++ l /\ started (s_depth H s) l = [].
    Lemma quiet_inve {A} (m : M A) : inve m -> quiet m.
    Proof.
      intros Hm c s r c' s' E. destruct (Hm _ _ _ _ _ E) as (D & _ & _ & G & l & L & A1 & _).
      split; auto. split; auto. exists l. split; auto. apply above_started; auto.
    Qed.
    Lemma quiet_bind {A B} (m : M A) (k : A -> M B) : quiet m -> (forall a, quiet (k a)) -> quiet (bind H m k).
    Proof.
      intros Hm Hk c s r c' s' E. unfold bind in E. destruct (m c s) as [[x c1] s1] eqn:Em.
      destruct (Hm _ _ _ _ _ Em) as (D1 & G1 & l1 & L1 & S1). destruct x as [a|e|]; [|inversion E; subst; eauto..].
      destruct (Hk a _ _ _ _ _ E) as (D2 & G2 & l2 & L2 & S2). split; [congruence|]. split; [congruence|].
      exists (l1 ++ l2). rewrite L2, L1, app_assoc. split; auto. rewrite started_app, S1. rewrite D1 in S2. exact S2.
    Qed.
    Lemma quiet_event f : (forall d, match f d with EvStmt _ _ _ => False | _ => True end) -> quiet (emit_event H f).
    Proof.
      intros Hf c s r c' s' E. inversion E; subst. split; auto. split; auto. exists [f (s_depth H s)]. split; auto.
      specialize (Hf (s_depth H s)). unfold started. cbn. destruct (f (s_depth H s)); tauto.
    Qed.
    Lemma quiet_same {A} (m : M A) : (forall c s, s_log H (snd (m c s)) = s_log H s /\ s_depth H (snd (m c s)) = s_depth H s /\
      c_ret H (snd (fst (m c s))) = c_ret H c) -> quiet m.
    Proof.
      intros Hm c s r c' s' E. destruct (Hm c s) as (A1 & A2 & A3). rewrite E in *. cbn in *. split; auto. split; auto.
      exists []. rewrite app_nil_r. auto.
    Qed.
    Lemma ps_quiet {A} (P : list stmt -> reached -> Prop) (m : M A) : quiet m -> P [] RanAll -> P [] Raised -> ps P m.
    Proof.
      intros Hm H1 H2 c s r c' s' Hc E Hr. destruct (Hm _ _ _ _ _ E) as (D1 & G1 & l1 & L1 & S1).
      split; auto. exists l1. split; auto. rewrite S1. destruct r; cbn; auto; [rewrite G1, Hc; auto|congruence].
    Qed.
    Lemma ps_ret : ps (fun l r => l = [] /\ r = Returned_) (signal_return H).
    Proof.
      intros c s r c' s' Hc E Hr. inversion E; subst. split; auto. exists []. rewrite app_nil_r. auto.
    Qed.
    Lemma ps_exec_body st : ps (fun l r => path st (st :: l) r) (exec_body H ev ex st).
    Proof.
      assert (Q : forall {A} (m : M A), simple st = true -> quiet m -> ps (fun l r => path st (st :: l) r) m).
      { intros A m Hs Hq. apply ps_quiet; auto; constructor; auto. }
      destruct st; cbn [exec_body].
      - destruct init as [e|].
        + apply Q; auto. apply quiet_bind; [apply quiet_inve; auto|]. intros v. apply quiet_inve, (inv_set _ _ CE).
        + apply Q; auto. apply quiet_inve, (inv_rte _ _ CE).
      - apply Q; auto. apply quiet_bind; [apply quiet_inve; auto|]. intros w.
        destruct target; try (apply quiet_inve, (inv_raise _ _ CE)).
        apply quiet_same. intros c s. unfold update_variable. destruct (update H n w (c_scopes H c)); auto.
      - apply Q; auto. apply quiet_bind; [apply quiet_inve; auto|]. intros v.
        apply quiet_bind; [apply quiet_inve, (inv_truthy _ _ CE)|]. intros t. apply quiet_bind; [apply quiet_event; auto|].
        intros _. destruct t; [apply quiet_inve, (inv_ret _ _ CE)|]. apply quiet_same. intros; auto.
      - apply Q; auto. apply quiet_bind; [apply quiet_inve; auto|]. intros w.
        apply quiet_bind; [apply quiet_inve, (inv_meta _ _ CE); auto|]. intros md. apply quiet_bind; [apply quiet_event; auto|].
        intros _. apply quiet_same. intros; auto.
      - destruct v as [e|].
        + apply ps_pre; [auto| |constructor]. intros _. eapply ps_mono; [|apply ps_ret]. intros l r [-> ->]. constructor.
        + eapply ps_mono; [|apply ps_ret]. intros l r [-> ->]. constructor.
      - apply Q; auto. apply quiet_inve, (inv_ret _ _ CE).
      - destruct b as [ss fin]. cbn. unfold exec_for. apply ps_pre; [auto| |constructor]. intros v.
        apply ps_pre; [apply (inv_lift _ _ CE)| |constructor]. intros [items|].
        + apply ps_scope. eapply ps_mono; [|apply ps_for]. intros l r Hl. constructor; auto.
        + assert (X : forall e, ps (fun l r => path (SFor x it (Block ss fin)) (SFor x it (Block ss fin) :: l) r) (@raise H unit e)).
          { intros e c s r c' s' Hc E Hr. inversion E; subst. split; auto. exists []. rewrite app_nil_r. split; auto. constructor. }
          destruct (vtype H v) as [[]|]; apply X.
      - intros c1 s r c' s' Hc E Hr. inversion E; subst. split; auto. exists []. rewrite app_nil_r. split; auto. constructor.
      - apply ps_pre; [auto| |constructor]. intros v. apply ps_pre; [apply (inv_truthy _ _ CE)| |constructor]. intros [].
        + apply ps_scope. destruct t as [ss fin]. eapply ps_mono; [|apply ps_stmts]. intros l r Hl. constructor; auto.
        + apply ps_elifs. apply incl_refl.
      - apply Q; auto. apply quiet_bind; [apply quiet_inve; auto|]. intros _. apply quiet_inve, (inv_ret _ _ CE).
      - apply Q; auto. apply quiet_bind.
        + apply quiet_same. intros c s. destruct (h_python H lexemes (namespace H (c_scopes H c)) (s_world H s)); auto.
        + intros o. destruct o as [[]|]; apply quiet_inve; first [apply (inv_raise _ _ CE)|apply (inv_ret _ _ CE)|apply (inv_rte _ _ CE)].
    Qed.
  End Open.

  Lemma ps_run fuel st : ps (fun l r => path st (st :: l) r) (exec H cmds limit fuel st).
  Proof.
    revert st. induction fuel as [|n IH]; intros st.
    - intros c s r c' s' _ E Hr. inversion E; subst. congruence.
    - apply ps_exec_body; auto. apply (run_inv H cmds limit _ _ (log_closed H cmds limit)).
  Qed.
End Path.

(** The statements started by the body of an executed command. *)
Lemma execute_path H limit fuel m cmd given s o s' f :
  execute H limit fuel m cmd given s = (o, s') -> o <> OutOfFuel H ->
  find_command (m_funs m) cmd = Some f ->
  exists l, s_log H s' = s_log H s ++ l /\
    ((exists reached, path_list (b_stmts (f_body f)) (started (s_depth H s) l) reached /\
       (forall r, o = Returned H r -> r_success H r = true -> reached <> Raised)) \/
     (started (s_depth H s) l = [] /\ (forall r, o = Returned H r -> r_success H r = false))).
Proof.
  unfold execute. intros E Ho Ef. destruct (native_blocks H (m_blocks m) s) as [ok s0] eqn:En.
  destruct (native_blocks_inv H _ _ _ _ En) as [D0 L0].
  destruct ok; cbn [negb] in E.
  2: { inversion E; subst. exists []. rewrite app_nil_r. split; auto. right. split; auto. intros r Er. inversion Er; auto. }
  rewrite Ef in E.
  destruct (wrap_parameters H (eval H (m_funs m) limit fuel) (f_params f) given [] (create_context H []) s0)
    as [[x c1] s1] eqn:Ew.
  pose proof (log_closed H (m_funs m) limit) as CL.
  pose proof (wrap_inv H _ _ _ _ CL _ _ _ _ _ _ _ _ _ Ew) as (D1 & _ & _ & _ & l1 & L1 & A1 & K1).
  rewrite D0 in *.
  destruct x as [params|e|]; [| |inversion E; subst; congruence].
  2: { inversion E; subst. exists l1. rewrite L1, L0. split; auto. right. split; [apply above_started; auto|]. intros r Er; discriminate. }
  destruct (execute_command H (exec H (m_funs m) limit fuel) f (create_context H params) s1) as [[y c2] s2] eqn:Ec.
  assert (Hy : y <> NoFuel) by (intros ->; inversion E; congruence).
  unfold execute_command, bind, emit_event in Ec. cbn in Ec.
  destruct (ps_stmts H _ (ps_run H (m_funs m) limit fuel) (b_stmts (f_body f)) (create_context H params) _ _ _ _ eq_refl Ec Hy)
    as (D2 & l2 & L2 & P2).
  cbn in D2, L2, P2. rewrite D1 in P2.
  assert (Hs' : s_log H s' = s_log H s2).
  { destruct y as [u|[why|why]|]; [|inversion E; auto..].
    destruct (apply_meta H f c2 (s_world H s2)) as [[q|q] w]; [|inversion E; auto].
    destruct (c_fails H c2); [destruct (c_emit H c2)|]; inversion E; auto. }
  exists (l1 ++ EvEnter H (s_depth H s1) (f_name f) :: l2). split; [rewrite Hs', L2, L1, L0, <- !app_assoc; reflexivity|].
  left. exists (reach H y c2). split.
  - rewrite started_app, (above_started H _ _ A1). exact P2.
  - intros r -> Hr. destruct y as [u|[why|why]|]; cbn; [destruct (c_ret H c2); discriminate| |inversion E|congruence].
    inversion E; subst. discriminate.
Qed.
