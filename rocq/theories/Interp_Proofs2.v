(** The ghost log, the call depth, the emitted value and the failed requirements. *)
From Coq Require Import ZArith String List Bool Lia.
From Verif Require Import Dict Lex_Model Ast Types_Model Interp_Model Interp_Proofs Interp_Spec.
Import ListNotations.
Open Scope Z_scope.
Open Scope list_scope.

Section Log.
  Variable H : host.
  Variables (cmds : list fundef) (limit : Z).
  Notation ctx := (ctx H). Notation state := (state H).

  Definition enter_ok (e : event H) : Prop := match e with EvEnter _ d _ => d <= limit | _ => True end.
  Definition orelse {A} (a b : option A) : option A := match a with Some x => Some x | None => b end.
  Definition falses (l : list bool) : nat := List.length (filter negb l).

  Definition Re (c : ctx) (s : state) (c' : ctx) (s' : state) : Prop :=
    s_depth H s' = s_depth H s /\ c_emit H c' = c_emit H c /\ c_fails H c' = c_fails H c /\ c_ret H c' = c_ret H c /\
    exists l, s_log H s' = s_log H s ++ l /\ Forall (fun e => s_depth H s < ev_depth e) l /\ Forall enter_ok l.
  Definition Rs (c : ctx) (s : state) (c' : ctx) (s' : state) : Prop :=
    s_depth H s' = s_depth H s /\
    exists l, s_log H s' = s_log H s ++ l /\ Forall (fun e => s_depth H s <= ev_depth e) l /\ Forall enter_ok l /\
      c_emit H c' = orelse (last_opt (emits (s_depth H s) l)) (c_emit H c) /\
      List.length (c_fails H c') = (List.length (c_fails H c) + falses (asserts (s_depth H s) l))%nat.

  Lemma emits_app d (l m : list (event H)) : emits d (l ++ m) = emits d l ++ emits d m.
  Proof. unfold emits. apply flat_map_app. Qed.
  Lemma asserts_app d (l m : list (event H)) : asserts d (l ++ m) = asserts d l ++ asserts d m.
  Proof. unfold asserts. apply flat_map_app. Qed.
  Lemma falses_app a b : falses (a ++ b) = (falses a + falses b)%nat.
  Proof. unfold falses. rewrite filter_app, app_length. reflexivity. Qed.
  Lemma last_opt_app {A} (a b : list A) : last_opt (a ++ b) = orelse (last_opt b) (last_opt a).
  Proof.
    unfold last_opt. rewrite rev_app_distr. destruct (rev b); reflexivity.
  Qed.
  Lemma above_none d (l : list (event H)) : Forall (fun e => d < ev_depth e) l -> emits d l = [] /\ asserts d l = [].
  Proof.
    induction 1 as [|e l He Hl [IH1 IH2]]; [split; reflexivity|]. unfold emits, asserts in *. cbn.
    rewrite IH1, IH2. destruct e; cbn in *; split; auto; try (replace (d0 =? d) with false by (symmetry; apply Z.eqb_neq; lia); auto).
  Qed.
  Lemma Re_Rs c s c' s' : Re c s c' s' -> Rs c s c' s'.
  Proof.
    intros (Hd & He & Hf & Hr & l & Hl & Ha & Hk). split; auto. exists l. destruct (above_none _ _ Ha) as [E1 E2].
    split; [exact Hl|]. split; [eapply Forall_impl; [|exact Ha]; cbn; intros; lia|]. split; [exact Hk|].
    rewrite E1, E2. cbn. split; [exact He|]. rewrite Hf. lia.
  Qed.
  Lemma Re_refl c s : Re c s c s.
  Proof. repeat (split; auto). exists []. rewrite app_nil_r. auto. Qed.
  Lemma Re_trans c1 s1 c2 s2 c3 s3 : Re c1 s1 c2 s2 -> Re c2 s2 c3 s3 -> Re c1 s1 c3 s3.
  Proof.
    intros (D1 & E1 & F1 & G1 & l1 & L1 & A1 & K1) (D2 & E2 & F2 & G2 & l2 & L2 & A2 & K2).
    split; [congruence|]. split; [congruence|]. split; [congruence|]. split; [congruence|].
    exists (l1 ++ l2). rewrite L2, L1, app_assoc. split; auto. rewrite D1 in A2.
    split; apply Forall_app; auto.
  Qed.
  Lemma Rs_refl c s : Rs c s c s. Proof. apply Re_Rs, Re_refl. Qed.
  Lemma Rs_trans c1 s1 c2 s2 c3 s3 : Rs c1 s1 c2 s2 -> Rs c2 s2 c3 s3 -> Rs c1 s1 c3 s3.
  Proof.
    intros (D1 & l1 & L1 & A1 & K1 & E1 & F1) (D2 & l2 & L2 & A2 & K2 & E2 & F2).
    split; [congruence|]. exists (l1 ++ l2). rewrite L2, L1, app_assoc. split; auto. rewrite D1 in *.
    split; [apply Forall_app; auto|]. split; [apply Forall_app; auto|].
    rewrite emits_app, asserts_app, falses_app, last_opt_app, E2, E1, F2, F1.
    split; [|lia]. destruct (last_opt (emits (s_depth H s1) l2)); reflexivity.
  Qed.
  Lemma Re_same c s c' s' : s_depth H s' = s_depth H s -> s_log H s' = s_log H s ->
    c_emit H c' = c_emit H c -> c_fails H c' = c_fails H c -> c_ret H c' = c_ret H c -> Re c s c' s'.
  Proof. intros. repeat (split; auto). exists []. rewrite app_nil_r. auto. Qed.
  Lemma Rs_event c s c' e : enter_ok e -> ev_depth e = s_depth H s ->
    c_emit H c' = orelse (last_opt (emits (s_depth H s) [e])) (c_emit H c) ->
    List.length (c_fails H c') = (List.length (c_fails H c) + falses (asserts (s_depth H s) [e]))%nat ->
    Rs c s c' (with_event H e s).
  Proof.
    intros. split; [reflexivity|]. exists [e]. repeat (split; auto). constructor; auto. lia.
  Qed.

  Lemma log_closed : closed H cmds limit Re Rs.
  Proof.
    split.
    - split.
      + apply Re_refl.
      + apply Re_trans.
      + intros. apply Re_same; reflexivity.
      + intros. apply Re_same; reflexivity.
      + intros c s c' s' (D1 & E1 & F1 & G1 & l & L1 & A1 & K1). cbn in *.
        repeat (split; auto). exists l; auto.
    - split.
      + apply Rs_refl.
      + apply Rs_trans.
      + intros. apply Re_Rs, Re_same; reflexivity.
      + intros. apply Re_Rs, Re_same; reflexivity.
      + intros c s c' s' (D1 & l & L1 & A1 & K1 & E1 & F1). cbn in *.
        split; auto. exists l; auto.
    - split.
      + intros. apply Re_Rs, Re_same; reflexivity.
      + intros. apply Re_Rs, Re_same; reflexivity.
      + intros. apply Rs_event; cbn; auto; lia.
      + intros. apply Rs_event; cbn; rewrite ?Z.eqb_refl; cbn; auto; lia.
      + intros. apply Rs_event; cbn; rewrite ?Z.eqb_refl; cbn; auto.
        rewrite app_length. cbn. lia.
      + intros. apply Rs_event; cbn; rewrite ?Z.eqb_refl; cbn; auto; lia.
      + intros c s. split; [reflexivity|]. exists []. rewrite app_nil_r. repeat (split; auto).
    - apply Re_Rs.
    - intros c s c1 s1 Hd (D1 & E1 & F1 & G1 & l & L1 & A1 & K1). cbn in *.
      split; [cbn; lia|]. split; auto. split; auto. split; auto. exists l. split; auto. split; auto.
      eapply Forall_impl; [|exact A1]. cbn; intros; lia.
    - intros c s c1 s1 f ps cc s2 w Hd Hf (D1 & E1 & F1 & G1 & l & L1 & A1 & K1) (D2 & l2 & L2 & A2 & K2 & E2 & F2).
      cbn in *. split; [cbn; lia|]. split; auto. split; auto. split; auto.
      exists (l ++ EvEnter H (s_depth H s1) (f_name f) :: l2).
      split; [cbn; rewrite L2, L1; cbn; rewrite <- !app_assoc; reflexivity|].
      split; apply Forall_app; (split; [|constructor]); auto.
      + eapply Forall_impl; [|exact A1]. cbn; intros; lia.
      + cbn. lia.
      + eapply Forall_impl; [|exact A2]. cbn; intros; lia.
      + cbn. lia.
  Qed.

  Lemma native_blocks_inv bs : forall s ok s', native_blocks H bs s = (ok, s') ->
    s_depth H s' = s_depth H s /\ s_log H s' = s_log H s.
  Proof.
    induction bs as [|b bs IH]; cbn; intros s ok s' E; [inversion E; auto|].
    destruct (h_native_block H b (s_world H s)) as [o w]. destruct o.
    - destruct (IH _ _ _ E) as [E1 E2]. rewrite E1, E2. cbn. auto.
    - inversion E; auto.
  Qed.
End Log.

Section Execute.
  Variable H : host.
  Lemma execute_inv limit fuel m cmd given s o s' :
    execute H limit fuel m cmd given s = (o, s') ->
    s_depth H s' = s_depth H s /\
    exists l, s_log H s' = s_log H s ++ l /\
      Forall (fun e => s_depth H s <= ev_depth e) l /\
      (s_depth H s <= limit -> Forall (enter_ok H limit) l) /\
      forall r, o = Returned H r ->
        (r_success H r = true <->
           r_error H r = None /\ emits (s_depth H s) l <> [] /\ falses (asserts (s_depth H s) l) = 0%nat) /\
        (r_success H r = true -> r_emit H r = last_opt (emits (s_depth H s) l)) /\
        List.length (r_fails H r) = falses (asserts (s_depth H s) l).
  Proof.
    unfold execute. destruct (native_blocks H (m_blocks m) s) as [ok s0] eqn:En.
    destruct (native_blocks_inv H _ _ _ _ En) as [D0 L0]. intros E.
    pose proof (log_closed H (m_funs m) limit) as CL.
    assert (Hfail : forall msg, (o, s') = (Returned H (failed H [] msg), s0) ->
      s_depth H s' = s_depth H s /\ exists l, s_log H s' = s_log H s ++ l /\
      Forall (fun e => s_depth H s <= ev_depth e) l /\ (s_depth H s <= limit -> Forall (enter_ok H limit) l) /\
      forall r, o = Returned H r ->
        (r_success H r = true <->
           r_error H r = None /\ emits (s_depth H s) l <> [] /\ falses (asserts (s_depth H s) l) = 0%nat) /\
        (r_success H r = true -> r_emit H r = last_opt (emits (s_depth H s) l)) /\
        List.length (r_fails H r) = falses (asserts (s_depth H s) l)).
    { intros msg E1. inversion E1; subst. split; auto. exists []. rewrite app_nil_r. split; [exact L0|]. split; [constructor|]. split; [constructor|].
      intros r Er. inversion Er; subst; cbn.
      split; [split; [discriminate|intros (? & _); discriminate]|]. split; [discriminate|reflexivity]. }
    destruct ok; cbn [negb] in E; [|eapply Hfail; symmetry; exact E].
    destruct (find_command (m_funs m) cmd) as [f|]; [|eapply Hfail; symmetry; exact E].
    clear Hfail.
    destruct (wrap_parameters H (eval H (m_funs m) limit fuel) (f_params f) given [] (create_context H []) s0)
      as [[x c1] s1] eqn:Ew.
    pose proof (wrap_inv H _ _ _ _ CL _ _ _ _ _ _ _ _ _ Ew) as (D1 & _ & _ & _ & l1 & L1 & A1 & K1).
    rewrite D0 in *.
    assert (Hesc : forall o2, (o, s') = (o2, s1) -> (forall r, o2 <> Returned H r) ->
      s_depth H s' = s_depth H s /\ exists l, s_log H s' = s_log H s ++ l /\
      Forall (fun e => s_depth H s <= ev_depth e) l /\ (s_depth H s <= limit -> Forall (enter_ok H limit) l) /\
      forall r, o = Returned H r ->
        (r_success H r = true <->
           r_error H r = None /\ emits (s_depth H s) l <> [] /\ falses (asserts (s_depth H s) l) = 0%nat) /\
        (r_success H r = true -> r_emit H r = last_opt (emits (s_depth H s) l)) /\
        List.length (r_fails H r) = falses (asserts (s_depth H s) l)).
    { intros o2 E1 Hn. inversion E1; subst. split; [congruence|]. exists l1. rewrite L1, L0. split; auto.
      split; [eapply Forall_impl; [|exact A1]; cbn; intros; lia|]. split; auto.
      intros r Er. exfalso. eapply Hn; eauto. }
    destruct x as [params|e|].
    2: { eapply Hesc; [symmetry; exact E|]. intros r; discriminate. }
    2: { eapply Hesc; [symmetry; exact E|]. intros r; discriminate. }
    clear Hesc.
    destruct (execute_command H (exec H (m_funs m) limit fuel) f (create_context H params) s1) as [[y c2] s2] eqn:Ec.
    pose proof (command_inv H _ _ _ _ CL _ _ _ _ _ _ _ Ec) as (D2 & l2 & L2 & A2 & K2 & E2 & F2).
    cbn in D2, L2, A2, E2, F2. rewrite D1 in *.
    set (l := l1 ++ EvEnter H (s_depth H s) (f_name f) :: l2).
    destruct (above_none H _ _ A1) as [X1 X2].
    assert (Y1 : emits (s_depth H s) l = emits (s_depth H s) l2) by (unfold l; rewrite emits_app, X1; reflexivity).
    assert (Y2 : asserts (s_depth H s) l = asserts (s_depth H s) l2) by (unfold l; rewrite asserts_app, X2; reflexivity).
    assert (Ll : s_log H s2 = s_log H s ++ l).
    { unfold l. rewrite L2, L1, L0, <- !app_assoc. reflexivity. }
    assert (Al : Forall (fun e => s_depth H s <= ev_depth e) l).
    { unfold l. apply Forall_app. split; [eapply Forall_impl; [|exact A1]; cbn; intros; lia|]. constructor; [cbn; lia|exact A2]. }
    assert (Kl : s_depth H s <= limit -> Forall (enter_ok H limit) l).
    { intros Hs. unfold l. apply Forall_app. split; auto. }
    assert (E2' : c_emit H c2 = last_opt (emits (s_depth H s) l2))
      by (rewrite E2; destruct (last_opt (emits (s_depth H s) l2)); reflexivity).
    assert (Emt : emits (s_depth H s) l2 = [] <-> c_emit H c2 = None).
    { rewrite E2'. split; [intros ->; reflexivity|]. unfold last_opt. intros Hx.
      destruct (rev (emits (s_depth H s) l2)) eqn:Er; [|discriminate].
      rewrite <- (rev_involutive (emits _ l2)), Er. reflexivity. }
    assert (Hs' : s_depth H s' = s_depth H s2 /\ s_log H s' = s_log H s2).
    { destruct y as [u|[why|why]|]; [|inversion E; auto..].
      destruct (apply_meta H f c2 (s_world H s2)) as [[q|q] w]; [|inversion E; auto].
      destruct (c_fails H c2); [destruct (c_emit H c2)|]; inversion E; auto. }
    destruct Hs' as [Hs1 Hs2]. split; [congruence|]. exists l. rewrite Hs2. split; [exact Ll|]. split; [exact Al|]. split; [exact Kl|].
    intros r Er. subst o. rewrite Y1, Y2.
    destruct y as [u|[why|why]|].
    - destruct (apply_meta H f c2 (s_world H s2)) as [[q|q] w]; [|inversion E].
      destruct (c_fails H c2) as [|z zs] eqn:Ef.
      + destruct (c_emit H c2) as [em|] eqn:Ee; inversion E; subst; cbn.
        * split; [|split; [intros _; exact E2'|cbn in F2; lia]].
          split; [intros _|auto]. split; auto. split; [|cbn in F2; lia]. intros Hn. apply Emt in Hn. discriminate.
        * split; [|split; [discriminate|cbn in F2; lia]].
          split; [discriminate|intros (Hq & _); discriminate].
      + inversion E; subst; cbn. cbn in F2.
        split; [|split; [discriminate|lia]]. split; [discriminate|]. intros (_ & _ & Hz). lia.
    - inversion E; subst; cbn. cbn in F2. split; [|split; [discriminate|lia]].
      split; [discriminate|intros (Hq & _); discriminate].
    - inversion E.
    - inversion E.
  Qed.
End Execute.
