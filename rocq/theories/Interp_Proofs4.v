(** Termination: enough fuel for every program. *)
From Coq Require Import ZArith String List Bool Lia.
From Verif Require Import Dict Lex_Model Ast Types_Model Interp_Model Interp_Proofs Interp_Spec.
Import ListNotations.
Open Scope Z_scope.
Open Scope list_scope.

Lemma lmax_cons a l : list_max (a :: l) = Nat.max a (list_max l). Proof. reflexivity. Qed.
Lemma list_max_in l : forall n, In n l -> (n <= list_max l)%nat.
Proof.
  induction l; intros n Hn; [contradiction|]. rewrite lmax_cons. destruct Hn as [->|Hn]; [lia|]. apply IHl in Hn. lia.
Qed.
Local Opaque list_max.
Lemma list_max_map {A} (f : A -> nat) l a : In a l -> (f a <= list_max (map f l))%nat.
Proof. intros. apply list_max_in, in_map, H. Qed.

Section Term.
  Variable H : host.
  Variables (cmds : list fundef) (limit : Z).
  Hypothesis Hdef : plain_defaults cmds.
  Notation D := (data (hF H) (hO H)).
  Notation V := (rval (hF H) (hO H)).
  Notation ctx := (ctx H). Notation M := (M H).
  Notation K := (cdepth cmds).
  Notation G := (2 * K + 3)%nat.
  Definition L (d : Z) : nat := Z.to_nat (limit - d).

  Definition nf {A} (d : Z) (m : M A) : Prop :=
    forall c s r c' s', s_depth H s = d -> m c s = (r, c', s') -> r <> NoFuel /\ s_depth H s' = d.
  Lemma nf_bind {A B} d (m : M A) (k : A -> M B) : nf d m -> (forall a, nf d (k a)) -> nf d (bind H m k).
  Proof.
    intros Hm Hk c s r c' s' Hs E. unfold bind in E. destruct (m c s) as [[x c1] s1] eqn:Em.
    destruct (Hm _ _ _ _ _ Hs Em) as [H1 H2]. destruct x.
    - eapply Hk; eauto.
    - inversion E; subst; split; auto; discriminate.
    - congruence.
  Qed.
  Lemma nf_bind_post {A B} (P : A -> Prop) d (m : M A) (k : A -> M B) : nf d m ->
    (forall c s a c' s', m c s = (Ok a, c', s') -> P a) -> (forall a, P a -> nf d (k a)) -> nf d (bind H m k).
  Proof.
    intros Hm HP Hk c s r c' s' Hs E. unfold bind in E. destruct (m c s) as [[x c1] s1] eqn:Em.
    destruct (Hm _ _ _ _ _ Hs Em) as [H1 H2]. destruct x.
    - eapply Hk; eauto.
    - inversion E; subst; split; auto; discriminate.
    - congruence.
  Qed.
  Lemma mapM_length {A B} (f : A -> M B) l : forall c s a c' s', mapM H f l c s = (Ok a, c', s') ->
    List.length a = List.length l.
  Proof.
    induction l as [|x l IH]; cbn; intros c s a c' s' E; [inversion E; auto|].
    unfold bind in E. destruct (f x c s) as [[[y|y|] c1] s1]; [|inversion E..].
    destruct (mapM H f l c1 s1) as [[[ys|ys|] c2] s2] eqn:Em; [|inversion E..].
    inversion E; subst. cbn. f_equal. eapply IH; eauto.
  Qed.
  Ltac pp := intros c s r c' s' Hs E; inversion E; subst; split; [discriminate|auto].
  Lemma nf_ret {A} d (a : A) : nf d (ret H a). Proof. pp. Qed.
  Lemma nf_raise {A} d e : nf d (@raise H A e). Proof. pp. Qed.
  Lemma nf_rte {A} d e : nf d (@rte H A e). Proof. pp. Qed.
  Lemma of_host_nf {A} (x : try A) : of_host x <> NoFuel. Proof. destruct x; discriminate. Qed.
  Lemma nf_lift {A} d f : nf d (@lift H A f).
  Proof. intros c s r c' s' Hs E; inversion E; subst. split; [apply of_host_nf|auto]. Qed.
  Lemma nf_liftw {A} d f : nf d (@liftw H A f).
  Proof.
    intros c s r c' s' Hs E. unfold liftw in E. destruct (f (s_world H s)) as [a w]. inversion E; subst.
    split; [apply of_host_nf|auto].
  Qed.
  Lemma nf_event d f : nf d (emit_event H f). Proof. pp. Qed.
  Lemma nf_set d n v : nf d (set_variable H n v).
  Proof. intros c s r c' s' Hs E. unfold set_variable in E. destruct (c_scopes H c); inversion E; subst; split; auto; discriminate. Qed.
  Lemma nf_update d n v : nf d (update_variable H n v).
  Proof. intros c s r c' s' Hs E. unfold update_variable in E. destruct (update H n v (c_scopes H c)); inversion E; subst; split; auto; discriminate. Qed.
  Lemma nf_scope {A} d (m : M A) : nf d m -> nf d (new_scope H m).
  Proof.
    intros Hm c s r c' s' Hs E. unfold new_scope in E. destruct (m _ s) as [[x c1] s1] eqn:Em. inversion E; subst.
    eapply Hm; eauto.
  Qed.
  Lemma nf_semit d v md : nf d (set_emit H v md). Proof. pp. Qed.
  Lemma nf_sfail d m : nf d (add_require_failure H m). Proof. pp. Qed.
  Lemma nf_sret d : nf d (signal_return H). Proof. pp. Qed.
  Lemma nf_should d : nf d (should_return H). Proof. pp. Qed.
  Ltac nfs := repeat first
    [ match goal with |- forall _, nf _ _ => intro end
    | assumption
    | match goal with
      | |- nf _ (ret _ _) => apply nf_ret
      | |- nf _ (raise _ _) => apply nf_raise
      | |- nf _ (rte _ _) => apply nf_rte
      | |- nf _ (lift _ _) => apply nf_lift
      | |- nf _ (liftw _ _) => apply nf_liftw
      | |- nf _ (emit_event _ _) => apply nf_event
      | |- nf _ (set_variable _ _ _) => apply nf_set
      | |- nf _ (update_variable _ _ _) => apply nf_update
      | |- nf _ (new_scope _ _) => apply nf_scope
      | |- nf _ (set_emit _ _ _) => apply nf_semit
      | |- nf _ (add_require_failure _ _) => apply nf_sfail
      | |- nf _ (signal_return _) => apply nf_sret
      | |- nf _ (should_return _) => apply nf_should
      | |- nf _ (bind _ _ _) => apply nf_bind; [|intros]
      | |- nf _ (if ?b then _ else _) => destruct b
      | |- nf _ (match ?x with _ => _ end) => destruct x
      | |- nf _ (py_int _ _) => unfold py_int
      | |- nf _ (py_float _ _) => unfold py_float
      | |- nf _ (py_bool _ _) => unfold py_bool
      | |- nf _ (py_str _ _) => unfold py_str
      | |- nf _ (int_val _ _) => unfold int_val
      | |- nf _ (float_val _ _) => unfold float_val
      | |- nf _ (truthy _ _) => unfold truthy
      | |- nf _ (nonempty _ _) => unfold nonempty
      | |- nf _ (py_eq _ _ _) => unfold py_eq
      | |- nf _ (py_cmp _ _ _ _) => unfold py_cmp
      | |- nf _ (py_index _ _ _) => unfold py_index; cbv zeta
      end ].
  Lemma nf_arith d op a b : nf d (py_arith H op a b). Proof. unfold py_arith. nfs. Qed.
  Lemma nf_truthy d v : nf d (truthy H v). Proof. nfs. Qed.
  Lemma nf_binop d op l r : nf d (binop H op l r).
  Proof. unfold binop. repeat first [apply nf_arith | progress nfs]. Qed.
  Lemma nf_unop d op v : nf d (unop H op v). Proof. unfold unop. nfs. Qed.
  Lemma nf_literal d v t : nf d (literal H v t). Proof. unfold literal. nfs. Qed.

  Definition OKe (n : nat) (d : Z) (e : expr) : Prop :=
    (no_keyword_calls e = true /\ (edepth e + L d * G <= n)%nat) \/ (edepth e + (K + 1) + L d * G <= n)%nat.
  Definition OKs (n : nat) (d : Z) (s : stmt) : Prop := (sdepth s + (K + 1) + L d * G <= n)%nat.

  (** The subexpressions that evaluating an expression evaluates. *)
  Definition children (e : expr) : list expr :=
    match e with
    | ELit _ _ | EId _ | ELambda _ _ => []
    | EBin l _ r => [l; r]
    | EUn _ e | EMember e _ => [e]
    | ECall _ args named => args ++ (match args with [] => map snd named | _ => [] end)
    | EMethod o _ args _ => o :: args
    | EIndex o i => [o; i]
    | EList l => l
    | EComp e cls => e :: flat_map (fun cl => snd (fst cl) :: snd cl) cls
    | ERange a b => [a; b]
    | ECond c t f => [c; t; f]
    | EIf c _ _ _ => [c]
    | EMatch e arms => e :: map snd arms
    | EDict l => map snd l
    end.
  Lemma child_depth e e' : In e' (children e) -> (S (edepth e') <= edepth e)%nat.
  Proof.
    destruct e; cbn [children]; intros Hi; cbn [edepth]; apply le_n_S; try contradiction; cbn in Hi.
    all: try (repeat destruct Hi as [Hi|Hi]; subst; try contradiction; lia).
    - apply in_app_or in Hi. destruct Hi as [Hi|Hi].
      + pose proof (list_max_map edepth _ _ Hi). lia.
      + destruct args; [|contradiction]. apply in_map_iff in Hi as (x & <- & Hx).
        pose proof (list_max_map (fun ne => edepth (snd ne)) _ _ Hx). cbn in *. lia.
    - destruct Hi as [->|Hi]; [lia|]. pose proof (list_max_map edepth _ _ Hi). lia.
    - exact (list_max_map edepth _ _ Hi).
    - destruct Hi as [->|Hi]; [lia|]. apply in_flat_map in Hi as (cl & Hc & Hi).
      pose proof (list_max_map (fun cl => Nat.max (edepth (snd (fst cl))) (list_max (map edepth (snd cl)))) _ _ Hc). cbn in H0.
      destruct Hi as [<-|Hi]; [lia|]. pose proof (list_max_map edepth _ _ Hi). lia.
    - destruct Hi as [->|Hi]; [lia|]. apply in_map_iff in Hi as (x & <- & Hx).
      pose proof (list_max_map (fun ne => edepth (snd ne)) _ _ Hx). cbn in *. lia.
    - apply in_map_iff in Hi as (x & <- & Hx).
      exact (list_max_map (fun ne => edepth (snd ne)) _ _ Hx).
  Qed.
  Lemma child_kw e e' : In e' (children e) -> no_keyword_calls e = true -> no_keyword_calls e' = true.
  Proof.
    destruct e; cbn [children]; intros Hi; cbn [no_keyword_calls]; rewrite ?andb_true_iff; intros Hk; try contradiction; cbn in Hi.
    all: try (repeat destruct Hi as [Hi|Hi]; subst; try contradiction; tauto).
    - destruct Hk as [Hk Ha]. apply in_app_or in Hi. destruct Hi as [Hi|Hi].
      + rewrite forallb_forall in Ha. auto.
      + destruct args; [|contradiction]. destruct named; [contradiction|discriminate].
    - destruct Hk as [Hk Ha]. destruct Hi as [->|Hi]; auto. rewrite forallb_forall in Ha. auto.
    - rewrite forallb_forall in Hk. auto.
    - destruct Hk as [Hk Ha]. destruct Hi as [->|Hi]; auto. rewrite forallb_forall in Ha.
      apply in_flat_map in Hi as (cl & Hc & Hi). specialize (Ha _ Hc). apply andb_true_iff in Ha as [Ha1 Ha2].
      destruct Hi as [<-|Hi]; auto. rewrite forallb_forall in Ha2. auto.
    - destruct Hk as [Hk Ha]. destruct Hi as [->|Hi]; auto. rewrite forallb_forall in Ha.
      apply in_map_iff in Hi as (x & <- & Hx). apply (Ha x); auto.
    - rewrite forallb_forall in Hk. apply in_map_iff in Hi as (x & <- & Hx). apply (Hk x); auto.
  Qed.
  Lemma OKe_child n d e e' : OKe (S n) d e -> In e' (children e) -> OKe n d e'.
  Proof.
    intros [[Hk Hn]|Hn] Hi; [left; split; [eapply child_kw; eauto|]|right]; apply child_depth in Hi; lia.
  Qed.

  Section Open.
    Variables (n : nat) (ev : expr -> M V) (ex : stmt -> M unit).
    Hypothesis Hev : forall d e, OKe n d e -> nf d (ev e).
    Hypothesis Hex : forall d s, OKs n d s -> nf d (ex s).
    Lemma nf_mapM d es : (forall e, In e es -> OKe n d e) -> nf d (mapM H ev es).
    Proof. induction es as [|e es IH]; cbn; intros He; nfs; [apply Hev|apply IH]; auto. Qed.
    Lemma nf_conditions d es : (forall e, In e es -> OKe n d e) -> nf d (conditions H ev es).
    Proof. induction es as [|e es IH]; cbn; intros He; nfs; [apply Hev|apply IH..]; auto. Qed.
    Lemma nf_meta d l : (forall e, In e (map snd l) -> OKe n d e) -> forall acc, nf d (eval_meta H ev l acc).
    Proof. induction l as [|[k e] l IH]; cbn; intros He acc; nfs; [apply Hev|apply IH]; auto. Qed.
    Lemma nf_dict d l : (forall e, In e (map snd l) -> OKe n d e) -> forall acc, nf d (dict_entries H ev l acc).
    Proof. induction l as [|[k e] l IH]; cbn; intros He acc; nfs; [apply Hev|apply IH]; auto. Qed.
    Lemma default_depth f p e : In f cmds -> In p (f_params f) -> p_default p = Some e -> (edepth e <= K)%nat.
    Proof.
      intros Hf Hp He. unfold cdepth.
      pose proof (list_max_map (fun f => Nat.max (bdepth (f_body f)) (list_max (map (fun p => odepth (p_default p)) (f_params f)))) _ _ Hf) as H1.
      pose proof (list_max_map (fun p => odepth (p_default p)) _ _ Hp) as H2. cbn in *. rewrite He in H2. cbn in H2. lia.
    Qed.
    Lemma body_depth f s : In f cmds -> In s (b_stmts (f_body f)) -> (sdepth s <= K)%nat.
    Proof.
      intros Hf Hs. unfold cdepth.
      pose proof (list_max_map (fun f => Nat.max (bdepth (f_body f)) (list_max (map (fun p => odepth (p_default p)) (f_params f)))) _ _ Hf) as H1.
      cbn in H1. destruct (f_body f) as [ss fin]. cbn in Hs, H1.
      pose proof (list_max_map sdepth _ _ Hs) as H2. lia.
    Qed.
    Lemma nf_fill d f : In f cmds -> (K + (K + 1) + L d * G <= n)%nat ->
      forall ps acc, incl ps (f_params f) -> nf d (fill_defaults H ev ps acc).
    Proof.
      intros Hf Hn. induction ps as [|p ps IH]; intros acc Hi; cbn; [nfs|].
      destruct (p_default p) eqn:Ep.
      - apply nf_bind; [|intros; apply IH; intros x Hx; apply Hi; right; auto].
        apply Hev. right. assert (edepth e <= K)%nat; [|lia]. eapply default_depth; eauto. apply Hi; left; auto.
      - apply IH. intros x Hx; apply Hi; right; auto.
    Qed.
    Lemma nf_stmts d ss : (forall s, In s ss -> OKs n d s) -> nf d (stmts H ex ss).
    Proof. induction ss as [|s ss IH]; cbn; intros Hs; nfs; [apply Hex|apply IH]; auto. Qed.
    Lemma nf_call_command d f args : In f cmds -> (1 + L d * G <= S n)%nat -> nf d (call_command H limit ev ex f args).
    Proof.
      intros Hf Hn c s r c' s' Hs E. unfold call_command in E.
      destruct (limit <? s_depth H (add_depth H 1 s)) eqn:El.
      - inversion E; subst. split; [discriminate|]. cbn. lia.
      - apply Z.ltb_ge in El. cbn in El. rewrite Hs in El.
        assert (HL : L d = S (L (d + 1))) by (unfold L; lia). rewrite HL in Hn.
        assert (Hd1 : s_depth H (add_depth H 1 s) = d + 1) by (cbn; lia).
        destruct ((_ <? _)%nat || (_ <? _)%nat).
        + cbn in E. inversion E; subst. split; [discriminate|]. cbn. lia.
        + unfold bind in E. destruct (fill_defaults H ev _ _ c (add_depth H 1 s)) as [[x c1] s1] eqn:Ef.
          assert (Hfl := Ef).
          apply (nf_fill (d + 1) f Hf) in Hfl; [|lia| intros y Hy; rewrite <- (firstn_skipn (List.length args) (f_params f)); apply in_or_app; auto|exact Hd1].
          destruct Hfl as [Hx1 Hx2]. destruct x as [ps|e|]; [| |congruence].
          * destruct (execute_command H ex f (create_context H ps) s1) as [[y cc] s2] eqn:Ec.
            assert (Hec : y <> NoFuel /\ s_depth H s2 = d + 1).
            { unfold execute_command in Ec. refine (nf_bind (d+1) _ _ _ _ _ _ _ _ _ Hx2 Ec); [apply nf_event|]. intros _.
              apply nf_stmts. intros st Hst. pose proof (body_depth _ _ Hf Hst). unfold OKs. lia. }
            destruct Hec as [Hy1 Hy2].
            destruct y as [u|e|]; [| |congruence].
            -- destruct (apply_meta H f cc (s_world H s2)) as [q w].
               destruct q; [destruct (c_emit H cc) as [[v md]|]|]; inversion E; subst; cbn; (split; [discriminate|lia]).
            -- inversion E; subst; cbn; (split; [discriminate|lia]).
          * inversion E; subst; cbn; (split; [discriminate|lia]).
    Qed.
    Lemma nf_named d f named : In f cmds -> (K + L d * G <= n)%nat -> (forall e, In e (map snd named) -> OKe n d e) ->
      forall ps, incl ps (f_params f) -> nf d (named_args H ev ps named).
    Proof.
      intros Hf Hn Hm. induction ps as [|p ps IH]; intros Hi; cbn; [nfs|].
      apply nf_bind; [|intros; apply nf_bind; [apply IH; intros x Hx; apply Hi; right; auto|nfs]].
      destruct (dget name_eqb (p_name p) named) eqn:Eg.
      - apply Hev, Hm. clear -Eg. induction named as [|[k w] l IH]; cbn in *; [discriminate|].
        destruct (name_eqb (p_name p) k); [inversion Eg; auto|auto].
      - destruct (p_default p) eqn:Ep; [|nfs]. apply Hev. left.
        assert (In p (f_params f)) by (apply Hi; left; auto).
        split; [eapply Hdef; eauto|]. pose proof (default_depth _ _ _ Hf H0 Ep). lia.
    Qed.
    Lemma nf_call d f args named : OKe (S n) d (ECall f args named) -> nf d (call H cmds limit ev ex f args named).
    Proof.
      intros Ho. unfold call. apply nf_bind_post with (P := fun vs => List.length vs = List.length args).
      { apply nf_mapM. intros e He. eapply OKe_child; eauto. cbn. apply in_or_app; auto. }
      { apply mapM_length. }
      intros vs Hvs. destruct f; try (nfs; fail).
      assert (Hn : (1 + L d * G <= S n)%nat) by (destruct Ho as [[_ Ho]|Ho]; cbn [edepth] in Ho; lia).
      destruct args as [|a args].
      - destruct named as [|nm named].
        + intros c s r c' s' Hs E. destruct (existsb _ _); [eapply nf_liftw; eauto|].
          destruct (find_command cmds n0) as [f|] eqn:Ef; [|eapply nf_liftw; eauto].
          eapply nf_call_command; eauto. apply find_some in Ef; tauto.
        + destruct Ho as [[Hk _]|Ho]; [cbn in Hk; discriminate|].
          intros c s r c' s' Hs E. destruct (existsb _ _); [eapply nf_liftw; eauto|].
          destruct (find_command cmds n0) as [f|] eqn:Ef; [|eapply nf_liftw; eauto].
          assert (Hf : In f cmds) by (apply find_some in Ef; tauto).
          destruct vs; [|eapply nf_call_command; eauto].
          eapply nf_bind; [| |exact Hs|exact E]; [|intros; eapply nf_call_command; eauto].
          eapply nf_named; eauto; [cbn [edepth] in Ho; lia| |apply incl_refl].
          intros e He. eapply OKe_child; [right; exact Ho|]. exact He.
      - intros c s r c' s' Hs E. destruct (existsb _ _); [eapply nf_liftw; eauto|].
        destruct (find_command cmds n0) as [f|] eqn:Ef; [|eapply nf_liftw; eauto].
        assert (Hf : In f cmds) by (apply find_some in Ef; tauto).
        destruct named as [|nm named]; [eapply nf_call_command; eauto|].
        destruct vs as [|v vs]; [|eapply nf_call_command; eauto].
        discriminate Hvs.
    Qed.
    Lemma nf_clauses d e : OKe n d e -> forall cls acc,
      (forall e', In e' (flat_map (fun cl => snd (fst cl) :: snd cl) cls) -> OKe n d e') -> nf d (clauses H ev cls e acc).
    Proof.
      intros He. induction cls as [|[[x it] cs] cls IH]; intros acc Hc; cbn [clauses].
      - nfs. apply Hev; auto.
      - cbn in Hc. apply nf_bind; [apply Hev; auto|]. intros v. apply nf_bind; [nfs|]. intros o. destruct o as [items|]; [|nfs].
        revert acc. induction items as [|i items IHi]; intros acc; [nfs|].
        destruct (too_big H acc); [nfs|]. apply nf_bind; [nfs|]. intros _.
        apply nf_bind; [apply nf_conditions; intros e' He'; apply Hc; right; apply in_or_app; auto|].
        intros b. destruct b; [|apply IHi].
        apply nf_bind; [apply IH; intros e' He'; apply Hc; right; apply in_or_app; auto|]. intros. apply IHi.
    Qed.
    Lemma nf_arms d v l : (forall e, In e (map snd l) -> OKe n d e) -> nf d (match_arms H ev v l).
    Proof.
      induction l as [|[p e] l IH]; cbn; intros He; [nfs|]. apply nf_bind; [unfold pattern_matches; nfs|].
      intros b. destruct b; [apply Hev|apply IH]; auto.
    Qed.
    Lemma nf_eval_body d e : OKe (S n) d e -> nf d (eval_body H cmds limit ev ex e).
    Proof.
      intros Ho. pose proof (fun e' => OKe_child n d e e' Ho) as Hc.
      destruct e; simpl eval_body; cbn [children] in Hc.
      - apply nf_literal.
      - intros c s r c' s' Hs E. destruct (lookup H n0 (c_scopes H c)); inversion E; subst; split; auto; discriminate.
      - apply nf_bind; [apply Hev, Hc; cbn; auto|]. intros. apply nf_bind; [apply Hev, Hc; cbn; auto|]. intros. apply nf_binop.
      - apply nf_bind; [apply Hev, Hc; cbn; auto|]. intros. apply nf_unop.
      - apply nf_call; auto.
      - apply nf_bind; [apply Hev, Hc; cbn; auto|]. intros. apply nf_bind; [apply nf_mapM; intros; apply Hc; cbn; auto|]. nfs.
      - apply nf_bind; [apply Hev, Hc; cbn; auto|]. nfs.
      - apply nf_bind; [apply Hev, Hc; cbn; auto|]. intros. apply nf_bind; [apply Hev, Hc; cbn; auto|]. nfs.
      - destruct l; [nfs|]. apply nf_bind; [apply nf_mapM; intros; apply Hc; cbn; auto|]. nfs.
      - unfold comprehension. destruct (_ <? _)%nat; [nfs|]. apply nf_bind; [|nfs].
        apply nf_scope, nf_clauses; [apply Hc; left; auto|]. intros; apply Hc; right; auto.
      - apply nf_bind; [apply Hev, Hc; cbn; auto|]. intros. apply nf_bind; [apply Hev, Hc; cbn; auto|]. nfs.
      - apply nf_bind; [apply Hev, Hc; cbn; auto|]. intros. apply nf_bind; [nfs|]. intros b. destruct b; apply Hev, Hc; cbn; auto.
      - apply nf_bind; [apply Hev, Hc; cbn; auto|]. nfs.
      - apply nf_bind; [apply Hev, Hc; cbn; auto|]. intros. apply nf_arms. intros; apply Hc; right; auto.
      - nfs.
      - apply nf_bind; [apply nf_dict; auto|]. nfs.
    Qed.
    Lemma OKe_of d e k : (edepth e <= k)%nat -> (S k + (K + 1) + L d * G <= S n)%nat -> OKe n d e.
    Proof. right. lia. Qed.
    Lemma nf_for d x t body items : (forall s, In s body -> OKs n d s) -> nf d (for_items H ex x t body items).
    Proof.
      intros Hs. induction items; cbn; [nfs|]. apply nf_bind; [nfs|]. intros _. apply nf_bind; [apply nf_stmts; auto|]. intros _.
      apply nf_bind; [nfs|]. intros b. destruct b; [nfs|auto].
    Qed.
    Lemma nf_block d b : (S (bdepth b) + (K + 1) + L d * G <= S n)%nat -> nf d (new_scope H (stmts H ex (b_stmts b))).
    Proof.
      intros Hb. apply nf_scope, nf_stmts. destruct b as [ss fin]. cbn in *. intros s Hs.
      pose proof (list_max_map sdepth _ _ Hs). unfold OKs. lia.
    Qed.
    Lemma nf_elifs d els l :
      (match els with Some b => S (bdepth b) + (K + 1) + L d * G <= S n | None => True end)%nat ->
      (S (list_max (map (fun eb => Nat.max (edepth (fst eb)) (bdepth (snd eb))) l)) + (K + 1) + L d * G <= S n)%nat ->
      nf d (exec_elifs H ev ex l els).
    Proof.
      intros He. induction l as [|[c b] l IH]; cbn; rewrite ?lmax_cons; intros Hl.
      - destruct els; [apply nf_block; auto|nfs].
      - apply nf_bind; [apply Hev; right; lia|]. intros v. apply nf_bind; [nfs|]. intros t.
        destruct t; [apply nf_block; lia|]. apply IH. lia.
    Qed.
    Lemma nf_exec_body d s : OKs (S n) d s -> nf d (exec_body H ev ex s).
    Proof.
      unfold OKs. destruct s; simpl exec_body; cbn [sdepth]; intros Ho.
      - destruct init; [|nfs]. cbn in Ho. apply nf_bind; [apply Hev; right; lia|]. nfs.
      - apply nf_bind; [apply Hev; right; lia|]. nfs.
      - apply nf_bind; [apply Hev; right; lia|]. nfs.
      - apply nf_bind; [apply Hev; right; lia|]. intros w.
        apply nf_bind; [|nfs]. apply nf_meta. intros e He. apply in_map_iff in He as (x & <- & Hx).
        pose proof (list_max_map (fun ne => edepth (snd ne)) _ _ Hx). cbn in *. right. lia.
      - destruct v; [|nfs]. cbn in Ho. apply nf_bind; [apply Hev; right; lia|]. nfs.
      - nfs.
      - unfold exec_for. apply nf_bind; [apply Hev; right; lia|]. intros v. apply nf_bind; [nfs|]. intros o.
        destruct o; [|nfs]. apply nf_scope, nf_for. destruct b as [ss fin]. cbn in Ho |- *. intros s Hs.
        pose proof (list_max_map sdepth _ _ Hs). unfold OKs. lia.
      - nfs.
      - apply nf_bind; [apply Hev; right; lia|]. intros v. apply nf_bind; [nfs|]. intros b. destruct b.
        + apply nf_block. lia.
        + apply nf_elifs; [destruct els; [lia|auto]|lia].
      - apply nf_bind; [apply Hev; right; lia|]. nfs.
      - apply nf_bind; [|nfs]. intros c s r c' s' Hs E.
        destruct (h_python H lexemes (namespace H (c_scopes H c)) (s_world H s)). inversion E; subst. split; [discriminate|reflexivity].
    Qed.
  End Open.
  Lemma nf_run n : (forall d e, OKe n d e -> nf d (eval H cmds limit n e)) /\ (forall d s, OKs n d s -> nf d (exec H cmds limit n s)).
  Proof.
    induction n as [|n [IHe IHs]]; split; intros d x Ho.
    - exfalso. destruct x; destruct Ho as [[_ Ho]|Ho]; cbn [edepth] in Ho; lia.
    - exfalso. unfold OKs in Ho. destruct x; cbn [sdepth] in Ho; lia.
    - apply (nf_eval_body n); auto.
    - apply (nf_exec_body n); auto.
  Qed.
End Term.

(** The bound: nesting depth of the program times the number of calls that fit under the limit. *)
Definition enough (cmds : list fundef) (limit depth : Z) : nat :=
  (2 * cdepth cmds + 3) * S (Z.to_nat (limit - depth)).
Lemma execute_no_fuel H limit fuel m cmd given s o s' :
  plain_defaults (m_funs m) -> (enough (m_funs m) limit (s_depth H s) <= fuel)%nat ->
  execute H limit fuel m cmd given s = (o, s') -> o <> OutOfFuel H.
Proof.
  intros Hd Hf E. unfold enough in Hf. unfold execute in E.
  assert (Dn : forall ok s0, native_blocks H (m_blocks m) s = (ok, s0) -> s_depth H s0 = s_depth H s).
  { clear. revert s. induction (m_blocks m) as [|b bs IH]; cbn; intros s ok s0 E; [inversion E; auto|].
    destruct (h_native_block H b (s_world H s)) as [[] w]; [apply IH in E; auto|inversion E; auto]. }
  destruct (native_blocks H (m_blocks m) s) as [ok s0] eqn:En. specialize (Dn _ _ eq_refl).
  destruct ok; cbn [negb] in E; [|inversion E; discriminate].
  destruct (find_command (m_funs m) cmd) as [f|] eqn:Efc; [|inversion E; discriminate].
  assert (Hfc : In f (m_funs m)) by (apply find_some in Efc; tauto).
  set (d := s_depth H s) in *. set (cmds := m_funs m) in *.
  destruct (nf_run H cmds limit Hd fuel) as [Ne Ns].
  assert (Hw : forall ps acc, incl ps (f_params f) ->
    nf H d (wrap_parameters H (eval H cmds limit fuel) ps given acc)).
  { induction ps as [|p ps IH]; intros acc Hi; cbn; [apply nf_ret|].
    destruct (dget name_eqb (p_name p) given); [apply IH; intros x Hx; apply Hi; right; auto|].
    destruct (p_default p) eqn:Ep; [|apply IH; intros x Hx; apply Hi; right; auto].
    apply nf_bind; [|intros; apply IH; intros x Hx; apply Hi; right; auto]. apply Ne. right.
    assert (edepth e <= cdepth cmds)%nat by (eapply default_depth; eauto; apply Hi; left; auto). unfold L. lia. }
  destruct (wrap_parameters H (eval H cmds limit fuel) (f_params f) given [] (create_context H []) s0) as [[x c1] s1] eqn:Ew.
  destruct (Hw _ _ (incl_refl _) _ _ _ _ _ Dn Ew) as [X1 X2].
  destruct x as [ps|e|]; [|inversion E; discriminate|congruence].
  destruct (execute_command H (exec H cmds limit fuel) f (create_context H ps) s1) as [[y c2] s2] eqn:Ec.
  assert (Hy : y <> NoFuel).
  { unfold execute_command in Ec. refine (proj1 (nf_bind H d _ _ _ _ _ _ _ _ _ X2 Ec)); [apply nf_event|]. intros _.
    apply (nf_stmts H cmds limit fuel); [exact Ns|]. intros st Hst.
    pose proof (body_depth cmds _ _ Hfc Hst). unfold OKs, L. lia. }
  destruct y as [u|[why|why]|]; [|inversion E; discriminate..|congruence].
  destruct (apply_meta H f c2 (s_world H s2)) as [[q|q] w]; [|inversion E; discriminate].
  destruct (c_fails H c2); [destruct (c_emit H c2)|]; inversion E; discriminate.
Qed.
