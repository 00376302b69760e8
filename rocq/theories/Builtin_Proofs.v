(** Calls of built-ins on hosts with the real registry. *)
From Coq Require Import ZArith String List Bool Lia.
From Verif Require Import Dict Lex_Model Ast Types_Model Interp_Model Interp_Proofs Interp_Proofs3 Check_Model Builtin_Model.
Import ListNotations.
Open Scope Z_scope.
Open Scope list_scope.

Section Natives.
  Variable H : host.
  Definition same_natives (c : ctx H) (s : state H) (c' : ctx H) (s' : state H) : Prop := s_natives H s' = s_natives H s.
  Lemma natives_closed cmds limit : closed H cmds limit same_natives same_natives.
  Proof. split; try split; unfold same_natives; intros; cbn in *; congruence. Qed.
  Lemma natives_kept cmds limit fuel e c s r c' s' :
    eval H cmds limit fuel e c s = (r, c', s') -> s_natives H s' = s_natives H s.
  Proof. intros E. exact (proj1 (run_inv H cmds limit _ _ (natives_closed cmds limit) fuel) e _ _ _ _ _ E). Qed.
  Lemma natives_mapM cmds limit fuel es c s r c' s' :
    mapM H (eval H cmds limit fuel) es c s = (r, c', s') -> s_natives H s' = s_natives H s.
  Proof.
    intros E. refine (inv_mapM H same_natives _ _ es _ _ _ _ _ _ E); [apply natives_closed; auto|].
    intros a c1 s1 r1 c2 s2. apply natives_kept.
  Qed.

  (** A call of a name that is neither a native function nor a command is a call of the host. *)
  Lemma builtin_call cmds limit fuel n args named c s r c' s' :
    existsb (name_eqb n) (s_natives H s) = false -> find_command cmds n = None ->
    eval H cmds limit (S fuel) (ECall (EId n) args named) c s = (r, c', s') ->
    (exists e, r = Raise e) \/ r = NoFuel \/
    (exists vs s1 v, length vs = length args /\ h_builtin H n vs (s_world H s1) = (inl v, s_world H s') /\ r = Ok v).
  Proof.
    intros N F E. cbn [eval eval_body] in E. unfold call, bind in E.
    destruct (mapM H (eval H cmds limit fuel) args c s) as [[x c1] s1] eqn:Em. pose proof (natives_mapM _ _ _ _ _ _ _ _ _ Em) as K.
    destruct x as [vs|e|]; [|left; inversion E; eauto|right; left; inversion E; auto].
    rewrite K, N, F in E. unfold liftw in E. destruct (h_builtin H n vs (s_world H s1)) as [[v|e] w] eqn:Eb; inversion E; subst; [|left; eauto].
    right. right. exists vs, s1, v. split; [|split; auto].
    match type of Em with _ = (Ok vs, ?cc, ?ss) => revert Em; generalize cc, ss end. clear. revert vs c s. induction args as [|a args IH]; intros vs c s c1 s1 Em; cbn in Em; [inversion Em; auto|].
    unfold bind in Em. destruct (eval H cmds limit fuel a c s) as [[[]c2] s2]; try discriminate.
    destruct (mapM H (eval H cmds limit fuel) args c2 s2) as [[[bs| |]c3] s3] eqn:E3; try discriminate. inversion Em; subst. cbn. f_equal. eapply IH; eauto.
  Qed.
End Natives.
