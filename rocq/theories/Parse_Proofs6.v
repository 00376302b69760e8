(** More recursion fuel never changes a result. *)
From Coq Require Import ZArith String List Bool Lia.
From Verif Require Import Dict Lex_Model Ast Parse_Model Parse_Spec Parse_Proofs Parse_Proofs2.
Import ListNotations.
Open Scope Z_scope.
Open Scope list_scope.

Definition le {A} (x y : pres A) : Prop := x = PFuel \/ x = y.
Lemma le_refl {A} (x : pres A) : le x x. Proof. right; reflexivity. Qed.
Lemma le_bind {A B} (x y : pres A) (f g : A -> list token -> pres B) :
  le x y -> (forall a r, le (f a r) (g a r)) -> le (bind x f) (bind y g).
Proof. intros [-> | ->] H; [left; reflexivity|]. destruct y; simpl; auto; apply le_refl. Qed.
Lemma le_while {S} (f g : S -> parser (S * bool)) s ts : (forall s ts, le (f s ts) (g s ts)) ->
  le (while f s ts) (while g s ts).
Proof.
  intros H. unfold while. generalize (Datatypes.S (length ts)) as n. intros n. revert s ts.
  induction n as [|n IH]; intros s ts; [left; reflexivity|]. simpl. destruct (H s ts) as [E|E]; rewrite E; [left; reflexivity|].
  destruct (g s ts) as [[s' []] r| | |]; auto; apply le_refl.
Qed.
Lemma le_comma {A} st (p q : parser A) acc ts : (forall ts, le (p ts) (q ts)) ->
  le (comma_list st p acc ts) (comma_list st q acc ts).
Proof.
  intros H. apply le_while. intros. cbv zeta. destruct (check COMMA _); [|apply le_refl].
  destruct (match st with Some ty => _ | None => _ end); [apply le_refl|].
  apply le_bind; auto. intros. apply le_refl.
Qed.

Record leR (R S : rec) : Prop := LeR {
  l_ty : forall ts, le (r_type R ts) (r_type S ts);
  l_un : forall ts, le (r_un R ts) (r_un S ts);
  l_bin : forall m ts, le (r_bin R m ts) (r_bin S m ts);
  l_cond : forall ts, le (r_cond R ts) (r_cond S ts);
  l_stmt : forall ts, le (r_stmt R ts) (r_stmt S ts);
  l_blk : forall ts, le (r_block R ts) (r_block S ts) }.

Section Mono.
  Variables R S : rec.
  Hypothesis H : leR R S.
  Lemma m_expr ts : le (r_expr R ts) (r_expr S ts). Proof. apply (l_cond _ _ H). Qed.
  Lemma m_dexpr ts : le (d_expr R ts) (d_expr S ts). Proof. apply (l_cond _ _ H). Qed.
  Hint Resolve m_expr m_dexpr : mono.
  Ltac mono1 := intros; lazymatch goal with
    | |- le ?x ?x => apply le_refl
    | |- le (r_type R _) _ => apply (l_ty _ _ H)
    | |- le (r_un R _) _ => apply (l_un _ _ H)
    | |- le (r_bin R _ _) _ => apply (l_bin _ _ H)
    | |- le (r_cond R _) _ => apply (l_cond _ _ H)
    | |- le (r_stmt R _) _ => apply (l_stmt _ _ H)
    | |- le (r_block R _) _ => apply (l_blk _ _ H)
    | |- le (bind _ _) _ => apply le_bind
    | |- le (comma_list _ _ _ _) _ => apply le_comma
    | |- le (while _ _ _) _ => apply le_while
    | |- le (match ?x with _ => _ end) _ => destruct x
    | |- _ => solve [auto 1 with mono nocore] end.
  Ltac mono := cbv zeta; repeat mono1.
  Ltac m f := intros; unfold f; mono.
  Lemma m_targs c ts : le (type_args R c ts) (type_args S c ts). Proof. m type_args. Qed. Hint Resolve m_targs : mono.
  Lemma m_ty ts : le (parse_type R ts) (parse_type S ts). Proof. m parse_type. Qed.
  Lemma m_arg a ts : le (parse_argument R a ts) (parse_argument S a ts). Proof. m parse_argument. Qed. Hint Resolve m_arg : mono.
  Lemma m_args ts : le (parse_arguments R ts) (parse_arguments S ts). Proof. m parse_arguments. Qed. Hint Resolve m_args : mono.
  Lemma m_gr ts : le (parse_grouped R ts) (parse_grouped S ts). Proof. m parse_grouped. Qed. Hint Resolve m_gr : mono.
  Lemma m_gl ts : le (parse_grouped_or_lambda R ts) (parse_grouped_or_lambda S ts). Proof. m parse_grouped_or_lambda. Qed. Hint Resolve m_gl : mono.
  Lemma m_cds ts : le (parse_conditions R ts) (parse_conditions S ts). Proof. m parse_conditions. Qed. Hint Resolve m_cds : mono.
  Lemma m_cl ts : le (parse_clause R ts) (parse_clause S ts). Proof. m parse_clause. Qed. Hint Resolve m_cl : mono.
  Lemma m_ll ts : le (parse_list_literal R ts) (parse_list_literal S ts). Proof. m parse_list_literal. Qed. Hint Resolve m_ll : mono.
  Lemma m_en d ts : le (parse_entry R d ts) (parse_entry S d ts). Proof. m parse_entry. Qed. Hint Resolve m_en : mono.
  Lemma m_de ts : le (parse_dict_entries R ts) (parse_dict_entries S ts). Proof. m parse_dict_entries. Qed. Hint Resolve m_de : mono.
  Lemma m_if ts : le (parse_if_parts R ts) (parse_if_parts S ts). Proof. m parse_if_parts. Qed. Hint Resolve m_if : mono.
  Lemma m_ma ts : le (parse_match_arm R ts) (parse_match_arm S ts). Proof. m parse_match_arm. Qed. Hint Resolve m_ma : mono.
  Lemma m_me ts : le (parse_match_expr R ts) (parse_match_expr S ts). Proof. m parse_match_expr. Qed. Hint Resolve m_me : mono.
  Lemma m_pr ts : le (parse_primary R ts) (parse_primary S ts). Proof. m parse_primary. Qed. Hint Resolve m_pr : mono.
  Lemma m_ps e ts : le (postfix_step R e ts) (postfix_step S e ts). Proof. m postfix_step. Qed. Hint Resolve m_ps : mono.
  Lemma m_po ts : le (parse_postfix R ts) (parse_postfix S ts). Proof. m parse_postfix. Qed. Hint Resolve m_po : mono.
  Lemma m_un ts : le (parse_unary R ts) (parse_unary S ts). Proof. m parse_unary. Qed.
  Lemma m_bs m e ts : le (binary_step R m e ts) (binary_step S m e ts). Proof. m binary_step. Qed. Hint Resolve m_bs : mono.
  Lemma m_bi m ts : le (parse_binary R m ts) (parse_binary S m ts). Proof. m parse_binary. Qed.
  Lemma m_co ts : le (parse_conditional R ts) (parse_conditional S ts). Proof. m parse_conditional. Qed.
  Lemma m_vd ts : le (parse_var_decl R ts) (parse_var_decl S ts). Proof. m parse_var_decl. Qed. Hint Resolve m_vd : mono.
  Lemma m_sv ts : le (parse_simple_var_decl R ts) (parse_simple_var_decl S ts). Proof. m parse_simple_var_decl. Qed. Hint Resolve m_sv : mono.
  Lemma m_le ts : le (parse_let R ts) (parse_let S ts). Proof. m parse_let. Qed. Hint Resolve m_le : mono.
  Lemma m_ms ts : le (parse_message R ts) (parse_message S ts). Proof. m parse_message. Qed. Hint Resolve m_ms : mono.
  Lemma m_as eol ts : le (parse_assert R eol ts) (parse_assert S eol ts). Proof. m parse_assert. Qed. Hint Resolve m_as : mono.
  Lemma m_em ts : le (parse_emit R ts) (parse_emit S ts). Proof. m parse_emit. Qed. Hint Resolve m_em : mono.
  Lemma m_fo ts : le (parse_for R ts) (parse_for S ts). Proof. m parse_for. Qed. Hint Resolve m_fo : mono.
  Lemma m_re ts : le (parse_return R ts) (parse_return S ts). Proof. m parse_return. Qed. Hint Resolve m_re : mono.
  Lemma m_st ts : le (parse_statement R ts) (parse_statement S ts). Proof. m parse_statement. Qed.
  Lemma m_ss c ts : le (parse_statements R c ts) (parse_statements S c ts). Proof. m parse_statements. Qed. Hint Resolve m_ss : mono.
  Lemma m_bl ts : le (parse_block R ts) (parse_block S ts). Proof. m parse_block. Qed.
  Lemma m_step : leR (step R) (step S).
  Proof. constructor; cbn [step r_type r_un r_bin r_cond r_stmt r_block]; auto using m_ty, m_un, m_bi, m_co, m_st, m_bl. Qed.

  Lemma m_hi ts : le (parse_hint R ts) (parse_hint S ts). Proof. m parse_hint. Qed. Hint Resolve m_hi : mono.
  Lemma m_ua d ts : le (parse_ui_arg R d ts) (parse_ui_arg S d ts). Proof. m parse_ui_arg. Qed. Hint Resolve m_ua : mono.
  Lemma m_ui ts : le (parse_ui_hint R ts) (parse_ui_hint S ts). Proof. m parse_ui_hint. Qed. Hint Resolve m_ui : mono.
  Lemma m_pa ts : le (parse_parameter R ts) (parse_parameter S ts). Proof. m parse_parameter. Qed. Hint Resolve m_pa : mono.
  Lemma m_pm ts : le (parse_params R ts) (parse_params S ts). Proof. m parse_params. Qed. Hint Resolve m_pm : mono.
  Lemma m_md ts : le (parse_meta_decorator R ts) (parse_meta_decorator S ts). Proof. m parse_meta_decorator. Qed. Hint Resolve m_md : mono.
  Lemma m_dc ts : le (parse_decorator R ts) (parse_decorator S ts). Proof. m parse_decorator. Qed. Hint Resolve m_dc : mono.
  Lemma m_fd ds mt ts : le (parse_function_def R ds mt ts) (parse_function_def S ds mt ts). Proof. m parse_function_def. Qed. Hint Resolve m_fd : mono.
  Lemma m_cm mt ts : le (parse_command R mt ts) (parse_command S mt ts). Proof. m parse_command. Qed. Hint Resolve m_cm : mono.
  Lemma m_nd ts : le (parse_native_decl R ts) (parse_native_decl S ts). Proof. m parse_native_decl. Qed. Hint Resolve m_nd : mono.
  Lemma m_nb ts : le (parse_native_block R ts) (parse_native_block S ts). Proof. m parse_native_block. Qed. Hint Resolve m_nb : mono.
  Lemma m_nf ts : le (parse_native_function R ts) (parse_native_function S ts). Proof. m parse_native_function. Qed. Hint Resolve m_nf : mono.
  Lemma m_ds ts : le (parse_decorators R ts) (parse_decorators S ts). Proof. m parse_decorators. Qed. Hint Resolve m_ds : mono.
  Lemma m_pd s ts : le (parse_decl R s ts) (parse_decl S s ts). Proof. m parse_decl. Qed. Hint Resolve m_pd : mono.
  Lemma m_mod ts : le (parse_module R ts) (parse_module S ts). Proof. m parse_module. Qed.
End Mono.

Lemma build_le n : leR (build n) (build (S n)).
Proof.
  induction n as [|n IH]; [constructor; intros; left; reflexivity|]. exact (m_step _ _ IH).
Qed.
Lemma parse_step n ts : le (parse_with n ts) (parse_with (S n) ts).
Proof. apply m_mod. apply build_le. Qed.
Lemma parse_bound ts n : (parse_fuel (length ts) <= n)%nat -> parse_with n ts = parse ts.
Proof.
  intros Hn. unfold parse. set (k := parse_fuel (length ts)) in *.
  induction Hn as [|n Hn IH]; [reflexivity|]. rewrite <- IH. destruct (parse_step n ts) as [E|E]; [|auto].
  exfalso. pose proof (parse_with_wp n ts Hn) as W. rewrite E in W. exact W.
Qed.
