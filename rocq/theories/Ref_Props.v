(** Property theorems: what the interpreter computes, against the reference semantics of
    Interp_Ref (values of expressions in an environment, no scopes, no fuel). *)
From Coq Require Import ZArith String List Bool Lia.
From Verif Require Import Dict Lex_Model Ast Types_Model Parse_Model Interp_Model Lib_Model Interp_Ref Interp_Proofs8 Lex_Props Interp_Props.
Import ListNotations.
Open Scope Z_scope.
Open Scope list_scope.

(** * C159: a run of a command gives what the reference semantics says *)

(** When command [cmd] produces [o] with calls nested at most [d] deep, and the recursion
    limit leaves room for [d] calls, execute() returns a result reporting exactly [o].
    (has_library: the built-in functions are those of Lib_Model where it defines them.) *)
Theorem c159_execute_computes : forall H limit m cmd given s d o, has_library H ->
  m_blocks m = [] -> s_depth H s + Z.of_nat d <= limit -> produces H m cmd given (s_natives H s) d o ->
  exists N r s', reports H o r /\ forall fuel, (N <= fuel)%nat -> execute H limit fuel m cmd given s = (Returned H r, s').
Proof. intros H limit m cmd given s d o Hl. exact (execute_adequate H Hl limit m cmd given s d o). Qed.
Print Assumptions c159_execute_computes.

(** A host that has the library. *)
Definition HL : host := with_library H0.
Definition sL : state HL := State HL tt 0 [] [].
Lemma HL_library : has_library HL. Proof. intros f vs r w E. cbn [h_builtin HL with_library]. change (lib_call H0 f vs) with (lib_call HL f vs). rewrite E. reflexivity. Qed.

(** The recursive factorial: for every n within the recursion limit the result is n!. *)
Definition fact_source : list string :=
  ["def fact(n: int, base: int = 1):"; "  if n <= 0:"; "    emit base"; "  else:"; "    emit n * fact(base=base, n=n - 1)"]%string.
Definition fact_program : modul := program fact_source.
Fixpoint factorial (n : nat) : Z := match n with O => 1 | S k => Z.of_nat (S k) * factorial k end.
Definition fact_body : list stmt :=
  match m_funs fact_program with f :: _ => block_of (f_body f) | [] => [] end.
Lemma fact_body_eq : fact_body =
  [SIf (EBin (EId (codes "n")) LE (ELit (VInt 0) INT_LITERAL))
     (Block [SEmit (EId (codes "base")) []] None) []
     (Some (Block [SEmit (EBin (EId (codes "n")) STAR (ECall (EId (codes "fact")) []
        [(codes "base", EId (codes "base")); (codes "n", EBin (EId (codes "n")) MINUS (ELit (VInt 1) INT_LITERAL))])) []] None))].
Proof. computed. Qed.
Lemma fact_ref n : forall b, exists g', sts (m_funs fact_program) [] n
  (binds [codes "n"; codes "base"] [NI (Z.of_nat n); NI b] none) fact_body start g'
  (Out (Some (NI (factorial n * b))) [] false).
Proof.
  induction n as [|n IH]; intros b; eexists.
  - rewrite fact_body_eq. eapply SS_next; [| |apply SS_nil]; [|reflexivity]. eapply S_if_true.
    + eapply X_compare; [apply X_var; reflexivity|apply X_int|reflexivity].
    + eapply SS_next; [| |apply SS_nil]; [|reflexivity]. replace (factorial 0 * b) with b by (cbn [factorial]; lia).
      apply (S_emit _ _ _ _ _ (NI b) start). apply X_var. reflexivity.
  - destruct (IH b) as (g & G).
    rewrite fact_body_eq. eapply SS_next; [| |apply SS_nil]; [|reflexivity]. eapply S_if_else.
    + eapply X_compare; [apply X_var; reflexivity|apply X_int|]. reflexivity.
    + eapply SS_next; [| |apply SS_nil]; [|reflexivity].
      apply (S_emit _ _ _ _ _ (NI (factorial (S n) * b)) start).
      replace (factorial (S n) * b) with (Z.of_nat (S n) * (factorial n * b)) by (cbn [factorial]; lia).
      eapply X_arith; [apply X_var; reflexivity| |reflexivity].
      eapply X_call with (o := Out (Some (NI (factorial n * b))) [] false) (vs := [NI (Z.of_nat n); NI b]) (ws := []); [intros []|vm_compute; reflexivity|reflexivity|vm_compute; reflexivity| |apply XS_nil| | |discriminate]; [| |reflexivity].
      * apply XS_cons; [|apply XS_cons; [apply X_var; reflexivity|apply XS_nil]].
        eapply X_arith; [apply X_var; reflexivity|apply X_int|]. cbn [arith]. f_equal. lia.
      * exact G.
Qed.
(** fact(n) is n! (the factorial by the usual recursion) for every n >= 0 the limit allows. *)
Theorem c159_factorial : forall n limit, Z.of_nat n <= limit ->
  exists N v s', vdata HL v = DInt (factorial n) /\
    forall fuel, (N <= fuel)%nat -> execute HL limit fuel fact_program (codes "fact") [(codes "n", DInt (Z.of_nat n))] sL
      = (Returned HL (Result HL true (Some (v, [])) [] None), s').
Proof.
  intros n limit Hl. destruct (fact_ref n 1) as (g' & G).
  destruct (c159_execute_computes HL limit fact_program (codes "fact") [(codes "n", DInt (Z.of_nat n))] sL n
    (Out (Some (NI (factorial n * 1))) [] false)) as (N & r & s' & (Rf & Rs & Re & Rm) & E).
  - exact HL_library.
  - computed.
  - exact Hl.
  - eexists _, _, g'. split; [vm_compute; reflexivity|]. split; [reflexivity|]. split; [|exact G].
    eapply inputs_given; [reflexivity|apply starts_int; right; reflexivity|].
    eapply inputs_default; [reflexivity|reflexivity|apply X_int|]. apply inputs_nil.
  - destruct Rm as (v & Ev & Hv & _). exists N, v, s'. split; [rewrite Hv; f_equal; lia|].
    intros fuel Hf. rewrite (E fuel Hf). destruct r as [rs re rf rr]. cbn in *. subst. do 3 f_equal.
    + apply Rs. split; [reflexivity|discriminate].
    + apply Re. right. discriminate.
Qed.
Print Assumptions c159_factorial.
(** What a command produces is determined: two derivations agree on the value and on the
    failed requirements. *)
Theorem c159_deterministic : forall H m cmd given (s : state H) d1 d2 o1 o2, has_library H -> m_blocks m = [] ->
  produces H m cmd given (s_natives H s) d1 o1 -> produces H m cmd given (s_natives H s) d2 o2 ->
  o_emit o1 = o_emit o2 /\ o_fails o1 = o_fails o2.
Proof.
  intros H m cmd given s d1 d2 o1 o2 Hl Hb P1 P2.
  set (limit := s_depth H s + Z.of_nat (Nat.max d1 d2)).
  destruct (c159_execute_computes H limit m cmd given s d1 o1 Hl Hb ltac:(unfold limit; lia) P1) as (N1 & r1 & s1 & (F1 & _ & _ & M1) & E1).
  destruct (c159_execute_computes H limit m cmd given s d2 o2 Hl Hb ltac:(unfold limit; lia) P2) as (N2 & r2 & s2 & (F2 & _ & _ & M2) & E2).
  assert (r1 = r2) as ->.
  { pose proof (E1 (Nat.max N1 N2) ltac:(lia)) as A. pose proof (E2 (Nat.max N1 N2) ltac:(lia)) as B. congruence. }
  split; [|congruence].
  destruct (o_emit o1) as [a1|], (o_emit o2) as [a2|]; auto.
  - destruct M1 as (v1 & V1 & S1). destruct M2 as (v2 & V2 & S2). assert (v1 = v2) as -> by congruence. f_equal.
    assert (Z1 : vdata H v2 = match a1 with NI z => DInt z | NB b => DBool b | NL l => DList (map DInt l) end)
      by (destruct a1; cbn in S1; [apply S1|rewrite S1; reflexivity|apply S1]).
    assert (Z2 : vdata H v2 = match a2 with NI z => DInt z | NB b => DBool b | NL l => DList (map DInt l) end)
      by (destruct a2; cbn in S2; [apply S2|rewrite S2; reflexivity|apply S2]).
    rewrite Z1 in Z2. destruct a1 as [?|?|l], a2 as [?|?|l0]; try congruence. f_equal.
    assert (X : map (@DInt (hF H) (hO H)) l = map DInt l0) by congruence. revert X. clear.
    revert l0. induction l as [|z l IH]; intros [|z0 l0]; cbn; intros X; try discriminate; [reflexivity|].
    injection X as -> X. f_equal. apply IH. exact X.
  - destruct M1 as (v1 & V1 & _). congruence.
  - destruct M2 as (v2 & V2 & _). congruence.
Qed.
Print Assumptions c159_deterministic.
(** A positional call, defaults, a loop, a comprehension and a failed requirement. *)
Definition sample_source : list string :=
  ["def sub(a: int, b: int = 1):"; "  emit a - b"; "";
   "def main(n: int):"; "  xs = [k * k for k in [0..n] if k % 2 == 1]"; "  for x in xs:";
   "    require x < 9, ""big"""; "  emit sub(10, sub(n)) + max(len(xs), xs[-1])"]%string.
Example c159_nonvacuous : exists o,
  produces HL (program sample_source) (codes "main") [(codes "n", DInt 5)] [] 2 o /\ o_emit o = Some (NI 15) /\ length (o_fails o) = 1%nat.
Proof.
  eexists. split; [|split].
  - eexists _, [NI 5], _. split; [vm_compute; reflexivity|]. split; [reflexivity|].
    split; [eapply inputs_given; [reflexivity|apply starts_int; right; reflexivity|apply inputs_nil]|].
    match goal with |- sts _ _ _ _ ?b _ _ _ => let b' := eval vm_compute in b in change b with b' end.
    eapply SS_next; [eapply S_var with (a := NL [1; 9])| |]; [|reflexivity|].
    { eapply X_comp with (l := [0; 1; 2; 3; 4]); [|idtac|cbn; lia].
      - eapply (X_range _ _ _ _ _ _ 0 5); [apply X_int|apply X_var; reflexivity].
      - assert (T : forall g k b, g (codes "k") = Some (NI k) -> (k - 2 * (k / 2) =? 1) = b ->
          conds_are (m_funs (program sample_source)) [] 2 g
            [EBin (EBin (EId (codes "k")) PERCENT (ELit (VInt 2) INT_LITERAL)) EQ (ELit (VInt 1) INT_LITERAL)] b).
        { intros g k b Hg Hb. assert (X : ex (m_funs (program sample_source)) [] 2 g
            (EBin (EBin (EId (codes "k")) PERCENT (ELit (VInt 2) INT_LITERAL)) EQ (ELit (VInt 1) INT_LITERAL)) (NB b)).
          { eapply X_compare; [eapply X_arith; [apply X_var; exact Hg|apply X_int|reflexivity]|apply X_int|]. cbn [compare]. rewrite Hb. reflexivity. }
          destruct b; [eapply C_true; [exact X|apply C_nil]|apply C_false; exact X]. }
        apply M_skip; [eapply T; reflexivity|]. apply M_take; [eapply T; reflexivity|eapply (X_arith _ _ _ _ _ STAR _ 1 1); [apply X_var; reflexivity|apply X_var; reflexivity|reflexivity]|].
        apply M_skip; [eapply T; reflexivity|]. apply M_take; [eapply T; reflexivity|eapply (X_arith _ _ _ _ _ STAR _ 3 3); [apply X_var; reflexivity|apply X_var; reflexivity|reflexivity]|].
        apply M_skip; [eapply T; reflexivity|]. apply M_nil. }
    eapply SS_next.
    { eapply S_for; [apply X_var; reflexivity|].
      eapply L_next; [| |eapply L_next; [| |apply L_nil]].
      - eapply SS_next; [eapply (S_assert _ _ _ _ _ _ true); eapply (X_compare _ _ _ _ _ LT _ 1 9); [apply X_var; reflexivity|apply X_int|reflexivity]| |apply SS_nil]. reflexivity.
      - reflexivity.
      - eapply SS_next; [eapply (S_assert _ _ _ _ _ _ false); eapply (X_compare _ _ _ _ _ LT _ 9 9); [apply X_var; reflexivity|apply X_int|reflexivity]| |apply SS_nil]. reflexivity.
      - reflexivity. }
    { reflexivity. }
    eapply SS_next; [apply (S_emit _ _ _ _ _ (NI 15))|reflexivity|apply SS_nil].
    eapply (X_arith _ _ _ _ _ PLUS _ 6 9); [| |reflexivity].
    + eapply X_call with (o := Out (Some (NI 6)) [] false) (vs := [NI 10; NI 4]) (ws := []); [intros []|vm_compute; reflexivity|reflexivity|reflexivity| |apply XS_nil| | |discriminate]; [| |reflexivity].
      * apply XS_cons; [apply X_int|]. apply XS_cons; [|apply XS_nil].
        eapply X_call with (o := Out (Some (NI 4)) [] false) (vs := [NI 5]) (ws := [NI 1]); [intros []|vm_compute; reflexivity|reflexivity|reflexivity|apply XS_cons; [apply X_var; reflexivity|apply XS_nil]|apply XS_cons; [apply X_int|apply XS_nil]| | |discriminate]; [|reflexivity].
        match goal with |- sts _ _ _ _ ?b _ _ _ => let b' := eval vm_compute in b in change b with b' end.
        eapply SS_next; [apply (S_emit _ _ _ _ _ (NI 4)); eapply (X_arith _ _ _ _ _ MINUS _ 5 1); [apply X_var; reflexivity|apply X_var; reflexivity|reflexivity]|reflexivity|apply SS_nil].
      * match goal with |- sts _ _ _ _ ?b _ _ _ => let b' := eval vm_compute in b in change b with b' end.
        eapply SS_next; [apply (S_emit _ _ _ _ _ (NI 6)); eapply (X_arith _ _ _ _ _ MINUS _ 10 4); [apply X_var; reflexivity|apply X_var; reflexivity|reflexivity]|reflexivity|apply SS_nil].
    + eapply X_lib with (vs := [NI 2; NI 9]); [intros []|vm_compute; reflexivity| |apply (lib_max [2; 9] 9); [right; left; reflexivity|intros z [<-|[<-|[]]]; lia]].
      apply XS_cons; [eapply X_lib with (vs := [NL [1; 9]]); [intros []|vm_compute; reflexivity|apply XS_cons; [apply X_var; reflexivity|apply XS_nil]|apply (lib_len [1; 9])]|].
      apply XS_cons; [|apply XS_nil].
      eapply (X_index _ _ _ _ _ _ [1; 9] (-1)); [apply X_var; reflexivity| |reflexivity]. apply (X_neg _ _ _ _ _ 1). apply X_int.
  - reflexivity.
  - reflexivity.
Qed.
