(** Proofs about the lexer model: literals and names. *)
From Coq Require Import ZArith List Bool Lia String.
From Verif Require Import Lex_Model Lex_Spec Lex_Proofs Lex_Proofs2 Lex_Proofs3.
Import ListNotations.
Open Scope Z_scope.
Open Scope list_scope.

Lemma Forall2_impl {A B} (P Q : A -> B -> Prop) l m : (forall a b, P a b -> Q a b) -> Forall2 P l m -> Forall2 Q l m.
Proof. induction 2; constructor; auto. Qed.
(** ** Python's int() *)
Definition isdig (U : unicode) (base c d : Z) : Prop :=
  digit_val U c = Some d /\ d < base /\ c <> 95 /\ c <> 43 /\ c <> 45 /\ is_space U c = false.
Lemma int_digits_ok U base : forall cs ds acc n us, Forall2 (isdig U base) cs ds -> cs <> [] \/ us = true ->
  int_digits U base acc n us cs = Some (fold_left (fun a d => a * base + d) ds acc, n + Z.of_nat (List.length ds), []).
Proof.
  induction cs as [|c cs IH]; intros ds acc n us F H; inversion F; subst; simpl.
  - destruct H as [H|H]; [congruence|subst]. now rewrite Z.add_0_r.
  - destruct H2 as (A & B & C & _). apply Z.eqb_neq in C. rewrite C, A.
    apply Z.ltb_lt in B. rewrite B. rewrite IH with (ds := l'); auto. do 3 f_equal. lia.
Qed.
Lemma py_int_ok U base cs cs' ds : Forall2 (isdig U base) cs' ds -> cs' <> [] -> strip_prefix base cs = cs' ->
  (forall c r, cs = c :: r -> c <> 43 /\ c <> 45 /\ is_space U c = false) ->
  (base = 10 -> 0 < u_maxdigits U -> Z.of_nat (List.length ds) <= u_maxdigits U) ->
  py_int U base cs = Some (horner base ds).
Proof.
  intros F N S H M. unfold py_int.
  assert (D : drop_while (is_space U) cs = cs).
  { destruct cs as [|c r]; auto. destruct (H c r eq_refl) as (_ & _ & X). simpl. now rewrite X. }
  assert (G : strip_sign cs = (false, cs)).
  { destruct cs as [|c r]; auto. destruct (H c r eq_refl) as (X & Y & _). apply Z.eqb_neq in X, Y.
    simpl. now rewrite X, Y. }
  rewrite D, G, S, (int_digits_ok U base cs' ds) by auto. simpl.
  destruct ((base =? 10) && (0 <? u_maxdigits U) && (u_maxdigits U <? Z.of_nat (List.length ds))) eqn:E; auto.
  apply andb_prop in E as [E E3]. apply andb_prop in E as [E1 E2].
  apply Z.eqb_eq in E1. apply Z.ltb_lt in E2, E3. specialize (M E1 E2). lia.
Qed.
Lemma hexd_isdig U c d : hexd c d -> isdig U 16 c d /\ c <> 120 /\ c <> 88 /\ is_hexdigit c = true /\ 0 <= d <= 15 /\ 48 <= c.
Proof.
  intros H.
  assert (B : 48 <= c <= 57 /\ d = c - 48 \/ 97 <= c <= 102 /\ d = c - 87 \/ 65 <= c <= 70 /\ d = c - 55)
    by (destruct H; lia).
  unfold isdig, digit_val, is_space, is_hexdigit, ascii_digit.
  replace (c <? 128) with true by (symmetry; apply Z.ltb_lt; lia).
  assert (S : (c =? 32) || (9 <=? c) && (c <=? 13) || (28 <=? c) && (c <=? 31) = false).
  { replace (c =? 32) with false by (symmetry; apply Z.eqb_neq; lia).
    replace (c <=? 13) with false by (symmetry; apply Z.leb_gt; lia).
    replace (c <=? 31) with false by (symmetry; apply Z.leb_gt; lia). now rewrite !andb_false_r. }
  rewrite S.
  destruct B as [[B ->]|[[B ->]|[B ->]]].
  - replace (48 <=? c) with true by (symmetry; apply Z.leb_le; lia).
    replace (c <=? 57) with true by (symmetry; apply Z.leb_le; lia). simpl.
    repeat split; auto; lia.
  - replace (c <=? 57) with false by (symmetry; apply Z.leb_gt; lia).
    replace (c <=? 90) with false by (symmetry; apply Z.leb_gt; lia).
    replace (97 <=? c) with true by (symmetry; apply Z.leb_le; lia).
    replace (c <=? 122) with true by (symmetry; apply Z.leb_le; lia).
    replace (c <=? 102) with true by (symmetry; apply Z.leb_le; lia). rewrite !andb_false_r. simpl.
    repeat split; auto; lia.
  - replace (c <=? 57) with false by (symmetry; apply Z.leb_gt; lia).
    replace (c <=? 90) with true by (symmetry; apply Z.leb_le; lia).
    replace (65 <=? c) with true by (symmetry; apply Z.leb_le; lia).
    replace (c <=? 70) with true by (symmetry; apply Z.leb_le; lia). rewrite !andb_false_r, !orb_true_r. simpl.
    repeat split; auto; lia.
Qed.
Lemma isdig_head U base c d : isdig U base c d -> c <> 43 /\ c <> 45 /\ is_space U c = false.
Proof. intros (A & B & C & D & E & F). auto. Qed.
Lemma strip_prefix_no c d r base : ~ (base = 16 /\ (d = 120 \/ d = 88)) -> ~ (base = 2 /\ (d = 98 \/ d = 66)) ->
  strip_prefix base (c :: d :: r) = c :: d :: r.
Proof.
  intros H H2. unfold strip_prefix.
  destruct ((c =? 48) && ((base =? 16) && ((d =? 120) || (d =? 88)) || (base =? 2) && ((d =? 98) || (d =? 66)))) eqn:E; auto.
  exfalso. rewrite andb_true_iff, orb_true_iff, !andb_true_iff, !orb_true_iff, !Z.eqb_eq in E. tauto.
Qed.
Lemma py_int_hex2 U a b va vb : hexd a va -> hexd b vb -> py_int U 16 [a; b] = Some (va * 16 + vb).
Proof.
  intros A B. destruct (hexd_isdig U _ _ A) as (A1 & A2 & A3 & _), (hexd_isdig U _ _ B) as (B1 & B2 & B3 & _).
  rewrite (py_int_ok U 16 [a; b] [a; b] [va; vb]).
  - unfold horner. cbn [fold_left]. f_equal; lia.
  - repeat (apply Forall2_cons; [assumption|]); apply Forall2_nil.
  - discriminate.
  - apply strip_prefix_no; intuition lia.
  - intros c r [= <- _]. eapply isdig_head; eauto.
  - discriminate.
Qed.
Lemma py_int_hex4 U a b c d va vb vc vd : hexd a va -> hexd b vb -> hexd c vc -> hexd d vd ->
  py_int U 16 [a; b; c; d] = Some (((va * 16 + vb) * 16 + vc) * 16 + vd).
Proof.
  intros A B C D. destruct (hexd_isdig U _ _ A) as (A1 & A2 & A3 & _), (hexd_isdig U _ _ B) as (B1 & B2 & B3 & _),
   (hexd_isdig U _ _ C) as (C1 & C2 & C3 & _), (hexd_isdig U _ _ D) as (D1 & D2 & D3 & _).
  rewrite (py_int_ok U 16 [a; b; c; d] [a; b; c; d] [va; vb; vc; vd]).
  - unfold horner. cbn [fold_left]. f_equal; lia.
  - repeat (apply Forall2_cons; [assumption|]); apply Forall2_nil.
  - discriminate.
  - apply strip_prefix_no; intuition lia.
  - intros x r [= <- _]. eapply isdig_head; eauto.
  - discriminate.
Qed.

(** ** Strings *)
Lemma hexd_range c d : hexd c d -> 0 <= d <= 15.
Proof. intros H. destruct H; lia. Qed.
Lemma escape_ok U q m c t rest : spells q m c (92 :: t) -> 
  escape U (t ++ rest) = Ok (c, List.length t).
Proof.
  intros H. inversion H; subst; try reflexivity; try congruence.
  - simpl. rewrite (py_int_hex2 U a b va vb) by auto.
    repeat match goal with X : hexd _ _ |- _ => apply hexd_range in X end.
    unfold chr_ok. replace (0 <=? va * 16 + vb) with true by (symmetry; apply Z.leb_le; lia).
    replace (va * 16 + vb <=? 1114111) with true by (symmetry; apply Z.leb_le; lia). reflexivity.
  - simpl. rewrite (py_int_hex4 U a b c0 d va vb vc vd) by auto.
    repeat match goal with X : hexd _ _ |- _ => apply hexd_range in X end.
    unfold chr_ok. replace (0 <=? _) with true by (symmetry; apply Z.leb_le; lia).
    replace (_ <=? 1114111) with true by (symmetry; apply Z.leb_le; lia). reflexivity.
Qed.
Lemma spells_shape q m c t : q <> 92 -> spells q m c t ->
  (t = [c] /\ c <> q /\ c <> 92 /\ (c = 10 -> m = true)) \/ (exists t', t = 92 :: t' /\ (1 <= List.length t')%nat).
Proof. intros Q H. inversion H; subst; auto; right; eexists; (split; [reflexivity|simpl; lia]). Qed.
Lemma string_body_ok U q : q = 34 \/ q = 39 -> forall cs txt, spelled q false cs txt -> forall rest f,
  (List.length txt < f)%nat -> string_body U f q (txt ++ q :: rest) = Ok (cs, S (List.length txt)).
Proof.
  intros Q cs txt H. assert (Q92 : q <> 92) by lia. assert (Q10 : q <> 10) by lia.
  induction H as [|c cs t ts S H IH]; intros rest f L.
  - destruct f; [simpl in L; lia|]. simpl. now rewrite Z.eqb_refl.
  - destruct f; [lia|]. rewrite app_length in L.
    destruct (spells_shape _ _ _ _ Q92 S) as [(-> & N & M & NL)|(t' & -> & L')].
    + simpl app. simpl. replace (c =? q) with false by (symmetry; apply Z.eqb_neq; auto).
      replace (c =? 10) with false by (symmetry; apply Z.eqb_neq; intros ->; discriminate (NL eq_refl)).
      replace (c =? 92) with false by (symmetry; apply Z.eqb_neq; auto).
      simpl in L. rewrite IH by lia. reflexivity.
    + rewrite <- app_assoc. cbn [app string_body].
      replace (92 =? q) with false by (symmetry; apply Z.eqb_neq; auto). cbv iota.
      change (92 =? 10) with false. change (92 =? 92) with true. cbv iota.
      rewrite (escape_ok U q false c) by auto. rewrite skipn_app, skipn_all, Nat.sub_diag.
      simpl app. simpl skipn. simpl in L. rewrite IH by lia. f_equal. f_equal. simpl. rewrite ?app_length. simpl; lia.
Qed.
Lemma mstring_body_ok U q : q = 34 \/ q = 39 -> forall cs txt, spelled q true cs txt -> forall f,
  (List.length txt < f)%nat -> mstring_body U f q (txt ++ [q; q; q]) = Ok (cs, (List.length txt + 3)%nat).
Proof.
  intros Q cs txt H. assert (Q92 : q <> 92) by lia.
  induction H as [|c cs t ts S H IH]; intros f L.
  - destruct f; [simpl in L; lia|]. simpl. now rewrite Z.eqb_refl.
  - destruct f; [lia|]. rewrite app_length in L.
    destruct (spells_shape _ _ _ _ Q92 S) as [(-> & N & M & NL)|(t' & -> & L')].
    + simpl app. simpl mstring_body. replace (c =? q) with false by (symmetry; apply Z.eqb_neq; auto). cbn [andb].
      replace (c =? 92) with false by (symmetry; apply Z.eqb_neq; auto).
      simpl in L. rewrite IH by lia. reflexivity.
    + rewrite <- app_assoc. cbn [app mstring_body].
      replace (92 =? q) with false by (symmetry; apply Z.eqb_neq; auto). cbn [andb].
      change (92 =? 92) with true. cbv iota.
      rewrite (escape_ok U q true c) by auto. rewrite skipn_app, skipn_all, Nat.sub_diag.
      simpl app. simpl skipn. simpl in L. rewrite IH by lia. f_equal. f_equal. simpl. rewrite ?app_length. simpl; lia.
Qed.

(** ** A one-token source *)
Lemma advance_n_end n s : (List.length (s_rem s) <= n)%nat -> s_rem (advance_n n s) = [].
Proof. intros. rewrite advance_n_rem. apply skipn_all2. auto. Qed.
Lemma scan_eof U s : s_rem s = [] -> s_pend s = [] -> s_stack s = [0] -> 
  exists e s', scan_token U s = Ok (Emit e s') /\ t_type e = EOF.
Proof.
  intros R P K. unfold scan_token. rewrite P.
  assert (H : exists s1, handle_line_start s = Ok (None, s1) /\ s_rem s1 = [] /\ s_stack s1 = [0]).
  { unfold handle_line_start. destruct (s_als s); simpl negb; cbv iota zeta; [|eauto].
    unfold skip_blanks, advance_while. rewrite R. simpl. unfold peek. rewrite R. simpl.
    eexists. split; [reflexivity|]. simpl. auto. }
  destruct H as (s1 & -> & R1 & K1). cbv zeta.
  assert (B : skip_blanks s1 = s1) by (unfold skip_blanks, advance_while; rewrite R1; reflexivity).
  rewrite B, R1. simpl. unfold peek, at_end. rewrite R1. simpl. rewrite R1, K1. simpl. eauto.
Qed.
Definition dispatch (U : unicode) (s : st) : res (token * st) :=
  let c := peek 0 s in
  if (c =? 34) || (c =? 39) then scan_string U s
  else if is_digit U c then scan_number U s
  else if is_alpha U c || (c =? 95) then scan_identifier U s
  else scan_operator s.
Lemma one_token U c r t s' : c <> 32 -> c <> 9 -> c <> 10 -> c <> 0 -> c <> 35 -> c <> 47 ->
  dispatch U (set_als false (init (c :: r))) = Ok (t, s') -> s_rem s' = [] ->
  exists e, tokenize U (c :: r) = Some (Ok [t; e]) /\ t_type e = EOF.
Proof.
  intros A B C D E F H R.
  set (s0 := set_als false (init (c :: r))) in *.
  assert (BL : is_blank c = false).
  { unfold is_blank. apply Z.eqb_neq in A, B. now rewrite A, B. }
  assert (SK : forall b, skip_blanks (set_als b (init (c :: r))) = set_als b (init (c :: r))).
  { intros. unfold skip_blanks, advance_while. simpl. now rewrite BL. }
  assert (HL : handle_line_start (init (c :: r)) = Ok (None, s0)).
  { unfold handle_line_start. simpl negb. cbv iota zeta. change (init (c :: r)) with (set_als true (init (c :: r))) at 1 2 3 4 5 6 7 8 9.
    unfold skip_blanks, advance_while. simpl. rewrite BL. simpl. unfold peek. simpl.
    apply Z.eqb_neq in C, D, E, F. rewrite C, D, E, F. simpl. reflexivity. }
  assert (ST : scan_token U (init (c :: r)) = Ok (Emit t s')).
  { unfold scan_token. simpl s_pend. cbv iota. rewrite HL. cbv zeta. unfold s0. rewrite SK. fold s0.
    assert (SC : skip_comments (S (List.length (s_rem s0))) s0 = Ok s0).
    { simpl. unfold peek. simpl. apply Z.eqb_neq in E, F. now rewrite E, F. }
    rewrite SC. assert (P : peek 0 s0 = c) by reflexivity. rewrite P.
    apply Z.eqb_neq in C. rewrite C. assert (AE : at_end s0 = false) by reflexivity. rewrite AE.
    unfold dispatch in H. rewrite P in H. cbv zeta in H. rewrite H. reflexivity. }
  assert (G0 : good (c :: r) (init (c :: r))) by apply good_init.
  assert (W0 : wfp (c :: r) s0) by (eapply wfp_same; [| | | | |apply wfp_init]; auto).
  assert (TK : tok_ok (c :: r) s0 t s').
  { unfold dispatch in H. cbv zeta in H. assert (N : s_rem s0 <> []) by discriminate.
    destruct ((peek 0 s0 =? 34) || (peek 0 s0 =? 39)); [eapply scan_string_ok; eauto|].
    destruct (is_digit U (peek 0 s0)) eqn:ED; [eapply scan_number_ok; eauto|].
    destruct (is_alpha U (peek 0 s0) || (peek 0 s0 =? 95)) eqn:EA; [eapply scan_identifier_ok; eauto|].
    eapply scan_operator_ok; eauto. simpl; lia. }
  destruct (scan_eof U s' R (k_pend _ _ _ _ TK) (k_stack _ _ _ _ TK)) as (e & s2 & SE & TE).
  exists e. split; auto. unfold tokenize.
  replace (3 * List.length (c :: r) + 4)%nat with (S (S (3 * List.length (c :: r) + 2)))%nat by lia.
  generalize (3 * List.length (c :: r) + 2)%nat. intros n.
  simpl scan_all. rewrite ST. destruct (k_ord _ _ _ _ TK) as (_ & _ & _ & NE).
  destruct (teqb (t_type t) EOF) eqn:T; [apply teqb_eq in T; congruence|].
  rewrite SE, TE. simpl. reflexivity.
Qed.
Lemma between_all src : between src 0 (len src) = src.
Proof. unfold between, len. rewrite Z.sub_0_r, Nat2Z.id. simpl. apply firstn_all. Qed.
Lemma lexeme_all src s0 t s' : tok_ok src s0 t s' -> s_off s0 = 0 -> s_rem s' = [] -> t_lexeme t = src.
Proof.
  intros T O R. rewrite (k_lex _ _ _ _ T), O, (off_rem _ _ (k_wf _ _ _ _ T)), R.
  replace (len src - len []) with (len src) by (unfold len; simpl; lia). apply between_all.
Qed.
Lemma spelled_head q m cs txt : q <> 92 -> spelled q m cs txt -> txt = [] \/ exists c r, txt = c :: r /\ c <> q.
Proof.
  intros Q H. inversion H; subst; auto. right.
  destruct (spells_shape q m c t Q H0) as [(-> & N & _)|(t' & -> & _)]; simpl; eauto.
Qed.
Lemma string_token U q cs txt : q = 34 \/ q = 39 -> spelled q false cs txt ->
  exists t e, tokenize U (q :: txt ++ [q]) = Some (Ok [t; e]) /\ t_type t = STRING_LITERAL /\ t_value t = VStr cs /\
    t_lexeme t = q :: txt ++ [q] /\ t_type e = EOF.
Proof.
  intros Q SP. set (src := q :: txt ++ [q]). set (s0 := set_als false (init src)).
  assert (W0 : wfp src s0) by (eapply wfp_same; [| | | | |apply wfp_init]; auto).
  assert (Q10 : (q =? 10) = false) by (apply Z.eqb_neq; lia).
  set (s1 := advance s0).
  assert (R1 : s_rem s1 = txt ++ [q]) by (unfold s1; rewrite advance_rem; reflexivity).
  set (s2 := advance_n (S (List.length txt)) s1).
  assert (R2 : s_rem s2 = []) by (apply advance_n_end; rewrite R1, app_length; simpl; lia).
  assert (D : dispatch U s0 = Ok (make_token STRING_LITERAL (VStr cs) (location s0) s2, s2)).
  { unfold dispatch. cbv zeta. assert (P : peek 0 s0 = q) by reflexivity. rewrite P.
    replace ((q =? 34) || (q =? 39)) with true by (destruct Q; subst; reflexivity).
    unfold scan_string. cbv zeta. rewrite P. fold s1.
    assert (NT : (peek 0 s1 =? q) && (peek 1 s1 =? q) = false).
    { unfold peek. rewrite R1. destruct (spelled_head q false cs txt ltac:(lia) SP) as [->|(c & r & -> & N)].
      - destruct Q; subst q; reflexivity.
      - simpl. apply Z.eqb_neq in N. now rewrite N. }
    rewrite NT, R1. rewrite (string_body_ok U q Q cs txt SP [] ) by (rewrite app_length; simpl; lia). reflexivity. }
  assert (X : exists e, tokenize U src = Some (Ok [make_token STRING_LITERAL (VStr cs) (location s0) s2; e]) /\ t_type e = EOF).
  { apply (one_token U q (txt ++ [q]) _ s2); try lia; auto. }
  destruct X as (e & X1 & X2). eexists _, e. split; [exact X1|]. repeat split; auto.
  eapply (lexeme_all src s0 _ s2); auto. 
  assert (N : s_rem s0 <> []) by discriminate.
  unfold dispatch in D. cbv zeta in D. replace ((peek 0 s0 =? 34) || (peek 0 s0 =? 39)) with true in D
    by (change (peek 0 s0) with q; destruct Q; subst; reflexivity).
  eapply scan_string_ok; eauto.
Qed.
Lemma mstring_token U q cs txt : q = 34 \/ q = 39 -> spelled q true cs txt ->
  exists t e, tokenize U (q :: q :: q :: txt ++ [q; q; q]) = Some (Ok [t; e]) /\ t_type t = STRING_LITERAL /\
    t_value t = VStr cs /\ t_lexeme t = q :: q :: q :: txt ++ [q; q; q] /\ t_type e = EOF.
Proof.
  intros Q SP. set (src := q :: q :: q :: txt ++ [q; q; q]). set (s0 := set_als false (init src)).
  assert (W0 : wfp src s0) by (eapply wfp_same; [| | | | |apply wfp_init]; auto).
  set (s1 := advance s0).
  assert (R1 : s_rem s1 = q :: q :: txt ++ [q; q; q]) by (unfold s1; rewrite advance_rem; reflexivity).
  set (s2 := advance_n 2 s1).
  assert (R2 : s_rem s2 = txt ++ [q; q; q]) by (unfold s2; rewrite advance_n_rem, R1; reflexivity).
  set (s3 := advance_n (List.length txt + 3) s2).
  assert (R3 : s_rem s3 = []) by (apply advance_n_end; rewrite R2, app_length; simpl; lia).
  assert (P : peek 0 s0 = q) by reflexivity.
  assert (QB : (q =? 34) || (q =? 39) = true) by (destruct Q; subst; reflexivity).
  assert (D : scan_string U s0 = Ok (make_token STRING_LITERAL (VStr cs) (location s0) s3, s3)).
  { unfold scan_string. cbv zeta. rewrite P. fold s1.
    assert (NT : (peek 0 s1 =? q) && (peek 1 s1 =? q) = true).
    { unfold peek. rewrite R1. simpl. now rewrite Z.eqb_refl. }
    rewrite NT. fold s2. rewrite R2. rewrite (mstring_body_ok U q Q cs txt SP) by (rewrite app_length; simpl; lia). reflexivity. }
  assert (X : exists e, tokenize U src = Some (Ok [make_token STRING_LITERAL (VStr cs) (location s0) s3; e]) /\ t_type e = EOF).
  { apply (one_token U q (q :: q :: txt ++ [q; q; q]) _ s3); try lia; auto.
    unfold dispatch. cbv zeta. fold src s0. rewrite P, QB. exact D. }
  destruct X as (e & X1 & X2). eexists _, e. split; [exact X1|]. repeat split; auto.
  eapply (lexeme_all src s0 _ s3); auto. eapply scan_string_ok; eauto. discriminate.
Qed.

(** ** Numbers *)
Lemma count_while_all p l : Forall (fun c => p c = true) l -> count_while p l = List.length l.
Proof. induction 1; simpl; auto. rewrite H. auto. Qed.
Lemma advance_while_all p s : Forall (fun c => p c = true) (s_rem s) -> s_rem (advance_while p s) = [].
Proof. intros. unfold advance_while. rewrite count_while_all by auto. apply advance_n_end. auto. Qed.
Lemma slice_to_end src s : wfp src s -> s_rem s = [] -> slice (s_src s) 0 (s_off s) = src.
Proof.
  intros W R. rewrite (off_rem _ _ W), R, (w_src _ _ W).
  replace (len src - len []) with (len src) by (unfold len; simpl; lia). apply between_all.
Qed.
Lemma dec_isdig U c d : decd c d -> isdig U 10 c d /\ is_digit U c = true /\ 48 <= c <= 57.
Proof.
  intros [B ->]. assert (H := hexd_dec d B). destruct (hexd_isdig U _ _ H) as ((A1 & A2 & A3 & A4 & A5 & A6) & _).
  split; [repeat split; auto; lia|]. split; [|lia]. unfold is_digit, ascii_digit.
  replace (48 + d <? 128) with true by (symmetry; apply Z.ltb_lt; lia).
  replace (48 <=? 48 + d) with true by (symmetry; apply Z.leb_le; lia).
  replace (48 + d <=? 57) with true by (symmetry; apply Z.leb_le; lia). reflexivity.
Qed.
Lemma bin_isdig U c d : bind c d -> isdig U 2 c d /\ is_bindigit c = true /\ 48 <= c <= 49.
Proof.
  intros [B ->]. assert (H := hexd_dec d ltac:(lia)). destruct (hexd_isdig U _ _ H) as ((A1 & A2 & A3 & A4 & A5 & A6) & _).
  split; [repeat split; auto; lia|]. split; [|lia]. unfold is_bindigit.
  assert (E : d = 0 \/ d = 1) by lia. destruct E as [-> | ->]; reflexivity.
Qed.
Lemma decimal_token U txt ds : Forall2 decd txt ds -> ds <> [] ->
  (0 < u_maxdigits U -> Z.of_nat (List.length ds) <= u_maxdigits U) ->
  exists t e, tokenize U txt = Some (Ok [t; e]) /\ t_type t = INT_LITERAL /\ t_value t = VInt (horner 10 ds) /\
    t_lexeme t = txt /\ t_type e = EOF.
Proof.
  intros F N M. destruct txt as [|c r]; [inversion F; subst; congruence|].
  set (src := c :: r). set (s0 := set_als false (init src)).
  assert (W0 : wfp src s0) by (eapply wfp_same; [| | | | |apply wfp_init]; auto).
  assert (FD : Forall (fun x => is_digit U x = true /\ 48 <= x <= 57) src).
  { clear -F. fold src in F. induction F; constructor; auto. destruct (dec_isdig U _ _ H); tauto. }
  assert (P0 : peek 0 s0 = c) by reflexivity.
  assert (C0 : is_digit U c = true /\ 48 <= c <= 57) by exact (Forall_inv FD).
  assert (P1 : peek 1 s0 = 0 \/ 48 <= peek 1 s0 <= 57).
  { unfold peek. simpl. destruct r as [|x r]; simpl; auto. right. apply Forall_inv_tail, Forall_inv in FD. tauto. }
  set (s1 := advance_while (is_digit U) s0).
  assert (W1 : wfp src s1) by (apply (fwd_while src (is_digit U) s0 W0)).
  assert (R1 : s_rem s1 = []). { apply advance_while_all. simpl. eapply Forall_impl; [|exact FD]. simpl; tauto. }
  assert (PE : forall k, peek k s1 = 0) by (intros; unfold peek; rewrite R1; destruct k; auto).
  assert (I : py_int U 10 src = Some (horner 10 ds)).
  { apply (py_int_ok U 10 src src ds); auto; try discriminate.
    - eapply Forall2_impl; [|exact F]. intros; apply dec_isdig; auto.
    - destruct r as [|x r]; [reflexivity|]. apply strip_prefix_no; lia.
    - intros x y [= <- _]. unfold is_space. split; [lia|]. split; [lia|].
      replace (c <? 128) with true by (symmetry; apply Z.ltb_lt; lia).
      replace (c =? 32) with false by (symmetry; apply Z.eqb_neq; lia).
      replace (c <=? 13) with false by (symmetry; apply Z.leb_gt; lia).
      replace (c <=? 31) with false by (symmetry; apply Z.leb_gt; lia). now rewrite !andb_false_r. }
  assert (D : scan_number U s0 = Ok (make_token_l INT_LITERAL (VInt (horner 10 ds)) (location s0) src s1, s1)).
  { unfold scan_number. cbv zeta. rewrite P0.
    replace ((peek 1 s0 =? 120) || (peek 1 s0 =? 88)) with false
      by (symmetry; apply orb_false_iff; split; apply Z.eqb_neq; lia).
    replace ((peek 1 s0 =? 98) || (peek 1 s0 =? 66)) with false
      by (symmetry; apply orb_false_iff; split; apply Z.eqb_neq; lia).
    rewrite !andb_false_r. fold s1. rewrite !PE. cbn [Z.eqb andb orb negb]. cbv iota beta zeta. rewrite ?PE. cbn [Z.eqb andb orb negb].
    change (l_off (location s0)) with 0. rewrite (slice_to_end src s1) by auto. now rewrite I. }
  assert (X : exists e, tokenize U src = Some (Ok [make_token_l INT_LITERAL (VInt (horner 10 ds)) (location s0) src s1; e]) /\ t_type e = EOF).
  { apply (one_token U c r _ s1); try lia; auto. fold src s0. unfold dispatch. cbv zeta. rewrite P0.
    replace ((c =? 34) || (c =? 39)) with false by (symmetry; apply orb_false_iff; split; apply Z.eqb_neq; lia).
    destruct C0 as [-> _]. exact D. }
  destruct X as (e & X1 & X2). eexists _, e. split; [exact X1|]. repeat split; auto.
Qed.
Lemma py_int_long U cs ds : Forall2 (isdig U 10) cs ds -> 0 < u_maxdigits U < Z.of_nat (List.length ds) ->
  py_int U 10 cs = None.
Proof.
  intros FI M. unfold py_int. destruct FI as [|c d r ds H F]; [simpl in M; lia|].
  destruct (isdig_head _ _ _ _ H) as (A & B & C).
  apply Z.eqb_neq in A, B. simpl drop_while. rewrite C. simpl strip_sign. rewrite A, B.
  assert (SP : strip_prefix 10 (c :: r) = c :: r) by (destruct r as [|x r]; [reflexivity|]; apply strip_prefix_no; lia).
  rewrite SP, (int_digits_ok U 10 (c :: r) (d :: ds)) by (auto; left; discriminate). simpl drop_while.
  replace (0 <? u_maxdigits U) with true by (symmetry; apply Z.ltb_lt; lia).
  replace (u_maxdigits U <? 0 + Z.of_nat (List.length (d :: ds))) with true by (symmetry; apply Z.ltb_lt; lia).
  reflexivity.
Qed.
Lemma decimal_too_long U txt ds : Forall2 decd txt ds -> 0 < u_maxdigits U < Z.of_nat (List.length ds) ->
  tokenize U txt = Some (Err EBadNumber).
Proof.
  intros F M. destruct txt as [|c r]; [inversion F; subst; simpl in M; lia|].
  set (src := c :: r). set (s0 := set_als false (init src)).
  assert (W0 : wfp src s0) by (eapply wfp_same; [| | | | |apply wfp_init]; auto).
  assert (FD : Forall (fun x => is_digit U x = true /\ 48 <= x <= 57) src).
  { clear -F. fold src in F. induction F; constructor; auto. destruct (dec_isdig U _ _ H); tauto. }
  assert (P0 : peek 0 s0 = c) by reflexivity.
  assert (C0 : is_digit U c = true /\ 48 <= c <= 57) by exact (Forall_inv FD).
  assert (P1 : peek 1 s0 = 0 \/ 48 <= peek 1 s0 <= 57).
  { unfold peek. simpl. destruct r as [|x r]; simpl; auto. right. apply Forall_inv_tail, Forall_inv in FD. tauto. }
  set (s1 := advance_while (is_digit U) s0).
  assert (W1 : wfp src s1) by (apply (fwd_while src (is_digit U) s0 W0)).
  assert (R1 : s_rem s1 = []). { apply advance_while_all. simpl. eapply Forall_impl; [|exact FD]. simpl; tauto. }
  assert (PE : forall k, peek k s1 = 0) by (intros; unfold peek; rewrite R1; destruct k; auto).
  assert (FI : Forall2 (isdig U 10) src ds) by (eapply Forall2_impl; [|exact F]; intros; apply dec_isdig; auto).
  assert (I : py_int U 10 src = None).
  { eapply py_int_long; eauto. }
  assert (D : scan_number U s0 = Err EBadNumber).
  { unfold scan_number. cbv zeta. rewrite P0.
    replace ((peek 1 s0 =? 120) || (peek 1 s0 =? 88)) with false
      by (symmetry; apply orb_false_iff; split; apply Z.eqb_neq; lia).
    replace ((peek 1 s0 =? 98) || (peek 1 s0 =? 66)) with false
      by (symmetry; apply orb_false_iff; split; apply Z.eqb_neq; lia).
    rewrite !andb_false_r. fold s1. rewrite !PE. cbn [Z.eqb andb orb negb]. cbv iota beta zeta. rewrite ?PE. cbn [Z.eqb andb orb negb].
    change (l_off (location s0)) with 0. rewrite (slice_to_end src s1) by auto. now rewrite I. }
  unfold tokenize. replace (3 * List.length src + 4)%nat with (S (3 * List.length src + 3)) by lia.
  simpl scan_all. unfold scan_token. simpl s_pend. cbv iota.
  assert (BL : is_blank c = false).
  { unfold is_blank. apply orb_false_iff; split; apply Z.eqb_neq; lia. }
  assert (HL : handle_line_start (init src) = Ok (None, s0)).
  { unfold handle_line_start. simpl negb. cbv iota zeta.
    unfold skip_blanks, advance_while. simpl. rewrite BL. simpl. unfold peek. simpl.
    replace (c =? 10) with false by (symmetry; apply Z.eqb_neq; lia).
    replace (c =? 0) with false by (symmetry; apply Z.eqb_neq; lia).
    replace (c =? 35) with false by (symmetry; apply Z.eqb_neq; lia).
    replace (c =? 47) with false by (symmetry; apply Z.eqb_neq; lia). simpl. reflexivity. }
  rewrite HL. cbv zeta.
  assert (SK : skip_blanks s0 = s0) by (unfold skip_blanks, advance_while; simpl; now rewrite BL).
  rewrite SK.
  assert (SC : skip_comments (S (List.length (s_rem s0))) s0 = Ok s0).
  { simpl. unfold peek. simpl.
    replace (c =? 35) with false by (symmetry; apply Z.eqb_neq; lia).
    replace (c =? 47) with false by (symmetry; apply Z.eqb_neq; lia). reflexivity. }
  rewrite SC, P0. replace (c =? 10) with false by (symmetry; apply Z.eqb_neq; lia).
  assert (AE : at_end s0 = false) by reflexivity. rewrite AE.
  replace ((c =? 34) || (c =? 39)) with false by (symmetry; apply orb_false_iff; split; apply Z.eqb_neq; lia).
  destruct C0 as [-> _]. rewrite D. reflexivity.
Qed.

Lemma us_strip isd ds l : us_digits isd ds l -> (forall c d, isd c d -> c <> 95) ->
  Forall2 isd (strip_us l) ds /\ Forall (fun c => c = 95 \/ exists d, isd c d) l.
Proof.
  induction 1 as [|ds l H IH|c d ds l Hc H IH]; intros K; simpl; auto.
  - destruct (IH K) as [A B]. split; auto.
  - destruct (IH K) as [A B]. assert (X := K _ _ Hc). apply Z.eqb_neq in X. rewrite X. simpl. split.
    + constructor; auto.
    + constructor; eauto.
Qed.
Lemma based_token U base (isd : Z -> Z -> Prop) chk x e0 c d ds l :
  (base = 16 /\ (x = 120 \/ x = 88) /\ e0 = EBadHex /\ chk = is_hexdigit) \/
  (base = 2 /\ (x = 98 \/ x = 66) /\ e0 = EBadBinary /\ chk = is_bindigit) ->
  (forall c d, isd c d -> isdig U base c d /\ chk c = true /\ 48 <= c) -> isd c d -> us_digits isd ds l ->
  exists t e, tokenize U (48 :: x :: c :: l) = Some (Ok [t; e]) /\ t_type t = INT_LITERAL /\
    t_value t = VInt (horner base (d :: ds)) /\ t_lexeme t = 48 :: x :: c :: l /\ t_type e = EOF.
Proof.
  intros B K Hc Hl.
  set (src := 48 :: x :: c :: l). set (s0 := set_als false (init src)).
  assert (W0 : wfp src s0) by (eapply wfp_same; [| | | | |apply wfp_init]; auto).
  assert (N95 : forall c d, isd c d -> c <> 95) by (intros; apply (K _ _ H)).
  destruct (us_strip _ _ _ Hl N95) as [FS FC]. destruct (K _ _ Hc) as (Kc & Cc & _).
  set (s1 := advance s0). set (s2 := advance s1).
  assert (R1 : s_rem s1 = x :: c :: l) by (unfold s1; rewrite advance_rem; reflexivity).
  assert (R2 : s_rem s2 = c :: l) by (unfold s2; rewrite advance_rem, R1; reflexivity).
  set (s3 := advance_while (fun c => chk c || (c =? 95)) s2).
  assert (W1 : wfp src s1) by (apply advance_wfp; auto).
  assert (W2 : wfp src s2) by (apply advance_wfp; auto).
  assert (W3 : wfp src s3) by (apply (fwd_while src (fun c => chk c || (c =? 95)) s2 W2)).
  assert (R3 : s_rem s3 = []).
  { apply advance_while_all. rewrite R2. constructor; [now rewrite Cc|].
    eapply Forall_impl; [|exact FC]. simpl. intros a [->|[d' Ha]]; [apply orb_true_r|].
    destruct (K _ _ Ha) as (_ & -> & _). auto. }
  assert (NX : x <> 95) by lia.
  assert (SU : strip_us src = 48 :: x :: c :: strip_us l).
  { unfold src. simpl. apply Z.eqb_neq in NX. rewrite NX. simpl.
    assert (Y := N95 _ _ Hc). apply Z.eqb_neq in Y. rewrite Y. reflexivity. }
  assert (I : py_int U base (strip_us src) = Some (horner base (d :: ds))).
  { rewrite SU. apply (py_int_ok U base _ (c :: strip_us l) (d :: ds)).
    - constructor; [apply K; auto|]. eapply Forall2_impl; [|exact FS]. intros; apply K; auto.
    - discriminate.
    - unfold strip_prefix. assert (Y := N95 _ _ Hc). apply Z.eqb_neq in Y. rewrite Y.
      destruct B as [(-> & [-> | ->] & _)|(-> & [-> | ->] & _)]; reflexivity.
    - intros a r [= <- _]. repeat split; try lia.
    - intros. destruct B as [(-> & _)|(-> & _)]; discriminate. }
  assert (SB : scan_based U base chk e0 (location s0) s1 =
     Ok (make_token_l INT_LITERAL (VInt (horner base (d :: ds))) (location s0) src s3, s3)).
  { unfold scan_based. cbv zeta. fold s2. unfold peek. rewrite R2. simpl nth. rewrite Cc. simpl negb. cbv iota.
    fold s3. change (l_off (location s0)) with 0. rewrite (slice_to_end src s3) by auto. rewrite I. reflexivity. }
  assert (D : scan_number U s0 = Ok (make_token_l INT_LITERAL (VInt (horner base (d :: ds))) (location s0) src s3, s3)).
  { unfold scan_number. cbv zeta. assert (P0 : peek 0 s0 = 48) by reflexivity. assert (P1 : peek 1 s0 = x) by reflexivity.
    rewrite P0, P1. fold s1.
    destruct B as [(-> & [-> | ->] & -> & ->)|(-> & [-> | ->] & -> & ->)]; simpl (_ && _); exact SB. }
  assert (X : exists e, tokenize U src = Some (Ok [make_token_l INT_LITERAL (VInt (horner base (d :: ds))) (location s0) src s3; e]) /\ t_type e = EOF).
  { apply (one_token U 48 (x :: c :: l) _ s3); try lia; auto. }
  destruct X as (e & X1 & X2). eexists _, e. split; [exact X1|]. repeat split; auto.
Qed.
(** Every natural number is written by some digits. *)
Lemma digits_exist base n : 2 <= base -> 0 <= n -> exists ds, ds <> [] /\ Forall (fun d => 0 <= d < base) ds /\ horner base ds = n.
Proof.
  intros B. intros H. revert n H. apply (Zlt_0_ind (fun n => exists ds, ds <> [] /\ Forall (fun d => 0 <= d < base) ds /\ horner base ds = n)).
  intros n IH H0. destruct (Z_lt_le_dec n base).
  - exists [n]. split; [discriminate|]. split; [repeat constructor; lia|]. unfold horner. simpl. lia.
  - assert (0 <= n / base < n) by (split; [apply Z.div_pos; lia|apply Z.div_lt; lia]).
    destruct (IH (n / base) H) as (ds & A & C & D). exists (ds ++ [n mod base]).
    split; [destruct ds; discriminate|]. split.
    + apply Forall_app. split; auto. repeat constructor; apply Z.mod_pos_bound; lia.
    + unfold horner in *. rewrite fold_left_app. simpl. rewrite D. rewrite (Z.div_mod n base) at 3 by lia. lia.
Qed.

(** ** Names *)
Lemma name_token U c r : name_start c -> Forall name_char r ->
  exists t e, tokenize U (c :: r) = Some (Ok [t; e]) /\ t_lexeme t = c :: r /\ t_type e = EOF /\
    t_type t = match keyword (c :: r) KEYWORDS with Some ty => ty | None => IDENTIFIER end /\
    (keyword (c :: r) KEYWORDS = None -> t_value t = VStr (c :: r)).
Proof.
  intros Hc Hr. set (src := c :: r). set (s0 := set_als false (init src)).
  assert (W0 : wfp src s0) by (eapply wfp_same; [| | | | |apply wfp_init]; auto).
  set (p := fun c => is_alnum U c || (c =? 95)).
  assert (AN : forall x, name_char x -> p x = true).
  { intros x Hx. unfold name_char, name_start in Hx. unfold p, is_alnum, ascii_alpha, ascii_digit.
    replace (x <? 128) with true by (symmetry; apply Z.ltb_lt; lia).
    destruct Hx as [[Hx|[Hx|Hx]]|Hx].
    - replace (65 <=? x) with true by (symmetry; apply Z.leb_le; lia).
      replace (x <=? 90) with true by (symmetry; apply Z.leb_le; lia). reflexivity.
    - replace (97 <=? x) with true by (symmetry; apply Z.leb_le; lia).
      replace (x <=? 122) with true by (symmetry; apply Z.leb_le; lia). rewrite !orb_true_r. reflexivity.
    - subst. reflexivity.
    - replace (48 <=? x) with true by (symmetry; apply Z.leb_le; lia).
      replace (x <=? 57) with true by (symmetry; apply Z.leb_le; lia). rewrite !orb_true_r. reflexivity. }
  assert (FA : Forall (fun x => p x = true) src).
  { constructor; [apply AN; left; auto|]. eapply Forall_impl; [|exact Hr]. auto. }
  set (s1 := advance_while p s0).
  assert (W1 : wfp src s1) by (apply (fwd_while src p s0 W0)).
  assert (R1 : s_rem s1 = []) by (apply advance_while_all; auto).
  assert (ND : is_digit U c = false).
  { unfold is_digit, ascii_digit. unfold name_start in Hc. replace (c <? 128) with true by (symmetry; apply Z.ltb_lt; lia).
    replace (c <=? 57) with false by (symmetry; apply Z.leb_gt; lia). apply andb_false_r. }
  assert (AL : is_alpha U c || (c =? 95) = true).
  { unfold name_start in Hc. unfold is_alpha, ascii_alpha. replace (c <? 128) with true by (symmetry; apply Z.ltb_lt; lia).
    destruct Hc as [Hx|[Hx|Hx]].
    - replace (65 <=? c) with true by (symmetry; apply Z.leb_le; lia).
      replace (c <=? 90) with true by (symmetry; apply Z.leb_le; lia). reflexivity.
    - replace (97 <=? c) with true by (symmetry; apply Z.leb_le; lia).
      replace (c <=? 122) with true by (symmetry; apply Z.leb_le; lia). rewrite !orb_true_r. reflexivity.
    - subst. reflexivity. }
  assert (D : exists v, dispatch U s0 = Ok (make_token_l (match keyword src KEYWORDS with Some ty => ty | None => IDENTIFIER end) v (location s0) src s1, s1)
     /\ (keyword src KEYWORDS = None -> v = VStr src)).
  { unfold dispatch. cbv zeta. assert (P : peek 0 s0 = c) by reflexivity. rewrite P, ND, AL.
    unfold name_start in Hc.
    replace ((c =? 34) || (c =? 39)) with false by (symmetry; apply orb_false_iff; split; apply Z.eqb_neq; lia).
    unfold scan_identifier. cbv zeta. fold p. fold s1. change (l_off (location s0)) with 0.
    rewrite (slice_to_end src s1) by auto. destruct (keyword src KEYWORDS); eexists; (split; [reflexivity|congruence]). }
  destruct D as (v & D & V).
  assert (X := one_token U c r _ s1 ltac:(unfold name_start in Hc; lia) ltac:(unfold name_start in Hc; lia)
    ltac:(unfold name_start in Hc; lia) ltac:(unfold name_start in Hc; lia) ltac:(unfold name_start in Hc; lia)
    ltac:(unfold name_start in Hc; lia) D R1).
  destruct X as (e & X1 & X2). eexists _, e. split; [exact X1|]. repeat split; auto.
Qed.
