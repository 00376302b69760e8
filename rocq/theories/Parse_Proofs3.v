(** Every way of writing a tree (grammar [G]) is parsed back to that tree. *)
From Coq Require Import ZArith String List Bool Lia.
From Verif Require Import Dict Lex_Model Lex_Proofs2 Ast Parse_Model Parse_Spec Parse_Proofs.
Import ListNotations.
Open Scope Z_scope.
Open Scope list_scope.

Section Runs.
  Context {S : Type} (body : S -> parser (S * bool)).
  Inductive runs : S -> list token -> S -> list token -> Prop :=
    | runs_stop s ts s' r : body s ts = POk (s', false) r -> runs s ts s' r
    | runs_go s ts s1 r1 s2 r2 : body s ts = POk (s1, true) r1 -> (length r1 < length ts)%nat ->
        runs s1 r1 s2 r2 -> runs s ts s2 r2.
  Lemma runs_loop s ts s' r : runs s ts s' r -> forall n, (length ts < n)%nat -> loop body n s ts = POk s' r.
  Proof.
    induction 1; intros n Hn; (destruct n; [lia|]); simpl; rewrite H; auto. apply IHruns. lia.
  Qed.
  Lemma runs_while s ts s' r : runs s ts s' r -> while body s ts = POk s' r.
  Proof. intros H. unfold while. apply runs_loop; auto. Qed.
End Runs.

Lemma check_hd ty t r : check ty (t :: r) = teqb (t_type t) ty. Proof. reflexivity. Qed.
Lemma check_tk ty t r : tk ty t -> check ty (t :: r) = true.
Proof. intros H. rewrite check_hd, H. apply teqb_eq. reflexivity. Qed.
Lemma teqb_neq a b : a <> b -> teqb a b = false.
Proof. intros H. destruct (teqb a b) eqn:E; auto. apply teqb_eq in E. contradiction. Qed.
Lemma check_cur ty ts : cur ts = ty -> check ty ts = true.
Proof. intros H. unfold check. apply teqb_eq. auto. Qed.
Lemma check_ne ty ts : cur ts <> ty -> check ty ts = false.
Proof. intros H. unfold check. apply teqb_neq. auto. Qed.
Lemma adv_tk ty t r : tk ty t -> ty <> EOF -> adv (t :: r) = r.
Proof. intros H Hn. unfold adv, Parse_Model.at_end. rewrite check_ne; auto. simpl. rewrite H. auto. Qed.
Lemma adv_cons t r : t_type t <> EOF -> adv (t :: r) = r.
Proof. intros H. unfold adv, Parse_Model.at_end. rewrite check_ne; auto. Qed.
Lemma consume_tk ty t r : tk ty t -> ty <> EOF -> consume ty (t :: r) = POk (t_value t) r.
Proof. intros H Hn. unfold consume. rewrite (check_tk ty), (adv_tk ty) by auto. reflexivity. Qed.
Lemma cur_app ts r : ts <> [] -> cur (ts ++ r) = cur ts.
Proof. destruct ts; [congruence|reflexivity]. Qed.
Lemma put_dset k v d : put k v d = dset leqb k v d.
Proof.
  induction d as [|[k' v'] d IH]; simpl; auto.
  destruct (list_eq_dec Z.eq_dec k k') as [->|Hn].
  - rewrite (proj2 (leqb_spec k' k') eq_refl). reflexivity.
  - destruct (leqb k k') eqn:E; [apply leqb_spec in E; contradiction|]. rewrite IH. reflexivity.
Qed.

(** What may follow a phrase of level [l] so that the phrase ends there. *)
Definition fol10 (r : list token) : Prop := cur r <> DOUBLE_ARROW.
Definition fol9 (r : list token) : Prop := cur r <> DOUBLE_ARROW /\ cur r <> LPAREN.
Definition fol (l : Z) (r : list token) : Prop :=
  cur r <> DOUBLE_ARROW /\ cur r <> LPAREN /\ cur r <> DOT /\ cur r <> LBRACKET /\
  forall p, precedence (cur r) = Some p -> p <= l /\ (l = 7 -> p < 7).
Definition folC (r : list token) : Prop :=
  fol 0 r /\ (cur r = IF -> forall k, (4 * length r <= k)%nat ->
    exists e r', r_bin (build k) 0 (adv r) = POk e r' /\ cur r' <> ELSE).
Lemma prec_pos t p : precedence t = Some p -> 1 <= p <= 7.
Proof. destruct t; simpl; intros H; try discriminate; injection H as <-; lia. Qed.
Lemma fol_le l l' r : fol l r -> l <= l' -> (l' = 7 -> l < 7 \/ l = 7) -> fol l' r.
Proof.
  intros (H1 & H2 & H3 & H4 & H5) Hl H7. repeat split; auto.
  - apply H5 in H. lia.
  - intros ->. apply H5 in H as [? ?]. lia.
Qed.
Definition plain (t : ttype) : Prop :=
  t <> DOUBLE_ARROW /\ t <> LPAREN /\ t <> DOT /\ t <> LBRACKET /\ precedence t = None.
Lemma plain_fol l r : plain (cur r) -> fol l r.
Proof. intros (H1 & H2 & H3 & H4 & H5). repeat split; auto; rewrite H5 in H; discriminate. Qed.
Lemma plain_folC r : plain (cur r) -> cur r <> IF -> folC r.
Proof. intros H H2. split; [apply plain_fol; auto|]. congruence. Qed.

(** First tokens. *)
Definition starter (t : ttype) : Prop :=
  In t [INT_LITERAL; FLOAT_LITERAL; STRING_LITERAL; BOOL_LITERAL; IDENTIFIER; LPAREN; LBRACKET; LBRACE; NOT; MINUS].
Definition second (t : ttype) : Prop := (exists p, precedence t = Some p) \/ In t [LPAREN; DOT; LBRACKET; IF].
Definition FT (ts : list token) : Prop :=
  ts <> [] /\ starter (cur ts) /\ (cur ts = IDENTIFIER -> tl ts = [] \/ second (cur (tl ts))).
Lemma FT_app ts t r : FT ts -> second (t_type t) -> FT (ts ++ t :: r).
Proof.
  intros (H1 & H2 & H3) Ht. destruct ts as [|x ts]; [congruence|]. split; [discriminate|]. split; [exact H2|].
  intros H. right. destruct (H3 H) as [Hn|Hs]; simpl in *.
  - subst ts. exact Ht.
  - destruct ts; simpl in *; auto.
Qed.

Definition P10 (e : expr) (ts : list token) : Prop := forall n rest,
  (4 * length (ts ++ rest) <= n)%nat -> fol10 rest ->
  exists e0 r0, parse_primary (build n) (ts ++ rest) = POk e0 r0 /\
    forall e' r', runs (postfix_step (build n)) e rest e' r' -> runs (postfix_step (build n)) e0 r0 e' r'.
Definition P9 (e : expr) (ts : list token) : Prop := forall n rest,
  (4 * length (ts ++ rest) <= n)%nat -> fol9 rest ->
  exists e0 r0, parse_primary (build n) (ts ++ rest) = POk e0 r0 /\
    forall e' r', runs (postfix_step (build n)) e rest e' r' -> runs (postfix_step (build n)) e0 r0 e' r'.
Definition U8 (e : expr) (ts : list token) : Prop := forall n rest,
  (4 * length (ts ++ rest) + 1 <= n)%nat -> fol 8 rest -> r_un (build n) (ts ++ rest) = POk e rest.
Definition B (l : Z) (e : expr) (ts : list token) : Prop := forall n m rest, m <= l ->
  (4 * length (ts ++ rest) + 1 <= n)%nat -> fol l rest ->
  exists e0 r0, r_un (build n) (ts ++ rest) = POk e0 r0 /\
    forall e' r', runs (binary_step (build n) m) e rest e' r' -> runs (binary_step (build n) m) e0 r0 e' r'.
Definition C (e : expr) (ts : list token) : Prop := forall rest, folC rest ->
  (forall n, (4 * length (ts ++ rest) + 3 <= n)%nat -> r_cond (build n) (ts ++ rest) = POk e rest) /\
  (cur rest <> ELSE -> forall k, (4 * length (ts ++ rest) + 2 <= k)%nat ->
    exists e1 r1, r_bin (build k) 0 (ts ++ rest) = POk e1 r1 /\ cur r1 <> ELSE).

Lemma B_bin l e ts n m rest : B l e ts -> m <= l -> (4 * length (ts ++ rest) + 2 <= n)%nat -> fol l rest ->
  (forall p, precedence (cur rest) = Some p -> p < m) -> r_bin (build n) m (ts ++ rest) = POk e rest.
Proof.
  intros HB Hm Hn Hf Hp. destruct n as [|n]; [lia|]. cbn [build step r_bin].
  unfold parse_binary. destruct (HB n m rest Hm ltac:(lia) Hf) as (e0 & r0 & H1 & H2).
  rewrite H1. cbn [bind]. apply runs_while. apply H2. apply runs_stop. unfold binary_step.
  destruct (precedence (cur rest)) as [p|] eqn:E; auto.
  specialize (Hp p eq_refl). destruct (p <? m) eqn:E2; auto. apply Z.ltb_ge in E2. lia.
Qed.
Lemma cond_of_bin e ts rest : folC rest ->
  (forall k, (4 * length (ts ++ rest) + 2 <= k)%nat -> r_bin (build k) 0 (ts ++ rest) = POk e rest) ->
  ts <> [] ->
  (forall n, (4 * length (ts ++ rest) + 3 <= n)%nat -> r_cond (build n) (ts ++ rest) = POk e rest) /\
  (cur rest <> ELSE -> forall k, (4 * length (ts ++ rest) + 2 <= k)%nat ->
    exists e1 r1, r_bin (build k) 0 (ts ++ rest) = POk e1 r1 /\ cur r1 <> ELSE).
Proof.
  intros Hf H Hne. split.
  - intros n Hn. destruct n as [|n]; [lia|]. cbn [build step r_cond]. unfold parse_conditional.
    rewrite H by lia. cbn [bind]. destruct (check IF rest) eqn:E; auto.
    destruct Hf as [_ Hf]. destruct (Hf (check_eq _ _ E) n) as (e' & r' & H1 & H2).
    { rewrite app_length in Hn. lia. }
    rewrite H1. cbn [bind]. rewrite (check_ne ELSE) by auto. reflexivity.
  - intros Hc k Hk. exists e, rest. auto.
Qed.
Lemma C_of_B1 e ts : ts <> [] -> B 1 e ts -> C e ts.
Proof.
  intros Hne HB rest Hf. apply cond_of_bin; auto. intros k Hk. destruct Hf as [Hf _].
  apply (B_bin 1); auto; [lia| |].
  - eapply fol_le; eauto; lia.
  - intros p Hp. pose proof (prec_pos _ _ Hp). apply Hf in Hp. lia.
Qed.
Lemma C_of_U e ts : ts <> [] ->
  (forall n rest, folC rest -> (4 * length (ts ++ rest) + 1 <= n)%nat -> r_un (build n) (ts ++ rest) = POk e rest) ->
  C e ts.
Proof.
  intros Hne HU rest Hf. apply cond_of_bin; auto. intros k Hk. destruct k as [|k]; [lia|].
  cbn [build step r_bin]. unfold parse_binary. rewrite (HU k rest Hf) by lia. cbn [bind].
  apply runs_while. apply runs_stop. unfold binary_step. destruct (precedence (cur rest)) as [p|] eqn:E; auto.
  destruct Hf as [Hf _]. pose proof (prec_pos _ _ E). apply Hf in E. lia.
Qed.
Lemma postfix_stop R e r : cur r <> LPAREN -> cur r <> DOT -> cur r <> LBRACKET ->
  runs (postfix_step R) e r e r.
Proof.
  intros. apply runs_stop. unfold postfix_step. rewrite !check_ne by auto. reflexivity.
Qed.
Lemma unary_of_primary n e ts r0 e0 rest : cur ts <> NOT -> cur ts <> MINUS -> ts <> [] ->
  parse_primary (build n) (ts ++ rest) = POk e0 r0 -> runs (postfix_step (build n)) e0 r0 e rest ->
  r_un (build (S n)) (ts ++ rest) = POk e rest.
Proof.
  intros H1 H2 H3 H4 H5. cbn [build step r_un]. unfold parse_unary.
  rewrite !check_ne by (rewrite cur_app by auto; auto). cbn [orb].
  unfold parse_postfix. rewrite H4. cbn [bind]. apply runs_while. auto.
Qed.
Lemma U8_of_P9 e ts : ts <> [] -> cur ts <> NOT -> cur ts <> MINUS -> P9 e ts -> U8 e ts.
Proof.
  intros Hne H1 H2 HP n rest Hn Hf. destruct n as [|n]; [lia|].
  destruct Hf as (F1 & F2 & F3 & F4 & _).
  destruct (HP n rest ltac:(lia) (conj F1 F2)) as (e0 & r0 & H3 & H4).
  eapply unary_of_primary; eauto. apply H4. apply postfix_stop; auto.
Qed.
Lemma P9_of_P10 e ts : P10 e ts -> P9 e ts.
Proof. intros H n rest Hn [Hf _]. apply H; auto. Qed.
Lemma B_of_U8 e ts : U8 e ts -> B 7 e ts.
Proof.
  intros HU n m rest Hm Hn Hf. exists e, rest. split; [|auto]. apply HU; auto.
  destruct Hf as (F1 & F2 & F3 & F4 & F5). repeat split; auto; [|lia].
  apply F5 in H. lia.
Qed.
Lemma B_up l e ts : 1 <= l <= 6 -> B (l + 1) e ts -> B l e ts.
Proof. intros Hl HB n m rest Hm Hn Hf. apply HB; auto; [lia|]. eapply fol_le; eauto; lia. Qed.

(** Operators. *)
Lemma left_op_prec l op : left_op l op -> precedence op = Some l /\ right_associative op = false /\ 1 <= l <= 6 /\ op <> EOF.
Proof.
  intros (ops & H1 & H2). simpl in H1.
  repeat (destruct H1 as [H1|H1]; [injection H1 as <- <-; simpl in H2;
    repeat (destruct H2 as [<-|H2]; [repeat split; try reflexivity; try lia; discriminate|]); contradiction|]).
  contradiction.
Qed.
Lemma bin_step n m x op o y tsy rest p : t_type o = op -> precedence op = Some p -> m <= p ->
  r_bin (build n) (if right_associative op then p else p + 1) (tsy ++ rest) = POk y rest ->
  binary_step (build n) m x (o :: tsy ++ rest) = POk (EBin x op y, true) rest.
Proof.
  intros Ho Hp Hm Hy. unfold binary_step. simpl cur. rewrite Ho, Hp.
  replace (p <? m) with false by (symmetry; apply Z.ltb_ge; lia).
  rewrite adv_cons by (rewrite Ho; eapply prec_not_eof; eauto). rewrite Hy. reflexivity.
Qed.
Lemma prec_fol l o r p : precedence (t_type o) = Some p -> p <= l -> (l = 7 -> p < 7) -> fol l (o :: r).
Proof.
  intros H Hl H7. unfold fol. simpl cur. destruct (t_type o) eqn:E; try discriminate;
    (repeat split; try discriminate; intros); try (rewrite H in *); try congruence;
    match goal with H0 : Some _ = Some _ |- _ => injection H0 as <- | _ => idtac end; auto;
    try (simpl in *; congruence); try (injection H as <-; injection H0 as <-; lia).
Qed.
Lemma B_left l op x tsx o y tsy : left_op l op -> B l x tsx -> tk op o -> B (l + 1) y tsy ->
  tsy <> [] -> B l (EBin x op y) (tsx ++ o :: tsy).
Proof.
  intros Hop Bx Ho By Hne n m rest Hm Hn Hf.
  destruct (left_op_prec _ _ Hop) as (Hp & Hr & Hl & _).
  rewrite <- app_assoc in *. simpl in *.
  assert (precedence (t_type o) = Some l) as Hp' by (rewrite Ho; auto).
  destruct (Bx n m (o :: tsy ++ rest) Hm Hn ltac:(eapply prec_fol; eauto; lia)) as (e0 & r0 & H1 & H2).
  exists e0, r0. split; auto. intros e' r' Hrun. apply H2.
  eapply runs_go; [eapply bin_step; eauto|simpl; rewrite app_length; lia|exact Hrun].
  rewrite Hr. apply (B_bin (l + 1)); auto; [lia| |eapply fol_le; eauto; lia|].
  - rewrite app_length in Hn. simpl in Hn. lia.
  - intros p H. apply Hf in H. lia.
Qed.
Lemma B_pow x tsx o y tsy : U8 x tsx -> tk DOUBLE_STAR o -> B 7 y tsy -> B 7 (EBin x DOUBLE_STAR y) (tsx ++ o :: tsy).
Proof.
  intros Ux Ho By n m rest Hm Hn Hf. rewrite <- app_assoc in *. simpl in *.
  assert (precedence (t_type o) = Some 7) as Hp' by (rewrite Ho; auto).
  exists x, (o :: tsy ++ rest). split; [apply Ux; auto; eapply prec_fol; eauto; lia|].
  intros e' r' Hrun. eapply runs_go; [apply (bin_step n m x DOUBLE_STAR o y tsy rest 7 Ho eq_refl Hm)| |exact Hrun].
  - apply (B_bin 7); auto; [simpl; lia| |].
    + rewrite app_length in Hn. simpl in Hn. lia.
    + simpl. intros p H. apply Hf in H. lia.
  - simpl. rewrite app_length. lia.
Qed.
Lemma U8_un op o e ts : op = NOT \/ op = MINUS -> tk op o -> U8 e ts -> U8 (EUn op e) (o :: ts).
Proof.
  intros Hop Ho HU n rest Hn Hf. destruct n as [|n]; [lia|]. cbn [build step r_un]. unfold parse_unary.
  simpl in Hn. simpl app.
  assert (check NOT (o :: ts ++ rest) || check MINUS (o :: ts ++ rest) = true) as Hc.
  { rewrite !check_hd. rewrite Ho. destruct Hop as [-> | ->]; reflexivity. }
  rewrite Hc. rewrite adv_cons by (rewrite Ho; destruct Hop as [-> | ->]; discriminate).
  rewrite HU; auto; [|lia]. simpl. rewrite Ho. reflexivity.
Qed.
