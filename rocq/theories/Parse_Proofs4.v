(** Primaries and the induction over the grammar. *)
From Coq Require Import ZArith String List Bool Lia.
From Verif Require Import Dict Lex_Model Lex_Proofs2 Ast Parse_Model Parse_Spec Parse_Proofs Parse_Proofs3.
Import ListNotations.
Open Scope Z_scope.
Open Scope list_scope.

Scheme G_ind' := Induction for G Sort Prop
  with GN_ind' := Induction for GN Sort Prop
  with GMore_ind' := Induction for GMore Sort Prop
  with GC_ind' := Induction for GC Sort Prop
  with GI_ind' := Induction for GI Sort Prop
  with GCs_ind' := Induction for GCs Sort Prop
  with GE1_ind' := Induction for GE1 Sort Prop
  with GEs_ind' := Induction for GEs Sort Prop
  with GArgs_ind' := Induction for GArgs Sort Prop
  with GA1_ind' := Induction for GA1 Sort Prop
  with GAs_ind' := Induction for GAs Sort Prop.

(** The loop bodies of the model, named. *)
Definition names_body (acc : list name) (ts : list token) : pres (list name * bool) :=
  if check COMMA ts then
    let ts := adv ts in
    if check IDENTIFIER ts then POk (acc ++ [strval (curval ts)], true) (adv ts)
    else POk (acc, false) ts
  else POk (acc, false) ts.
Definition more_body (R : rec) (acc : list expr) (ts : list token) : pres (list expr * bool) :=
  if check COMMA ts then
    let ts := adv ts in
    if check RBRACKET ts then POk (acc, false) ts
    else do a, r <- r_expr R ts; POk (acc ++ [a], true) r
  else POk (acc, false) ts.
Definition conds_body (R : rec) (acc : list expr) (ts : list token) : pres (list expr * bool) :=
  if check IF ts then do c, r <- r_expr R (adv ts); POk (acc ++ [c], true) r
  else POk (acc, false) ts.
Definition clauses_body (R : rec) (acc : list (name * expr * list expr)) (ts : list token) :=
  if check FOR ts then do c, r <- parse_clause R ts; POk (acc ++ [c], true) r
  else POk (acc, false) ts.
Definition entries_body (R : rec) (d : list (name * expr)) (ts : list token) : pres (list (name * expr) * bool) :=
  if check COMMA ts then
    let ts := adv ts in
    if check RBRACE ts then POk (d, false) ts
    else do d, r <- parse_entry R d ts; POk (d, true) r
  else POk (d, false) ts.
Definition args_body (R : rec) (a : args_st) (ts : list token) : pres (args_st * bool) :=
  if check COMMA ts then
    let ts := adv ts in
    if check RPAREN ts then POk (a, false) ts
    else do a, r <- parse_argument R a ts; POk (a, true) r
  else POk (a, false) ts.

Definition SN (ps : list name) (ts : list token) : Prop := forall acc rest, cur rest <> COMMA ->
  runs names_body acc (ts ++ rest) (acc ++ ps) rest.
Definition SMore (l : list expr) (ts : list token) : Prop :=
  (ts = [] \/ cur ts = COMMA) /\
  forall n acc rest, (4 * length (ts ++ rest) <= n)%nat -> cur rest = RBRACKET ->
  runs (more_body (build n)) acc (ts ++ rest) (acc ++ l) rest.
Definition clause_end (t : ttype) : Prop := t = FOR \/ t = RBRACKET.
Definition SI (cs : list expr) (ts : list token) : Prop :=
  (ts = [] \/ cur ts = IF) /\
  forall rest, clause_end (cur rest) -> folC (ts ++ rest) /\
  forall n acc, (4 * length (ts ++ rest) <= n)%nat ->
  runs (conds_body (build n)) acc (ts ++ rest) (acc ++ cs) rest.
Definition SC (c : name * expr * list expr) (ts : list token) : Prop :=
  cur ts = FOR /\ ts <> [] /\
  forall n rest, (4 * length (ts ++ rest) <= n)%nat -> clause_end (cur rest) ->
  parse_clause (build n) (ts ++ rest) = POk c rest.
Definition SCs (l : list (name * expr * list expr)) (ts : list token) : Prop :=
  (ts = [] \/ cur ts = FOR) /\
  forall n acc rest, (4 * length (ts ++ rest) <= n)%nat -> cur rest = RBRACKET ->
  runs (clauses_body (build n)) acc (ts ++ rest) (acc ++ l) rest.
Definition entry_end (t : ttype) : Prop := t = COMMA \/ t = RBRACE.
Definition SE1 (d d' : list (name * expr)) (ts : list token) : Prop :=
  (cur ts = STRING_LITERAL \/ cur ts = IDENTIFIER) /\ ts <> [] /\
  forall n rest, (4 * length (ts ++ rest) <= n)%nat -> entry_end (cur rest) ->
  parse_entry (build n) d (ts ++ rest) = POk d' rest.
Definition SEs (d d' : list (name * expr)) (ts : list token) : Prop :=
  (ts = [] \/ cur ts = COMMA) /\
  forall n rest, (4 * length (ts ++ rest) <= n)%nat -> cur rest = RBRACE ->
  runs (entries_body (build n)) d (ts ++ rest) d' rest.
Definition SArgs (a : list expr) (na : list (name * expr)) (ts : list token) : Prop :=
  cur ts = LPAREN /\ ts <> [] /\
  forall n rest, (4 * length (ts ++ rest) <= n)%nat ->
  parse_arguments (build n) (ts ++ rest) = POk (a, na) rest.
Definition arg_end (t : ttype) : Prop := t = COMMA \/ t = RPAREN.
Definition SA1 (a : list expr) (na : list (name * expr)) (a' : list expr) (na' : list (name * expr)) (ts : list token) : Prop :=
  ts <> [] /\ cur ts <> RPAREN /\
  forall n rest, (4 * length (ts ++ rest) + 3 <= n)%nat -> arg_end (cur rest) ->
  parse_argument (build n) (a, na) (ts ++ rest) = POk (a', na') rest.
Definition SAs (a : list expr) (na : list (name * expr)) (a' : list expr) (na' : list (name * expr)) (ts : list token) : Prop :=
  (ts = [] \/ cur ts = COMMA) /\
  forall n rest, (4 * length (ts ++ rest) <= n)%nat -> cur rest = RPAREN ->
  runs (args_body (build n)) (a, na) (ts ++ rest) (a', na') rest.

Definition SG (l : Z) (e : expr) (ts : list token) : Prop :=
  0 <= l <= 10 /\ FT ts /\ (l = 10 -> cur ts <> NOT /\ cur ts <> MINUS /\ P10 e ts) /\ (l = 9 -> cur ts <> NOT /\ cur ts <> MINUS /\ P9 e ts) /\
  (l = 8 -> U8 e ts) /\ (1 <= l <= 7 -> B l e ts) /\ (l = 0 -> C e ts).

Lemma SG_10 e ts : FT ts -> cur ts <> NOT -> cur ts <> MINUS -> P10 e ts -> SG 10 e ts.
Proof. intros. unfold SG. split; [lia|]. split; [auto|]. split; [auto|]. split; [lia|]. split; [lia|]. split; lia. Qed.
Lemma SG_9 e ts : FT ts -> cur ts <> NOT -> cur ts <> MINUS -> P9 e ts -> SG 9 e ts.
Proof. intros. unfold SG. split; [lia|]. split; [auto|]. split; [lia|]. split; [auto|]. split; [lia|]. split; lia. Qed.
Lemma SG_8 e ts : FT ts -> U8 e ts -> SG 8 e ts.
Proof. intros. unfold SG. split; [lia|]. split; [auto|]. split; [lia|]. split; [lia|]. split; [auto|]. split; lia. Qed.
Lemma SG_0 e ts : FT ts -> C e ts -> SG 0 e ts.
Proof. intros. unfold SG. split; [lia|]. split; [auto|]. split; [lia|]. split; [lia|]. split; [lia|]. split; [lia|auto]. Qed.
Lemma SG_b l e ts : 1 <= l <= 7 -> FT ts -> B l e ts -> SG l e ts.
Proof. intros. unfold SG. split; [lia|]. split; [auto|]. split; [lia|]. split; [lia|]. split; [lia|]. split; [auto|lia]. Qed.
Lemma SG_C e ts : SG 0 e ts -> C e ts.
Proof. intros (_ & _ & _ & _ & _ & _ & H). auto. Qed.
Lemma SG_FT l e ts : SG l e ts -> FT ts. Proof. intros (_ & H & _). auto. Qed.
Lemma SG_ne l e ts : SG l e ts -> ts <> []. Proof. intros (_ & (H & _) & _). auto. Qed.
Lemma SG_B l e ts : 1 <= l <= 7 -> SG l e ts -> B l e ts.
Proof. intros Hl (_ & _ & _ & _ & _ & H & _). auto. Qed.
Lemma SG_U e ts : SG 8 e ts -> U8 e ts.
Proof. intros (_ & _ & _ & _ & H & _). auto. Qed.

(** Using a whole-expression phrase inside a longer stream. *)
Lemma use_C e ts n rest : SG 0 e ts -> folC rest -> (4 * length (ts ++ rest) + 3 <= n)%nat ->
  r_expr (build n) (ts ++ rest) = POk e rest.
Proof. intros H Hf Hn. apply (SG_C _ _ H rest Hf). exact Hn. Qed.
Lemma starter_not l e ts r t : SG l e ts -> ~ starter t -> cur (ts ++ r) <> t.
Proof.
  intros (_ & (H1 & H2 & _) & _) Hn. rewrite cur_app by auto. intros <-. contradiction.
Qed.
Ltac nst := unfold starter; simpl; intuition discriminate.
Ltac len := repeat first [rewrite app_length in * | progress simpl length in *]; lia.
Ltac pl H := apply plain_folC; [|]; (rewrite ?H; simpl; try discriminate; repeat split; try discriminate; try reflexivity).
Lemma tk_cur ty t r : tk ty t -> cur (t :: r) = ty. Proof. auto. Qed.

Lemma SG_up l e ts : 0 <= l <= 9 -> SG (l + 1) e ts -> SG l e ts.
Proof.
  intros Hl H. pose proof (SG_FT _ _ _ H) as Hft. pose proof (SG_ne _ _ _ H) as Hne.
  destruct H as (_ & _ & H10 & H9 & H8 & HB & _).
  assert (l = 9 \/ l = 8 \/ l = 7 \/ 1 <= l <= 6 \/ l = 0) as [-> | [-> | [-> | [Hl' | ->]]]] by lia.
  - destruct (H10 eq_refl) as (A & D & E). apply SG_9; auto. apply P9_of_P10; auto.
  - destruct (H9 eq_refl) as (A & D & E). apply SG_8; auto. apply U8_of_P9; auto.
  - apply SG_b; [lia|auto|]. apply B_of_U8. auto.
  - apply SG_b; [lia|auto|]. apply B_up; auto; apply HB; lia.
  - apply SG_0; auto. apply C_of_B1; [auto|apply HB; lia].
Qed.

Lemma second_op op : (exists p, precedence op = Some p) -> second op. Proof. left; auto. Qed.
Lemma FT_1 t r : starter (t_type t) -> t_type t <> IDENTIFIER -> FT (t :: r).
Proof. intros H1 H2. repeat split; [discriminate|exact H1|]. simpl. congruence. Qed.

Lemma c_cond t tst i c tsc el f tsf : SG 1 t tst -> tk IF i -> SG 1 c tsc -> tk ELSE el -> SG 0 f tsf ->
  SG 0 (ECond c t f) (tst ++ i :: tsc ++ el :: tsf).
Proof.
  intros Ht Hi Hc He Hf. apply SG_0.
  { apply FT_app; [eapply SG_FT; eauto|]. right. rewrite Hi. simpl; auto. }
  intros rest Hfol. rewrite <- app_assoc. simpl. rewrite <- app_assoc. simpl.
  assert (forall k, (4 * length (tst ++ i :: tsc ++ el :: tsf ++ rest) + 2 <= k)%nat ->
    r_bin (build k) 0 (tst ++ i :: tsc ++ el :: tsf ++ rest) = POk t (i :: tsc ++ el :: tsf ++ rest)) as H1.
  { intros k Hk. apply (B_bin 1); auto; [apply SG_B; auto; lia|lia| |].
    - apply plain_fol. simpl. rewrite Hi. repeat split; discriminate.
    - simpl. rewrite Hi. discriminate. }
  split.
  - intros n Hn. destruct n as [|n]; [lia|]. cbn [build step r_cond]. unfold parse_conditional.
    rewrite H1 by lia. cbn [bind]. rewrite (check_tk IF), (adv_tk IF) by (auto; discriminate).
    rewrite (B_bin 1 c tsc n 0 (el :: tsf ++ rest)).
    + cbn [bind]. rewrite (check_tk ELSE), (adv_tk ELSE) by (auto; discriminate).
      rewrite (proj1 (SG_C _ _ Hf rest Hfol)); [reflexivity|]. len.
    + apply SG_B; auto; lia.
    + lia.
    + len.
    + apply plain_fol. simpl. rewrite He. repeat split; discriminate.
    + simpl. rewrite He. discriminate.
  - intros Hce k Hk. do 2 eexists. split; [apply H1; auto|]. simpl. rewrite Hi. discriminate.
Qed.

(** Lambdas: [r_un] on them gives the lambda. *)
Lemma primary_paren R ts : check LPAREN ts = true -> parse_primary R ts = parse_grouped_or_lambda R ts.
Proof.
  intros H. apply check_eq in H. unfold parse_primary. unfold check. rewrite H. reflexivity.
Qed.
Lemma c_lambda0 lp rp ar b tsb : tk LPAREN lp -> tk RPAREN rp -> tk DOUBLE_ARROW ar -> SG 0 b tsb ->
  SG 0 (ELambda [] b) (lp :: rp :: ar :: tsb).
Proof.
  intros H1 H2 H3 Hb. apply SG_0; [apply FT_1; rewrite H1; [unfold starter; simpl; auto 12|discriminate]|].
  apply C_of_U; [discriminate|]. intros n rest Hf Hn. destruct n as [|n]; [lia|].
  apply (unary_of_primary n _ _ rest (ELambda [] b)).
  - simpl. rewrite H1. discriminate.
  - simpl. rewrite H1. discriminate.
  - discriminate.
  - simpl app. rewrite primary_paren by (apply check_tk; auto). unfold parse_grouped_or_lambda.
    rewrite (adv_tk LPAREN) by (auto; discriminate). cbv zeta.
    rewrite (check_tk RPAREN), (adv_tk RPAREN) by (auto; discriminate).
    rewrite (check_tk DOUBLE_ARROW), (adv_tk DOUBLE_ARROW) by (auto; discriminate).
    rewrite use_C with (e := b) (rest := rest); auto. len.
  - destruct Hf as [(F1 & F2 & F3 & F4 & _) _]. apply postfix_stop; auto.
Qed.
Lemma ident_tk n t : ident n t -> tk IDENTIFIER t /\ strval (t_value t) = n.
Proof. intros [H1 H2]. split; auto. rewrite H2. reflexivity. Qed.
Lemma c_lambda lp p ps tps rp ar b tsb pt : tk LPAREN lp -> ident p pt -> SN ps tps -> tk RPAREN rp ->
  tk DOUBLE_ARROW ar -> SG 0 b tsb -> SG 0 (ELambda (p :: ps) b) (lp :: pt :: tps ++ rp :: ar :: tsb).
Proof.
  intros H1 Hp Hps H2 H3 Hb. apply ident_tk in Hp as [Hp Hv].
  apply SG_0; [apply FT_1; rewrite H1; [unfold starter; simpl; auto 12|discriminate]|].
  apply C_of_U; [discriminate|]. intros n rest Hf Hn. destruct n as [|n]; [lia|].
  apply (unary_of_primary n _ _ rest (ELambda (p :: ps) b)).
  - simpl. rewrite H1. discriminate.
  - simpl. rewrite H1. discriminate.
  - discriminate.
  - simpl app. rewrite <- app_assoc. simpl app.
    rewrite primary_paren by (apply check_tk; auto). unfold parse_grouped_or_lambda.
    rewrite (adv_tk LPAREN) by (auto; discriminate). cbv zeta.
    rewrite (check_ne RPAREN) by (simpl; rewrite Hp; discriminate).
    rewrite (check_tk IDENTIFIER), (adv_tk IDENTIFIER) by (auto; discriminate).
    unfold param_names. cbn [curval]. rewrite Hv.
    rewrite (runs_while names_body [p] _ ([p] ++ ps) (rp :: ar :: tsb ++ rest)).
    2: { apply Hps. simpl. rewrite H2. discriminate. }
    cbn [bind]. rewrite (check_tk RPAREN), (adv_tk RPAREN) by (auto; discriminate).
    rewrite (check_tk DOUBLE_ARROW), (adv_tk DOUBLE_ARROW) by (auto; discriminate). cbn [andb].
    rewrite use_C with (e := b) (rest := rest); auto. len.
  - destruct Hf as [(F1 & F2 & F3 & F4 & _) _]. apply postfix_stop; auto.
Qed.

(** Primaries of level 10. *)
Lemma P10_prim e ts : (forall n rest, (4 * length (ts ++ rest) <= n)%nat -> fol10 rest ->
    parse_primary (build n) (ts ++ rest) = POk e rest) -> P10 e ts.
Proof. intros H n rest Hn Hf. exists e, rest. split; auto. Qed.
Lemma c_lit t : In (t_type t) literal_types -> SG 10 (ELit (t_value t) (t_type t)) [t].
Proof.
  intros H. assert (starter (t_type t)) as Hs by (unfold starter; simpl in *; intuition auto).
  apply SG_10; simpl.
  - apply FT_1; auto. intros E. rewrite E in H. simpl in H. intuition discriminate.
  - intros E. rewrite E in H. simpl in H. intuition discriminate.
  - intros E. rewrite E in H. simpl in H. intuition discriminate.
  - apply P10_prim. intros n rest _ _. simpl. unfold parse_primary. simpl cur.
    assert (is_literal (t_type t) = true) as Hl by (destruct H as [E|[E|[E|[E|[]]]]]; rewrite <- E; reflexivity).
    rewrite Hl, adv_cons; auto. intros E. rewrite E in H. simpl in H. intuition discriminate.
Qed.
Lemma c_id n t : ident n t -> SG 10 (EId n) [t].
Proof.
  intros H. apply ident_tk in H as [H Hv]. apply SG_10; simpl; try (rewrite H; discriminate).
  - repeat split; [discriminate|simpl; rewrite H; unfold starter; simpl; auto 12|]. auto.
  - apply P10_prim. intros k rest _ _. simpl. unfold parse_primary. simpl cur. rewrite H. cbn [is_literal].
    rewrite (check_tk IDENTIFIER), (adv_tk IDENTIFIER) by (auto; discriminate). simpl. rewrite Hv. reflexivity.
Qed.
Lemma c_paren lp e ts rp : tk LPAREN lp -> SG 0 e ts -> tk RPAREN rp -> SG 10 e (lp :: ts ++ [rp]).
Proof.
  intros H1 He H2. pose proof (SG_FT _ _ _ He) as (F1 & F2 & F3). apply SG_10; try (simpl; rewrite H1; discriminate).
  { apply FT_1; rewrite H1; [unfold starter; simpl; auto 12|discriminate]. }
  apply P10_prim. intros n rest Hn Hf. simpl app. rewrite <- app_assoc. simpl app.
  rewrite primary_paren by (apply check_tk; auto). unfold parse_grouped_or_lambda.
  rewrite (adv_tk LPAREN) by (auto; discriminate). cbv zeta.
  rewrite (check_ne RPAREN) by (eapply starter_not; eauto; nst).
  assert (parse_grouped (build n) (ts ++ rp :: rest) = POk e rest) as Hg.
  { unfold parse_grouped. rewrite use_C with (e := e) (rest := rp :: rest); auto.
    - cbn [bind]. rewrite (consume_tk RPAREN) by (auto; discriminate). reflexivity.
    - pl H2.
    - len. }
  destruct (check IDENTIFIER (ts ++ rp :: rest)) eqn:E; [|exact Hg].
  destruct ts as [|t0 ts]; [congruence|]. simpl in F3. apply check_eq in E. simpl in E. specialize (F3 E).
  simpl app. rewrite adv_cons by (rewrite E; discriminate).
  simpl app in Hg.
  assert (cur (ts ++ rp :: rest) <> COMMA) as Hnc.
  { destruct F3 as [-> | F3]; [simpl; rewrite H2; discriminate|].
    destruct ts as [|t1 ts]; [simpl; rewrite H2; discriminate|]. simpl in F3 |- *.
    intros Hx. rewrite Hx in F3. destruct F3 as [[p Hp]|Hin]; [discriminate|]. simpl in Hin. intuition discriminate. }
  unfold param_names. rewrite (runs_while names_body _ _ [strval (curval (t0 :: ts ++ rp :: rest))] (ts ++ rp :: rest)).
  2: { apply runs_stop. unfold names_body. rewrite check_ne by auto. reflexivity. }
  cbn [bind].
  destruct F3 as [-> | F3].
  - simpl app. rewrite (check_tk RPAREN), (adv_tk RPAREN) by (auto; discriminate).
    rewrite (check_ne DOUBLE_ARROW) by auto. cbn [andb]. exact Hg.
  - assert (cur (ts ++ rp :: rest) <> RPAREN) as Hnp.
    { destruct ts as [|t1 ts]; [simpl in F3; destruct F3 as [[p Hp]|Hin]; [discriminate|simpl in Hin; intuition discriminate]|].
      simpl in F3 |- *. intros Hx. rewrite Hx in F3. destruct F3 as [[p Hp]|Hin]; [discriminate|].
      simpl in Hin. intuition discriminate. }
    rewrite (check_ne RPAREN) by auto. cbn [andb]. exact Hg.
Qed.
Lemma primary_bracket R ts : check LBRACKET ts = true -> parse_primary R ts = parse_list_literal R ts.
Proof. intros H. apply check_eq in H. unfold parse_primary. unfold check. rewrite H. reflexivity. Qed.
Lemma SG_10_br lb r e : tk LBRACKET lb \/ tk LBRACE lb -> P10 e (lb :: r) -> SG 10 e (lb :: r).
Proof.
  intros H HP. apply SG_10; auto; try (simpl; destruct H as [H|H]; rewrite H; discriminate).
  apply FT_1; destruct H as [H|H]; rewrite H; try discriminate; unfold starter; simpl; auto 12.
Qed.
Lemma c_list0 lb rb : tk LBRACKET lb -> tk RBRACKET rb -> SG 10 (EList []) [lb; rb].
Proof.
  intros H1 H2. apply SG_10_br; auto. apply P10_prim. intros n rest _ _. simpl app.
  rewrite primary_bracket by (apply check_tk; auto). unfold parse_list_literal.
  rewrite (adv_tk LBRACKET) by (auto; discriminate). cbv zeta.
  rewrite (check_tk RBRACKET), (adv_tk RBRACKET) by (auto; discriminate). reflexivity.
Qed.
Lemma cur_or (ts rest : list token) ty : (ts = [] \/ cur ts = ty) ->
  cur (ts ++ rest) = cur rest \/ cur (ts ++ rest) = ty.
Proof. intros [-> | H]; [left; reflexivity|]. destruct ts; [left; reflexivity|right; exact H]. Qed.
Ltac listhead H1 :=
  simpl app; rewrite primary_bracket by (apply check_tk; auto); unfold parse_list_literal;
  rewrite (adv_tk LBRACKET) by (auto; discriminate); cbv zeta;
  rewrite (check_ne RBRACKET) by (eapply starter_not; eauto; nst).
Lemma c_list lb e ts l tl rb : tk LBRACKET lb -> SG 0 e ts -> SMore l tl -> tk RBRACKET rb ->
  SG 10 (EList (e :: l)) (lb :: ts ++ tl ++ [rb]).
Proof.
  intros H1 He [Hs Hl] H2. apply SG_10_br; auto. apply P10_prim. intros n rest Hn _.
  replace ((lb :: ts ++ tl ++ [rb]) ++ rest) with (lb :: ts ++ (tl ++ (rb :: rest))) in *
    by (simpl; rewrite <- !app_assoc; reflexivity).
  listhead H1.
  assert (cur (tl ++ rb :: rest) = RBRACKET \/ cur (tl ++ rb :: rest) = COMMA) as Hcur.
  { destruct (cur_or tl (rb :: rest) COMMA Hs) as [E|E]; [left|right]; rewrite E; auto. }
  rewrite use_C with (e := e) (rest := tl ++ rb :: rest); auto.
  - cbn [bind]. rewrite (check_ne FOR), (check_ne RANGE) by (destruct Hcur as [E|E]; rewrite E; discriminate).
    unfold comma_list. rewrite (runs_while (more_body (build n)) _ _ ([e] ++ l) (rb :: rest)).
    + cbn [bind]. rewrite (consume_tk RBRACKET) by (auto; discriminate). reflexivity.
    + apply Hl; [len|auto].
  - destruct Hcur as [E|E]; pl E.
  - len.
Qed.
Lemma c_range lb a tsa r b tsb rb : tk LBRACKET lb -> SG 0 a tsa -> tk RANGE r -> SG 0 b tsb ->
  tk RBRACKET rb -> SG 10 (ERange a b) (lb :: tsa ++ r :: tsb ++ [rb]).
Proof.
  intros H1 Ha Hr Hb H2. apply SG_10_br; auto. apply P10_prim. intros n rest Hn _.
  replace ((lb :: tsa ++ r :: tsb ++ [rb]) ++ rest) with (lb :: tsa ++ (r :: tsb ++ (rb :: rest))) in *
    by (simpl; rewrite <- !app_assoc; simpl; rewrite <- !app_assoc; reflexivity).
  listhead H1. rewrite use_C with (e := a) (rest := r :: tsb ++ rb :: rest); auto.
  - cbn [bind]. rewrite (check_ne FOR) by (simpl; rewrite Hr; discriminate).
    rewrite (check_tk RANGE), (adv_tk RANGE) by (auto; discriminate).
    rewrite use_C with (e := b) (rest := rb :: rest); auto.
    + cbn [bind]. rewrite (consume_tk RBRACKET) by (auto; discriminate). reflexivity.
    + pl H2.
    + len.
  - pl Hr.
  - len.
Qed.
Lemma c_comp lb e ts c tc cl tcl rb : tk LBRACKET lb -> SG 0 e ts -> SC c tc -> SCs cl tcl ->
  tk RBRACKET rb -> SG 10 (EComp e (c :: cl)) (lb :: ts ++ tc ++ tcl ++ [rb]).
Proof.
  intros H1 He (Hc1 & Hc2 & Hc3) [Hs Hcl] H2. apply SG_10_br; auto. apply P10_prim. intros n rest Hn _.
  replace ((lb :: ts ++ tc ++ tcl ++ [rb]) ++ rest) with (lb :: ts ++ (tc ++ (tcl ++ (rb :: rest)))) in *
    by (simpl; rewrite <- !app_assoc; reflexivity).
  listhead H1.
  assert (cur (tc ++ tcl ++ rb :: rest) = FOR) as Hfor by (rewrite cur_app; auto).
  rewrite use_C with (e := e) (rest := tc ++ tcl ++ rb :: rest); auto.
  - cbn [bind]. rewrite (check_cur FOR) by auto.
    rewrite (runs_while (clauses_body (build n)) [] _ ([c] ++ cl) (rb :: rest)).
    + cbn [bind]. rewrite (consume_tk RBRACKET) by (auto; discriminate). reflexivity.
    + apply runs_go with (s1 := [] ++ [c]) (r1 := tcl ++ rb :: rest).
      * unfold clauses_body. rewrite (check_cur FOR) by auto. rewrite Hc3; [reflexivity|len|].
        unfold clause_end. destruct (cur_or tcl (rb :: rest) FOR Hs) as [E|E]; rewrite E; auto.
      * destruct tc; [congruence|]. len.
      * apply Hcl; [len|auto].
  - pl Hfor.
  - len.
Qed.
Lemma primary_brace R ts : check LBRACE ts = true ->
  parse_primary R ts = bind (parse_dict_entries R ts) (fun d r => POk (EDict d) r).
Proof. intros H. apply check_eq in H. unfold parse_primary. unfold check. rewrite H. reflexivity. Qed.
Lemma c_dict0 lb rb : tk LBRACE lb -> tk RBRACE rb -> SG 10 (EDict []) [lb; rb].
Proof.
  intros H1 H2. apply SG_10_br; auto. apply P10_prim. intros n rest _ _. simpl app.
  rewrite primary_brace by (apply check_tk; auto). unfold parse_dict_entries.
  rewrite (adv_tk LBRACE) by (auto; discriminate). cbv zeta. rewrite (check_tk RBRACE) by auto. cbn [bind].
  rewrite (consume_tk RBRACE) by (auto; discriminate). reflexivity.
Qed.
Lemma c_dict lb d0 t0 d td rb : tk LBRACE lb -> SE1 [] d0 t0 -> SEs d0 d td -> tk RBRACE rb ->
  SG 10 (EDict d) (lb :: t0 ++ td ++ [rb]).
Proof.
  intros H1 (He1 & He2 & He3) [Hs Hd] H2. apply SG_10_br; auto. apply P10_prim. intros n rest Hn _.
  replace ((lb :: t0 ++ td ++ [rb]) ++ rest) with (lb :: t0 ++ (td ++ (rb :: rest))) in *
    by (simpl; rewrite <- !app_assoc; reflexivity).
  simpl app. rewrite primary_brace by (apply check_tk; auto). unfold parse_dict_entries.
  rewrite (adv_tk LBRACE) by (auto; discriminate). cbv zeta.
  rewrite (check_ne RBRACE) by (rewrite cur_app by auto; destruct He1 as [E|E]; rewrite E; discriminate).
  rewrite He3; [|len|]. 2: { unfold entry_end. destruct (cur_or td (rb :: rest) COMMA Hs) as [E|E]; rewrite E; auto. }
  cbn [bind]. rewrite (runs_while (entries_body (build n)) d0 _ d (rb :: rest)).
  - cbn [bind]. rewrite (consume_tk RBRACE) by (auto; discriminate). reflexivity.
  - apply Hd; [len|auto].
Qed.

(** Postfix forms. *)
Lemma post_ft e ts tl : SG 9 e ts -> tl <> [] -> (cur tl = LPAREN \/ cur tl = DOT \/ cur tl = LBRACKET) ->
  FT (ts ++ tl) /\ cur (ts ++ tl) <> NOT /\ cur (ts ++ tl) <> MINUS.
Proof.
  intros (_ & Hft & _ & H9 & _) Hne Hcur. destruct (H9 eq_refl) as (N1 & N2 & _).
  rewrite cur_app by (apply Hft). split; auto.
  destruct tl as [|t tl]; [congruence|]. apply FT_app; auto. right. simpl in Hcur |- *. intuition auto.
Qed.
Lemma post_ft10 e ts tl : SG 10 e ts -> tl <> [] -> (cur tl = LPAREN \/ cur tl = DOT \/ cur tl = LBRACKET) ->
  FT (ts ++ tl) /\ cur (ts ++ tl) <> NOT /\ cur (ts ++ tl) <> MINUS.
Proof.
  intros H. apply (post_ft e). apply SG_up; [lia|]. exact H.
Qed.
Lemma SG_P9 e ts : SG 9 e ts -> P9 e ts. Proof. intros (_ & _ & _ & H9 & _). apply H9. reflexivity. Qed.
Lemma SG_P10 e ts : SG 10 e ts -> P10 e ts. Proof. intros (_ & _ & H9 & _). apply H9. reflexivity. Qed.
(** One postfix step after a phrase of level 9. *)
Lemma post_runs e ts tl e2 n rest : SG 9 e ts -> tl <> [] -> (cur tl = DOT \/ cur tl = LBRACKET) ->
  (4 * length (ts ++ tl ++ rest) <= n)%nat ->
  postfix_step (build n) e (tl ++ rest) = POk (e2, true) rest ->
  exists e0 r0, parse_primary (build n) (ts ++ tl ++ rest) = POk e0 r0 /\
    forall e' r', runs (postfix_step (build n)) e2 rest e' r' -> runs (postfix_step (build n)) e0 r0 e' r'.
Proof.
  intros H Hne Hcur Hn Hstep. destruct (SG_P9 _ _ H n (tl ++ rest) Hn) as (e0 & r0 & H1 & H2).
  { unfold fol9. rewrite cur_app by auto. destruct Hcur as [E|E]; rewrite E; split; discriminate. }
  exists e0, r0. split; auto. intros e' r' Hr. apply H2.
  eapply runs_go; [exact Hstep|destruct tl; [congruence|len]|exact Hr].
Qed.
Lemma c_member e ts d t m : SG 9 e ts -> tk DOT d -> ident m t -> SG 9 (EMember e m) (ts ++ [d; t]).
Proof.
  intros He Hd Ht. apply ident_tk in Ht as [Ht Hv].
  destruct (post_ft e ts [d; t] He) as (F1 & F2 & F3); [discriminate|simpl; auto|].
  apply SG_9; auto. intros n rest Hn [Hf1 Hf2]. rewrite <- app_assoc in *.
  apply (post_runs e); auto; [discriminate|].
  simpl app. unfold postfix_step. rewrite (check_ne LPAREN) by (simpl; rewrite Hd; discriminate).
  rewrite (check_tk DOT), (adv_tk DOT) by (auto; discriminate).
  rewrite (consume_tk IDENTIFIER) by (auto; discriminate). cbn [bind].
  rewrite (check_ne LPAREN) by auto. rewrite Hv. reflexivity.
Qed.
Lemma c_index e ts lb i tsi rb : SG 9 e ts -> tk LBRACKET lb -> SG 0 i tsi -> tk RBRACKET rb ->
  SG 10 (EIndex e i) (ts ++ lb :: tsi ++ [rb]).
Proof.
  intros He H1 Hi H2.
  destruct (post_ft e ts (lb :: tsi ++ [rb]) He) as (F1 & F2 & F3); [discriminate|simpl; auto|].
  apply SG_10; auto. intros n rest Hn Hf. rewrite <- app_assoc in *.
  apply (post_runs e); auto; [discriminate|].
  simpl app. rewrite <- app_assoc. simpl app. unfold postfix_step.
  rewrite (check_ne LPAREN), (check_ne DOT) by (simpl; rewrite H1; discriminate).
  rewrite (check_tk LBRACKET), (adv_tk LBRACKET) by (auto; discriminate).
  rewrite use_C with (e := i) (rest := rb :: rest); auto.
  - cbn [bind]. rewrite (consume_tk RBRACKET) by (auto; discriminate). reflexivity.
  - pl H2.
  - len.
Qed.
Lemma c_method o ts d t m a na ta : SG 9 o ts -> tk DOT d -> ident m t -> SArgs a na ta ->
  SG 10 (EMethod o m a na) (ts ++ d :: t :: ta).
Proof.
  intros He Hd Ht (A1 & A2 & A3). apply ident_tk in Ht as [Ht Hv].
  destruct (post_ft o ts (d :: t :: ta) He) as (F1 & F2 & F3); [discriminate|simpl; auto|].
  apply SG_10; auto. intros n rest Hn Hf. rewrite <- app_assoc in *.
  apply (post_runs o); auto; [discriminate|].
  simpl app. unfold postfix_step. rewrite (check_ne LPAREN) by (simpl; rewrite Hd; discriminate).
  rewrite (check_tk DOT), (adv_tk DOT) by (auto; discriminate).
  rewrite (consume_tk IDENTIFIER) by (auto; discriminate). cbn [bind].
  rewrite (check_cur LPAREN) by (rewrite cur_app by auto; auto).
  rewrite A3 by len. cbn [bind fst snd]. rewrite Hv. reflexivity.
Qed.
Lemma c_call f ts a na ta : SG 10 f ts -> SArgs a na ta -> SG 10 (ECall f a na) (ts ++ ta).
Proof.
  intros He (A1 & A2 & A3).
  destruct (post_ft10 f ts ta He) as (F1 & F2 & F3); auto.
  apply SG_10; auto. intros n rest Hn Hf. rewrite <- app_assoc in *.
  destruct (SG_P10 _ _ He n (ta ++ rest) Hn) as (e0 & r0 & H1 & H2).
  { unfold fol10. rewrite cur_app by auto. rewrite A1. discriminate. }
  exists e0, r0. split; auto. intros e' r' Hr. apply H2.
  eapply runs_go; [| |exact Hr]. 2: { rewrite app_length; destruct ta; [congruence|simpl; lia]. }
  unfold postfix_step. rewrite (check_cur LPAREN) by (rewrite cur_app by auto; auto).
  rewrite A3 by len. reflexivity.
Qed.

(** The lists. *)
Lemma sn_nil : SN [] [].
Proof. intros acc rest H. rewrite app_nil_r. apply runs_stop. unfold names_body. simpl. rewrite check_ne by auto. reflexivity. Qed.
Lemma sn_cons c t n l tl : tk COMMA c -> ident n t -> SN l tl -> SN (n :: l) (c :: t :: tl).
Proof.
  intros Hc Ht HN acc rest Hr. apply ident_tk in Ht as [Ht Hv]. simpl app.
  apply runs_go with (s1 := acc ++ [n]) (r1 := tl ++ rest).
  - unfold names_body. rewrite (check_tk COMMA), (adv_tk COMMA) by (auto; discriminate). cbv zeta.
    rewrite (check_tk IDENTIFIER), (adv_tk IDENTIFIER) by (auto; discriminate). simpl. rewrite Hv. reflexivity.
  - simpl. lia.
  - replace (acc ++ n :: l) with ((acc ++ [n]) ++ l) by (rewrite <- app_assoc; reflexivity). apply HN; auto.
Qed.
Lemma smore_nil : SMore [] [].
Proof.
  split; [auto|]. intros n acc rest _ H. rewrite app_nil_r. apply runs_stop. unfold more_body. simpl.
  rewrite check_ne by (rewrite H; discriminate). reflexivity.
Qed.
Lemma smore_trail c : tk COMMA c -> SMore [] [c].
Proof.
  intros Hc. split; [auto|]. intros n acc rest _ H. rewrite app_nil_r. apply runs_stop. unfold more_body. simpl app.
  rewrite (check_tk COMMA), (adv_tk COMMA) by (auto; discriminate). cbv zeta.
  rewrite (check_cur RBRACKET) by auto. reflexivity.
Qed.
Lemma smore_cons c e ts l tl : tk COMMA c -> SG 0 e ts -> SMore l tl -> SMore (e :: l) (c :: ts ++ tl).
Proof.
  intros Hc He [Hs Hl]. split; [auto|]. intros n acc rest Hn H. simpl app. rewrite <- app_assoc.
  apply runs_go with (s1 := acc ++ [e]) (r1 := tl ++ rest).
  - unfold more_body. rewrite (check_tk COMMA), (adv_tk COMMA) by (auto; discriminate). cbv zeta.
    rewrite (check_ne RBRACKET) by (eapply starter_not; eauto; nst).
    rewrite use_C with (e := e) (rest := tl ++ rest); auto.
    + destruct (cur_or tl rest COMMA Hs) as [E|E]; [rewrite H in E|]; pl E.
    + len.
  - len.
  - replace (acc ++ e :: l) with ((acc ++ [e]) ++ l) by (rewrite <- app_assoc; reflexivity). apply Hl; auto. len.
Qed.
Lemma si_nil : SI [] [].
Proof.
  split; [auto|]. intros rest H. split.
  - simpl. destruct H as [E|E]; pl E.
  - intros n acc _. rewrite app_nil_r. apply runs_stop. unfold conds_body. simpl.
    rewrite check_ne by (destruct H as [E|E]; rewrite E; discriminate). reflexivity.
Qed.
Lemma si_cons i c ts l tl : tk IF i -> SG 0 c ts -> SI l tl -> SI (c :: l) (i :: ts ++ tl).
Proof.
  intros Hi Hc [Hs Hl]. split; [auto|]. intros rest H. destruct (Hl rest H) as [Hf Hr].
  assert (cur (tl ++ rest) <> ELSE) as Hne.
  { destruct (cur_or tl rest IF Hs) as [E|E]; rewrite E; [destruct H as [-> | ->]; discriminate|discriminate]. }
  simpl app. rewrite <- app_assoc. split.
  - split; [apply plain_fol; simpl; rewrite Hi; repeat split; discriminate|].
    intros _ k Hk. rewrite (adv_tk IF) by (auto; discriminate).
    apply (SG_C _ _ Hc (tl ++ rest) Hf); auto. simpl in Hk. lia.
  - intros n acc Hn. apply runs_go with (s1 := acc ++ [c]) (r1 := tl ++ rest).
    + unfold conds_body. rewrite (check_tk IF), (adv_tk IF) by (auto; discriminate).
      rewrite use_C with (e := c) (rest := tl ++ rest); auto. simpl in Hn. lia.
    + simpl. rewrite !app_length. lia.
    + replace (acc ++ c :: l) with ((acc ++ [c]) ++ l) by (rewrite <- app_assoc; reflexivity). apply Hr.
      simpl in Hn. rewrite app_length in Hn. lia.
Qed.
Lemma sc_clause f x t i it tsi cs tcs : tk FOR f -> ident x t -> tk IN i -> SG 0 it tsi -> SI cs tcs ->
  SC (x, it, cs) (f :: t :: i :: tsi ++ tcs).
Proof.
  intros Hf Ht Hi Hit [Hs Hcs]. apply ident_tk in Ht as [Ht Hv].
  split; [auto|]. split; [discriminate|]. intros n rest Hn H. destruct (Hcs rest H) as [Hfc Hr].
  simpl app. rewrite <- app_assoc. unfold parse_clause. rewrite (adv_tk FOR) by (auto; discriminate).
  rewrite (consume_tk IDENTIFIER) by (auto; discriminate). cbn [bind].
  rewrite (consume_tk IN) by (auto; discriminate). cbn [bind].
  simpl in Hn. rewrite <- app_assoc in Hn.
  rewrite use_C with (e := it) (rest := tcs ++ rest); auto; [|lia]. cbn [bind].
  unfold parse_conditions. rewrite (runs_while (conds_body (build n)) [] _ cs rest).
  - cbn [bind]. rewrite Hv. reflexivity.
  - apply (Hr n []). rewrite !app_length in *. lia.
Qed.
Lemma scs_nil : SCs [] [].
Proof.
  split; [auto|]. intros n acc rest _ H. rewrite app_nil_r. apply runs_stop. unfold clauses_body. simpl.
  rewrite check_ne by (rewrite H; discriminate). reflexivity.
Qed.
Lemma scs_cons c tc l tl : SC c tc -> SCs l tl -> SCs (c :: l) (tc ++ tl).
Proof.
  intros (H1 & H2 & H3) [Hs Hl]. split; [right; rewrite cur_app by auto; auto|].
  intros n acc rest Hn H. rewrite <- app_assoc in *.
  apply runs_go with (s1 := acc ++ [c]) (r1 := tl ++ rest).
  - unfold clauses_body. rewrite (check_cur FOR) by (rewrite cur_app by auto; auto). rewrite H3; [reflexivity|auto|].
    unfold clause_end. destruct (cur_or tl rest FOR Hs) as [E|E]; rewrite E; auto.
  - destruct tc; [congruence|]. len.
  - replace (acc ++ c :: l) with ((acc ++ [c]) ++ l) by (rewrite <- app_assoc; reflexivity). apply Hl; auto. len.
Qed.
Lemma se1_entry d k t c e ts : (t_type t = STRING_LITERAL \/ t_type t = IDENTIFIER) -> t_value t = VStr k ->
  tk COLON c -> SG 0 e ts -> SE1 d (put k e d) (t :: c :: ts).
Proof.
  intros Ht Hv Hc He. split; [exact Ht|]. split; [discriminate|]. intros n rest Hn H. simpl app.
  unfold parse_entry.
  assert ((if check STRING_LITERAL (t :: c :: ts ++ rest)
           then POk (curval (t :: c :: ts ++ rest)) (adv (t :: c :: ts ++ rest))
           else consume IDENTIFIER (t :: c :: ts ++ rest)) = POk (VStr k) (c :: ts ++ rest)) as Hk.
  { destruct Ht as [Ht|Ht].
    - rewrite (check_tk STRING_LITERAL), (adv_tk STRING_LITERAL) by (auto; discriminate). simpl. rewrite Hv. reflexivity.
    - rewrite (check_ne STRING_LITERAL) by (simpl; rewrite Ht; discriminate).
      rewrite (consume_tk IDENTIFIER) by (auto; discriminate). rewrite Hv. reflexivity. }
  rewrite Hk. cbn [bind]. rewrite (consume_tk COLON) by (auto; discriminate). cbn [bind].
  rewrite use_C with (e := e) (rest := rest); auto.
  - cbn [bind]. rewrite put_dset. reflexivity.
  - destruct H as [E|E]; pl E.
  - len.
Qed.
Lemma ses_nil d : SEs d d [].
Proof.
  split; [auto|]. intros n rest _ H. apply runs_stop. unfold entries_body. simpl.
  rewrite check_ne by (rewrite H; discriminate). reflexivity.
Qed.
Lemma ses_trail d c : tk COMMA c -> SEs d d [c].
Proof.
  intros Hc. split; [auto|]. intros n rest _ H. apply runs_stop. unfold entries_body. simpl app.
  rewrite (check_tk COMMA), (adv_tk COMMA) by (auto; discriminate). cbv zeta.
  rewrite (check_cur RBRACE) by auto. reflexivity.
Qed.
Lemma ses_cons c d d1 t1 d2 t2 : tk COMMA c -> SE1 d d1 t1 -> SEs d1 d2 t2 -> SEs d d2 (c :: t1 ++ t2).
Proof.
  intros Hc (H1 & H2 & H3) [Hs Hl]. split; [auto|]. intros n rest Hn H. simpl app. rewrite <- app_assoc.
  apply runs_go with (s1 := d1) (r1 := t2 ++ rest).
  - unfold entries_body. rewrite (check_tk COMMA), (adv_tk COMMA) by (auto; discriminate). cbv zeta.
    rewrite (check_ne RBRACE) by (rewrite cur_app by auto; destruct H1 as [E|E]; rewrite E; discriminate).
    rewrite H3; [reflexivity|len|]. unfold entry_end. destruct (cur_or t2 rest COMMA Hs) as [E|E]; rewrite E; auto.
  - len.
  - apply Hl; auto. len.
Qed.
Lemma sa1_pos a na e ts : SG 0 e ts -> SA1 a na (a ++ [e]) na ts.
Proof.
  intros He. pose proof (SG_FT _ _ _ He) as (F1 & F2 & F3). split; [auto|].
  split; [intros E; rewrite E in F2; unfold starter in F2; simpl in F2; intuition discriminate|].
  intros n rest Hn H. unfold parse_argument.
  assert (check IDENTIFIER (ts ++ rest) && teqb (peek1 (ts ++ rest)) ASSIGN = false) as Hna.
  { destruct (check IDENTIFIER (ts ++ rest)) eqn:E; [|reflexivity]. cbn [andb]. apply teqb_neq.
    apply check_eq in E. rewrite cur_app in E by auto. specialize (F3 E).
    destruct ts as [|t ts]; [congruence|]. unfold peek1. simpl in F3 |- *.
    destruct F3 as [-> |F3]; [simpl; destruct H as [-> | ->]; discriminate|].
    destruct ts as [|t1 ts]; [simpl; destruct H as [-> | ->]; discriminate|]. simpl in F3 |- *.
    intros Hx. rewrite Hx in F3. destruct F3 as [[p Hp]|Hin]; [discriminate|]. simpl in Hin. intuition discriminate. }
  rewrite Hna. rewrite use_C with (e := e) (rest := rest); auto.
  destruct H as [E|E]; pl E.
Qed.
Lemma sa1_named a na x t q e ts : ident x t -> tk ASSIGN q -> SG 0 e ts -> SA1 a na a (put x e na) (t :: q :: ts).
Proof.
  intros Ht Hq He. apply ident_tk in Ht as [Ht Hv]. split; [discriminate|].
  split; [simpl; rewrite Ht; discriminate|]. intros n rest Hn H. simpl app. unfold parse_argument.
  rewrite (check_tk IDENTIFIER) by auto. unfold peek1. simpl tl. simpl cur. rewrite Hq. cbn [andb].
  change (teqb ASSIGN ASSIGN) with true. cbv iota. cbn [curval]. rewrite Hv.
  rewrite (adv_tk IDENTIFIER), (adv_tk ASSIGN) by (auto; discriminate).
  rewrite use_C with (e := e) (rest := rest); auto.
  - cbn [bind fst snd]. rewrite put_dset. reflexivity.
  - destruct H as [E|E]; pl E.
  - len.
Qed.
Lemma sas_nil a na : SAs a na a na [].
Proof.
  split; [auto|]. intros n rest _ H. apply runs_stop. unfold args_body. simpl.
  rewrite check_ne by (rewrite H; discriminate). reflexivity.
Qed.
Lemma sas_trail a na c : tk COMMA c -> SAs a na a na [c].
Proof.
  intros Hc. split; [auto|]. intros n rest _ H. apply runs_stop. unfold args_body. simpl app.
  rewrite (check_tk COMMA), (adv_tk COMMA) by (auto; discriminate). cbv zeta.
  rewrite (check_cur RPAREN) by auto. reflexivity.
Qed.
Lemma sas_cons c a na a1 n1 t1 a2 n2 t2 : tk COMMA c -> SA1 a na a1 n1 t1 -> SAs a1 n1 a2 n2 t2 ->
  SAs a na a2 n2 (c :: t1 ++ t2).
Proof.
  intros Hc (H1 & H2 & H3) [Hs Hl]. split; [auto|]. intros n rest Hn H. simpl app. rewrite <- app_assoc.
  apply runs_go with (s1 := (a1, n1)) (r1 := t2 ++ rest).
  - unfold args_body. rewrite (check_tk COMMA), (adv_tk COMMA) by (auto; discriminate). cbv zeta.
    rewrite (check_ne RPAREN) by (rewrite cur_app by auto; auto).
    rewrite H3; [reflexivity|len|]. unfold arg_end. destruct (cur_or t2 rest COMMA Hs) as [E|E]; rewrite E; auto.
  - len.
  - apply Hl; auto. len.
Qed.
Lemma sargs_none lp rp : tk LPAREN lp -> tk RPAREN rp -> SArgs [] [] [lp; rp].
Proof.
  intros H1 H2. split; [auto|]. split; [discriminate|]. intros n rest _. simpl app. unfold parse_arguments.
  rewrite (consume_tk LPAREN) by (auto; discriminate). cbn [bind]. rewrite (check_tk RPAREN) by auto. cbn [bind].
  rewrite (consume_tk RPAREN) by (auto; discriminate). reflexivity.
Qed.
Lemma sargs_some lp a0 n0 t0 a na t rp : tk LPAREN lp -> SA1 [] [] a0 n0 t0 -> SAs a0 n0 a na t ->
  tk RPAREN rp -> SArgs a na (lp :: t0 ++ t ++ [rp]).
Proof.
  intros H1 (A1 & A2 & A3) [Hs Hl] H2. split; [auto|]. split; [discriminate|]. intros n rest Hn.
  replace ((lp :: t0 ++ t ++ [rp]) ++ rest) with (lp :: t0 ++ (t ++ (rp :: rest))) in *
    by (simpl; rewrite <- !app_assoc; reflexivity).
  unfold parse_arguments. rewrite (consume_tk LPAREN) by (auto; discriminate). cbn [bind].
  rewrite (check_ne RPAREN) by (rewrite cur_app by auto; auto).
  rewrite A3; [|len|]. 2: { unfold arg_end. destruct (cur_or t (rp :: rest) COMMA Hs) as [E|E]; rewrite E; auto. }
  cbn [bind]. rewrite (runs_while (args_body (build n)) (a0, n0) _ (a, na) (rp :: rest)).
  - cbn [bind]. rewrite (consume_tk RPAREN) by (auto; discriminate). reflexivity.
  - apply Hl; [len|auto].
Qed.

Theorem G_SG l e ts : G l e ts -> SG l e ts.
Proof.
  revert l e ts.
  apply (G_ind' (fun l e ts _ => SG l e ts) (fun ps ts _ => SN ps ts) (fun l ts _ => SMore l ts)
    (fun c ts _ => SC c ts) (fun cs ts _ => SI cs ts) (fun l ts _ => SCs l ts) (fun d d' ts _ => SE1 d d' ts)
    (fun d d' ts _ => SEs d d' ts) (fun a na ts _ => SArgs a na ts) (fun a na a' na' ts _ => SA1 a na a' na' ts)
    (fun a na a' na' ts _ => SAs a na a' na' ts)); intros.
  - apply SG_up; auto.
  - apply c_cond; auto.
  - apply c_lambda0; auto.
  - apply c_lambda; auto.
  - pose proof (left_op_prec _ _ l0) as (Hp & _ & Hl & _).
    apply SG_b; [lia| |].
    + apply FT_app; [eapply SG_FT; eauto|]. left. rewrite t. eauto.
    + apply B_left; auto; [apply SG_B; auto; lia|apply SG_B; auto; lia|eapply SG_ne; eauto].
  - apply SG_b; [lia| |].
    + apply FT_app; [eapply SG_FT; eauto|]. left. rewrite t. exists 7. reflexivity.
    + apply B_pow; auto; [apply SG_U; auto|apply SG_B; auto; lia].
  - apply SG_8; [apply FT_1; rewrite t; [unfold starter; simpl; auto 12|discriminate]|].
    apply U8_un; auto. apply SG_U; auto.
  - apply SG_8; [apply FT_1; rewrite t; [unfold starter; simpl; auto 12|discriminate]|].
    apply U8_un; auto. apply SG_U; auto.
  - apply c_lit; auto.
  - apply c_id; auto.
  - apply c_paren; auto.
  - apply c_list0; auto.
  - apply c_list; auto.
  - apply c_range; auto.
  - apply c_comp; auto.
  - apply c_dict0; auto.
  - eapply c_dict; eauto.
  - apply c_member; auto.
  - apply c_index; auto.
  - apply c_call; auto.
  - apply c_method; auto.
  - apply sn_nil.
  - apply sn_cons; auto.
  - apply smore_nil.
  - apply smore_trail; auto.
  - apply smore_cons; auto.
  - apply sc_clause; auto.
  - apply si_nil.
  - apply si_cons; auto.
  - apply scs_nil.
  - apply scs_cons; auto.
  - apply se1_entry; auto.
  - apply ses_nil.
  - apply ses_trail; auto.
  - eapply ses_cons; eauto.
  - apply sargs_none; auto.
  - eapply sargs_some; eauto.
  - apply sa1_pos; auto.
  - apply sa1_named; auto.
  - apply sas_nil.
  - apply sas_trail; auto.
  - eapply sas_cons; eauto.
Qed.
