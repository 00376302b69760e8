(** The interpreter computes what the reference semantics (Interp_Ref) says. *)
From Coq Require Import ZArith String List Bool Lia.
From Verif Require Import Dict Lex_Model Ast Types_Model Interp_Model Interp_Proofs Interp_Spec Interp_Proofs3 Lib_Model Interp_Ref.
Import ListNotations.
Open Scope Z_scope.
Open Scope list_scope.

Section Adequate.
  Variable H : host.
  Variables (cmds : list fundef) (limit : Z) (natives : list name).
  Notation D := (data (hF H) (hO H)).
  Notation V := (rval (hF H) (hO H)).
  Notation ctx := (ctx H). Notation state := (state H). Notation M := (M H).
  Notation eval := (eval H cmds limit). Notation exec := (exec H cmds limit).
  Notation stands := (stands H).
  Local Opaque max_size.
  Hypothesis Hlib : has_library H.

  Definition agrees (g : env) (c : ctx) : Prop :=
    c_scopes H c <> [] /\ forall n a, g n = Some a -> exists v, lookup H n (c_scopes H c) = Some v /\ stands v a.
  Definition grow (s : state) (l : list (event H)) : state :=
    State H (s_world H s) (s_depth H s) (s_natives H s) (s_log H s ++ l).
  Definition ready (d : nat) (s : state) : Prop := s_natives H s = natives /\ s_depth H s + Z.of_nat d <= limit.
  Definition outs (o : out) (c : ctx) : Prop :=
    c_fails H c = o_fails o /\ c_ret H c = o_ret o /\
    match o_emit o with None => c_emit H c = None | Some a => exists v, c_emit H c = Some (v, []) /\ stands v a end.
  (** m, with enough fuel, ends with result r in context c' after the events l *)
  Definition gives {A} (m : nat -> M A) (c : ctx) (s : state) (r : A) (c' : ctx) : Prop :=
    exists N l, forall n, (N <= n)%nat -> m n c s = (Ok r, c', grow s l).

  Lemma grow_nil s : grow s [] = s. Proof. unfold grow. rewrite app_nil_r. destruct s; reflexivity. Qed.
  Lemma grow_grow s l k : grow (grow s l) k = grow s (l ++ k). Proof. unfold grow. cbn. rewrite app_assoc. reflexivity. Qed.
  Lemma ready_grow d s l : ready d s -> ready d (grow s l). Proof. exact (fun h => h). Qed.
  Lemma gives_ret {A} (a : A) c s : gives (fun _ => ret H a) c s a c.
  Proof. exists 0%nat, []. intros. rewrite grow_nil. reflexivity. Qed.
  Lemma gives_bind {A B} (m : nat -> M A) (k : nat -> A -> M B) c s a c1 b c2 :
    gives m c s a c1 -> (forall l, gives (fun n => k n a) c1 (grow s l) b c2) ->
    gives (fun n => bind H (m n) (k n)) c s b c2.
  Proof.
    intros (N1 & l1 & E1) G. destruct (G l1) as (N2 & l2 & E2). exists (Nat.max N1 N2), (l1 ++ l2).
    intros n Hn. unfold bind. rewrite E1 by lia. rewrite E2 by lia. rewrite grow_grow. reflexivity.
  Qed.
  Lemma gives_event e c s : gives (fun _ => emit_event H e) c s tt c.
  Proof. exists 0%nat, [e (s_depth H s)]. reflexivity. Qed.
  Lemma gives_pure {A} (m : M A) c s a c' : m c s = (Ok a, c', s) -> gives (fun _ => m) c s a c'.
  Proof. intros E. exists 0%nat, []. intros. rewrite grow_nil. exact E. Qed.
  Lemma gives_S {A} (m : nat -> M A) (m' : nat -> M A) c s a c' : (forall n, m (S n) = m' n) -> gives m' c s a c' -> gives m c s a c'.
  Proof.
    intros E (N & l & G). exists (S N), l. intros [|n] Hn; [lia|]. rewrite E. apply G. lia.
  Qed.
  Lemma gives_eval e c s v c' : gives (fun n => eval_body H cmds limit (eval n) (exec n) e) c s v c' -> gives (fun n => eval n e) c s v c'.
  Proof. apply gives_S. reflexivity. Qed.
  Lemma gives_exec st c s c' : gives (fun n => exec_body H (eval n) (exec n) st) c s tt c' -> gives (fun n => exec n st) c s tt c'.
  Proof. apply gives_S. reflexivity. Qed.
  Lemma gives_ext {A} (m m' : nat -> M A) c s a c' : (forall n, m n = m' n) -> gives m c s a c' -> gives m' c s a c'.
  Proof. intros E (N & l & G). exists N, l. intros. rewrite <- E. auto. Qed.

  (** ** Environments *)
  Definition agrees_but (x : name) (g : env) (c : ctx) : Prop :=
    c_scopes H c <> [] /\ forall n a, n <> x -> g n = Some a -> exists v, lookup H n (c_scopes H c) = Some v /\ stands v a.
  Lemma agrees_weak x g c : agrees g c -> agrees_but x g c. Proof. intros [? ?]; split; auto. Qed.
  Lemma agrees_unbind x g c a : agrees (bindv g x a) c -> agrees_but x g c.
  Proof.
    intros [Hne Hg]. split; [exact Hne|]. intros n b Hn E. apply Hg. unfold bindv.
    destruct (name_eqb n x) eqn:En; [apply name_eqb_spec in En; congruence|exact E].
  Qed.
  Lemma agrees_set' g c n v a : agrees_but n g c -> stands v a ->
    exists c', (forall s, set_variable H n v c s = (Ok tt, c', s)) /\ agrees (bindv g n a) c' /\
      (exists sc, c_scopes H c' = sc :: tl (c_scopes H c)) /\ c' = set_scopes H (c_scopes H c') c.
  Proof.
    intros [Hne Hg] Hv. unfold set_variable. destruct (c_scopes H c) as [|sc ss] eqn:Es; [congruence|].
    eexists. split; [reflexivity|]. split; [|cbn; eauto]. split; [discriminate|].
    intros m b. unfold bindv. cbn [c_scopes set_scopes lookup]. rewrite sget_set.
    destruct (name_eqb m n) eqn:E.
    - intros Eb. exists v. split; [reflexivity|congruence].
    - intros Eb. destruct (Hg m b) as (w & Hw & Hs); [intros ->; pose proof (proj2 (name_eqb_spec n n) eq_refl); congruence|exact Eb|].
      exists w. split; [|exact Hs]. cbn [lookup] in Hw. exact Hw.
  Qed.
  Lemma agrees_scopes g c c' : c_scopes H c = c_scopes H c' -> agrees g c -> agrees g c'.
  Proof. unfold agrees. intros ->. auto. Qed.
  Lemma agrees_push g c : agrees g c -> agrees g (set_scopes H ([] :: c_scopes H c) c).
  Proof. intros [Hne Hg]. split; [discriminate|]. intros n a E. destruct (Hg n a E) as (v & Hv & Hs). exists v. cbn. auto. Qed.
  Lemma last_n_cons {A} (x : A) l : last_n (List.length l) (x :: l) = l.
  Proof. unfold last_n. cbn [List.length]. replace (S (List.length l) - List.length l)%nat with 1%nat by lia. reflexivity. Qed.
  Lemma gives_scope {A} (m : nat -> M A) c s a c' sc :
    gives m (set_scopes H ([] :: c_scopes H c) c) s a c' -> c_scopes H c' = sc :: c_scopes H c ->
    gives (fun n => new_scope H (m n)) c s a (set_scopes H (c_scopes H c) c').
  Proof.
    intros (N & l & E) Es. exists N, l. intros n Hn. unfold new_scope. rewrite E by auto. rewrite Es, last_n_cons. reflexivity.
  Qed.

  (** ** Values *)
  Lemma stands_int v z : stands v (NI z) -> vdata H v = DInt z /\ vtype H v = Some INT. Proof. auto. Qed.
  Lemma truthy_bool b : truthy H (Val (DBool b) (Some BOOL)) = ret H b. Proof. reflexivity. Qed.
  Lemma binop_arith op l r x y z : stands l (NI x) -> stands r (NI y) -> arith op x y = Some z ->
    exists v, stands v (NI z) /\ forall c s, binop H op l r c s = (Ok v, c, s).
  Proof.
    intros [Dl Tl] [Dr Tr] E. exists (Val (DInt z) (Some INT)). split; [split; reflexivity|]. intros c s.
    destruct op; try discriminate; cbn [binop]; unfold both_int; rewrite ?Dl, ?Tl, ?Dr, ?Tr; cbn [arith] in E.
    all: try (injection E as <-; reflexivity).
    all: try (destruct (y =? 0) eqn:Ey; [discriminate|]; injection E as <-).
    all: try (destruct (Z.ltb_spec y 0) as [Hy|Hy]; [discriminate|]; injection E as <-).
    - unfold py_arith; cbn [as_int]. rewrite Ey. reflexivity.
    - unfold py_arith; cbn [as_int]. rewrite Ey. cbn. replace (x mod y) with (x - y * (x / y)); [reflexivity|].
      apply Z.eqb_neq in Ey. pose proof (Z.div_mod x y Ey). lia.
    - unfold py_arith; cbn [as_int].
      replace (0 <=? y) with true by (symmetry; apply Z.leb_le; lia).
      unfold bind at 1. unfold ret at 1. cbn [tis]. change (ty_eqb INT INT) with true. cbn [andb].
      unfold py_cmp. cbn [as_int]. unfold bind at 1. unfold ret at 1.
      replace (0 <=? y) with true by (symmetry; apply Z.leb_le; lia). reflexivity.
  Qed.
  Lemma binop_compare op l r x y b : stands l (NI x) -> stands r (NI y) -> compare op x y = Some b ->
    forall c s, binop H op l r c s = (Ok (Val (DBool b) (Some BOOL)), c, s).
  Proof.
    intros [Dl Tl] [Dr Tr] E c s.
    destruct op; try discriminate; cbn [binop]; rewrite Dl, Dr; cbn in E; injection E as <-; reflexivity.
  Qed.
  Lemma binop_concat l r x y : stands l (NL x) -> stands r (NL y) ->
    exists v, stands v (NL (x ++ y)) /\ forall c s, binop H PLUS l r c s = (Ok v, c, s).
  Proof.
    intros [Dl Tl] [Dr Tr]. eexists (Val (DList (map DInt x ++ map DInt y)) (Some (TLst INT))). split.
    - split; cbn; [rewrite map_app|]; reflexivity.
    - intros c s. cbn [binop]. rewrite Tl, Tr, Dl, Dr. reflexivity.
  Qed.
  Lemma zrange_interval x y : zrange H x y = map DInt (interval x y).
  Proof. unfold zrange, interval. rewrite map_map. reflexivity. Qed.
  Lemma index_element l k z c (s : state) : element l k = Some z -> py_index H (DList (map DInt l)) k c s = (Ok (DInt z), c, s).
  Proof.
    unfold element, py_index. rewrite map_length. destruct ((_ <? 0) || _); [discriminate|].
    rewrite nth_error_map. intros ->. reflexivity.
  Qed.

  (** ** The induction *)
  Definition PX (d : nat) (g : env) (e : expr) (a : val) : Prop := forall c s, agrees g c -> ready d s ->
    exists v, stands v a /\ gives (fun n => eval n e) c s v c.
  Definition PXS d g es vs : Prop := forall c s, agrees g c -> ready d s ->
    exists ws, Forall2 stands ws vs /\ gives (fun n => mapM H (eval n) es) c s ws c.
  Definition PC d g cs b : Prop := forall c s, agrees g c -> ready d s ->
    gives (fun n => conditions H (eval n) cs) c s b c.
  Definition effect (c : ctx) (g' : env) (o' : out) (c' : ctx) : Prop :=
    agrees g' c' /\ outs o' c' /\ exists sc, c_scopes H c' = sc :: tl (c_scopes H c).
  Definition PS d g st o g' o' : Prop := forall c s, agrees g c -> outs o c -> ready d s ->
    exists c', effect c g' o' c' /\ gives (fun n => exec n st) c s tt c'.
  Definition PSS d g ss o g' o' : Prop := forall c s, agrees g c -> outs o c -> ready d s ->
    exists c', effect c g' o' c' /\ gives (fun n => stmts H (exec n) ss) c s tt c'.
  Definition PL d g x b l o g' o' : Prop := forall c s, agrees g c -> outs o c -> ready d s ->
    exists c', effect c g' o' c' /\ gives (fun n => for_items H (exec n) x (Some INT) b (map DInt l)) c s tt c'.

  (** the comprehension's inner loop, as in [clauses] *)
  Definition items (n : nat) (x : name) (conds : list expr) (e : expr) (v : V) :=
    fix go (items : list D) (acc : list V) : M (list V) :=
      match items with
      | [] => ret H acc
      | i :: items =>
          if too_big H acc then rte H "result size exceeds maximum"
          else
            bind H (set_variable H x (Val i (elem_type H v))) (fun _ =>
            bind H (conditions H (eval n) conds) (fun ok =>
            if ok then bind H (clauses H (eval n) [] e acc) (fun acc => go items acc)
            else go items acc))
      end.
  Definition PM d g x conds e l zs : Prop := forall c s v, agrees_but x g c -> ready d s -> elem_type H v = Some INT ->
    forall acc, (List.length acc + List.length zs < max_size)%nat ->
    exists ws c', Forall2 stands ws (map NI zs) /\ (exists sc, c_scopes H c' = sc :: tl (c_scopes H c)) /\
      c' = set_scopes H (c_scopes H c') c /\
      gives (fun n => items n x conds e v (map DInt l) acc) c s (acc ++ ws) c'.

  Ltac body := intros c s Hg Hr; cbn [eval_body].
  Lemma case_neg d g e z : PX d g e (NI z) -> PX d g (EUn MINUS e) (NI (- z)).
  Proof.
    intros I c s Hg Hr. destruct (I c s Hg Hr) as (v & [Dv Tv] & G). exists (Val (DInt (- z)) (Some INT)). split; [split; reflexivity|].
    apply gives_eval. cbn [eval_body]. eapply gives_bind; [exact G|]. intros l. apply gives_pure. cbn [unop]. rewrite Dv, Tv. reflexivity.
  Qed.
  Lemma case_not d g e b : PX d g e (NB b) -> PX d g (EUn NOT e) (NB (negb b)).
  Proof.
    intros I c s Hg Hr. destruct (I c s Hg Hr) as (v & Hv & G). cbn in Hv. subst v. eexists. split; [reflexivity|].
    apply gives_eval. cbn [eval_body]. eapply gives_bind; [exact G|]. intros l. apply gives_pure. reflexivity.
  Qed.
  Lemma case_bin d g l op r a b w : PX d g l a -> PX d g r b ->
    (forall x y, stands x a -> stands y b -> exists v, stands v w /\ forall c s, binop H op x y c s = (Ok v, c, s)) ->
    PX d g (EBin l op r) w.
  Proof.
    intros I1 I2 B c s Hg Hr. destruct (I1 c s Hg Hr) as (x & Hx & G1).
    destruct G1 as (N1 & l1 & G1). destruct (I2 c (grow s l1) Hg Hr) as (y & Hy & (N2 & l2 & G2)).
    destruct (B x y Hx Hy) as (v & Hv & E). exists v. split; [exact Hv|].
    apply gives_eval. cbn [eval_body]. exists (Nat.max N1 N2), (l1 ++ l2). intros n Hn. unfold bind.
    rewrite G1 by lia. rewrite G2 by lia. rewrite E, grow_grow. reflexivity.
  Qed.
  Lemma case_and x y l r : stands l (NB x) -> stands r (NB y) ->
    exists v, stands v (NB (x && y)) /\ forall c s, binop H AND l r c s = (Ok v, c, s).
  Proof. cbn. intros -> ->. eexists. split; [reflexivity|]. destruct x; reflexivity. Qed.
  Lemma case_or x y l r : stands l (NB x) -> stands r (NB y) ->
    exists v, stands v (NB (x || y)) /\ forall c s, binop H OR l r c s = (Ok v, c, s).
  Proof. cbn. intros -> ->. eexists. split; [reflexivity|]. destruct x; reflexivity. Qed.
  (** like gives_bind, when what follows depends on the state reached *)
  Lemma gives_then {A B} (m : nat -> M A) (k : nat -> A -> M B) c s a c1 (Q : B -> ctx -> Prop) :
    gives m c s a c1 -> (forall l, exists b c2, Q b c2 /\ gives (fun n => k n a) c1 (grow s l) b c2) ->
    exists b c2, Q b c2 /\ gives (fun n => bind H (m n) (k n)) c s b c2.
  Proof.
    intros (N1 & l1 & E1) G. destruct (G l1) as (b & c2 & HQ & N2 & l2 & E2). exists b, c2. split; [exact HQ|].
    exists (Nat.max N1 N2), (l1 ++ l2).
    intros n Hn. unfold bind. rewrite E1 by lia. rewrite E2 by lia. rewrite grow_grow. reflexivity.
  Qed.
  Lemma same_ctx {A} (m : nat -> M A) c s (Q : A -> Prop) :
    (exists v c2, (Q v /\ c2 = c) /\ gives m c s v c2) -> exists v, Q v /\ gives m c s v c.
  Proof. intros (v & c2 & [Hq ->] & G). eauto. Qed.
  Lemma with_ctx {A} (m : nat -> M A) c s (Q : A -> Prop) :
    (exists v, Q v /\ gives m c s v c) -> exists v c2, (Q v /\ c2 = c) /\ gives m c s v c2.
  Proof. intros (v & Hq & G). eauto. Qed.
  Lemma case_cond d g c0 t f b a : PX d g c0 (NB b) -> PX d g (if b then t else f) a -> PX d g (ECond c0 t f) a.
  Proof.
    intros I1 I2 c s Hg Hr. destruct (I1 c s Hg Hr) as (x & Hx & G1). cbn in Hx. subst x. apply same_ctx.
    assert (E : exists v c2, (stands v a /\ c2 = c) /\ gives (fun n => eval_body H cmds limit (eval n) (exec n) (ECond c0 t f)) c s v c2).
    { cbn [eval_body]. eapply gives_then; [exact G1|]. intros l.
      destruct (I2 c (grow s l) Hg Hr) as (v & Hv & G2). exists v, c. split; [auto|].
      eapply gives_ext; [|exact G2]. intros n. unfold bind at 1. cbn [truthy]. destruct b; reflexivity. }
    destruct E as (v & c2 & Hv & G). exists v, c2. split; [exact Hv|]. apply gives_eval. exact G.
  Qed.
  Lemma case_list d g es zs : PXS d g es (map NI zs) -> PX d g (EList es) (NL zs).
  Proof.
    intros I c s Hg Hr. destruct (I c s Hg Hr) as (ws & F & G).
    destruct es as [|e es].
    - destruct zs as [|z zs].
      + eexists. split; [|apply gives_eval; cbn [eval_body]; apply gives_ret]. split; reflexivity.
      + destruct G as (N & l & G). specialize (G N (Nat.le_refl _)). cbn in G. unfold ret in G. assert (ws = []) as -> by congruence. inversion F.
    - assert (Hd : map (vdata H) ws = map DInt zs /\ (match ws with v :: _ => vtype H v | [] => Some INT end) = Some INT).
      { clear - F. revert ws F. induction zs as [|z zs IH]; intros ws F; inversion F as [|w a ws' l Hw F']; subst; [auto|]; destruct Hw as [Dw Tw].
        destruct (IH _ F') as [Em _]. cbn. rewrite Dw, Em. auto. }
      destruct Hd as [Hd Ht].
      eexists. split; [|apply gives_eval; cbn [eval_body]; eapply gives_bind; [exact G|]; intros l; apply gives_ret].
      unfold list_val. rewrite Ht, Hd. split; reflexivity.
  Qed.
  Lemma case_range d g a b x y : PX d g a (NI x) -> PX d g b (NI y) -> PX d g (ERange a b) (NL (interval x y)).
  Proof.
    intros I1 I2 c s Hg Hr. destruct (I1 c s Hg Hr) as (v & [Dv Tv] & (N1 & l1 & G1)).
    destruct (I2 c (grow s l1) Hg Hr) as (w & [Dw Tw] & (N2 & l2 & G2)).
    eexists (Val (DList (zrange H x y)) (Some (TLst INT))). split; [split; cbn; [rewrite zrange_interval|]; reflexivity|].
    apply gives_eval. cbn [eval_body]. exists (Nat.max N1 N2), (l1 ++ l2). intros n Hn. unfold bind.
    rewrite G1 by lia. rewrite G2 by lia. rewrite Dv, Dw, grow_grow. reflexivity.
  Qed.
  Lemma case_index d g o i l k z : PX d g o (NL l) -> PX d g i (NI k) -> element l k = Some z -> PX d g (EIndex o i) (NI z).
  Proof.
    intros I1 I2 E c s Hg Hr. destruct (I1 c s Hg Hr) as (v & [Dv Tv] & (N1 & l1 & G1)).
    destruct (I2 c (grow s l1) Hg Hr) as (w & [Dw Tw] & (N2 & l2 & G2)).
    eexists (Val (DInt z) (Some INT)). split; [split; reflexivity|].
    apply gives_eval. cbn [eval_body]. exists (Nat.max N1 N2), (l1 ++ l2). intros n Hn. unfold bind.
    rewrite G1 by lia. rewrite G2 by lia. rewrite Dv, Dw, Tv, grow_grow. cbn [py_int ret].
    unfold ret at 1. rewrite (index_element _ _ z) by exact E. reflexivity.
  Qed.
  (** lists of expressions *)
  Lemma case_cons d g e es a vs : PX d g e a -> PXS d g es vs -> PXS d g (e :: es) (a :: vs).
  Proof.
    intros I1 I2 c s Hg Hr. destruct (I1 c s Hg Hr) as (v & Hv & (N1 & l1 & G1)).
    destruct (I2 c (grow s l1) Hg Hr) as (ws & F & (N2 & l2 & G2)). exists (v :: ws). split; [constructor; auto|].
    exists (Nat.max N1 N2), (l1 ++ l2). intros n Hn. cbn [mapM]. unfold bind.
    rewrite G1 by lia. rewrite G2 by lia. rewrite grow_grow. reflexivity.
  Qed.
  Lemma case_cfalse d g e cs : PX d g e (NB false) -> PC d g (e :: cs) false.
  Proof.
    intros I c s Hg Hr. destruct (I c s Hg Hr) as (v & Hv & G). cbn in Hv. subst v. cbn [conditions].
    eapply gives_bind; [exact G|]. intros l. apply gives_pure. reflexivity.
  Qed.
  Lemma case_ctrue d g e cs b : PX d g e (NB true) -> PC d g cs b -> PC d g (e :: cs) b.
  Proof.
    intros I I2 c s Hg Hr. destruct (I c s Hg Hr) as (v & Hv & G). cbn in Hv. subst v. cbn [conditions].
    eapply gives_bind; [exact G|]. intros l. eapply gives_ext; [|exact (I2 c (grow s l) Hg Hr)]. reflexivity.
  Qed.
  (** comprehensions *)
  Lemma too_big_no acc : (List.length acc < max_size)%nat -> too_big H acc = false.
  Proof. intros Hl. unfold too_big. apply Nat.leb_gt. exact Hl. Qed.
  Lemma scopes_tl c c1 c2 sc1 sc2 : c_scopes H c1 = sc1 :: tl (c_scopes H c) -> c_scopes H c2 = sc2 :: tl (c_scopes H c1) ->
    exists sc, c_scopes H c2 = sc :: tl (c_scopes H c).
  Proof. intros E1 E2. rewrite E1 in E2. cbn in E2. eauto. Qed.
  Lemma set_set c c1 c2 : c1 = set_scopes H (c_scopes H c1) c -> c2 = set_scopes H (c_scopes H c2) c1 ->
    c2 = set_scopes H (c_scopes H c2) c.
  Proof. intros E1 E2. rewrite E2 at 1. rewrite E1. reflexivity. Qed.
  Lemma case_mskip d g x cs e i l zs : PC d (bindv g x (NI i)) cs false -> PM d g x cs e l zs -> PM d g x cs e (i :: l) zs.
  Proof.
    intros I1 I2 c s v Hg Hr Ev acc Hl.
    destruct (agrees_set' g c x (Val (DInt i) (Some INT)) (NI i) Hg) as (c1 & Es & Hg1 & (sc1 & Hs1) & Ec1); [split; reflexivity|].
    destruct (I1 c1 s Hg1 Hr) as (N1 & l1 & G1).
    destruct (I2 c1 (grow s l1) v (agrees_unbind _ _ _ _ Hg1) Hr Ev acc Hl) as (ws & c2 & F & (sc2 & Hs2) & Ec2 & (N2 & l2 & G2)).
    exists ws, c2. split; [exact F|]. split; [eapply scopes_tl; eauto|]. split; [eapply set_set; eauto|].
    exists (Nat.max N1 N2), (l1 ++ l2). intros n Hn. cbn [map items]. rewrite too_big_no by lia.
    unfold bind. rewrite Ev, Es. rewrite G1 by lia. rewrite G2 by lia. rewrite grow_grow. reflexivity.
  Qed.
  Lemma case_mtake d g x cs e i l z zs : PC d (bindv g x (NI i)) cs true -> PX d (bindv g x (NI i)) e (NI z) ->
    PM d g x cs e l zs -> PM d g x cs e (i :: l) (z :: zs).
  Proof.
    intros I1 I3 I2 c s v Hg Hr Ev acc Hl. cbn [List.length] in Hl.
    destruct (agrees_set' g c x (Val (DInt i) (Some INT)) (NI i) Hg) as (c1 & Es & Hg1 & (sc1 & Hs1) & Ec1); [split; reflexivity|].
    destruct (I1 c1 s Hg1 Hr) as (N1 & l1 & G1).
    destruct (I3 c1 (grow s l1) Hg1 Hr) as (w & Hw & (N3 & l3 & G3)).
    destruct (I2 c1 (grow (grow s l1) l3) v (agrees_unbind _ _ _ _ Hg1) Hr Ev (acc ++ [w])) as (ws & c2 & F & (sc2 & Hs2) & Ec2 & (N2 & l2 & G2)).
    { rewrite app_length. cbn. lia. }
    exists (w :: ws), c2. split; [constructor; auto|]. split; [eapply scopes_tl; eauto|]. split; [eapply set_set; eauto|].
    exists (Nat.max N1 (Nat.max N2 N3)), (l1 ++ l3 ++ l2). intros n Hn. cbn [map items]. rewrite too_big_no by lia.
    unfold bind. rewrite Ev, Es. rewrite G1 by lia. cbn [clauses]. rewrite too_big_no by lia. unfold bind. rewrite G3 by lia.
    unfold ret at 1. rewrite G2 by lia. rewrite !grow_grow, <- app_assoc. reflexivity.
  Qed.
  Lemma case_comp d g e x it conds l zs : PX d g it (NL l) -> PM d g x conds e l zs -> Z.of_nat (List.length zs) < 100000 ->
    PX d g (EComp e [(x, it, conds)]) (NL zs).
  Proof.
    intros I1 I2 Hl c s Hg Hr.
    set (c0 := set_scopes H ([] :: c_scopes H c) c).
    assert (Hg0 : agrees g c0) by (apply agrees_push; exact Hg).
    destruct (I1 c0 s Hg0 Hr) as (v & [Dv Tv] & (N1 & l1 & G1)).
    destruct (I2 c0 (grow s l1) v (agrees_weak _ _ _ Hg0) Hr) with (acc := @nil V) as (ws & c2 & F & (sc & Hs) & Ec2 & (N2 & l2 & G2)).
    { unfold elem_type. rewrite Tv. reflexivity. }
    { cbn [List.length plus]. Local Transparent max_size. unfold max_size. lia. Local Opaque max_size. }
    exists (match ws with [] => list_val H [] (Some INT) | w :: _ => list_val H ws (vtype H w) end). split.
    { clear - F. destruct zs as [|z zs]; inversion F as [|w a ws' l' Hw F']; subst; [split; reflexivity|]; destruct Hw as [Dw Tw].
      unfold list_val. rewrite Tw. split; [|reflexivity]. cbn. rewrite Dw. do 2 f_equal. clear - F'. revert ws' F'.
      induction zs as [|z zs IH]; intros ws F; inversion F as [|w a ws' l Hw F']; subst; [reflexivity|]; destruct Hw as [Dw Tw].
      cbn. rewrite Dw, (IH _ F'). reflexivity. }
    apply gives_eval. cbn [eval_body]. unfold comprehension. cbn [List.length]. change (max_depth <? 1)%nat with false. cbn iota.
    eapply gives_bind; [|intros l'; apply gives_ret].
    replace c with (set_scopes H (c_scopes H c) c2) at 2.
    2:{ rewrite Ec2. unfold c0. destruct c; reflexivity. }
    eapply gives_scope; [|exact Hs]. fold c0.
    exists (Nat.max N1 N2), (l1 ++ l2). intros n Hn. cbn [clauses]. unfold bind at 1. rewrite G1 by lia.
    unfold bind at 1. unfold lift. rewrite Dv. cbn [of_host py_iter].
    specialize (G2 n ltac:(lia)). cbn [app] in G2. rewrite grow_grow in G2. exact G2.
  Qed.

  (** ** Calls *)
  Definition is_default (p : param) (e : expr) : Prop := p_default p = Some e.
  Lemma positional_spec ps : forall args es ds, positional ps args = Some (es, ds) ->
    es = args /\ (List.length args <= List.length ps)%nat /\ Forall2 is_default (skipn (List.length args) ps) ds.
  Proof.
    induction ps as [|p ps IH]; intros [|a args] es ds; cbn [positional].
    - intros E. injection E as <- <-. repeat split; constructor.
    - discriminate.
    - destruct (p_default p) as [e|] eqn:Ed; [|discriminate].
      destruct (positional ps []) as [[es' ds']|] eqn:Ep; [|discriminate]. intros E.
      assert (es' = es) as -> by congruence. assert (e :: ds' = ds) as <- by congruence.
      destruct (IH _ _ _ Ep) as (-> & _ & F). cbn [skipn List.length] in *. split; [reflexivity|]. split; [lia|].
      constructor; auto.
    - destruct (positional ps args) as [[es' ds']|] eqn:Ep; [|discriminate]. intros E.
      assert (a :: es' = es) as <- by congruence. assert (ds' = ds) as <- by congruence.
      destruct (IH _ _ _ Ep) as (-> & Hl & F). cbn [skipn List.length]. split; [reflexivity|]. split; [lia|exact F].
  Qed.
  Lemma fill_ok (ev : expr -> M V) ps : forall ds, Forall2 is_default ps ds -> forall acc c s ws c' s',
    mapM H ev ds c s = (Ok ws, c', s') ->
    fill_defaults H ev ps acc c s = (Ok (fold_left (fun acc pv => dset name_eqb (p_name (fst pv)) (snd pv) acc) (combine ps ws) acc), c', s').
  Proof.
    induction ps as [|p ps IH]; intros ds F acc c s ws c' s' E; inversion F as [|p' e ps' ds' Hd F']; subst.
    - cbn in E |- *. unfold ret in *. congruence.
    - cbn [mapM fill_defaults] in *. rewrite Hd. unfold bind in E |- *.
      destruct (ev e c s) as [[[v|x|] c1] s1]; try discriminate.
      destruct (mapM H ev ds' c1 s1) as [[[ws'|x|] c2] s2] eqn:Em; try discriminate.
      unfold ret in E. assert (ws = v :: ws') as -> by congruence.
      rewrite (IH _ F' _ _ _ _ _ _ Em). cbn [combine fold_left fst snd]. congruence.
  Qed.
  Lemma named_ok (ev : expr -> M V) ps named : forall es, by_keyword ps named = Some es -> forall c s ws c' s',
    mapM H ev es c s = (Ok ws, c', s') -> named_args H ev ps named c s = (Ok ws, c', s').
  Proof.
    induction ps as [|p ps IH]; intros es E c s ws c' s' Em; cbn [by_keyword named_args] in *.
    - assert (es = []) as -> by congruence. exact Em.
    - assert (X : exists e es', es = e :: es' /\ by_keyword ps named = Some es' /\
        match dget name_eqb (p_name p) named, p_default p with
        | Some e, _ => ev e | None, Some e => ev e | None, None => rte H "missing required argument" end = ev e).
      { destruct (dget name_eqb (p_name p) named) as [e|]; [|destruct (p_default p) as [e|]; [|discriminate]];
          destruct (by_keyword ps named) as [es'|]; try discriminate; cbn in E; exists e, es'; repeat split; congruence. }
      destruct X as (e & es' & -> & Eb & ->). cbn [mapM] in Em. unfold bind in Em |- *.
      destruct (ev e c s) as [[[v|x|] c1] s1]; try discriminate.
      destruct (mapM H ev es' c1 s1) as [[[ws'|x|] c2] s2] eqn:Em'; try discriminate.
      rewrite (IH _ Eb _ _ _ _ _ Em'). exact Em.
  Qed.
  Lemma by_keyword_length ps named : forall es, by_keyword ps named = Some es -> List.length es = List.length ps.
  Proof.
    induction ps as [|p ps IH]; intros es; cbn [by_keyword].
    - intros E. assert (es = []) as -> by congruence. reflexivity.
    - intros E. assert (X : exists e es', es = e :: es' /\ by_keyword ps named = Some es').
      { destruct (dget name_eqb (p_name p) named) as [e|]; [|destruct (p_default p) as [e|]; [|discriminate]];
          destruct (by_keyword ps named) as [es'|]; try discriminate; cbn in E; exists e, es'; split; congruence. }
      destruct X as (e & es' & -> & Eb). cbn. rewrite (IH _ Eb). reflexivity.
  Qed.
  Definition covers (g : env) (d : list (name * V)) : Prop :=
    forall n a, g n = Some a -> exists v, dget name_eqb n d = Some v /\ stands v a.
  Definition set_all (ps : list param) (us : list V) (acc : list (name * V)) : list (name * V) :=
    fold_left (fun acc pv => dset name_eqb (p_name (fst pv)) (snd pv) acc) (combine ps us) acc.
  Lemma covers_set g d n v a : covers g d -> stands v a -> covers (bindv g n a) (dset name_eqb n v d).
  Proof.
    intros Hc Hv m b. unfold bindv. rewrite (dget_set name_eqb name_eqb_spec).
    destruct (name_eqb m n); [intros E; exists v; split; [reflexivity|congruence]|apply Hc].
  Qed.
  Lemma covers_all ps : forall us' us g acc, Forall2 stands us' us -> covers g acc -> covers (binds (map p_name ps) us g) (set_all ps us' acc).
  Proof.
    induction ps as [|p ps IH]; intros us' us g acc F Hc; [destruct us; exact Hc|].
    destruct F as [|u' u us' us Hu F]; [exact Hc|]. cbn [map binds]. unfold set_all. cbn [combine fold_left fst snd].
    apply IH; [exact F|]. apply covers_set; auto.
  Qed.
  Lemma nodup_all ps : forall us acc, NoDup (keys acc) -> NoDup (keys (set_all ps us acc)).
  Proof.
    induction ps as [|p ps IH]; intros [|u us] acc Hn; try exact Hn. unfold set_all. cbn [combine fold_left fst snd].
    apply IH. apply nodup_set; [exact name_eqb_spec|exact Hn].
  Qed.
  Lemma refold d : NoDup (keys d) -> forall n acc,
    dget name_eqb n (fold_left (fun sc nv => sset H (fst nv) (snd nv) sc) d acc) =
    match dget name_eqb n d with Some v => Some v | None => dget name_eqb n acc end.
  Proof.
    induction d as [|[k v] d IH]; intros Hn n acc; [reflexivity|]. cbn [keys map fst] in Hn. inversion Hn as [|k' ks Hk Hd]; subst.
    cbn [fold_left fst snd]. rewrite (IH Hd). unfold sset. rewrite (dget_set name_eqb name_eqb_spec). cbn [dget].
    destruct (name_eqb n k) eqn:E; [|reflexivity].
    apply name_eqb_spec in E. subst n. apply (dget_none name_eqb name_eqb_spec) in Hk. rewrite Hk. reflexivity.
  Qed.
  Lemma agrees_create g d : NoDup (keys d) -> covers g d -> agrees g (create_context H d).
  Proof.
    intros Hn Hc. split; [discriminate|]. intros n a E. destruct (Hc n a E) as (v & Hv & Hs). exists v. split; [|exact Hs].
    cbn [create_context c_scopes lookup]. unfold sget. rewrite refold by exact Hn. rewrite Hv. reflexivity.
  Qed.
  Lemma set_all_app ps us ws : (List.length us <= List.length ps)%nat ->
    set_all (skipn (List.length us) ps) ws (bind_args H ps us) = set_all ps (us ++ ws) [].
  Proof.
    unfold bind_args, set_all. generalize (@nil (name * V)). revert ps. induction us as [|u us IH]; intros ps acc Hl; [destruct ps; reflexivity|].
    destruct ps as [|p ps]; [cbn in Hl; lia|]. cbn [List.length skipn combine app fold_left fst snd]. apply IH. cbn in Hl. lia.
  Qed.
  Lemma no_required ps ds : Forall2 is_default ps ds -> filter (fun p => negb (has_default p)) ps = [].
  Proof. induction 1 as [|p e ps ds Hd F IH]; [reflexivity|]. cbn. unfold has_default at 1. rewrite Hd. exact IH. Qed.
  Lemma required_few ps : forall k ds, Forall2 is_default (skipn k ps) ds ->
    (List.length (filter (fun p => negb (has_default p)) ps) <= k)%nat.
  Proof.
    induction ps as [|p ps IH]; intros k ds F; [cbn; lia|]. destruct k as [|k].
    - cbn [skipn] in F. rewrite (no_required _ _ F). cbn. lia.
    - cbn [skipn] in F. specialize (IH _ _ F). cbn [filter]. destruct (negb (has_default p)); cbn [List.length]; lia.
  Qed.
  Lemma outs_start d : outs start (create_context H d). Proof. repeat split. Qed.
  Lemma call_ok fd d g us' us ds ws g' o a : f_meta fd = None ->
    Forall2 stands us' us -> (List.length us' <= List.length (f_params fd))%nat ->
    Forall2 is_default (skipn (List.length us') (f_params fd)) ds -> PXS d g ds ws ->
    PSS d (binds (map p_name (f_params fd)) (us ++ ws) none) (block_of (f_body fd)) start g' o ->
    o_emit o = Some a -> (forall b, a <> NB b) ->
    forall c s, agrees g c -> ready (S d) s ->
    exists v, stands v a /\ gives (fun n => call_command H limit (eval n) (exec n) fd us') c s v c.
  Proof.
    intros Hm Fu Hl Hd I1 I2 Ea Hb c s Hg [Hn Hr].
    assert (Hr1 : ready d (add_depth H 1 s)) by (split; [exact Hn|cbn [add_depth s_depth]; lia]).
    destruct (I1 c (add_depth H 1 s) Hg Hr1) as (ws' & Fw & (N1 & l1 & G1)).
    set (dict := set_all (f_params fd) (us' ++ ws') []).
    assert (Hdict : agrees (binds (map p_name (f_params fd)) (us ++ ws) none) (create_context H dict)).
    { apply agrees_create; [apply nodup_all; constructor|]. apply covers_all; [apply Forall2_app; auto|]. intros n b E. discriminate. }
    set (s1 := grow (grow (add_depth H 1 s) l1) [EvEnter H (s_depth H s + 1) (f_name fd)]).
    assert (Hr2 : ready d s1) by exact Hr1.
    destruct (I2 (create_context H dict) s1 Hdict (outs_start dict) Hr2) as (c2 & (_ & Ho & _) & (N2 & l2 & G2)).
    destruct Ho as (_ & _ & Ho). rewrite Ea in Ho. destruct Ho as (v & Ev & Hv).
    exists (Emitted v []). split.
    { destruct a as [z|b|l]; [exact Hv|congruence|exact Hv]. }
    exists (Nat.max N1 N2), (l1 ++ [EvEnter H (s_depth H s + 1) (f_name fd)] ++ l2). intros n Hn'.
    unfold call_command. replace (limit <? s_depth H (add_depth H 1 s)) with false
      by (symmetry; apply Z.ltb_ge; cbn [add_depth s_depth]; lia).
    replace ((List.length us' <? List.length (filter (fun p => negb (has_default p)) (f_params fd)))
       || (List.length (f_params fd) <? List.length us'))%nat with false.
    2:{ symmetry. apply orb_false_iff. split; apply Nat.ltb_ge; [eapply required_few; exact Hd|exact Hl]. }
    unfold bind at 1. rewrite (fill_ok _ _ _ Hd _ _ _ _ _ _ (G1 n ltac:(lia))).
    fold (set_all (skipn (List.length us') (f_params fd)) ws' (bind_args H (f_params fd) us')). rewrite set_all_app by exact Hl. fold dict.
    unfold execute_command, bind, emit_event.
    change (State H (s_world H (grow (add_depth H 1 s) l1)) (s_depth H (grow (add_depth H 1 s) l1)) (s_natives H (grow (add_depth H 1 s) l1))
      (s_log H (grow (add_depth H 1 s) l1) ++ [EvEnter H (s_depth H (grow (add_depth H 1 s) l1)) (f_name fd)])) with s1.
    change (b_stmts (f_body fd)) with (block_of (f_body fd)). rewrite G2 by lia.
    unfold apply_meta. rewrite Hm, Ev. unfold s1. rewrite !grow_grow.
    unfold grow, add_depth. cbn [s_world s_depth s_natives s_log]. rewrite ?app_assoc. replace (s_depth H s + 1 + -1) with (s_depth H s) by lia. reflexivity.
  Qed.
  Lemma not_native f : ~ In f natives -> existsb (name_eqb f) natives = false.
  Proof.
    intros Hf. destruct (existsb (name_eqb f) natives) eqn:E; [|reflexivity]. apply existsb_exists in E as (x & Hx & E).
    apply name_eqb_spec in E. subst x. contradiction.
  Qed.
  Lemma mapM_length {A B} (f : A -> M B) l : forall c s bs c' s', mapM H f l c s = (Ok bs, c', s') -> List.length bs = List.length l.
  Proof.
    induction l as [|x l IH]; cbn [mapM]; intros c s bs c' s' E.
    - unfold ret in E. assert (bs = []) as -> by congruence. reflexivity.
    - unfold bind in E. destruct (f x c s) as [[[v|y|] c1] s1]; try discriminate.
      destruct (mapM H f l c1 s1) as [[[ws'|y|] c2] s2] eqn:Em; try discriminate. unfold ret in E.
      assert (bs = v :: ws') as -> by congruence. cbn. rewrite (IH _ _ _ _ _ Em). reflexivity.
  Qed.
  Lemma case_call d g f fd args named es ds vs ws g' o a :
    ~ In f natives -> find (fun h => name_eqb (f_name h) f) cmds = Some fd -> f_meta fd = None ->
    chosen (f_params fd) args named = Some (es, ds) -> PXS (S d) g es vs -> PXS d g ds ws ->
    PSS d (binds (map p_name (f_params fd)) (vs ++ ws) none) (block_of (f_body fd)) start g' o ->
    o_emit o = Some a -> (forall b, a <> NB b) ->
    PX (S d) g (ECall (EId f) args named) a.
  Proof.
    intros Hf Hc Hm Hch I1 I2 I3 Ea Hb c s Hg Hr.
    destruct (I1 c s Hg Hr) as (us & Fu & (N1 & l1 & G1)).
    assert (Hlen : List.length us = List.length es) by (eapply mapM_length; exact (G1 N1 (Nat.le_refl _))).
    assert (X : (List.length us <= List.length (f_params fd))%nat /\
      Forall2 is_default (skipn (List.length us) (f_params fd)) ds /\
      forall n, (N1 <= n)%nat -> call H cmds limit (eval n) (exec n) (EId f) args named c s =
        call_command H limit (eval n) (exec n) fd us c (grow s l1)).
    { assert (Hnat : existsb (name_eqb f) (s_natives H s) = false) by (destruct Hr as [-> _]; apply not_native; exact Hf).
      unfold chosen in Hch. destruct named as [|nm named].
      - destruct (positional_spec _ _ _ _ Hch) as (-> & Hl & Hd). rewrite Hlen. split; [exact Hl|]. split; [exact Hd|]. intros n Hn.
        unfold call, bind. rewrite (G1 n Hn). cbn [grow s_natives]. rewrite Hnat. unfold find_command. rewrite Hc. reflexivity.
      - destruct args as [|a0 args]; [|discriminate]. destruct (by_keyword (f_params fd) (nm :: named)) as [es'|] eqn:Ek; [|discriminate].
        cbn [option_map] in Hch. assert (es' = es) as -> by congruence. assert (ds = []) as -> by congruence.
        apply by_keyword_length in Ek as Hk. rewrite Hlen, Hk. split; [lia|]. split; [rewrite skipn_all; constructor|]. intros n Hn.
        unfold call, bind at 1. cbn [mapM]. unfold ret at 1. rewrite Hnat. unfold find_command. rewrite Hc.
        unfold bind. rewrite (named_ok _ _ _ _ Ek _ _ _ _ _ (G1 n Hn)). reflexivity. }
    destruct X as (Hl & Hd & Hcall).
    destruct (call_ok fd d g us vs ds ws g' o a Hm Fu Hl Hd I2 I3 Ea Hb c (grow s l1) Hg Hr) as (v & Hv & (N2 & l2 & G2)).
    exists v. split; [exact Hv|]. apply gives_eval. cbn [eval_body]. exists (Nat.max N1 N2), (l1 ++ l2). intros n Hn.
    rewrite Hcall by lia. rewrite G2 by lia. rewrite grow_grow. reflexivity.
  Qed.

  Lemma is_word a b : name_eqb (word a) (word b) = true <-> word a = word b. Proof. apply name_eqb_spec. Qed.
  Lemma int_args_ok us zs : Forall2 stands us (map NI zs) -> int_args H us = Some zs /\ all_int H us = true.
  Proof.
    revert us. induction zs as [|z zs IH]; intros us F; inversion F as [|u a us' l Hu F']; subst; [split; reflexivity|]. destruct Hu as [Du Tu].
    destruct (IH _ F') as [E1 E2]. cbn [int_args all_int forallb]. unfold int_arg. rewrite Du, E1, Tu. split; [reflexivity|]. exact E2.
  Qed.
  Lemma seq_range a b : py_range H a b 1 = map DInt (interval a b).
  Proof.
    unfold py_range, interval, range_len. rewrite map_map. cbn [Z.ltb Z.compare]. change (0 <? 1) with true. cbn iota.
    replace ((b - a + 1 - 1) / 1) with (b - a) by (rewrite Z.div_1_r; lia).
    apply map_ext. intros k. f_equal. lia.
  Qed.
  Lemma progression_range a b s l : progression a b s l -> py_range H a b s = map DInt l.
  Proof.
    intros (Hs & Hn & Hin & Hlast).
    assert (Hlen : range_len a b s = List.length l).
    { unfold range_len. set (n := List.length l) in *.
      assert (Hprev : n <> 0%nat -> if 0 <? s then a + (Z.of_nat n - 1) * s < b else b < a + (Z.of_nat n - 1) * s).
      { intros Hn0. destruct (nth_error l (n - 1)) as [z|] eqn:E.
        - pose proof (Hn _ _ E) as Ez. pose proof (Hin z (nth_error_In _ _ E)) as Hz. rewrite Ez in Hz.
          replace (Z.of_nat (n - 1)) with (Z.of_nat n - 1) in Hz by lia. exact Hz.
        - apply nth_error_None in E. unfold n in *. lia. }
      destruct (Z.ltb_spec 0 s) as [Hp|Hp].
      - destruct (Nat.eq_dec n 0) as [E0|E0].
        + rewrite E0 in Hlast |- *. assert ((b - a + s - 1) / s <= 0); [|lia].
          assert ((b - a + s - 1) / s < 1); [|lia]. apply Z.div_lt_upper_bound; lia.
        + specialize (Hprev E0). replace ((b - a + s - 1) / s) with (Z.of_nat n); [lia|].
          apply Z.div_unique with (r := b - a + s - 1 - s * Z.of_nat n); [left; nia|lia].
      - destruct (Nat.eq_dec n 0) as [E0|E0].
        + rewrite E0 in Hlast |- *. assert ((a - b + - s - 1) / - s < 1); [|lia]. apply Z.div_lt_upper_bound; lia.
        + specialize (Hprev E0). replace ((a - b + - s - 1) / - s) with (Z.of_nat n); [lia|].
          apply Z.div_unique with (r := a - b + - s - 1 - (- s) * Z.of_nat n); [left; nia|lia]. }
    unfold py_range. rewrite Hlen. clear - Hn.
    assert (G : forall m, (forall k z, nth_error l k = Some z -> z = a + Z.of_nat (m + k) * s) ->
      map (fun k => DInt (a + Z.of_nat k * s)) (seq m (List.length l)) = map (@DInt (hF H) (hO H)) l).
    { clear Hn. induction l as [|z l IH]; intros m Hn; [reflexivity|]. cbn [List.length seq map]. rewrite (IH (S m)).
      - rewrite (Hn 0%nat z eq_refl). do 4 f_equal. lia.
      - intros k x E. rewrite (Hn (S k) x E). do 3 f_equal. lia. }
    apply G. exact Hn.
  Qed.
  Lemma min_ok zs z m : In m (z :: zs) -> (forall x, In x (z :: zs) -> m <= x) -> py_min z zs = m.
  Proof.
    unfold py_min. revert z. induction zs as [|y zs IH]; intros z Hm Hle; cbn [fold_left].
    - destruct Hm as [->|[]]. reflexivity.
    - assert (Hmin : (if y <? z then y else z) = Z.min z y) by (destruct (Z.ltb_spec y z); lia). rewrite Hmin. apply IH.
      + destruct Hm as [->|[->|Hm]].
        * left. pose proof (Hle y (or_intror (or_introl eq_refl))). lia.
        * left. pose proof (Hle z (or_introl eq_refl)). lia.
        * right. exact Hm.
      + intros x [<-|Hx]; [|apply Hle; right; right; exact Hx].
        pose proof (Hle y (or_intror (or_introl eq_refl))). pose proof (Hle z (or_introl eq_refl)). lia.
  Qed.
  Lemma max_ok zs z m : In m (z :: zs) -> (forall x, In x (z :: zs) -> x <= m) -> py_max z zs = m.
  Proof.
    unfold py_max. revert z. induction zs as [|y zs IH]; intros z Hm Hle; cbn [fold_left].
    - destruct Hm as [->|[]]. reflexivity.
    - assert (Hmin : (if z <? y then y else z) = Z.max z y) by (destruct (Z.ltb_spec z y); lia). rewrite Hmin. apply IH.
      + destruct Hm as [->|[->|Hm]].
        * left. pose proof (Hle y (or_intror (or_introl eq_refl))). lia.
        * left. pose proof (Hle z (or_introl eq_refl)). lia.
        * right. exact Hm.
      + intros x [<-|Hx]; [|apply Hle; right; right; exact Hx].
        pose proof (Hle y (or_intror (or_introl eq_refl))). pose proof (Hle z (or_introl eq_refl)). lia.
  Qed.
  Ltac args F := repeat match type of F with Forall2 _ _ (_ :: _) =>
    let u := fresh "u" in let F' := fresh "F" in let Hu := fresh "Hu" in
    inversion F as [|u ? ? ? Hu F' ]; subst; clear F; rename F' into F; destruct Hu as [? ?] end; inversion F; subst; clear F.
  Lemma library_ok f vs a us : library f vs a -> Forall2 stands us vs ->
    exists v, stands v a /\ lib_call H f us = Some (inl v).
  Proof.
    intros L F. destruct L as [l|b|a0 b|a0 b s l Hp|x y|x|z|zs m Hm Hle|zs m Hm Hle].
    - args F. eexists. split; [|unfold lib_call; change (name_eqb (named "len") (word "len")) with true; cbn iota; rewrite H0; reflexivity].
      rewrite map_length. split; reflexivity.
    - destruct (int_args_ok us [b] F) as [E _]. eexists. split; [|unfold lib_call; change (name_eqb (named "range") (word "len")) with false;
        change (name_eqb (named "range") (word "range")) with true; cbn iota; rewrite E; reflexivity].
      rewrite seq_range. split; reflexivity.
    - destruct (int_args_ok us [a0; b] F) as [E _]. eexists. split; [|unfold lib_call; change (name_eqb (named "range") (word "len")) with false;
        change (name_eqb (named "range") (word "range")) with true; cbn iota; rewrite E; reflexivity].
      rewrite seq_range. split; reflexivity.
    - destruct (int_args_ok us [a0; b; s] F) as [E _]. exists (Val (DList (map DInt l)) (Some (TLst INT))). split; [split; reflexivity|].
      unfold lib_call; change (name_eqb (named "range") (word "len")) with false;
        change (name_eqb (named "range") (word "range")) with true; cbn iota; rewrite E. cbn [lib_range].
      replace (s =? 0) with false by (symmetry; apply Z.eqb_neq; apply Hp). unfold ints. rewrite (progression_range _ _ _ _ Hp). reflexivity.
    - args F. eexists. split; [|unfold lib_call; change (name_eqb (named "concat") (word "len")) with false; change (name_eqb (named "concat") (word "range")) with false;
        change (name_eqb (named "concat") (word "concat")) with true; cbn iota; rewrite H0, H2, H1; reflexivity].
      rewrite <- map_app. split; reflexivity.
    - args F. eexists. split; [|unfold lib_call; change (name_eqb (named "reverse") (word "len")) with false; change (name_eqb (named "reverse") (word "range")) with false;
        change (name_eqb (named "reverse") (word "concat")) with false; change (name_eqb (named "reverse") (word "reverse")) with true; cbn iota; rewrite H0, H1; reflexivity].
      rewrite <- map_rev. split; reflexivity.
    - args F. eexists. split; [|unfold lib_call, int_arg; 
        change (name_eqb (named "abs") (word "len")) with false; change (name_eqb (named "abs") (word "range")) with false;
        change (name_eqb (named "abs") (word "concat")) with false; change (name_eqb (named "abs") (word "reverse")) with false;
        change (name_eqb (named "abs") (word "abs")) with true; cbn iota; rewrite H0, H1; reflexivity].
      split; reflexivity.
    - destruct (int_args_ok us zs F) as [E A]. exists (Val (DInt m) (Some INT)). split; [split; reflexivity|].
      unfold lib_call; change (name_eqb (named "min") (word "len")) with false; change (name_eqb (named "min") (word "range")) with false;
        change (name_eqb (named "min") (word "concat")) with false; change (name_eqb (named "min") (word "reverse")) with false;
        change (name_eqb (named "min") (word "abs")) with false; change (name_eqb (named "min") (word "min")) with true; cbn iota.
      rewrite E. destruct zs as [|z zs]; [destruct Hm|]. rewrite A, (min_ok _ _ _ Hm Hle). reflexivity.
    - destruct (int_args_ok us zs F) as [E A]. exists (Val (DInt m) (Some INT)). split; [split; reflexivity|].
      unfold lib_call; change (name_eqb (named "max") (word "len")) with false; change (name_eqb (named "max") (word "range")) with false;
        change (name_eqb (named "max") (word "concat")) with false; change (name_eqb (named "max") (word "reverse")) with false;
        change (name_eqb (named "max") (word "abs")) with false; change (name_eqb (named "max") (word "min")) with false; change (name_eqb (named "max") (word "max")) with true; cbn iota.
      rewrite E. destruct zs as [|z zs]; [destruct Hm|]. rewrite A, (max_ok _ _ _ Hm Hle). reflexivity.
  Qed.
  Lemma case_lib d g f args vs a : ~ In f natives -> find (fun h => name_eqb (f_name h) f) cmds = None ->
    PXS d g args vs -> library f vs a -> PX d g (ECall (EId f) args []) a.
  Proof.
    intros Hf Hc I L c s Hg Hr. destruct (I c s Hg Hr) as (us & Fu & (N1 & l1 & G1)).
    destruct (library_ok f vs a us L Fu) as (v & Hv & E). exists v. split; [exact Hv|].
    assert (Hnat : existsb (name_eqb f) (s_natives H s) = false) by (destruct Hr as [-> _]; apply not_native; exact Hf).
    apply gives_eval. cbn [eval_body]. exists N1, l1. intros n Hn. unfold call, bind. rewrite (G1 n Hn). cbn [grow s_natives].
    rewrite Hnat. unfold find_command. rewrite Hc. unfold liftw. rewrite (Hlib _ _ _ (s_world H (grow s l1)) E). reflexivity.
  Qed.

  (** ** Statements *)
  Lemma outs_scopes o c ss : outs o c -> outs o (set_scopes H ss c). Proof. exact (fun h => h). Qed.
  Lemma effect_same c g o : agrees g c -> outs o c -> effect c g o c.
  Proof. intros Hg Ho. split; [exact Hg|]. split; [exact Ho|]. destruct Hg as [Hne _]. destruct (c_scopes H c) as [|sc ss]; [congruence|]. exists sc. reflexivity. Qed.
  Lemma case_var d g n t e a o : PX d g e a -> PS d g (SVar n t (Some e)) o (bindv g n a) o.
  Proof.
    intros I c s Hg Ho Hr. destruct (I c s Hg Hr) as (v & Hv & G).
    destruct (agrees_set' g c n v a (agrees_weak _ _ _ Hg) Hv) as (c1 & Es & Hg1 & Hs1 & Ec1).
    exists c1. split; [split; [exact Hg1|]; split; [|exact Hs1]|].
    - rewrite Ec1. exact Ho.
    - apply gives_exec. cbn [exec_body]. eapply gives_bind; [exact G|]. intros l. apply gives_pure. apply Es.
  Qed.
  Lemma case_assert d g c0 msg b o : PX d g c0 (NB b) ->
    PS d g (SAssert c0 msg) o g (Out (o_emit o) (if b then o_fails o else o_fails o ++ [msg]) (o_ret o)).
  Proof.
    intros I c s Hg (Hf & Hrt & He) Hr. destruct (I c s Hg Hr) as (v & Hv & G). cbn in Hv. subst v.
    exists (if b then c else Ctx H (c_scopes H c) (c_emit H c) (c_fails H c ++ [msg]) (c_diags H c) (c_ret H c)). split.
    - destruct b.
      + apply effect_same; [exact Hg|]. split; [exact Hf|]. split; [exact Hrt|exact He].
      + split; [exact Hg|]. split.
        * split; [cbn; rewrite Hf; reflexivity|]. split; [exact Hrt|exact He].
        * destruct Hg as [Hne _]. cbn [c_scopes]. destruct (c_scopes H c) as [|sc ss]; [congruence|]. exists sc. reflexivity.
    - apply gives_exec. cbn [exec_body]. eapply gives_bind; [exact G|]. intros l.
      eapply gives_bind; [apply gives_pure; rewrite truthy_bool; reflexivity|]. intros l2.
      eapply gives_bind; [apply gives_event|]. intros l3. apply gives_pure. destruct b; reflexivity.
  Qed.
  Lemma case_emit d g e a o : PX d g e a -> PS d g (SEmit e []) o g (Out (Some a) (o_fails o) (o_ret o)).
  Proof.
    intros I c s Hg (Hf & Hrt & He) Hr. destruct (I c s Hg Hr) as (v & Hv & G).
    exists (Ctx H (c_scopes H c) (Some (v, [])) (c_fails H c) (c_diags H c) (c_ret H c)). split.
    - split; [exact Hg|]. split.
      + split; [exact Hf|]. split; [exact Hrt|]. exists v. auto.
      + destruct Hg as [Hne _]. cbn [c_scopes]. destruct (c_scopes H c) as [|sc ss]; [congruence|]. exists sc. reflexivity.
    - apply gives_exec. cbn [exec_body]. eapply gives_bind; [exact G|]. intros l. cbn [eval_meta].
      eapply gives_bind; [apply gives_ret|]. intros l2.
      eapply gives_bind; [apply gives_event|]. intros l3. apply gives_pure. reflexivity.
  Qed.
  Lemma case_pass d g o : PS d g SPass o g o.
  Proof. intros c s Hg Ho Hr. exists c. split; [apply effect_same; auto|]. apply gives_exec. apply gives_ret. Qed.
  Lemma case_expr d g e a o : PX d g e a -> PS d g (SExpr e) o g o.
  Proof.
    intros I c s Hg Ho Hr. destruct (I c s Hg Hr) as (v & Hv & G). exists c. split; [apply effect_same; auto|].
    apply gives_exec. cbn [exec_body]. eapply gives_bind; [exact G|]. intros l. apply gives_ret.
  Qed.
  Lemma effect_return c g o : agrees g c -> outs o c ->
    effect c g (Out (o_emit o) (o_fails o) true) (Ctx H (c_scopes H c) (c_emit H c) (c_fails H c) (c_diags H c) true).
  Proof.
    intros Hg (Hf & Hrt & He). split; [exact Hg|]. split; [split; [exact Hf|split; [reflexivity|exact He]]|].
    destruct Hg as [Hne _]. cbn [c_scopes]. destruct (c_scopes H c) as [|sc ss]; [congruence|]. exists sc. reflexivity.
  Qed.
  Lemma case_return d g o : PS d g (SReturn None) o g (Out (o_emit o) (o_fails o) true).
  Proof.
    intros c s Hg Ho Hr. eexists. split; [apply effect_return; auto|]. apply gives_exec. apply gives_pure. reflexivity.
  Qed.
  Lemma case_return_value d g e a o : PX d g e a -> PS d g (SReturn (Some e)) o g (Out (o_emit o) (o_fails o) true).
  Proof.
    intros I c s Hg Ho Hr. destruct (I c s Hg Hr) as (v & Hv & G). eexists. split; [apply effect_return; auto|].
    apply gives_exec. cbn [exec_body]. eapply gives_bind; [exact G|]. intros l. apply gives_pure. reflexivity.
  Qed.
  (** a block in its own scope *)
  Lemma in_scope (m : nat -> M unit) d g o g' o' c s : agrees g c -> outs o c -> ready d s ->
    (forall c s, agrees g c -> outs o c -> ready d s -> exists c', effect c g' o' c' /\ gives m c s tt c') ->
    exists c', effect c g o' c' /\ gives (fun n => new_scope H (m n)) c s tt c'.
  Proof.
    intros Hg Ho Hr I. destruct (I _ s (agrees_push _ _ Hg) (outs_scopes _ _ _ Ho) Hr) as (c1 & (_ & Ho1 & sc & Hs) & G).
    cbn [c_scopes set_scopes tl] in Hs. exists (set_scopes H (c_scopes H c) c1). split; [|eapply gives_scope; [exact G|exact Hs]].
    split; [exact Hg|]. split; [apply outs_scopes; exact Ho1|].
    destruct Hg as [Hne _]. cbn [c_scopes set_scopes]. destruct (c_scopes H c) as [|sc' ss]; [congruence|]. exists sc'. reflexivity.
  Qed.
  Lemma after_cond (m : nat -> M unit) (k : nat -> bool -> M unit) d g c0 b c s c' : PX d g c0 (NB b) -> agrees g c -> ready d s ->
    (forall l, gives (fun n => k n b) c (grow s l) tt c') ->
    gives (fun n => bind H (eval n c0) (fun v => bind H (truthy H v) (k n))) c s tt c'.
  Proof.
    intros I Hg Hr G. destruct (I c s Hg Hr) as (v & Hv & G1). cbn in Hv. subst v.
    eapply gives_bind; [exact G1|]. intros l. eapply gives_ext; [|exact (G l)]. intros n. rewrite truthy_bool. reflexivity.
  Qed.
  Lemma then_ctx (e : expr) (k : nat -> V -> M unit) c s v (P : ctx -> Prop) : gives (fun n => eval n e) c s v c ->
    (forall l, exists c', P c' /\ gives (fun n => k n v) c (grow s l) tt c') ->
    exists c', P c' /\ gives (fun n => bind H (eval n e) (k n)) c s tt c'.
  Proof.
    intros (N1 & l1 & E1) G. destruct (G l1) as (c2 & HP & N2 & l2 & E2). exists c2. split; [exact HP|].
    exists (Nat.max N1 N2), (l1 ++ l2). intros n Hn. unfold bind. rewrite E1 by lia. rewrite E2 by lia. rewrite grow_grow. reflexivity.
  Qed.
  Lemma lift_exec st c s (P : ctx -> Prop) :
    (exists c', P c' /\ gives (fun n => exec_body H (eval n) (exec n) st) c s tt c') -> exists c', P c' /\ gives (fun n => exec n st) c s tt c'.
  Proof. intros (c' & HP & G). exists c'. split; [exact HP|]. apply gives_exec. exact G. Qed.
  Lemma ext_ctx (m m' : nat -> M unit) c s (P : ctx -> Prop) : (forall n, m n = m' n) ->
    (exists c', P c' /\ gives m c s tt c') -> exists c', P c' /\ gives m' c s tt c'.
  Proof. intros E (c' & HP & G). exists c'. split; [exact HP|]. eapply gives_ext; eauto. Qed.
  Lemma case_if_true d g c0 t elifs els o g' o' : PX d g c0 (NB true) -> PSS d g (block_of t) o g' o' -> PS d g (SIf c0 t elifs els) o g o'.
  Proof.
    intros I1 I2 c s Hg Ho Hr. apply lift_exec. cbn [exec_body]. destruct (I1 c s Hg Hr) as (v & Hv & G1). cbn in Hv. subst v.
    eapply then_ctx; [exact G1|]. intros l. eapply ext_ctx; [|eapply in_scope; [exact Hg|exact Ho|exact (ready_grow _ _ l Hr)|exact I2]].
    intros n. rewrite truthy_bool. reflexivity.
  Qed.
  Lemma case_if_else d g c0 t e o g' o' : PX d g c0 (NB false) -> PSS d g (block_of e) o g' o' -> PS d g (SIf c0 t [] (Some e)) o g o'.
  Proof.
    intros I1 I2 c s Hg Ho Hr. apply lift_exec. cbn [exec_body]. destruct (I1 c s Hg Hr) as (v & Hv & G1). cbn in Hv. subst v.
    eapply then_ctx; [exact G1|]. intros l. eapply ext_ctx; [|eapply in_scope; [exact Hg|exact Ho|exact (ready_grow _ _ l Hr)|exact I2]].
    intros n. rewrite truthy_bool. reflexivity.
  Qed.
  Lemma case_if_none d g c0 t o : PX d g c0 (NB false) -> PS d g (SIf c0 t [] None) o g o.
  Proof.
    intros I1 c s Hg Ho Hr. apply lift_exec. cbn [exec_body]. destruct (I1 c s Hg Hr) as (v & Hv & G1). cbn in Hv. subst v.
    eapply then_ctx; [exact G1|]. intros l. exists c. split; [apply effect_same; auto|]. apply gives_pure. reflexivity.
  Qed.
  Lemma case_if_elif d g c0 t c2 t2 elifs els o o' : PX d g c0 (NB false) -> PS d g (SIf c2 t2 elifs els) o g o' ->
    PS d g (SIf c0 t ((c2, t2) :: elifs) els) o g o'.
  Proof.
    intros I1 I2 c s Hg Ho Hr. apply lift_exec. cbn [exec_body]. destruct (I1 c s Hg Hr) as (v & Hv & G1). cbn in Hv. subst v.
    eapply then_ctx; [exact G1|]. intros l. destruct (I2 c (grow s l) Hg Ho (ready_grow _ _ l Hr)) as (c' & He & (N & k & G)).
    exists c'. split; [exact He|]. exists N, k. intros n Hn. specialize (G (S n) ltac:(lia)). exact G.
  Qed.
  Lemma case_for d g x it b l o g' o' : PX d g it (NL l) -> PL d g x (block_of b) l o g' o' -> PS d g (SFor x it b) o g o'.
  Proof.
    intros I1 I2 c s Hg Ho Hr. apply lift_exec. cbn [exec_body]. unfold exec_for. destruct (I1 c s Hg Hr) as (v & [Dv Tv] & G1).
    eapply then_ctx; [exact G1|]. intros k. eapply ext_ctx; [|eapply in_scope; [exact Hg|exact Ho|exact (ready_grow _ _ k Hr)|exact I2]].
    intros n. unfold lift, bind. rewrite Dv. cbn [of_host py_iter]. unfold elem_type. rewrite Tv. reflexivity.
  Qed.
  Lemma case_ss_nil d g o : PSS d g [] o g o.
  Proof. intros c s Hg Ho Hr. exists c. split; [apply effect_same; auto|]. apply gives_ret. Qed.
  Lemma case_ss_stop d g s0 ss o g' o' : PS d g s0 o g' o' -> o_ret o' = true -> PSS d g (s0 :: ss) o g' o'.
  Proof.
    intros I Et c s Hg Ho Hr.
    destruct (I c (grow s [EvStmt H (s_depth H s) s0]) Hg Ho Hr) as (c1 & He & (N & l & G)).
    exists c1. split; [exact He|]. exists N, ([EvStmt H (s_depth H s) s0] ++ l). intros n Hn. cbn [stmts]. unfold bind, emit_event.
    change (State H (s_world H s) (s_depth H s) (s_natives H s) (s_log H s ++ [EvStmt H (s_depth H s) s0])) with (grow s [EvStmt H (s_depth H s) s0]).
    rewrite (G n Hn). unfold should_return. destruct He as (_ & (_ & -> & _) & _). rewrite Et, grow_grow. reflexivity.
  Qed.
  Lemma effect_trans c g1 o1 c1 g2 o2 c2 : effect c g1 o1 c1 -> effect c1 g2 o2 c2 -> effect c g2 o2 c2.
  Proof. intros (_ & _ & sc1 & E1) (Hg & Ho & sc2 & E2). split; [exact Hg|]. split; [exact Ho|]. eapply scopes_tl; eauto. Qed.
  Lemma case_ss_next d g s0 ss o g1 o1 g' o' : PS d g s0 o g1 o1 -> o_ret o1 = false -> PSS d g1 ss o1 g' o' -> PSS d g (s0 :: ss) o g' o'.
  Proof.
    intros I Et I2 c s Hg Ho Hr.
    destruct (I c (grow s [EvStmt H (s_depth H s) s0]) Hg Ho Hr) as (c1 & He & (N & l & G)). pose proof He as (Hg1 & Ho1 & _).
    destruct (I2 c1 (grow (grow s [EvStmt H (s_depth H s) s0]) l) Hg1 Ho1 Hr) as (c2 & He2 & (N2 & l2 & G2)).
    exists c2. split; [eapply effect_trans; eauto|]. exists (Nat.max N N2), ([EvStmt H (s_depth H s) s0] ++ l ++ l2). intros n Hn. cbn [stmts]. unfold bind, emit_event.
    change (State H (s_world H s) (s_depth H s) (s_natives H s) (s_log H s ++ [EvStmt H (s_depth H s) s0])) with (grow s [EvStmt H (s_depth H s) s0]).
    rewrite G by lia. unfold should_return. destruct Ho1 as (_ & -> & _). rewrite Et. rewrite G2 by lia. rewrite !grow_grow. reflexivity.
  Qed.
  Lemma case_l_nil d g x b o : PL d g x b [] o g o.
  Proof. intros c s Hg Ho Hr. exists c. split; [apply effect_same; auto|]. apply gives_ret. Qed.
  Lemma case_l_stop d g x b i l o g' o' : PSS d (bindv g x (NI i)) b o g' o' -> o_ret o' = true -> PL d g x b (i :: l) o g' o'.
  Proof.
    intros I Et c s Hg Ho Hr.
    destruct (agrees_set' g c x (Val (DInt i) (Some INT)) (NI i) (agrees_weak _ _ _ Hg)) as (c1 & Es & Hg1 & (sc1 & Hs1) & Ec1); [split; reflexivity|].
    assert (Ho1 : outs o c1) by (rewrite Ec1; exact Ho).
    destruct (I c1 s Hg1 Ho1 Hr) as (c2 & (Hg2 & Ho2 & sc2 & Hs2) & (N & l1 & G)).
    exists c2. split; [split; [exact Hg2|split; [exact Ho2|eapply scopes_tl; eauto]]|].
    exists N, l1. intros n Hn. cbn [map for_items]. unfold bind. rewrite Es, (G n Hn). unfold should_return. destruct Ho2 as (_ & -> & _). rewrite Et. reflexivity.
  Qed.
  Lemma case_l_next d g x b i l o g1 o1 g' o' : PSS d (bindv g x (NI i)) b o g1 o1 -> o_ret o1 = false -> PL d g1 x b l o1 g' o' ->
    PL d g x b (i :: l) o g' o'.
  Proof.
    intros I Et I2 c s Hg Ho Hr.
    destruct (agrees_set' g c x (Val (DInt i) (Some INT)) (NI i) (agrees_weak _ _ _ Hg)) as (c1 & Es & Hg1 & (sc1 & Hs1) & Ec1); [split; reflexivity|].
    assert (Ho1 : outs o c1) by (rewrite Ec1; exact Ho).
    destruct (I c1 s Hg1 Ho1 Hr) as (c2 & (Hg2 & Ho2 & sc2 & Hs2) & (N & l1 & G)).
    destruct (I2 c2 (grow s l1) Hg2 Ho2 Hr) as (c3 & (Hg3 & Ho3 & sc3 & Hs3) & (N2 & l2 & G2)).
    exists c3. split.
    { split; [exact Hg3|]. split; [exact Ho3|]. destruct (scopes_tl _ _ _ _ _ Hs1 Hs2) as (sc & Hs). eapply scopes_tl; eauto. }
    exists (Nat.max N N2), (l1 ++ l2). intros n Hn. cbn [map for_items]. unfold bind. rewrite Es. rewrite G by lia.
    unfold should_return. destruct Ho2 as (_ & -> & _). rewrite Et. rewrite G2 by lia. rewrite grow_grow. reflexivity.
  Qed.

  Lemma adequate :
    (forall d g e a, ex cmds natives d g e a -> PX d g e a) /\ (forall d g es vs, exs cmds natives d g es vs -> PXS d g es vs) /\
    (forall d g cs b, conds_are cmds natives d g cs b -> PC d g cs b) /\
    (forall d g x cs e l zs, comp cmds natives d g x cs e l zs -> PM d g x cs e l zs) /\
    (forall d g s o g' o', st cmds natives d g s o g' o' -> PS d g s o g' o') /\
    (forall d g ss o g' o', sts cmds natives d g ss o g' o' -> PSS d g ss o g' o') /\
    (forall d g x b l o g' o', loop cmds natives d g x b l o g' o' -> PL d g x b l o g' o').
  Proof.
    apply (ref_ind cmds natives PX PXS PC PM PS PSS PL).
    - intros d g z c s Hg Hr. eexists. split; [|apply gives_eval; apply gives_ret]. split; reflexivity.
    - intros d g b c s Hg Hr. eexists. split; [|apply gives_eval; apply gives_ret]. reflexivity.
    - intros d g x a E c s [Hne Hg] Hr. destruct (Hg x a E) as (v & Hv & Hs). exists v. split; [exact Hs|].
      apply gives_eval. cbn [eval_body]. apply gives_pure. rewrite Hv. reflexivity.
    - intros d g e z _. apply case_neg.
    - intros d g e b _. apply case_not.
    - intros d g l op r x y z _ I1 _ I2 E. eapply case_bin; [exact I1|exact I2|]. intros u v Hu Hv. eapply binop_arith; eauto.
    - intros d g l op r x y b _ I1 _ I2 E. eapply case_bin; [exact I1|exact I2|]. intros u v Hu Hv.
      eexists. split; [|intros c s; eapply binop_compare; eauto]. reflexivity.
    - intros d g l r x y _ I1 _ I2. eapply case_bin; [exact I1|exact I2|]. intros u v. apply case_and.
    - intros d g l r x y _ I1 _ I2. eapply case_bin; [exact I1|exact I2|]. intros u v. apply case_or.
    - intros d g c t f b a _ I1 _ I2. eapply case_cond; eauto.
    - intros d g es zs _ I. apply case_list. exact I.
    - intros d g l r x y _ I1 _ I2. eapply case_bin; [exact I1|exact I2|]. intros u v. apply binop_concat.
    - intros d g a b x y _ I1 _ I2. apply case_range; auto.
    - intros d g o i l k z _ I1 _ I2 E. eapply case_index; eauto.
    - intros d g e x it conds l zs _ I1 _ I2 Hl. eapply case_comp; eauto.
    - intros d g f fd args named es ds vs ws g' o a Hf Hc Hm Hch _ I1 _ I2 _ I3 Ea Hb. eapply case_call; eauto.
    - intros d g f args vs a Hf Hc _ I L. eapply case_lib; eauto.
    - intros d g c s Hg Hr. exists []. split; [constructor|apply gives_ret].
    - intros d g e es a vs _ I1 _ I2. apply case_cons; auto.
    - intros d g c s Hg Hr. apply gives_ret.
    - intros d g e cs _ I. apply case_cfalse. exact I.
    - intros d g e cs b _ I1 _ I2. apply case_ctrue; auto.
    - intros d g x cs e c s v Hg Hr Ev acc Hl. exists [], c. split; [constructor|]. rewrite app_nil_r.
      split; [destruct Hg as [Hne _]; destruct (c_scopes H c) as [|sc ss]; [congruence|]; exists sc; reflexivity|].
      split; [destruct c; reflexivity|]. apply gives_ret.
    - intros d g x cs e i l zs _ I1 _ I2. apply case_mskip; auto.
    - intros d g x cs e i l z zs _ I1 _ I3 _ I2. apply case_mtake; auto.
    - intros d g n t e a o _. apply case_var.
    - intros d g c msg b o _. apply case_assert.
    - intros d g e a o _. apply case_emit.
    - intros d g o. apply case_pass.
    - intros d g e a o _. apply case_expr.
    - intros d g o. apply case_return.
    - intros d g e a o _. apply case_return_value.
    - intros d g c t elifs els o g' o' _ I1 _ I2. eapply case_if_true; eauto.
    - intros d g c t c2 t2 elifs els o o' _ I1 _ I2. eapply case_if_elif; eauto.
    - intros d g c t e o g' o' _ I1 _ I2. eapply case_if_else; eauto.
    - intros d g c t o _. apply case_if_none.
    - intros d g x it b l o g' o' _ I1 _ I2. eapply case_for; eauto.
    - intros d g o. apply case_ss_nil.
    - intros d g s ss o g' o' _. apply case_ss_stop.
    - intros d g s ss o g1 o1 g' o' _ I1 Et _ I2. eapply case_ss_next; eauto.
    - intros d g x b o. apply case_l_nil.
    - intros d g x b i l o g' o' _. apply case_l_stop.
    - intros d g x b i l o g1 o1 g' o' _ I1 Et _ I2. eapply case_l_next; eauto.
  Qed.
End Adequate.

Section Execute.
  Variable H : host.
  Hypothesis Hlib : has_library H.
  Notation D := (data (hF H) (hO H)).
  Notation V := (rval (hF H) (hO H)).
  Lemma annotated_type p w (x : D) T : annotated p w -> type_named (named w) = Some T ->
    param_type H None x = Some T -> param_type H (p_type p) x = Some T.
  Proof. intros [-> | ->] E1 E2; [exact E2|exact E1]. Qed.
  Lemma starts_stands p x a : starts H p x a -> stands H (Val x (param_type H (p_type p) x)) a.
  Proof.
    intros [z Ha|b Ha].
    - rewrite (annotated_type p "int" (DInt z) INT Ha); [split; reflexivity|reflexivity|reflexivity].
    - rewrite (annotated_type p "bool" (DBool b) BOOL Ha); reflexivity.
  Qed.
  Lemma wrap_ok cmds limit natives d given ps vs : inputs H cmds natives d given ps vs ->
    forall c s acc, agrees H none c -> ready H limit natives d s ->
    exists us, Forall2 (stands H) us vs /\ gives H (fun n => wrap_parameters H (eval H cmds limit n) ps given acc) c s (set_all H ps us acc) c.
  Proof.
    induction 1 as [|p ps x a vs Eg Hs F IH|p ps e a vs Eg Ed Hx F IH]; intros c s acc Hg Hr.
    - exists []. split; [constructor|]. apply gives_ret.
    - destruct (IH c s (dset name_eqb (p_name p) (Val x (param_type H (p_type p) x)) acc) Hg Hr) as (us & Fu & G).
      exists (Val x (param_type H (p_type p) x) :: us). split; [constructor; [apply starts_stands; exact Hs|exact Fu]|].
      eapply gives_ext; [|exact G]. intros n. cbn [wrap_parameters]. rewrite Eg. reflexivity.
    - destruct (proj1 (adequate H cmds limit natives Hlib) _ _ _ _ Hx c s Hg Hr) as (v & Hv & (N1 & l1 & G1)).
      destruct (IH c (grow H s l1) (dset name_eqb (p_name p) v acc) Hg Hr) as (us & Fu & (N2 & l2 & G2)).
      exists (v :: us). split; [constructor; auto|]. exists (Nat.max N1 N2), (l1 ++ l2). intros n Hn.
      cbn [wrap_parameters]. rewrite Eg, Ed. unfold bind. rewrite G1 by lia. rewrite G2 by lia. rewrite grow_grow. reflexivity.
  Qed.
  Lemma agrees_none d : agrees H none (create_context H d). Proof. split; [discriminate|]. intros n a E. discriminate. Qed.
  Lemma execute_adequate limit m cmd given s d o :
    m_blocks m = [] -> s_depth H s + Z.of_nat d <= limit -> produces H m cmd given (s_natives H s) d o ->
    exists N r s', reports H o r /\ forall fuel, (N <= fuel)%nat -> execute H limit fuel m cmd given s = (Returned H r, s').
  Proof.
    intros Hb Hd (fd & vs & g' & Hc & Hm & Hi & Hs).
    assert (Hr : ready H limit (s_natives H s) d s) by (split; [reflexivity|exact Hd]).
    destruct (wrap_ok _ limit _ _ _ _ _ Hi (create_context H []) s [] (agrees_none []) Hr) as (us & Fu & (N1 & l1 & G1)).
    set (dict := set_all H (f_params fd) us []) in *.
    assert (Hdict : agrees H (binds (map p_name (f_params fd)) vs none) (create_context H dict)).
    { apply agrees_create; [apply nodup_all; constructor|]. apply covers_all; [exact Fu|]. intros n b E. discriminate. }
    set (s1 := grow H (grow H s l1) [EvEnter H (s_depth H s) (f_name fd)]).
    destruct (proj1 (proj2 (proj2 (proj2 (proj2 (proj2 (adequate H (m_funs m) limit (s_natives H s) Hlib)))))) _ _ _ _ _ _ Hs
      (create_context H dict) s1 Hdict (outs_start H dict) Hr) as (c2 & (_ & (Of & _ & Oe) & _) & (N2 & l2 & G2)).
    exists (Nat.max N1 N2).
    exists (match c_fails H c2, c_emit H c2 with
            | _ :: _, _ => Result H false (c_emit H c2) (c_fails H c2) None
            | [], None => failed H [] "Command did not emit any geometry"
            | [], Some _ => Result H true (c_emit H c2) [] None end).
    exists (grow H s1 l2). split.
    - rewrite Of. unfold reports.
      destruct (o_fails o) as [|f fs]; destruct (o_emit o) as [a|];
        [destruct Oe as (v & -> & Hv)|rewrite Oe|destruct Oe as (v & -> & Hv)|rewrite Oe]; cbn.
      + repeat split; try congruence; try (right; congruence); eauto.
      + split; [reflexivity|]. split; [split; [discriminate|intros [_ X]; congruence]|]. split; [|reflexivity].
        split; [discriminate|intros [X|X]; congruence].
      + split; [reflexivity|]. split; [split; [discriminate|intros [X _]; discriminate]|]. split; [|eauto].
        split; [intros _; left; discriminate|reflexivity].
      + split; [reflexivity|]. split; [split; [discriminate|intros [X _]; discriminate]|]. split; [|reflexivity].
        split; [intros _; left; discriminate|reflexivity].
    - intros n Hn. unfold execute. rewrite Hb. cbn [native_blocks negb]. unfold find_command. rewrite Hc.
      rewrite G1 by lia. unfold execute_command, bind, emit_event.
      change (State H (s_world H (grow H s l1)) (s_depth H (grow H s l1)) (s_natives H (grow H s l1))
        (s_log H (grow H s l1) ++ [EvEnter H (s_depth H (grow H s l1)) (f_name fd)])) with s1.
      change (b_stmts (f_body fd)) with (block_of (f_body fd)). rewrite G2 by lia.
      unfold apply_meta. rewrite Hm.
      change (State H (s_world H (grow H s1 l2)) (s_depth H (grow H s1 l2)) (s_natives H (grow H s1 l2)) (s_log H (grow H s1 l2))) with (grow H s1 l2).
      destruct (c_fails H c2), (c_emit H c2); reflexivity.
  Qed.
End Execute.
