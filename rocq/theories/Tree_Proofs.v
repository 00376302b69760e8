(** Proofs for C348-C354. *)
From Coq Require Import ZArith List Bool Lia.
From Verif Require Import Lex_Model Ast Ast_Ind Tree_Model Tree_Spec.
Import ListNotations.
Open Scope list_scope.
Open Scope nat_scope.

Lemma expr_ind' (P : expr -> Prop) :
  (forall v lt, P (ELit v lt)) -> (forall n, P (EId n)) ->
  (forall l op r, P l -> P r -> P (EBin l op r)) -> (forall op e, P e -> P (EUn op e)) ->
  (forall f args named, Forall P args -> P (ECall f args named)) ->
  (forall o m args named, P o -> Forall P args -> P (EMethod o m args named)) ->
  (forall o m, P o -> P (EMember o m)) -> (forall o i, P o -> P i -> P (EIndex o i)) ->
  (forall l, Forall P l -> P (EList l)) -> (forall e cls, P (EComp e cls)) ->
  (forall a b, P a -> P b -> P (ERange a b)) -> (forall c t f, P (ECond c t f)) ->
  (forall c t elifs els, P c -> P (EIf c t elifs els)) -> (forall e arms, P e -> P (EMatch e arms)) ->
  (forall ps b, P b -> P (ELambda ps b)) -> (forall l, Forall (fun ne => P (snd ne)) l -> P (EDict l)) ->
  forall e, P e.
Proof. intros. refine (proj1 (ast_ind P (fun _ => True) (fun _ => True) _ _ _ _ _ _ _ _ _ _ _ _ _ _ _ _ _ _ _ _ _ _ _ _ _ _ _ _) e); auto. Qed.

Definition raises {A} (r : res A) : Prop := r = Raise AttributeE.

Lemma map_res_cases {A B} (f : A -> res B) (bad : A -> Prop) l :
  Forall (fun a => (exists b, f a = Got b /\ ~ bad a) \/ (raises (f a) /\ bad a)) l ->
  (exists m, map_res f l = Got m /\ forall a, In a l -> ~ bad a) \/ (raises (map_res f l) /\ exists a, In a l /\ bad a).
Proof.
  induction 1 as [|a l [(b & E & N)|(E & N)] _ IH]; cbn.
  - left. exists []. split; auto.
  - rewrite E. cbn. destruct IH as [(m & -> & K)|(-> & x & I & K)]; cbn.
    + left. exists (b :: m). split; [auto|]. intros x [<-|I]; auto.
    + right. split; [reflexivity|]. exists x. auto.
  - right. unfold raises in *. rewrite E. split; [reflexivity|]. exists a. auto.
Qed.

Lemma map_vals_cases {A B} (f : A -> res B) (bad : A -> Prop) (l : list (name * A)) :
  Forall (fun ka => (exists b, f (snd ka) = Got b /\ ~ bad (snd ka)) \/ (raises (f (snd ka)) /\ bad (snd ka))) l ->
  (exists m, map_vals f l = Got m /\ forall k a, In (k, a) l -> ~ bad a) \/ (raises (map_vals f l) /\ exists k a, In (k, a) l /\ bad a).
Proof.
  induction 1 as [|[k a] l [(b & E & N)|(E & N)] _ IH]; cbn in *.
  - left. exists []. split; auto.
  - rewrite E. cbn. destruct IH as [(m & -> & K)|(-> & k' & x & I & K)]; cbn.
    + left. exists ((k, b) :: m). split; [auto|]. intros k' x [Q|I]; [inversion Q; subst; auto|eauto].
    + right. split; [reflexivity|]. exists k', x. auto.
  - right. unfold raises in *. rewrite E. split; [reflexivity|]. exists k, a. auto.
Qed.

Definition stuck (e : expr) : Prop := exists x, part_of x e /\ call_or_comp x.

Ltac po := eauto using po_self, po_left, po_right, po_un, po_call, po_object, po_marg, po_member, po_iobj, po_index, po_elem, po_from, po_to, po_cond, po_subj, po_body, po_value.
Ltac nostuck := let x := fresh "x" in let p := fresh "p" in let c := fresh "c" in
  intros (x & p & c); inversion p; subst; cbn in c; try contradiction; unfold stuck in *; eauto; firstorder.

Lemma visit_cases h e : (exists e', visit h e = Got e' /\ ~ stuck e) \/ (raises (visit h e) /\ stuck e).
Proof.
  unfold raises. induction e using expr_ind'; cbn [visit].
  - left. eexists. split; [reflexivity|]. nostuck.
  - left. eexists. split; [reflexivity|]. nostuck.
  - destruct IHe1 as [(l' & -> & N1)|(-> & x & p & c)]; cbn [bind]; [|right; split; [reflexivity|exists x; po]].
    destruct IHe2 as [(r' & -> & N2)|(-> & x & p & c)]; cbn [bind]; [|right; split; [reflexivity|exists x; po]].
    left. eexists. split; [reflexivity|]. nostuck.
  - destruct IHe as [(l' & -> & N1)|(-> & x & p & c)]; cbn [bind]; [|right; split; [reflexivity|exists x; po]].
    left. eexists. split; [reflexivity|]. nostuck.
  - right. split; [|exists (ECall e args named); split; [po|exact I]].
    destruct (map_res_cases _ _ _ H) as [(m & -> & _)|(-> & _)]; reflexivity.
  - destruct IHe as [(l' & -> & N1)|(-> & x & p & c)]; cbn [bind]; [|right; split; [reflexivity|exists x; po]].
    destruct (map_res_cases _ _ _ H) as [(l2 & -> & N2)|(-> & a & i & x & p & c)]; cbn [bind]; [|right; split; [reflexivity|exists x; po]].
    left. eexists. split; [reflexivity|]. nostuck.
  - destruct IHe as [(l' & -> & N1)|(-> & x & p & c)]; cbn [bind]; [|right; split; [reflexivity|exists x; po]].
    left. eexists. split; [reflexivity|]. nostuck.
  - destruct IHe1 as [(l' & -> & N1)|(-> & x & p & c)]; cbn [bind]; [|right; split; [reflexivity|exists x; po]].
    destruct IHe2 as [(r' & -> & N2)|(-> & x & p & c)]; cbn [bind]; [|right; split; [reflexivity|exists x; po]].
    left. eexists. split; [reflexivity|]. nostuck.
  - destruct (map_res_cases _ _ _ H) as [(l2 & -> & N2)|(-> & a & i & x & p & c)]; cbn [bind]; [|right; split; [reflexivity|exists x; po]].
    left. eexists. split; [reflexivity|]. nostuck.
  - right. split; [reflexivity|]. eexists. split; [apply po_self|exact I].
  - destruct IHe1 as [(l' & -> & N1)|(-> & x & p & c)]; cbn [bind]; [|right; split; [reflexivity|exists x; po]].
    destruct IHe2 as [(r' & -> & N2)|(-> & x & p & c)]; cbn [bind]; [|right; split; [reflexivity|exists x; po]].
    left. eexists. split; [reflexivity|]. nostuck.
  - left. eexists. split; [reflexivity|]. nostuck.
  - destruct IHe as [(l' & -> & N1)|(-> & x & p & c)]; cbn [bind]; [|right; split; [reflexivity|exists x; po]].
    left. eexists. split; [reflexivity|]. nostuck.
  - destruct IHe as [(l' & -> & N1)|(-> & x & p & c)]; cbn [bind]; [|right; split; [reflexivity|exists x; po]].
    left. eexists. split; [reflexivity|]. nostuck.
  - destruct IHe as [(l' & -> & N1)|(-> & x & p & c)]; cbn [bind]; [|right; split; [reflexivity|exists x; po]].
    left. eexists. split; [reflexivity|]. nostuck.
  - destruct (map_vals_cases _ _ _ H) as [(l2 & -> & N2)|(-> & k & a & i & x & p & c)]; cbn [bind]; [|right; split; [reflexivity|exists x; po]].
    left. eexists. split; [reflexivity|]. nostuck.
Qed.

Lemma visit_raises h e : visit h e = Raise AttributeE <-> exists x, part_of x e /\ call_or_comp x.
Proof.
  destruct (visit_cases h e) as [(e' & E & N)|(E & S)]; rewrite E; split; intro K; try discriminate; auto; contradiction.
Qed.
Lemma visit_only h e r : visit h e = Raise r -> r = AttributeE.
Proof. destruct (visit_cases h e) as [(e' & E & N)|(E & S)]; rewrite E; congruence. Qed.

Lemma bind_got {A B} (r : res A) (k : A -> res B) b : bind r k = Got b -> exists a, r = Got a /\ k a = Got b.
Proof. destruct r; cbn; [eauto|discriminate]. Qed.
Ltac got H := let a := fresh "a" in let E := fresh "E" in apply bind_got in H as (a & E & H).

Lemma map_res_got {A B} (f : A -> res B) l m : map_res f l = Got m -> Forall2 (fun a b => f a = Got b) l m.
Proof.
  revert m. induction l as [|a l IH]; cbn; intros m E.
  - inversion E. constructor.
  - got E. got E. inversion E; subst. constructor; auto.
Qed.
Lemma map_vals_got {A B} (f : A -> res B) l m : map_vals f l = Got m ->
  Forall2 (fun ka kb => fst ka = fst kb /\ f (snd ka) = Got (snd kb)) l m.
Proof.
  revert m. induction l as [|[k a] l IH]; cbn; intros m E.
  - inversion E. constructor.
  - got E. got E. inversion E; subst. constructor; auto.
Qed.

Definition plain (e : expr) : Prop := forall x, part_of x e -> ~ lossy x.

Lemma forall2_same {A} (P : A -> A -> Prop) l m : Forall2 P l m -> (forall a b, In a l -> P a b -> a = b) -> l = m.
Proof. induction 1; intro K; [auto|]. f_equal; [apply K; cbn; auto|apply IHForall2; intros; apply K; cbn; auto]. Qed.

Lemma visit_same e : plain e -> forall e', visit default e = Got e' -> e' = e.
Proof.
  unfold plain. induction e using expr_ind'; cbn [visit h_lit h_id default]; intros N e' E.
  1,2: now inversion E.
  all: try discriminate; repeat got E; inversion E; subst.
  - rewrite (IHe1 ltac:(po) _ E0), (IHe2 ltac:(po) _ E1). auto.
  - rewrite (IHe ltac:(po) _ E0). auto.
  - rewrite (IHe ltac:(po) _ E0). destruct named as [|kv named]; [|destruct (N _ (po_self _) I)].
    f_equal. symmetry. apply (forall2_same _ _ _ (map_res_got _ _ _ E1)). intros x y i V. symmetry.
    rewrite Forall_forall in H. refine (H x i _ y V). intros z pz. apply N. po.
  - rewrite (IHe ltac:(po) _ E0). auto.
  - rewrite (IHe1 ltac:(po) _ E0), (IHe2 ltac:(po) _ E1). auto.
  - f_equal. symmetry. apply (forall2_same _ _ _ (map_res_got _ _ _ E0)). intros x y i V. symmetry.
    rewrite Forall_forall in H. refine (H x i _ y V). intros z pz. apply N. po.
  - rewrite (IHe1 ltac:(po) _ E0), (IHe2 ltac:(po) _ E1). auto.
  - auto.
  - rewrite (IHe ltac:(po) _ E0). destruct elifs; [auto|destruct (N _ (po_self _) I)].
  - rewrite (IHe ltac:(po) _ E0). auto.
  - rewrite (IHe ltac:(po) _ E0). auto.
  - f_equal. symmetry. apply (forall2_same _ _ _ (map_vals_got _ _ _ E0)). intros [k x] [k' y] i [Q V]. cbn in *. subst. f_equal. symmetry.
    rewrite Forall_forall in H. refine (H (k', x) i _ y V). cbn. intros z pz. apply N. po.
Qed.

(** Walking with the default methods: unchanged unless something was lost on the way. *)
Lemma visit_default e : (forall x, part_of x e -> ~ call_or_comp x /\ ~ lossy x) -> visit default e = Got e.
Proof.
  intro N. destruct (visit_cases default e) as [(e' & E & _)|(_ & x & p & c)].
  - rewrite E. f_equal. apply visit_same; [|exact E]. intros x p. apply (N x p).
  - destruct (N x p) as [K _]. contradiction.
Qed.

Lemma concat_forall2 {A B C} (f : A -> list C) (g : B -> list C) (s : C -> C) l m :
  Forall2 (fun a b => g b = map s (f a)) l m -> concat (map g m) = map s (concat (map f l)).
Proof. induction 1; cbn; [auto|]. rewrite map_app. congruence. Qed.

Lemma forall2_in {A B} (P : A -> B -> Prop) (Q : A -> B -> Prop) l m :
  Forall2 P l m -> (forall a b, In a l -> P a b -> Q a b) -> Forall2 Q l m.
Proof. induction 1; intro K; constructor; [apply K; cbn; auto|apply IHForall2; intros; apply K; cbn; auto]. Qed.

Lemma visit_idents r e : forall e', visit (mkhooks ELit (fun n => EId (r n))) e = Got e' -> idents e' = map r (idents e).
Proof.
  induction e using expr_ind'; cbn [visit h_lit h_id]; intros e' E.
  1,2: now inversion E.
  all: try discriminate; repeat got E; inversion E; subst; cbn [idents map]; rewrite ?map_app.
  - rewrite (IHe1 _ E0), (IHe2 _ E1). auto.
  - auto.
  - rewrite (IHe _ E0). f_equal. apply concat_forall2. apply (forall2_in _ _ _ _ (map_res_got _ _ _ E1)).
    intros x y i V. rewrite Forall_forall in H. exact (H x i y V).
  - auto.
  - rewrite (IHe1 _ E0), (IHe2 _ E1). auto.
  - apply concat_forall2. apply (forall2_in _ _ _ _ (map_res_got _ _ _ E0)).
    intros x y i V. rewrite Forall_forall in H. exact (H x i y V).
  - rewrite (IHe1 _ E0), (IHe2 _ E1). auto.
  - auto.
  - auto.
  - auto.
  - auto.
  - apply (concat_forall2 (fun kv => idents (snd kv)) (fun kv => idents (snd kv))). apply (forall2_in _ _ _ _ (map_vals_got _ _ _ E0)).
    intros [k x] [k' y] i [_ V]. rewrite Forall_forall in H. exact (H (k, x) i y V).
Qed.

Lemma module_raises h m : transform_tree h m = Raise TypeE.
Proof. unfold transform_tree. destruct (m_funs m); reflexivity. Qed.

Lemma apply_app a b m : apply (a ++ b) m = bind (apply a m) (apply b).
Proof. revert m. induction a as [|f a IH]; intro m; cbn; [auto|]. destruct (f m); cbn; auto. Qed.

Lemma apply_steps ts m m' : apply ts m = Got m' <->
  exists s : nat -> modul, s 0%nat = m /\ s (length ts) = m' /\ forall i f, nth_error ts i = Some f -> f (s i) = Got (s (S i)).
Proof.
  revert m. induction ts as [|f ts IH]; intro m; cbn.
  - split; [intro E; inversion E; exists (fun _ => m'); split; auto; split; auto; intros [|i] f K; discriminate|].
    intros (s & <- & <- & _). auto.
  - split.
    + intro E. got E. apply IH in E as (s & A & B & C).
      exists (fun i => match i with 0 => m | S i => s i end). cbn. split; [auto|]. split; [auto|].
      intros [|i] g K; cbn in K; [inversion K; subst; rewrite E0; reflexivity|apply (C i g K)].
    + intros (s & A & B & C). subst m. rewrite (C 0%nat f eq_refl). cbn. apply IH.
      exists (fun i => s (S i)). split; [auto|]. split; [auto|]. intros i g K. exact (C (S i) g K).
Qed.

Lemma apply_raises ts m e : apply ts m = Raise e <->
  exists a f b m', ts = a ++ f :: b /\ apply a m = Got m' /\ f m' = Raise e.
Proof.
  revert m. induction ts as [|f ts IH]; intro m; cbn.
  - split; [discriminate|]. intros (a & f & b & m' & K & _). destruct a; discriminate.
  - split.
    + destruct (f m) eqn:F; cbn.
      * intro E. apply IH in E as (a0 & g & b & m' & -> & A & B). exists (f :: a0), g, b, m'. cbn. rewrite F. auto.
      * intro E. inversion E; subst. exists [], f, ts, m. auto.
    + intros ([|g a] & f' & b & m' & K & A & B); cbn in *; inversion K; subst.
      * inversion A; subst. rewrite B. auto.
      * got A. rewrite E. cbn. apply IH. eauto 8.
Qed.
