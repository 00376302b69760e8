From Coq Require Import ZArith String List Bool Lia.
From Verif Require Import Dict Json_Model Meta_Model Meta_Spec.
Import ListNotations.
Open Scope list_scope.

Lemma teq_spec a b : teq a b = true <-> a = b.
Proof. unfold teq. destruct (list_eq_dec Z.eq_dec a b); split; congruence. Qed.
Lemma teq_refl a : teq a a = true. Proof. now apply teq_spec. Qed.
Lemma teq_neq a b : a <> b -> teq a b = false.
Proof. intros N. destruct (teq a b) eqn:E; [apply teq_spec in E; congruence|reflexivity]. Qed.
Lemma get_put_same k v d : get k (put k v d) = Some v.
Proof. apply dget_set_same. exact teq_spec. Qed.
Lemma get_put_other k k' v d : k <> k' -> get k (put k' v d) = get k d.
Proof. apply dget_set_other. exact teq_spec. Qed.
Lemma get_put k k' v d : get k (put k' v d) = if teq k k' then Some v else get k d.
Proof. apply dget_set. exact teq_spec. Qed.
Lemma put_id k v d : get k d = Some v -> put k v d = d.
Proof.
  unfold get, put. induction d as [|[k' v'] d IH]; cbn [dget dset]; [discriminate|].
  destruct (teq k k') eqn:E; [congruence|]. intros G. now rewrite IH.
Qed.
Lemma mem_spec s l : mem s l = true <-> In s l.
Proof.
  unfold mem. rewrite existsb_exists. split.
  - intros (x & I & E). apply teq_spec in E. now subst.
  - intros I. exists s. split; [exact I|apply teq_refl].
Qed.
Lemma has_get k d : has k d = match get k d with Some _ => true | None => false end.
Proof. reflexivity. Qed.

Section P.
Variable H : host.

Lemma get_set_default k k' v d : get k (set_default k' v d) =
  match get k d with Some x => Some x | None => if teq k k' then Some v else None end.
Proof.
  unfold set_default. rewrite has_get. destruct (get k' d) as [y|] eqn:G.
  - destruct (get k d) as [x|] eqn:Gk; [reflexivity|]. destruct (teq k k') eqn:E; [|reflexivity].
    apply teq_spec in E. subst. congruence.
  - rewrite get_put. destruct (teq k k') eqn:E.
    + apply teq_spec in E. subst. rewrite G. reflexivity.
    + destruct (get k d); reflexivity.
Qed.

(** get of ensure_root without an id *)
Lemma get_root k m : get k (ensure_root H m None) =
  if teq k (t "layer") then
    match get (t "layer") m with Some v => if truthy H v then Some v else Some (JStr (t "default")) | None => Some (JStr (t "default")) end
  else match get k m with Some x => Some x
       | None => if teq k (t "tags") then Some (JList []) else if teq k (t "schema") then Some (JStr (t "metadata-namespace-v1.1")) else None
       end.
Proof.
  unfold ensure_root. set (m2 := set_default (t "tags") _ _).
  assert (G : forall k, get k m2 = match get k m with Some x => Some x
       | None => if teq k (t "schema") then Some (JStr (t "metadata-namespace-v1.1"))
                 else if teq k (t "tags") then Some (JList []) else None end).
  { intros k0. unfold m2. rewrite !get_set_default. destruct (get k0 m); [reflexivity|].
    destruct (teq k0 (t "schema")); reflexivity. }
  assert (L : get (t "layer") m2 = get (t "layer") m).
  { rewrite G. destruct (get (t "layer") m); reflexivity. }
  rewrite L. clearbody m2.
  destruct (teq k (t "layer")) eqn:E.
  - apply teq_spec in E. subst k. destruct (get (t "layer") m) as [v|] eqn:GL.
    + destruct (truthy H v); [now rewrite L|apply get_put_same].
    + apply get_put_same.
  - assert (N : k <> t "layer") by (intros ->; rewrite teq_refl in E; discriminate).
    assert (X : forall v, get k (put (t "layer") v m2) = get k m2) by (intros v; now apply get_put_other).
    assert (Y : get k m2 = match get k m with Some x => Some x
       | None => if teq k (t "tags") then Some (JList []) else if teq k (t "schema") then Some (JStr (t "metadata-namespace-v1.1")) else None end).
    { rewrite G. destruct (get k m); [reflexivity|]. destruct (teq k (t "schema")) eqn:E1; [|reflexivity].
      apply teq_spec in E1. subst k. reflexivity. }
    destruct (get (t "layer") m) as [v|]; [destruct (truthy H v)|]; rewrite ?X; exact Y.
Qed.

Lemma set_default_id k v d : get k d <> None -> set_default k v d = d.
Proof. intros N. unfold set_default. rewrite has_get. destruct (get k d); [reflexivity|congruence]. Qed.
Definition rooted (m : dict) : Prop :=
  get (t "schema") m <> None /\ get (t "tags") m <> None /\
  exists v, get (t "layer") m = Some v /\ truthy H v = true.
Lemma root_id m : rooted m -> ensure_root H m None = m.
Proof.
  intros (S & T & v & L & V). unfold ensure_root. rewrite (set_default_id _ _ _ S), (set_default_id _ _ _ T), L, V. reflexivity.
Qed.
Lemma root_rooted m : rooted (ensure_root H m None).
Proof.
  split; [|split].
  - rewrite get_root. rewrite (teq_neq (t "schema") (t "layer")), (teq_neq (t "schema") (t "tags")), teq_refl by discriminate.
    destruct (get (t "schema") m); intros X; discriminate X.
  - rewrite get_root. rewrite (teq_neq (t "tags") (t "layer")), teq_refl by discriminate.
    destruct (get (t "tags") m); intros X; discriminate X.
  - rewrite get_root. rewrite teq_refl.
    destruct (get (t "layer") m) as [v|]; [destruct (truthy H v) eqn:V|]; eexists; split; try reflexivity. exact V.
Qed.

Lemma kept_refl k m : kept H k m m.
Proof. now left. Qed.
Lemma kept_trans k m1 m2 m3 : kept H k m1 m2 -> kept H k m2 m3 -> kept H k m1 m3.
Proof.
  intros [E|R] K; [|now right]. destruct K as [E'|[I V]]; [left; congruence|]. right. split; [exact I|]. now rewrite <- E.
Qed.
Lemma kept_root k m : kept H k m (ensure_root H m None).
Proof.
  unfold kept. rewrite get_root. destruct (teq k (t "layer")) eqn:E.
  - apply teq_spec in E. subst k. destruct (get (t "layer") m) as [v|] eqn:G.
    + destruct (truthy H v) eqn:V; [now left|]. right. split; [cbn; tauto|]. now split.
    + right. split; [cbn; tauto|exact I].
  - destruct (get k m) as [v|] eqn:G; [now left|].
    destruct (teq k (t "tags")) eqn:E1; [apply teq_spec in E1; right; split; [cbn; auto|exact I]|].
    destruct (teq k (t "schema")) eqn:E2; [apply teq_spec in E2; right; split; [cbn; auto|exact I]|]. now left.
Qed.
Lemma kept_put k ns v m : k <> ns -> kept H k m (put ns v m).
Proof. intros N. left. now apply get_put_other. Qed.

(** Only namespace ns is touched, and in it only the listed fields. *)
Definition only (ns : text) (fields : list text) (m m' : dict) : Prop :=
  (forall k, k <> ns -> kept H k m m') /\
  (forall f, ~ In f fields -> get f (section ns m') = get f (section ns m)).

Lemma only_refl ns fs m : only ns fs m m.
Proof. split; intros; [apply kept_refl|reflexivity]. Qed.
Lemma only_trans ns fs m1 m2 m3 : only ns fs m1 m2 -> only ns fs m2 m3 -> only ns fs m1 m3.
Proof.
  intros [A B] [C D]. split.
  - intros k N. eapply kept_trans; eauto.
  - intros f N. rewrite D, B by assumption. reflexivity.
Qed.
Lemma only_more ns fs fs' m m' : incl fs fs' -> only ns fs m m' -> only ns fs' m m'.
Proof. intros I [A B]. split; [exact A|]. intros f N. apply B. auto. Qed.

Lemma section_root ns m : ~ In ns root_fields -> section ns (ensure_root H m None) = section ns m.
Proof.
  intros N. unfold section. rewrite get_root.
  rewrite (teq_neq ns (t "layer")) by (intros ->; apply N; cbn; tauto).
  destruct (get ns m); [reflexivity|].
  rewrite (teq_neq ns (t "tags")) by (intros ->; apply N; cbn; tauto).
  rewrite (teq_neq ns (t "schema")) by (intros ->; apply N; cbn; tauto). reflexivity.
Qed.
Lemma only_root ns m : ~ In ns root_fields -> only ns [] m (ensure_root H m None).
Proof. intros N. split; intros; [apply kept_root|now rewrite section_root]. Qed.
Lemma section_put ns d m : section ns (put ns (JObj d) m) = d.
Proof. unfold section. now rewrite get_put_same. Qed.
Lemma only_namespace ns m : only ns [] m (ensure_namespace m ns).
Proof. unfold ensure_namespace. split; intros; [now apply kept_put|now rewrite section_put]. Qed.
Lemma section_open ns m : ~ In ns root_fields -> section ns (open_ns H ns m) = section ns m.
Proof.
  intros N. unfold open_ns. destruct (get ns m) as [[| | | | | |d|]|] eqn:G; try reflexivity;
  unfold ensure_namespace; rewrite section_put; now apply section_root.
Qed.
Lemma only_open ns m : ~ In ns root_fields -> only ns [] m (open_ns H ns m).
Proof.
  intros N. unfold open_ns.
  assert (X : only ns [] m (ensure_namespace (ensure_root H m None) ns)).
  { eapply only_trans; [now apply only_root|apply only_namespace]. }
  destruct (get ns m) as [[| | | | | |d|]|]; try exact X. apply only_refl.
Qed.
Lemma section_write ns k v m : section ns (write ns k v m) = put k v (section ns m).
Proof. unfold write. apply section_put. Qed.
Lemma only_write ns k v m : only ns [k] m (write ns k v m).
Proof.
  split; intros; [now apply kept_put|]. rewrite section_write. apply get_put_other. intros ->. cbn in *. tauto.
Qed.

Lemma asm_root : ~ In (t "assembly") root_fields. Proof. cbn. intros X. repeat destruct X as [X|X]; discriminate || exact X. Qed.
Lemma opn_root : ~ In (t "operation") root_fields. Proof. cbn. intros X. repeat destruct X as [X|X]; discriminate || exact X. Qed.
Lemma mat_root : ~ In (t "material") root_fields. Proof. cbn. intros X. repeat destruct X as [X|X]; discriminate || exact X. Qed.

Lemma only_append ns k e m : only ns [k] m (fst (append_entry ns k e m)).
Proof.
  unfold append_entry. destruct (get k (section ns m)) as [[| | | | |l| |]|]; cbn [fst]; try apply only_refl; apply only_write.
Qed.
Lemma only_finish ns k m b : only ns [k] m (fst (finish ns k m b)).
Proof. unfold finish. destruct b; [apply only_append|apply only_refl]. Qed.

Lemma arg_in k kw : arg k kw <> JNull -> In k (map fst kw).
Proof.
  unfold arg. destruct (get k kw) eqn:G; [|congruence]. intros _.
  apply (dget_some_key teq teq_spec k kw). now exists j.
Qed.
Lemma only_field ns k kw conv m x : only ns (map fst kw) m (fst x) -> only ns (map fst kw) m (fst (field_of ns k kw conv x)).
Proof.
  intros O. unfold field_of. destruct x as [m' [e|]]; [exact O|]. cbn [fst] in O.
  pose proof (arg_in k kw) as A. destruct (arg k kw) eqn:E; try exact O;
  (destruct (conv _); [|exact O]; cbn [fst]; eapply only_trans; [exact O|];
   eapply only_more; [|apply only_write]; intros y [<-|[]]; apply A; discriminate).
Qed.

Lemma frame c m : namespace c <> [] -> only (namespace c) (named c) m (fst (run_call H m c)).
Proof.
  intros NE. destruct c as [kw|kw|kw|kw|kw|kw|kw|l|v]; cbn [namespace named run_call] in *; try congruence.
  - unfold set_assembly. destruct (negb _); [apply only_refl|].
    destruct (validate_enum _ _); [apply only_refl|]. cbn [fst].
    set (m1 := ensure_namespace _ _).
    assert (O1 : only (t "assembly") (map fst kw) m m1).
    { eapply only_more; [|eapply only_trans; [apply (only_root _ m asm_root)|apply only_namespace]]. easy. }
    set (m2 := match arg (t "joint_kind") kw with JNull => m1 | _ => _ end).
    assert (O2 : only (t "assembly") (map fst kw) m m2).
    { pose proof (arg_in (t "joint_kind") kw) as A. unfold m2. destruct (arg (t "joint_kind") kw); try exact O1;
      (eapply only_trans; [exact O1|]; eapply only_more; [|apply only_write]; intros y [<-|[]]; apply A; discriminate). }
    pose proof (arg_in (t "no_cut") kw) as A. destruct (arg (t "no_cut") kw); try exact O2;
      (eapply only_trans; [exact O2|]; eapply only_more; [|apply only_write]; intros y [<-|[]]; apply A; discriminate).
  - unfold add_bolt_pattern. destruct (negb _); [apply only_refl|]. destruct (negb _); [apply only_refl|].
    destruct (validate_enum _ _); [apply only_refl|].
    eapply only_trans; [|apply only_finish]. eapply only_more; [|apply (only_open _ m asm_root)]. easy.
  - unfold add_datum. destruct (negb _); [apply only_refl|]. destruct (negb _); [apply only_refl|].
    destruct (validate_enum _ _); [apply only_refl|]. destruct (validate_enum _ _); [apply only_refl|].
    eapply only_trans; [|apply only_finish]. eapply only_more; [|apply (only_open _ m asm_root)]. easy.
  - unfold add_surface. destruct (negb _); [apply only_refl|]. destruct (negb _); [apply only_refl|].
    destruct (validate_enum _ _); [apply only_refl|].
    eapply only_trans; [|apply only_finish]. eapply only_more; [|apply (only_open _ m asm_root)]. easy.
  - unfold add_keepout. destruct (negb _); [apply only_refl|]. destruct (negb _); [apply only_refl|].
    destruct (validate_enum _ _); [apply only_refl|].
    eapply only_trans; [|apply only_finish]. eapply only_more; [|apply (only_open _ m asm_root)]. easy.
  - unfold set_operation. destruct (negb _) eqn:AC; [apply only_refl|].
    do 3 (destruct (validate_enum _ _); [apply only_refl|]).
    do 8 apply only_field. cbn [fst].
    eapply only_trans; [eapply only_more; [|apply (only_open _ m opn_root)]; easy|].
    eapply only_more; [|apply only_write].
    intros y [<-|[]]. apply negb_false_iff in AC. unfold accepts in AC. apply andb_true_iff in AC. destruct AC as [_ AC].
    cbn [forallb] in AC. apply andb_true_iff in AC. destruct AC as [AC _]. rewrite has_get in AC.
    destruct (get (t "kind") kw) eqn:G; [|discriminate]. apply (dget_some_key teq teq_spec _ kw). eauto.
  - unfold set_material. destruct (negb _); [apply only_refl|].
    do 5 apply only_field. cbn [fst].
    eapply only_trans; [eapply only_more; [|apply (only_root _ m mat_root)]; easy|].
    eapply only_more; [|apply only_namespace]. easy.
Qed.
End P.
