From Coq Require Import ZArith String List Bool Lia.
From Verif Require Import Dict Json_Model Meta_Model Meta_Spec Meta_Proofs Meta_Proofs2.
Import ListNotations.
Open Scope list_scope.

Section P.
Variable H : host.

(** ** Applying a hint keeps the enumerations *)
Lemma valid_same m m' : section (t "assembly") m' = section (t "assembly") m ->
  section (t "operation") m' = section (t "operation") m -> valid m -> valid m'.
Proof. intros A B. rewrite !valid_split, A, B. auto. Qed.
Lemma section_put_other ns k v m : ns <> k -> section ns (put k v m) = section ns m.
Proof. intros N. unfold section. now rewrite get_put_other. Qed.
Lemma valid_root m : valid m -> valid (ensure_root H m None).
Proof. apply valid_same; apply section_root; [exact asm_root|exact opn_root]. Qed.
Lemma valid_put k v m : k <> t "assembly" -> k <> t "operation" -> valid m -> valid (put k v m).
Proof. intros A B. apply valid_same; apply section_put_other; congruence. Qed.
Lemma section_open_other ns ns' m : ns <> ns' -> ~ In ns root_fields -> section ns (open_ns H ns' m) = section ns m.
Proof.
  intros N R. assert (X : section ns (ensure_namespace (ensure_root H m None) ns') = section ns m).
  { unfold ensure_namespace. rewrite section_put_other by exact N. now apply section_root. }
  unfold open_ns. destruct (get ns' m) as [[| | | | | |d|]|]; try exact X. reflexivity.
Qed.
Lemma section_write_other ns ns' k v m : ns <> ns' -> section ns (write ns' k v m) = section ns m.
Proof. intros N. unfold write. now apply section_put_other. Qed.
Lemma valid_each f : (forall m kw, valid m -> valid (fst (f m kw))) ->
  forall l m, valid m -> valid (fst (each_entry f l m)).
Proof.
  intros F. induction l as [|x l IH]; intros m V; cbn [each_entry]; [exact V|].
  destruct x; try exact V. pose proof (F m d V) as W. destruct (f m d) as [m' [e|]]; [exact W|]. now apply IH.
Qed.
Lemma list_helper_valid k f : list_helper H k = Some f -> forall m kw, valid m -> valid (fst (f m kw)).
Proof.
  unfold list_helper. intros E m kw V.
  destruct (teq k (t "bolt_patterns")); [assert (f = add_bolt_pattern H) by congruence; subst; now apply (valid_call H m (CBolt kw))|].
  destruct (teq k (t "datums")); [assert (f = add_datum H) by congruence; subst; now apply (valid_call H m (CDatum kw))|].
  destruct (teq k (t "surfaces")); [assert (f = add_surface H) by congruence; subst; now apply (valid_call H m (CSurface kw))|].
  destruct (teq k (t "keepouts")); [assert (f = add_keepout H) by congruence; subst; now apply (valid_call H m (CKeepout kw))|discriminate].
Qed.
Lemma teq_false a b : teq a b = false -> a <> b.
Proof. intros E ->. rewrite teq_refl in E. discriminate. Qed.
Lemma valid_assembly m k v : valid m -> valid (fst (apply_assembly H m k v)).
Proof.
  intros V. unfold apply_assembly. destruct (mem k _) eqn:M.
  { exact (valid_call H m (CAssembly _) V). }
  destruct (list_helper H k) as [f|] eqn:L.
  - destruct v; try exact V. apply valid_each; [|exact V]. now apply (list_helper_valid k).
  - cbn [fst]. apply valid_split in V. destruct V as [Va Vo]. apply valid_split. split.
    + rewrite section_write, section_open by exact asm_root. eapply valid_a_same; [|exact Va].
      intros f I. apply get_put_other. intros ->. cbn in I. cbn in M. unfold list_helper in L.
      destruct I as [I|[I|[I|[I|[I|[]]]]]]; subst; discriminate.
    + rewrite section_write_other by discriminate. rewrite section_open_other; [exact Vo|discriminate|exact opn_root].
Qed.
Lemma valid_operation m k v : valid m -> valid (fst (apply_operation H m k v)).
Proof.
  intros V.
  assert (SA : forall v', section (t "assembly") (write (t "operation") k v' (open_ns H (t "operation") m)) = section (t "assembly") m).
  { intros v'. rewrite section_write_other by discriminate. apply section_open_other; [discriminate|exact asm_root]. }
  assert (SO : forall v', section (t "operation") (write (t "operation") k v' (open_ns H (t "operation") m)) = put k v' (section (t "operation") m)).
  { intros v'. rewrite section_write, section_open by exact opn_root. reflexivity. }
  apply valid_split in V. destruct V as [Va Vo].
  assert (ST : forall v', ~ In k o_fields -> valid (write (t "operation") k v' (open_ns H (t "operation") m))).
  { intros v' N. apply valid_split. rewrite SA, SO. split; [exact Va|]. eapply valid_o_same; [|exact Vo].
    intros f I. apply get_put_other. intros ->. contradiction. }
  assert (CH : forall allowed, (k = t "kind" /\ allowed = operation_kinds) \/ (k = t "policy" /\ allowed = operation_policies) \/
      (k = t "feature_kind" /\ allowed = feature_kinds) -> validate_enum v allowed = None ->
      valid (write (t "operation") k v (open_ns H (t "operation") m))).
  { intros allowed D E. apply enum_ok in E. apply valid_split. rewrite SA, SO. split; [exact Va|].
    destruct Vo as (A & B & C). destruct D as [[-> ->]|[[-> ->]|[-> ->]]]; unfold valid_o; repeat apply conj;
      try (intros x; rewrite get_put_same; intros G; assert (x = v) by congruence; subst x; exact E);
      (eapply field_ok_same; [|eassumption]; now apply get_put_other). }
  unfold apply_operation. cbv zeta.
  assert (VV : valid m) by (apply valid_split; auto).
  destruct (teq k (t "target_filter")) eqn:E1; [apply teq_spec in E1; subst; apply ST; cbn; intuition discriminate|].
  destruct (teq k (t "kind")) eqn:E2.
  { apply teq_spec in E2. destruct (validate_enum v operation_kinds) eqn:E; [exact VV|]. apply (CH operation_kinds); auto. }
  destruct (teq k (t "policy")) eqn:E3.
  { apply teq_spec in E3. destruct (validate_enum v operation_policies) eqn:E; [exact VV|]. apply (CH operation_policies); auto. }
  destruct (teq k (t "feature_kind")) eqn:E4.
  { apply teq_spec in E4. destruct (validate_enum v feature_kinds) eqn:E; [exact VV|]. apply (CH feature_kinds); auto. }
  assert (NK : ~ In k o_fields).
  { apply teq_false in E2, E3, E4. intros [X|[X|[X|[]]]]; subst k; congruence. }
  destruct (mem k [t "through"; t "consume"]); [now apply ST|].
  destruct (teq k (t "priority")).
  { destruct (to_float H v); [now apply ST|]. cbn [fst]. apply valid_split.
    rewrite section_open by exact opn_root. rewrite section_open_other; [auto|discriminate|exact asm_root]. }
  destruct (mem k [t "feature_id"; t "stage"]); now apply ST.
Qed.
Lemma valid_set_default k v m : k <> t "assembly" -> k <> t "operation" -> valid m -> valid (set_default k v m).
Proof. intros A B V. unfold set_default. destruct (has k m); [exact V|]. now apply valid_put. Qed.
Lemma valid_one m k v : k <> t "assembly" -> k <> t "operation" -> valid m -> valid (fst (apply_one H m k v)).
Proof.
  intros NA NO V. unfold apply_one. destruct k as [|c k0]; [exact V|]. set (k := c :: k0) in *.
  destruct (partition k) as [[ns f]|].
  - destruct (teq ns (t "assembly")) eqn:E1; [now apply valid_assembly|].
    destruct (teq ns (t "operation")) eqn:E2; [now apply valid_operation|]. apply teq_false in E1, E2.
    set (root := set_default ns _ _).
    assert (R : valid root) by (apply valid_set_default; auto; now apply valid_root).
    destruct (get ns root) as [[| | | | | |d|]|]; try exact R. now apply valid_put.
  - unfold apply_root. pose proof (valid_root m V) as R.
    destruct (teq k (t "layer")); [apply valid_put; auto; discriminate|].
    destruct (teq k (t "tags")).
    + destruct (get (t "tags") (ensure_root H m None)) as [[| | | | |l| |]|]; try exact R. apply valid_put; auto; discriminate.
    + now apply valid_put.
Qed.
Lemma valid_hint h : namespaces_safe h -> forall m, valid m -> valid (fst (apply_hint H m h)).
Proof.
  induction h as [|[k v] h IH]; intros S m V; [exact V|]. cbn [apply_hint].
  assert (W : valid (fst (apply_one H m k v))).
  { apply valid_one; [| |exact V]; intros ->; destruct (S v) as [A B]; [apply A|apply B]; now left. }
  destruct (apply_one H m k v) as [m' [e|]]; [exact W|]. apply IH; [|exact W].
  intros v'. destruct (S v') as [A B]. split; intros I; [apply A|apply B]; now right.
Qed.

(** ** Applying a hint twice *)
(** the namespaced result, one case per kind of field *)
Definition eff (ns f : text) (v : json) : option json :=
  if teq ns (t "assembly") then
    if teq f (t "joint_kind") then match v with JNull => None | _ => Some v end
    else if teq f (t "no_cut") then
      match v with JNull => None | JStr s => Some (JBool (yes H s)) | _ => Some (JBool (truthy H v)) end
    else Some v
  else if teq ns (t "operation") then
    if teq f (t "target_filter") then
      Some (match v with JStr s => JList (comma_list H s) | JList _ => v | _ => JList [JStr (to_str H v)] end)
    else if mem f [t "through"; t "consume"] then Some (JBool (match v with JStr s => yes H s | _ => truthy H v end))
    else if teq f (t "priority") then match to_float H v with Ok x => Some (JFloat x) | Err _ => None end
    else if mem f [t "feature_id"; t "stage"] then Some (JStr (to_str H v))
    else Some v
  else Some v.
(** does applying this field run _ensure_root? *)
Definition roots (ns f : text) : bool :=
  if teq ns (t "assembly") then mem f [t "joint_kind"; t "no_cut"] else negb (teq ns (t "operation")).
(** the field can be applied without an exception *)
Definition okf (ns f : text) (v : json) : Prop :=
  (ns = t "assembly" -> f = t "joint_kind" -> validate_enum v joint_kinds = None) /\
  (ns = t "operation" -> f = t "kind" -> validate_enum v operation_kinds = None) /\
  (ns = t "operation" -> f = t "policy" -> validate_enum v operation_policies = None) /\
  (ns = t "operation" -> f = t "feature_kind" -> validate_enum v feature_kinds = None) /\
  (ns = t "operation" -> f = t "priority" -> exists x, to_float H v = Ok x).
Ltac okt := unfold okf; repeat apply conj; intros;
  first [discriminate | congruence | (subst; discriminate) | eauto].
Definition base (ns f : text) (m m1 : dict) : Prop :=
  get ns m1 = Some (JObj (section ns m)) /\ (forall k, k <> ns -> kept H k m m1) /\
  (roots ns f = true -> rooted H m1) /\ (rooted H m -> rooted H m1).
Definition placed (ns f : text) (v : json) (m1 : dict) : dict :=
  match eff ns f v with Some c => put ns (JObj (put f c (section ns m1))) m1 | None => m1 end.

Lemma truthy_put k v d : truthy H (JObj (put k v d)) = true.
Proof. unfold put. destruct d as [|[k' v'] d]; cbn; [reflexivity|]. destruct (teq k k'); reflexivity. Qed.
Lemma rooted_put_obj ns f c m : rooted H m -> rooted H (put ns (JObj (put f c (section ns m))) m).
Proof.
  intros (S & T & v & L & V). unfold rooted. repeat apply conj.
  - rewrite get_put. destruct (teq _ ns); [intros X; discriminate X|exact S].
  - rewrite get_put. destruct (teq _ ns); [intros X; discriminate X|exact T].
  - rewrite get_put. destruct (teq (t "layer") ns).
    + eexists. split; [reflexivity|]. apply truthy_put.
    + eauto.
Qed.
Lemma rooted_ns ns m : ~ In ns root_fields -> rooted H m -> rooted H (ensure_namespace m ns).
Proof.
  intros N (S & T & v & L & V). unfold ensure_namespace, rooted.
  rewrite !get_put_other by (intros <-; apply N; cbn; tauto). eauto.
Qed.
Lemma get_ns ns m : get ns (ensure_namespace m ns) = Some (JObj (section ns m)).
Proof. unfold ensure_namespace. apply get_put_same. Qed.
Lemma get_open ns m : ~ In ns root_fields -> get ns (open_ns H ns m) = Some (JObj (section ns m)).
Proof.
  intros N. unfold open_ns. destruct (get ns m) as [[| | | | | |d|]|] eqn:G;
  try (rewrite get_ns, section_root by exact N; reflexivity). unfold section. now rewrite G.
Qed.
Lemma rooted_open ns m : ~ In ns root_fields -> rooted H m -> rooted H (open_ns H ns m).
Proof.
  intros N R. assert (X : rooted H (ensure_namespace (ensure_root H m None) ns)) by (apply rooted_ns; [exact N|apply root_rooted]).
  unfold open_ns. destruct (get ns m) as [[| | | | | |d|]|]; try exact X. exact R.
Qed.
Lemma base_open ns f m : ~ In ns root_fields -> roots ns f = false -> base ns f m (open_ns H ns m).
Proof.
  intros N R. destruct (only_open H ns m N) as [A B]. repeat apply conj; [now apply get_open|exact A|congruence|now apply rooted_open].
Qed.
Lemma base_assembly f m : base (t "assembly") f m (ensure_namespace (ensure_root H m None) (t "assembly")).
Proof.
  repeat apply conj.
  - rewrite get_ns, section_root by exact asm_root. reflexivity.
  - intros k N. eapply kept_trans; [apply kept_root|]. now apply kept_put.
  - intros _. apply rooted_ns; [exact asm_root|apply root_rooted].
  - intros _. apply rooted_ns; [exact asm_root|apply root_rooted].
Qed.

(** what applying one namespaced scalar does *)
Lemma one_form m k v m' ns f : partition k = Some (ns, f) -> ~ In k list_keys -> apply_one H m k v = (m', None) ->
  okf ns f v /\ exists m1, base ns f m m1 /\ m' = placed ns f v m1.
Proof.
  intros P NL E. unfold apply_one in E. destruct k as [|c k0]; [discriminate|]. set (k := c :: k0) in *. rewrite P in E.
  destruct (teq ns (t "assembly")) eqn:EA.
  - apply teq_spec in EA. subst ns. unfold apply_assembly in E.
    assert (OK : f <> t "joint_kind" -> okf (t "assembly") f v).
    { intros N. okt. }
    destruct (mem f [t "joint_kind"; t "no_cut"]) eqn:M.
    + apply mem_spec in M. destruct M as [<-|[<-|[]]].
      * change (match v with JStr s => if teq (t "joint_kind") (t "no_cut") then JBool (yes H s) else v | _ => v end) with
          (match v with JStr s => v | _ => v end) in E.
        assert (EV : match v with JStr _ => v | _ => v end = v) by (destruct v; reflexivity). rewrite EV in E. clear EV.
        unfold set_assembly in E. change (accepts _ _ _) with true in E. cbn [negb] in E.
        change (arg (t "joint_kind") [(t "joint_kind", v)]) with v in E.
        change (arg (t "no_cut") [(t "joint_kind", v)]) with JNull in E.
        destruct (validate_enum v joint_kinds) eqn:V; [discriminate|].
        assert (O : okf (t "assembly") (t "joint_kind") v) by (okt).
        split; [exact O|].
        set (m1 := ensure_namespace _ _) in E. exists m1. split; [apply base_assembly|]. unfold placed, eff.
        change (teq (t "assembly") (t "assembly")) with true. change (teq (t "joint_kind") (t "joint_kind")) with true. cbv beta iota.
        cbn [fst] in E. destruct v; exact (eq_sym (f_equal fst E)).
      * change (teq (t "no_cut") (t "no_cut")) with true in E. cbv beta iota in E.
        set (w := match v with JStr s => JBool (yes H s) | _ => v end) in E.
        unfold set_assembly in E. change (accepts _ _ _) with true in E. cbn [negb] in E.
        change (arg (t "joint_kind") [(t "no_cut", w)]) with JNull in E. cbn [validate_enum] in E.
        change (arg (t "no_cut") [(t "no_cut", w)]) with w in E.
        split; [apply OK; discriminate|].
        set (m1 := ensure_namespace _ _) in E. exists m1. split; [apply base_assembly|]. unfold placed, eff.
        change (teq (t "assembly") (t "assembly")) with true. change (teq (t "no_cut") (t "joint_kind")) with false.
        change (teq (t "no_cut") (t "no_cut")) with true. cbv beta iota.
        unfold w in E. cbn [fst] in E. destruct v; cbn [truthy] in *; try congruence; exact (eq_sym (f_equal fst E)).
    + assert (N1 : f <> t "joint_kind") by (intros ->; discriminate).
      assert (N2 : f <> t "no_cut") by (intros ->; discriminate).
      destruct (list_helper H f) as [g|] eqn:L.
      * exfalso. apply NL. assert (PI : forall a b x, partition x = Some (a, b) -> x = a ++ 46%Z :: b).
        { clear. intros a b x. revert a b. induction x as [|y x IH]; intros a b; [discriminate|]. cbn [partition].
          destruct (y =? 46)%Z eqn:Y; [intros X; inversion X; subst; apply Z.eqb_eq in Y; subst; reflexivity|].
          destruct (partition x) as [[a' b']|]; [|discriminate]. intros X. inversion X. subst. cbn. now rewrite (IH _ _ eq_refl). }
        rewrite (PI _ _ _ P). unfold list_helper in L.
        destruct (teq f (t "bolt_patterns")) eqn:L1; [apply teq_spec in L1; subst; now left|].
        destruct (teq f (t "datums")) eqn:L2; [apply teq_spec in L2; subst; right; now left|].
        destruct (teq f (t "surfaces")) eqn:L3; [apply teq_spec in L3; subst; right; right; now left|].
        destruct (teq f (t "keepouts")) eqn:L4; [apply teq_spec in L4; subst; right; right; right; now left|discriminate].
      * split; [apply OK; exact N1|]. exists (open_ns H (t "assembly") m). split.
        { apply base_open; [exact asm_root|]. unfold roots. change (teq (t "assembly") (t "assembly")) with true. exact M. }
        unfold placed, eff. change (teq (t "assembly") (t "assembly")) with true. rewrite (teq_neq _ _ N1), (teq_neq _ _ N2).
        unfold write in E. congruence.
  - destruct (teq ns (t "operation")) eqn:EO.
    + apply teq_spec in EO. subst ns. unfold apply_operation in E. cbv zeta in E.
      assert (B : base (t "operation") f m (open_ns H (t "operation") m)) by (apply base_open; [exact opn_root|reflexivity]).
      unfold placed, eff. change (teq (t "operation") (t "assembly")) with false. change (teq (t "operation") (t "operation")) with true. cbv beta iota.
      destruct (teq f (t "target_filter")) eqn:E1.
      { apply teq_spec in E1. subst. split; [okt|].
        exists (open_ns H (t "operation") m). split; [exact B|]. unfold write in E. congruence. }
      destruct (teq f (t "kind")) eqn:E2.
      { apply teq_spec in E2. subst. destruct (validate_enum v operation_kinds) eqn:V; [discriminate|].
        split; [okt|].
        exists (open_ns H (t "operation") m). split; [exact B|]. exact (eq_sym (f_equal fst E)). }
      destruct (teq f (t "policy")) eqn:E3.
      { apply teq_spec in E3. subst. destruct (validate_enum v operation_policies) eqn:V; [discriminate|].
        split; [okt|].
        exists (open_ns H (t "operation") m). split; [exact B|]. exact (eq_sym (f_equal fst E)). }
      destruct (teq f (t "feature_kind")) eqn:E4.
      { apply teq_spec in E4. subst. destruct (validate_enum v feature_kinds) eqn:V; [discriminate|].
        split; [okt|].
        exists (open_ns H (t "operation") m). split; [exact B|]. exact (eq_sym (f_equal fst E)). }
      assert (NF : f <> t "kind" /\ f <> t "policy" /\ f <> t "feature_kind") by (apply teq_false in E2, E3, E4; auto).
      destruct NF as (NF1 & NF2 & NF3).
      destruct (mem f [t "through"; t "consume"]) eqn:E5.
      { split; [okt|].
        exists (open_ns H (t "operation") m). split; [exact B|]. unfold write in E. congruence. }
      destruct (teq f (t "priority")) eqn:E6.
      { destruct (to_float H v) as [x|e] eqn:TF; [|discriminate].
        split; [okt|].
        exists (open_ns H (t "operation") m). split; [exact B|]. unfold write in E. congruence. }
      apply teq_false in E6.
      split; [okt|].
      exists (open_ns H (t "operation") m). split; [exact B|].
      destruct (mem f [t "feature_id"; t "stage"]); unfold write in E; congruence.
    + assert (NA := teq_false _ _ EA). assert (NO := teq_false _ _ EO).
      split; [okt|].
      set (root := set_default ns _ _) in E.
      destruct (get ns root) as [[| | | | | |d|]|] eqn:G; try discriminate.
      exists root. split.
      * assert (GR : forall x, x <> ns -> get x root = get x (ensure_root H m None)).
        { intros x N. unfold root. rewrite get_set_default, (teq_neq _ _ N). destruct (get x _); reflexivity. }
        assert (R : rooted H root).
        { unfold root, set_default. rewrite has_get. destruct (get ns (ensure_root H m None)) eqn:GN; [apply root_rooted|].
          destruct (root_rooted H m) as (S & T & w & L & V). unfold rooted.
          rewrite !get_put_other; [eauto|intros X; subst ns; congruence..]. }
        repeat apply conj; auto.
        -- rewrite G. f_equal. f_equal. unfold root in G. rewrite get_set_default, teq_refl, get_root in G.
           unfold section. destruct (teq ns (t "layer")) eqn:TL.
           { apply teq_spec in TL. subst ns. destruct (get (t "layer") m) as [w|]; [|discriminate].
             destruct (truthy H w); [|discriminate]. assert (w = JObj d) by congruence. now subst w. }
           destruct (get ns m) as [w|]; [assert (w = JObj d) by congruence; now subst w|].
           destruct (teq ns (t "tags")); [discriminate|]. destruct (teq ns (t "schema")); [discriminate|]. congruence.
        -- intros x N. unfold kept. rewrite (GR x N). apply kept_root.
      * unfold placed, eff. rewrite EA, EO. unfold section. rewrite G. congruence.
Qed.
(** a settled namespaced scalar is applied without effect *)
Definition settled_ns (ns f : text) (v : json) (m : dict) : Prop :=
  okf ns f v /\ (roots ns f = true -> rooted H m) /\
  exists d, get ns m = Some (JObj d) /\ match eff ns f v with Some c => get f d = Some c | None => True end.
Lemma form_settled ns f v m m1 : base ns f m m1 -> okf ns f v -> settled_ns ns f v (placed ns f v m1).
Proof.
  intros (G & K & R & _) O. split; [exact O|]. unfold placed. destruct (eff ns f v) as [c|] eqn:E.
  - split.
    + intros X. apply rooted_put_obj. auto.
    + exists (put f c (section ns m1)). rewrite get_put_same. split; [reflexivity|apply get_put_same].
  - split; [exact R|]. exists (section ns m). rewrite G. auto.
Qed.
Lemma open_id ns m d : get ns m = Some (JObj d) -> open_ns H ns m = m.
Proof. intros G. unfold open_ns. now rewrite G. Qed.
Lemma write_id ns f c m d : get ns m = Some (JObj d) -> get f d = Some c -> write ns f c m = m.
Proof. intros G F. unfold write, section. rewrite G, (put_id _ _ _ F). now apply put_id. Qed.
Lemma namespace_id ns m d : get ns m = Some (JObj d) -> ensure_namespace m ns = m.
Proof. intros G. unfold ensure_namespace, section. rewrite G. now apply put_id. Qed.
Lemma settled_apply m k v ns f : partition k = Some (ns, f) -> ~ In k list_keys -> settled_ns ns f v m -> apply_one H m k v = (m, None).
Proof.
  intros P NL ((O1 & O2 & O3 & O4 & O5) & R & d & G & F). unfold apply_one. destruct k as [|c k0]; [discriminate|]. set (k := c :: k0) in *. rewrite P.
  unfold eff, roots in *.
  destruct (teq ns (t "assembly")) eqn:EA.
  - apply teq_spec in EA. subst ns. unfold apply_assembly.
    destruct (mem f [t "joint_kind"; t "no_cut"]) eqn:M.
    + specialize (R eq_refl). apply mem_spec in M.
      assert (B : ensure_namespace (ensure_root H m None) (t "assembly") = m).
      { rewrite (root_id H m R). now apply (namespace_id _ _ d). }
      destruct M as [<-|[<-|[]]].
      * change (match v with JStr s => if teq (t "joint_kind") (t "no_cut") then JBool (yes H s) else v | _ => v end) with
          (match v with JStr s => v | _ => v end).
        assert (EV : match v with JStr _ => v | _ => v end = v) by (destruct v; reflexivity). rewrite EV. clear EV.
        unfold set_assembly. change (accepts _ _ _) with true. cbn [negb].
        change (arg (t "joint_kind") [(t "joint_kind", v)]) with v.
        change (arg (t "no_cut") [(t "joint_kind", v)]) with JNull.
        rewrite (O1 eq_refl eq_refl), B. change (teq (t "joint_kind") (t "joint_kind")) with true in F. cbv beta iota in F.
        destruct v; try reflexivity; rewrite (write_id _ _ _ _ _ G F); reflexivity.
      * change (teq (t "no_cut") (t "no_cut")) with true in *. change (teq (t "no_cut") (t "joint_kind")) with false in F. cbv beta iota in *.
        set (w := match v with JStr s => JBool (yes H s) | _ => v end).
        unfold set_assembly. change (accepts _ _ _) with true. cbn [negb].
        change (arg (t "joint_kind") [(t "no_cut", w)]) with JNull. cbn [validate_enum].
        change (arg (t "no_cut") [(t "no_cut", w)]) with w. rewrite B.
        assert (W : match w with JNull => True | _ => get (t "no_cut") d = Some (JBool (truthy H w)) end).
        { unfold w. destruct v; try exact F; exact I. }
        destruct w; try reflexivity; rewrite (write_id _ _ _ _ _ G W); reflexivity.
    + assert (N1 : f <> t "joint_kind") by (intros ->; discriminate).
      assert (N2 : f <> t "no_cut") by (intros ->; discriminate).
      rewrite (teq_neq _ _ N1), (teq_neq _ _ N2) in F.
      destruct (list_helper H f) as [g|] eqn:L.
      * exfalso. apply NL. assert (PI : forall a b x, partition x = Some (a, b) -> x = a ++ 46%Z :: b).
        { clear. intros a b x. revert a b. induction x as [|y x IH]; intros a b; [discriminate|]. cbn [partition].
          destruct (y =? 46)%Z eqn:Y; [intros X; inversion X; subst; apply Z.eqb_eq in Y; subst; reflexivity|].
          destruct (partition x) as [[a' b']|]; [|discriminate]. intros X. inversion X. subst. cbn. now rewrite (IH _ _ eq_refl). }
        rewrite (PI _ _ _ P). unfold list_helper in L.
        destruct (teq f (t "bolt_patterns")) eqn:L1; [apply teq_spec in L1; subst; now left|].
        destruct (teq f (t "datums")) eqn:L2; [apply teq_spec in L2; subst; right; now left|].
        destruct (teq f (t "surfaces")) eqn:L3; [apply teq_spec in L3; subst; right; right; now left|].
        destruct (teq f (t "keepouts")) eqn:L4; [apply teq_spec in L4; subst; right; right; right; now left|discriminate].
      * rewrite (open_id _ _ _ G), (write_id _ _ _ _ _ G F). reflexivity.
  - destruct (teq ns (t "operation")) eqn:EO.
    + apply teq_spec in EO. subst ns. unfold apply_operation. cbv zeta. rewrite (open_id _ _ _ G).
      assert (ST : forall c', get f d = Some c' -> (write (t "operation") f c' m, @None err) = (m, None)).
      { intros c' E. now rewrite (write_id _ _ _ _ _ G E). }
      destruct (teq f (t "target_filter")) eqn:E1; [now apply ST|].
      destruct (teq f (t "kind")) eqn:E2.
      { apply teq_spec in E2. subst f. rewrite (O2 eq_refl eq_refl). apply ST. exact F. }
      destruct (teq f (t "policy")) eqn:E3.
      { apply teq_spec in E3. subst f. rewrite (O3 eq_refl eq_refl). apply ST. exact F. }
      destruct (teq f (t "feature_kind")) eqn:E4.
      { apply teq_spec in E4. subst f. rewrite (O4 eq_refl eq_refl). apply ST. exact F. }
      destruct (mem f [t "through"; t "consume"]); [now apply ST|].
      destruct (teq f (t "priority")) eqn:E5.
      { apply teq_spec in E5. subst f. destruct (O5 eq_refl eq_refl) as (x & X). rewrite X in *. now apply ST. }
      destruct (mem f [t "feature_id"; t "stage"]); now apply ST.
    + specialize (R eq_refl). rewrite (root_id H m R), (set_default_id ns (JObj []) m) by (rewrite G; discriminate).
      rewrite G, (put_id _ _ _ F), (put_id _ _ _ G). reflexivity.
Qed.
(** plain keys *)
Definition rooteff (k : text) (v : json) : json := if teq k (t "layer") then JStr (to_str H v) else v.
Definition settled_root (k : text) (v : json) (m : dict) : Prop := rooted H m /\ get k m = Some (rooteff k v).
Lemma root_form m k v m' : k <> [] -> partition k = None -> k <> t "tags" -> apply_one H m k v = (m', None) ->
  m' = put k (rooteff k v) (ensure_root H m None).
Proof.
  intros NE P NT E. unfold apply_one in E. destruct k as [|c k0]; [congruence|]. set (k := c :: k0) in *. rewrite P in E.
  unfold apply_root, rooteff in *. rewrite (teq_neq _ _ NT) in E. destruct (teq k (t "layer")) eqn:L; [apply teq_spec in L; rewrite L|]; congruence.
Qed.
Lemma rooted_put_plain m k v : k <> t "tags" -> (k = t "layer" -> to_str H v <> []) -> rooted H m -> rooted H (put k (rooteff k v) m).
Proof.
  intros NT NL (S & T & w & L & V). unfold rooted. repeat apply conj.
  - rewrite get_put. destruct (teq _ k); [intros X; discriminate X|exact S].
  - rewrite get_put. destruct (teq _ k); [intros X; discriminate X|exact T].
  - rewrite get_put. destruct (teq (t "layer") k) eqn:E.
    + apply teq_spec in E. subst k. eexists. split; [reflexivity|]. unfold rooteff. rewrite teq_refl. cbn [truthy].
      specialize (NL eq_refl). destruct (to_str H v); [congruence|reflexivity].
    + eauto.
Qed.
Lemma settled_root_apply m k v : k <> [] -> partition k = None -> k <> t "tags" -> settled_root k v m -> apply_one H m k v = (m, None).
Proof.
  intros NE P NT (R & G). unfold apply_one. destruct k as [|c k0]; [congruence|]. set (k := c :: k0) in *. rewrite P.
  unfold apply_root, rooteff in *. rewrite (root_id H m R), (teq_neq _ _ NT).
  destruct (teq k (t "layer")) eqn:L; [apply teq_spec in L; rewrite L in *|]; rewrite (put_id _ _ _ G); reflexivity.
Qed.

Definition scalar (k : text) (v : json) : Prop := k <> t "tags" /\ ~ In k list_keys /\ (k = t "layer" -> to_str H v <> []).
Definition settled (k : text) (v : json) (m : dict) : Prop :=
  k = [] \/ (exists ns f, partition k = Some (ns, f) /\ settled_ns ns f v m) \/
  (k <> [] /\ partition k = None /\ settled_root k v m).
Lemma settle m k v m' : scalar k v -> apply_one H m k v = (m', None) -> settled k v m'.
Proof.
  intros (NT & NL & LY) E. destruct k as [|c k0]; [now left|]. set (k := c :: k0) in *. right.
  destruct (partition k) as [[ns f]|] eqn:P.
  - left. exists ns, f. split; [reflexivity|]. destruct (one_form _ _ _ _ _ _ P NL E) as (O & m1 & B & ->). now apply (form_settled ns f v m).
  - right. split; [discriminate|]. split; [reflexivity|]. rewrite (root_form m k v m') by (assumption || discriminate).
    split; [apply rooted_put_plain; auto; apply root_rooted|apply get_put_same].
Qed.
Lemma settled_id m k v : scalar k v -> settled k v m -> apply_one H m k v = (m, None).
Proof.
  intros (NT & NL & LY) [->|[(ns & f & P & S)|(NE & P & S)]]; [reflexivity|now apply (settled_apply m k v ns f)|now apply settled_root_apply].
Qed.
Definition apart (k k' : text) : Prop :=
  k <> k' /\ (forall ns f, partition k = None -> partition k' = Some (ns, f) -> k <> ns) /\
  (forall ns f, partition k' = None -> partition k = Some (ns, f) -> k' <> ns).
Lemma partition_eq x a b : partition x = Some (a, b) -> x = a ++ 46%Z :: b.
Proof.
  revert a b. induction x as [|y x IH]; intros a b; [discriminate|]. cbn [partition].
  destruct (y =? 46)%Z eqn:Y; [intros X; inversion X; subst; apply Z.eqb_eq in Y; subst; reflexivity|].
  destruct (partition x) as [[a' b']|]; [|discriminate]. intros X. inversion X. subst. cbn. now rewrite (IH _ _ eq_refl).
Qed.
Lemma kept_some k m m' v : kept H k m m' -> get k m = Some v -> truthy H v = true -> get k m' = Some v.
Proof. intros [E|[_ D]] G T; [congruence|]. rewrite G in D. destruct D as [_ D]. congruence. Qed.
Lemma kept_rooted k m m' v : kept H k m m' -> rooted H m -> get k m = Some v -> get k m' = Some v.
Proof.
  intros [E|[I D]] R G; [congruence|]. rewrite G in D. destruct D as [-> D]. destruct R as (_ & _ & w & L & V). congruence.
Qed.

(** every scalar step keeps rootedness and the settled keys apart from it *)
Lemma step_rooted m k v m' : scalar k v -> apply_one H m k v = (m', None) -> rooted H m -> rooted H m'.
Proof.
  intros (NT & NL & LY) E R. destruct k as [|c k0]; [cbn in E; congruence|]. set (k := c :: k0) in *.
  destruct (partition k) as [[ns f]|] eqn:P.
  - destruct (one_form _ _ _ _ _ _ P NL E) as (O & m1 & (G & K & R1 & R2) & ->). unfold placed.
    destruct (eff ns f v) as [c'|]; [apply rooted_put_obj|]; auto.
  - rewrite (root_form m k v m') by (assumption || discriminate). apply rooted_put_plain; auto. apply root_rooted.
Qed.
Lemma step_obj m k v m' ns : scalar k v -> apply_one H m k v = (m', None) -> ns <> k ->
  (forall d, get ns m = Some (JObj d) -> truthy H (JObj d) = true \/ ~ In ns root_fields ->
   (forall f, partition k = Some (ns, f) -> False) -> get ns m' = Some (JObj d)).
Proof.
  intros (NT & NL & LY) E NK d G T NP. destruct k as [|c k0]; [cbn in E; congruence|]. set (k := c :: k0) in *.
  assert (KK : forall m1, kept H ns m m1 -> get ns m1 = Some (JObj d)).
  { intros m1 [X|[I D]]; [congruence|]. destruct T as [T|T]; [|contradiction]. rewrite G in D. destruct D. congruence. }
  destruct (partition k) as [[ns' f]|] eqn:P.
  - destruct (one_form _ _ _ _ _ _ P NL E) as (O & m1 & (G1 & K & R1 & R2) & ->).
    assert (N : ns <> ns') by (intros <-; exact (NP f eq_refl)).
    assert (X := KK _ (K ns N)).
    unfold placed. destruct (eff ns' f v) as [c'|]; [rewrite get_put_other by exact N|]; exact X.
  - rewrite (root_form m k v m') by (assumption || discriminate). rewrite get_put_other by exact NK. apply KK. apply kept_root.
Qed.
Lemma placed_get ns f v m m1 d : base ns f m m1 -> get ns m = Some (JObj d) ->
  exists d', get ns (placed ns f v m1) = Some (JObj d') /\ forall g, g <> f -> get g d' = get g d.
Proof.
  intros (G & _) E. assert (S : section ns m = d) by (unfold section; now rewrite E). rewrite S in G.
  unfold placed. destruct (eff ns f v) as [c|].
  - eexists. rewrite get_put_same. split; [reflexivity|]. intros g N. rewrite get_put_other by exact N. unfold section. now rewrite G.
  - exists d. auto.
Qed.
Lemma settled_kept k v k' v' m m' : scalar k v -> scalar k' v' -> apart k k' -> settled k v m ->
  apply_one H m k' v' = (m', None) -> settled k v m'.
Proof.
  intros SC SC' (NK & A1 & A2) S E. pose proof SC' as (NT & NL & LY).
  destruct S as [->|[(ns & f & P & O & R & d & G & F)|(NE & P & R & G)]]; [now left| |].
  - right. left. exists ns, f. split; [exact P|]. split; [exact O|]. split; [intros X; exact (step_rooted m k' v' m' SC' E (R X))|].
    destruct k' as [|c k0].
    { cbn in E. assert (m' = m) by congruence. subst m'. eauto. }
    set (k' := c :: k0) in *. destruct (partition k') as [[ns' f']|] eqn:P'.
    + destruct (one_form _ _ _ _ _ _ P' NL E) as (O' & m1 & B & ->).
      destruct (list_eq_dec Z.eq_dec ns ns') as [<-|N].
      * destruct (placed_get ns f' v' m m1 d B G) as (d' & G' & K'). exists d'. split; [exact G'|].
        assert (f <> f') by (intros <-; apply NK; rewrite (partition_eq _ _ _ P), (partition_eq _ _ _ P'); reflexivity).
        destruct (eff ns f v); [|exact I]. rewrite K' by assumption. exact F.
      * exists d. split; [|exact F]. destruct B as (G1 & K1 & _).
        assert (X : get ns m1 = Some (JObj d)).
        { destruct (K1 ns N) as [X|[I0 D]]; [congruence|]. rewrite G in D. destruct D as [-> D].
          assert (RR : rooted H m) by (apply R; reflexivity). destruct RR as (_ & _ & w & L & V). congruence. }
        unfold placed. destruct (eff ns' f' v') as [c'|]; [rewrite get_put_other by exact N|]; exact X.
    + rewrite (root_form m k' v' m') by (assumption || discriminate). exists d. split; [|exact F].
      rewrite get_put_other by (intros X; exact (A2 _ _ eq_refl P (eq_sym X))).
      destruct (kept_root H ns m) as [X|[I0 D]]; [congruence|]. rewrite G in D. destruct D as [-> D].
      assert (RR : rooted H m) by (apply R; reflexivity). destruct RR as (_ & _ & w & L & V). congruence.
  - right. right. split; [exact NE|]. split; [exact P|]. split; [exact (step_rooted m k' v' m' SC' E R)|].
    destruct k' as [|c k0]; [cbn in E; congruence|]. set (k' := c :: k0) in *.
    destruct (partition k') as [[ns' f']|] eqn:P'.
    + destruct (one_form _ _ _ _ _ _ P' NL E) as (O' & m1 & (G1 & K1 & _) & ->).
      assert (N : k <> ns') by exact (A1 _ _ P eq_refl).
      assert (X := kept_rooted _ _ _ _ (K1 k N) R G).
      unfold placed. destruct (eff ns' f' v') as [c'|]; [rewrite get_put_other by exact N|]; exact X.
    + rewrite (root_form m k' v' m') by (assumption || discriminate). rewrite get_put_other by exact NK.
      exact (kept_rooted _ _ _ _ (kept_root H k m) R G).
Qed.

Lemma apply_settles h : forall m m', (forall k v, In (k, v) h -> scalar k v) ->
  NoDup (map fst h) -> (forall k v k' v', In (k, v) h -> In (k', v') h -> k <> k' -> apart k k') ->
  apply_hint H m h = (m', None) ->
  (forall k v, scalar k v -> (forall k' v', In (k', v') h -> apart k k') -> settled k v m -> settled k v m') /\
  forall k v, In (k, v) h -> settled k v m'.
Proof.
  induction h as [|[k v] h IH]; intros m m' SC ND AP E; cbn [apply_hint] in E.
  - assert (m' = m) by congruence. subst. split; [auto|intros ? ? []].
  - destruct (apply_one H m k v) as [m1 [e|]] eqn:E1; [discriminate|].
    cbn [map fst] in ND. inversion ND as [|? ? NI ND']. subst.
    destruct (IH m1 m') as (I1 & I2); auto.
    { intros k0 v0 I0. apply SC. now right. }
    { intros k0 v0 k1 v1 A B. apply (AP k0 v0 k1 v1); now right. }
    assert (S1 : scalar k v) by (apply SC; now left).
    split.
    + intros k0 v0 S0 A0 T0. apply I1; [exact S0|intros k' v' I'; apply (A0 k' v'); now right|].
      apply (settled_kept k0 v0 k v m m1); auto. apply (A0 k v). now left.
    + intros k0 v0 [X|X]; [|now apply I2]. inversion X. subst k0 v0. apply I1; [exact S1| |exact (settle m k v m1 S1 E1)].
      intros k' v' I'. apply (AP k v k' v'); [now left|now right|]. intros ->. apply NI. exact (in_map fst _ _ I').
Qed.
Lemma settled_all h m : (forall k v, In (k, v) h -> scalar k v) -> (forall k v, In (k, v) h -> settled k v m) -> apply_hint H m h = (m, None).
Proof.
  induction h as [|[k v] h IH]; intros SC ST; [reflexivity|]. cbn [apply_hint].
  rewrite (settled_id m k v); [|apply SC; now left|apply ST; now left]. apply IH; intros; [apply SC|apply ST]; now right.
Qed.
Lemma apply_twice h m m' : scalar_hint H h -> apply_hint H m h = (m', None) -> apply_hint H m' h = (m', None).
Proof.
  intros (ND & SC & AP) E. apply settled_all; [exact SC|].
  apply (apply_settles h m m'); auto.
  intros k v k' v' A B N. split; [exact N|]. split; intros ns f P P'.
  - exact (AP k v k' v' ns f A B P P').
  - exact (AP k' v' k v ns f B A P P').
Qed.
End P.
