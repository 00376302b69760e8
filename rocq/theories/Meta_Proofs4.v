From Coq Require Import ZArith String List Bool Lia.
From Verif Require Import Dict Json_Model Meta_Model Meta_Spec Meta_Proofs Meta_Proofs2 Meta_Proofs3.
Import ListNotations.
Open Scope list_scope.

Section P.
Variable H : host.
Hypothesis HH : honest H.

(** ** The transform *)
Lemma strs_again l : map (fun x => JStr (to_str H x)) (map (fun x => JStr (to_str H x)) l) = map (fun x => JStr (to_str H x)) l.
Proof. rewrite map_map. apply map_ext. intros x. now rewrite (proj2 HH). Qed.
Lemma strs_jstr l : map (fun x => JStr (to_str H x)) (map JStr l) = map JStr l.
Proof. rewrite map_map. apply map_ext. intros x. now rewrite (proj2 HH). Qed.
Lemma coerced_bool key v : let x := coerced key v (coerce_bool H v) in coerced key (fst x) (coerce_bool H (fst x)) = x.
Proof.
  cbv zeta. destruct (coerce_bool H v) as [c|] eqn:E; cbn [coerced fst].
  - assert (X : coerce_bool H c = Some c).
    { destruct v; cbn [coerce_bool] in E; try discriminate; [assert (c = JBool b) by congruence; subst; reflexivity|].
      destruct (yes H s); [assert (c = JBool true) by congruence; subst; reflexivity|].
      destruct (no H s); [assert (c = JBool false) by congruence; subst; reflexivity|discriminate]. }
    rewrite X. reflexivity.
  - rewrite E. reflexivity.
Qed.
Lemma coerced_strings key v : let x := coerced key v (coerce_strings H v) in coerced key (fst x) (coerce_strings H (fst x)) = x.
Proof.
  cbv zeta. destruct v; try reflexivity; cbn [coerce_strings coerced fst].
  - unfold comma_list. now rewrite strs_jstr.
  - now rewrite strs_again.
Qed.
Lemma check_one_again key v v' ds : check_one H key v = Ok (v', ds) -> check_one H key v' = Ok (v', ds).
Proof.
  unfold check_one. destruct key as [|c k0]; [congruence|]. set (key := c :: k0).
  destruct (partition key) as [[ns f]|].
  - destruct (teq ns (t "assembly")) eqn:EA.
    + intros E. f_equal. assert (X : check_assembly H key f v = (v', ds)) by congruence. clear E. revert X. unfold check_assembly.
      destruct (teq f (t "joint_kind")); [intros X; assert (v' = v) by congruence; subst v'; exact X|].
      destruct (teq f (t "no_cut")).
      { pose proof (coerced_bool key v) as Y. cbv zeta in Y. intros X. rewrite X in Y. exact Y. }
      destruct (mem f _); intros X; assert (v' = v) by congruence; subst v'; exact X.
    + destruct (teq ns (t "operation")) eqn:EO; [|intros X; assert (v' = v) by congruence; subst v'; exact X].
      unfold check_operation.
      destruct (teq f (t "kind")); [intros X; assert (v' = v) by congruence; subst v'; exact X|].
      destruct (teq f (t "policy")); [intros X; assert (v' = v) by congruence; subst v'; exact X|].
      destruct (teq f (t "feature_kind")); [intros X; assert (v' = v) by congruence; subst v'; exact X|].
      destruct (mem f [t "through"; t "consume"]).
      { pose proof (coerced_bool key v) as Y. cbv zeta in Y. intros X. f_equal.
        assert (X1 : coerced key v (coerce_bool H v) = (v', ds)) by congruence. rewrite X1 in Y. exact Y. }
      destruct (teq f (t "priority")).
      { unfold coerce_float. destruct (to_float H v) as [x|e] eqn:TF.
        - cbn [coerced]. intros X. assert (v' = JFloat x) by congruence. subst v'. rewrite (proj1 HH). exact X.
        - destruct e; cbn [coerced]; intros X; try discriminate; assert (v' = v) by congruence; subst v'; rewrite TF; exact X. }
      destruct (teq f (t "target_filter")).
      { pose proof (coerced_strings key v) as Y. cbv zeta in Y. intros X. f_equal.
        assert (X1 : coerced key v (coerce_strings H v) = (v', ds)) by congruence. rewrite X1 in Y. exact Y. }
      destruct (mem f [t "feature_id"; t "stage"]).
      { intros X. assert (E1 : v' = JStr (to_str H v)) by congruence. assert (E2 : ds = []) by congruence. subst. now rewrite (proj2 HH). }
      intros X. assert (v' = v) by congruence. subst v'. exact X.
  - destruct (mem key _); intros X; assert (v' = v) by congruence; subst v'; exact X.
Qed.
Lemma check_fields_keys h : forall h' ds, check_fields H h = Ok (h', ds) -> map fst h' = map fst h.
Proof.
  induction h as [|[k v] h IH]; intros h' ds E; cbn [check_fields] in E; [assert (h' = []) by congruence; now subst|].
  apply bind_inv in E. destruct E as (x & X & E). apply bind_inv in E. destruct E as ([h1 d1] & Y & E).
  cbn [fst snd] in E. assert (E1 : h' = (k, fst x) :: h1) by congruence. subst h'. cbn [map fst]. f_equal. exact (IH _ _ Y).
Qed.
Lemma check_fields_again h : forall h' ds, check_fields H h = Ok (h', ds) -> check_fields H h' = Ok (h', ds).
Proof.
  induction h as [|[k v] h IH]; intros h' ds E; cbn [check_fields] in E.
  - assert (h' = []) by congruence. assert (ds = []) by congruence. now subst.
  - apply bind_inv in E. destruct E as ([v1 d0] & X & E). apply bind_inv in E. destruct E as ([h1 d1] & Y & E).
    cbn [fst snd] in E. assert (E1 : h' = (k, v1) :: h1) by congruence. assert (E2 : ds = d0 ++ d1) by congruence. subst.
    cbn [check_fields]. rewrite (check_one_again _ _ _ _ X). cbn [bind fst snd]. rewrite (IH _ _ Y). reflexivity.
Qed.
Lemma normalise_keys h h' ds : normalise H h = Ok (h', ds) -> map fst h' = map fst h.
Proof.
  unfold normalise. destruct h as [|p h]; [intros E; assert (h' = []) by congruence; now subst|].
  intros E. apply bind_inv in E. destruct E as ([h1 d1] & X & E). cbn [fst snd] in E.
  assert (h' = h1) by congruence. subst. exact (check_fields_keys _ _ _ X).
Qed.
Lemma normalise_again h h' ds : normalise H h = Ok (h', ds) -> normalise H h' = Ok (h', ds).
Proof.
  intros N. pose proof (normalise_keys _ _ _ N) as K. revert N. unfold normalise.
  destruct h as [|p h]; [intros E; assert (E1 : h' = []) by congruence; assert (E2 : ds = []) by congruence; now subst|].
  intros E. apply bind_inv in E. destruct E as ([h1 d1] & X & E). cbn [fst snd] in E.
  assert (h' = h1) by congruence. subst h1.
  destruct h' as [|p' h']; [discriminate|]. rewrite (check_fields_again _ _ _ X). exact E.
Qed.

(** ** Transform, then apply *)
Definition strings_only (v : json) : Prop := match v with JList l => forall x, In x l -> exists s, x = JStr s | _ => True end.
Lemma mem_2 f a b : mem f [a; b] = true -> f = a \/ f = b.
Proof. intros M. apply mem_spec in M. destruct M as [M|[M|[]]]; auto. Qed.
Lemma yes_coerced s c : coerce_bool H (JStr s) = Some c -> c = JBool (yes H s).
Proof. cbn [coerce_bool]. destruct (yes H s); [congruence|]. destruct (no H s); congruence. Qed.
Lemma one_same m key v v' ds : check_one H key v = Ok (v', ds) -> no_errors ds ->
  (key = t "operation.target_filter" -> strings_only v) -> apply_one H m key v' = apply_one H m key v.
Proof.
  unfold check_one, apply_one. destruct key as [|c k0]; [congruence|]. set (key := c :: k0).
  assert (ER : forall w, ~ no_errors (err_at key w)) by (intros w N; exact (N _ (or_introl eq_refl) eq_refl)).
  destruct (partition key) as [[ns f]|] eqn:P; [|destruct (mem key _); intros X; assert (v' = v) by congruence; now subst].
  apply partition_eq in P.
  destruct (teq ns (t "assembly")) eqn:EA.
  - apply teq_spec in EA. subst ns. intros E N _. assert (X : check_assembly H key f v = (v', ds)) by congruence. clear E. revert X.
    unfold check_assembly. destruct (teq f (t "joint_kind")); [intros X; assert (v' = v) by congruence; now subst|].
    destruct (teq f (t "no_cut")) eqn:E2; [|destruct (mem f _); intros X; assert (v' = v) by congruence; now subst].
    apply teq_spec in E2. rewrite E2. intros X. unfold coerced in X.
    destruct (coerce_bool H v) as [b|] eqn:CB; [|exfalso; apply (ER v); assert (E : ds = err_at key v) by congruence; now rewrite <- E].
    assert (E3 : v' = b) by congruence. subst v'. unfold apply_assembly. change (mem (t "no_cut") _) with true. cbv beta iota.
    change (teq (t "no_cut") (t "no_cut")) with true. cbv beta iota. do 2 f_equal.
    destruct v; try discriminate; [cbn in CB; assert (b = JBool b0) by congruence; subst; reflexivity|].
    apply yes_coerced in CB. subst b. reflexivity.
  - destruct (teq ns (t "operation")) eqn:EO; [|intros X; assert (v' = v) by congruence; now subst].
    apply teq_spec in EO. subst ns. intros E N S. revert E. unfold check_operation, apply_operation. cbv zeta.
    destruct (teq f (t "kind")) eqn:E1; [intros X; assert (v' = v) by congruence; now subst|].
    destruct (teq f (t "policy")) eqn:E2; [intros X; assert (v' = v) by congruence; now subst|].
    destruct (teq f (t "feature_kind")) eqn:E3; [intros X; assert (v' = v) by congruence; now subst|].
    destruct (mem f [t "through"; t "consume"]) eqn:E4.
    { intros X. assert (NF : teq f (t "target_filter") = false) by (apply mem_2 in E4; destruct E4; subst f; reflexivity).
      rewrite NF. unfold coerced in X.
      destruct (coerce_bool H v) as [b|] eqn:CB; [|exfalso; apply (ER v); assert (E : ds = err_at key v) by congruence; now rewrite <- E].
      assert (E5 : v' = b) by congruence. subst v'.
      destruct v; try discriminate; [cbn in CB; assert (b = JBool b0) by congruence; subst; reflexivity|].
      apply yes_coerced in CB. subst b. reflexivity. }
    destruct (teq f (t "priority")) eqn:E5.
    { apply teq_spec in E5. subst f. change (teq (t "priority") (t "target_filter")) with false. cbv beta iota.
      unfold coerce_float, coerced. destruct (to_float H v) as [x|e] eqn:TF.
      - intros X. assert (v' = JFloat x) by congruence. subst v'. now rewrite (proj1 HH).
      - destruct e; intros X; try discriminate; exfalso; apply (ER v); assert (E : ds = err_at key v) by congruence; now rewrite <- E. }
    destruct (teq f (t "target_filter")) eqn:E6.
    { apply teq_spec in E6. subst f. assert (SO : strings_only v) by (apply S; rewrite P; reflexivity).
      intros X. unfold coerced in X. destruct v as [|b|z|fl|s|l|d|o]; cbn [coerce_strings] in X;
        try (exfalso; apply (ER v'); assert (E : ds = err_at key v') by congruence; rewrite <- E; exact N).
      - assert (v' = JList (comma_list H s)) by congruence. now subst.
      - assert (E : v' = JList (map (fun x => JStr (to_str H x)) l)) by congruence. subst v'.
        assert (E : map (fun x => JStr (to_str H x)) l = l); [|now rewrite E].
        clear -SO HH. cbn in SO. induction l as [|x l IH]; [reflexivity|]. cbn [map]. destruct (SO x (or_introl eq_refl)) as (s & ->).
        rewrite (proj2 HH), IH; [reflexivity|]. intros y I. apply SO. now right. }
    destruct (mem f [t "feature_id"; t "stage"]) eqn:E7.
    { intros X. assert (v' = JStr (to_str H v)) by congruence. subst v'. now rewrite (proj2 HH). }
    intros X. assert (v' = v) by congruence. now subst.
Qed.
Lemma fields_same h : forall m h' ds, check_fields H h = Ok (h', ds) -> no_errors ds ->
  (forall v, In (t "operation.target_filter", v) h -> strings_only v) -> apply_hint H m h' = apply_hint H m h.
Proof.
  induction h as [|[k v] h IH]; intros m h' ds E N S; cbn [check_fields] in E; [assert (h' = []) by congruence; now subst|].
  apply bind_inv in E. destruct E as ([v1 d0] & X & E). apply bind_inv in E. destruct E as ([h1 d1] & Y & E).
  cbn [fst snd] in E. assert (E1 : h' = (k, v1) :: h1) by congruence. assert (E2 : ds = d0 ++ d1) by congruence. subst.
  cbn [apply_hint]. rewrite (one_same m k v v1 d0 X).
  - destruct (apply_one H m k v) as [m1 [e|]]; [reflexivity|]. apply (IH m1 h1 d1 Y).
    + intros d I. apply N. apply in_or_app. now right.
    + intros w I. apply S. now right.
  - intros d I. apply N. apply in_or_app. now left.
  - intros ->. apply S. now left.
Qed.
Lemma normalise_apply m h h' ds : normalise H h = Ok (h', ds) -> no_errors ds ->
  (forall v, In (t "operation.target_filter", v) h -> strings_only v) -> apply_hint H m h' = apply_hint H m h.
Proof.
  unfold normalise. destruct h as [|p h]; [intros E; assert (h' = []) by congruence; now subst|].
  intros E N S. apply bind_inv in E. destruct E as ([h1 d1] & X & E). cbn [fst snd] in E.
  assert (h' = h1) by congruence. subst h1. apply (fields_same _ m h' d1 X); [|exact S].
  intros d I. apply N. assert (E2 : ds = d1 ++ cross_check h') by congruence. subst ds. apply in_or_app. now left.
Qed.
End P.

Section Q.
Variable H : host.
(** ** Tags *)
Fixpoint add_new (l : list json) (tags : list text) : list json :=
  match tags with
  | [] => l
  | [] :: r => add_new l r
  | s :: r => if existsb (fun x => match x with JStr y => teq y s | _ => false end) l then add_new l r else add_new (l ++ [JStr s]) r
  end.
Lemma tags_fold tags : forall m l, get (t "tags") m = Some (JList l) ->
  get (t "tags") (fold_left append_tag tags m) = Some (JList (add_new l tags)).
Proof.
  induction tags as [|s tags IH]; intros m l G; cbn [fold_left add_new]; [exact G|].
  destruct s as [|c s]; [now apply IH|]. unfold append_tag at 2. rewrite G.
  destruct (existsb _ l); [now apply IH|]. apply IH. apply get_put_same.
Qed.
Lemma has_tag s l : existsb (fun x => match x with JStr y => teq y s | _ => false end) l = true <-> In (JStr s) l.
Proof.
  rewrite existsb_exists. split.
  - intros (x & I & E). destruct x; try discriminate. apply teq_spec in E. now subst.
  - intros I. exists (JStr s). split; [exact I|apply teq_refl].
Qed.
Lemma add_new_spec tags : forall l, exists new, add_new l tags = l ++ new /\
  (NoDup l -> NoDup (l ++ new)) /\ (forall s, In s tags -> s <> [] -> In (JStr s) (l ++ new)) /\
  (forall x, In x new -> exists s, x = JStr s /\ In s tags /\ s <> []).
Proof.
  induction tags as [|s tags IH]; intros l; cbn [add_new].
  - exists []. rewrite app_nil_r. repeat apply conj; auto; intros ? [].
  - destruct s as [|c s].
    + destruct (IH l) as (n & E & A & B & C). exists n. repeat apply conj; auto.
      * intros s [<-|I] N; [congruence|auto].
      * intros x I. destruct (C x I) as (s & -> & J & N). exists s. repeat split; auto. now right.
    + set (s' := c :: s) in *. destruct (existsb _ l) eqn:X.
      * apply has_tag in X. destruct (IH l) as (n & E & A & B & C). exists n. repeat apply conj; auto.
        -- intros y [<-|I] N; [apply in_or_app; now left|auto].
        -- intros x I. destruct (C x I) as (y & -> & J & N). exists y. repeat split; auto. now right.
      * destruct (IH (l ++ [JStr s'])) as (n & E & A & B & C). exists (JStr s' :: n). rewrite <- app_assoc in *. cbn [app] in *.
        repeat apply conj; auto.
        -- intros ND. apply A. change (l ++ [JStr s']) with (l ++ [JStr s']). apply NoDup_app_snoc; [exact ND|].
           intros I. apply has_tag in I. congruence.
        -- intros y [<-|I] N; [apply in_or_app; right; now left|auto].
        -- intros x [<-|I]; [exists s'; repeat split; auto; [now left|discriminate]|].
           destruct (C x I) as (y & -> & J & N). exists y. repeat split; auto. now right.
Qed.
Lemma tags_other tags k : k <> t "tags" -> forall m, get k (fold_left append_tag tags m) = get k m.
Proof.
  intros N. induction tags as [|s tags IH]; intros m; cbn [fold_left]; [reflexivity|]. rewrite IH.
  unfold append_tag. destruct s; [reflexivity|].
  destruct (get (t "tags") m) as [[| | | | |l| |]|]; try reflexivity; [destruct (existsb _ l); [reflexivity|]|]; now apply get_put_other.
Qed.

(** ** The frame for every call *)
Lemma frame_keys c m k : k <> namespace c -> ~ (namespace c = [] /\ In k (named c)) -> kept H k m (fst (run_call H m c)).
Proof.
  intros N NR. destruct (list_eq_dec Z.eq_dec (namespace c) []) as [E|E].
  - destruct c; try discriminate; cbn [run_call fst namespace named] in *.
    + unfold add_tags. unfold kept. rewrite tags_other by (intros ->; apply NR; split; [reflexivity|now left]).
      apply kept_root.
    + unfold set_layer, kept. rewrite get_put_other by (intros ->; apply NR; split; [reflexivity|now left]). apply kept_root.
  - destruct (frame H c m E) as [F _]. now apply F.
Qed.

(** ** Identifiers *)
Lemma ensure_id_facts d fresh : let m := ensure_id H d fresh in
  rooted H m /\ get (t "entityId") m = match get (t "entityId") d with Some v => Some v | None => Some (JStr fresh) end /\
  get (t "id") m = match get (t "id") d with Some v => Some v | None => get (t "entityId") m end.
Proof.
  cbv zeta. unfold ensure_id.
  set (r := ensure_root H d None).
  assert (R : rooted H r) by apply root_rooted.
  assert (GE : get (t "entityId") r = get (t "entityId") d).
  { unfold r. rewrite get_root. change (teq (t "entityId") (t "layer")) with false. cbv beta iota.
    destruct (get (t "entityId") d); reflexivity. }
  assert (GI : get (t "id") r = get (t "id") d).
  { unfold r. rewrite get_root. change (teq (t "id") (t "layer")) with false. cbv beta iota.
    destruct (get (t "id") d); reflexivity. }
  set (r1 := set_default (t "entityId") (JStr fresh) r).
  assert (G1 : get (t "entityId") r1 = match get (t "entityId") d with Some v => Some v | None => Some (JStr fresh) end).
  { unfold r1. rewrite get_set_default, GE, teq_refl. reflexivity. }
  assert (G2 : get (t "id") r1 = get (t "id") d).
  { unfold r1. rewrite get_set_default, GI. change (teq (t "id") (t "entityId")) with false. destruct (get (t "id") d); reflexivity. }
  assert (SD : forall k v x, k <> t "schema" -> k <> t "tags" -> k <> t "layer" -> rooted H x -> rooted H (set_default k v x)).
  { intros k v x A B C RX. unfold set_default. destruct (has k x); [exact RX|]. destruct RX as (S & T & w & L & V). unfold rooted.
    rewrite !get_put_other by congruence. eauto. }
  split; [|split].
  - apply SD; try discriminate. apply SD; try discriminate. exact R.
  - rewrite get_set_default. change (teq (t "entityId") (t "id")) with false. rewrite G1.
    destruct (get (t "entityId") d); reflexivity.
  - rewrite !get_set_default, teq_refl, G2. destruct (get (t "id") d); [reflexivity|].
    change (teq (t "entityId") (t "id")) with false. unfold arg. rewrite G1. destruct (get (t "entityId") d); reflexivity.
Qed.
Lemma ensure_id_again d d' : rooted H d -> get (t "entityId") d <> None -> get (t "id") d <> None -> ensure_id H d d' = d.
Proof.
  intros R E I. unfold ensure_id. rewrite (root_id H d R), (set_default_id _ _ _ E), (set_default_id _ _ _ I). reflexivity.
Qed.
Lemma get_metadata_again x f1 f2 : get_metadata H (get_metadata H x true f1) true f2 = get_metadata H x true f1.
Proof.
  unfold get_metadata. cbn [slot_dict]. destruct (ensure_id_facts (slot_dict x) f1) as (R & G1 & G2). cbv zeta in *.
  rewrite (root_id H _ R). assert (E1 : get (t "entityId") (ensure_id H (slot_dict x) f1) <> None).
  { rewrite G1. destruct (get (t "entityId") (slot_dict x)); discriminate. }
  rewrite (ensure_id_again _ f2 R); [now rewrite (root_id H _ R)|exact E1|].
  rewrite G2. destruct (get (t "id") (slot_dict x)); [discriminate|exact E1].
Qed.

(** ** Failing calls *)
Lemma failing_adds c m : (match c with CBolt _ | CDatum _ | CSurface _ | CKeepout _ | CAssembly _ => True | _ => False end) ->
  snd (run_call H m c) <> None -> section (t "assembly") (fst (run_call H m c)) = section (t "assembly") m.
Proof.
  intros C F. destruct c as [kw|kw|kw|kw|kw|kw|kw|l|v]; try contradiction.
  - cbn [run_call] in *. destruct (set_assembly_section H m kw) as [E|(_ & E & _)]; [rewrite E; reflexivity|contradiction].
  - destruct (bolt_call H m kw) as [E|(_ & _ & E)]; [now rewrite E|]. rewrite E in *.
    destruct (finish_cases H (t "assembly") (t "bolt_patterns") m (bolt_entry H kw) asm_root) as [(e & _ & A & _)|[_ S]]; [contradiction|exact S].
  - destruct (datum_call H m kw) as [E|(_ & _ & E)]; [now rewrite E|]. rewrite E in *.
    destruct (finish_cases H (t "assembly") (t "datums") m (datum_entry H kw) asm_root) as [(e & _ & A & _)|[_ S]]; [contradiction|exact S].
  - destruct (surface_call H m kw) as [E|(_ & E)]; [now rewrite E|]. rewrite E in *.
    destruct (finish_cases H (t "assembly") (t "surfaces") m (surface_entry H kw) asm_root) as [(e & _ & A & _)|[_ S]]; [contradiction|exact S].
  - destruct (keepout_call H m kw) as [E|(_ & E)]; [now rewrite E|]. rewrite E in *.
    destruct (finish_cases H (t "assembly") (t "keepouts") m (keepout_entry H kw) asm_root) as [(e & _ & A & _)|[_ S]]; [contradiction|exact S].
Qed.
Definition not_member (v : json) (allowed : list text) : Prop := ~ one_of_or_none v allowed.
Lemma enum_bad v allowed : not_member v allowed -> exists e, validate_enum v allowed = Some e.
Proof. intros N. destruct (validate_enum v allowed) eqn:E; [eauto|]. exfalso. apply N. now apply enum_ok. Qed.
(** the enumerated keyword arguments of each call *)
Definition enum_args (c : call) : list (text * list text) :=
  match c with
  | CAssembly _ => [(t "joint_kind", joint_kinds)] | CBolt _ => [(t "ring", bolt_rings)]
  | CDatum _ => [(t "kind", datum_kinds); (t "ring", bolt_rings)] | CSurface _ => [(t "kind", surface_kinds)]
  | CKeepout _ => [(t "kind", keepout_kinds)]
  | COperation _ => [(t "kind", operation_kinds); (t "policy", operation_policies); (t "feature_kind", feature_kinds)]
  | _ => []
  end.
Definition kw_of (c : call) : kwargs :=
  match c with
  | CAssembly kw | CBolt kw | CDatum kw | CSurface kw | CKeepout kw | COperation kw | CMaterial kw => kw
  | _ => []
  end.
Lemma enum_rejected c m k allowed : In (k, allowed) (enum_args c) -> not_member (arg k (kw_of c)) allowed ->
  fst (run_call H m c) = m /\ snd (run_call H m c) <> None.
Proof.
  intros I N. apply enum_bad in N. destruct N as (e & N).
  destruct c as [kw|kw|kw|kw|kw|kw|kw|l|v]; cbn [enum_args kw_of run_call] in *.
  - destruct I as [I|[]]. assert (k = t "joint_kind") by congruence. assert (allowed = joint_kinds) by congruence. subst.
    unfold set_assembly. destruct (negb _); [split; [reflexivity|discriminate]|]. rewrite N. split; [reflexivity|discriminate].
  - destruct I as [I|[]]. assert (k = t "ring") by congruence. assert (allowed = bolt_rings) by congruence. subst.
    unfold add_bolt_pattern. destruct (negb _); [split; [reflexivity|discriminate]|]. destruct (negb _); [split; [reflexivity|discriminate]|].
    rewrite N. split; [reflexivity|discriminate].
  - unfold add_datum. destruct (negb _); [split; [reflexivity|discriminate]|]. destruct (negb _); [split; [reflexivity|discriminate]|].
    destruct I as [I|[I|[]]].
    + assert (k = t "kind") by congruence. assert (allowed = datum_kinds) by congruence. subst. rewrite N. split; [reflexivity|discriminate].
    + assert (k = t "ring") by congruence. assert (allowed = bolt_rings) by congruence. subst.
      destruct (validate_enum _ datum_kinds); [split; [reflexivity|discriminate]|]. rewrite N. split; [reflexivity|discriminate].
  - destruct I as [I|[]]. assert (k = t "kind") by congruence. assert (allowed = surface_kinds) by congruence. subst.
    unfold add_surface. destruct (negb _); [split; [reflexivity|discriminate]|]. destruct (negb _); [split; [reflexivity|discriminate]|].
    rewrite N. split; [reflexivity|discriminate].
  - destruct I as [I|[]]. assert (k = t "kind") by congruence. assert (allowed = keepout_kinds) by congruence. subst.
    unfold add_keepout. destruct (negb _); [split; [reflexivity|discriminate]|]. destruct (negb _); [split; [reflexivity|discriminate]|].
    rewrite N. split; [reflexivity|discriminate].
  - unfold set_operation. destruct (negb _); [split; [reflexivity|discriminate]|].
    destruct I as [I|[I|[I|[]]]].
    + assert (k = t "kind") by congruence. assert (allowed = operation_kinds) by congruence. subst. rewrite N. split; [reflexivity|discriminate].
    + assert (k = t "policy") by congruence. assert (allowed = operation_policies) by congruence. subst.
      destruct (validate_enum _ operation_kinds); [split; [reflexivity|discriminate]|]. rewrite N. split; [reflexivity|discriminate].
    + assert (k = t "feature_kind") by congruence. assert (allowed = feature_kinds) by congruence. subst.
      destruct (validate_enum _ operation_kinds); [split; [reflexivity|discriminate]|].
      destruct (validate_enum _ operation_policies); [split; [reflexivity|discriminate]|]. rewrite N. split; [reflexivity|discriminate].
  - destruct I.
  - destruct I.
  - destruct I.
Qed.
End Q.
