From Coq Require Import ZArith String List Bool Lia.
From Verif Require Import Dict Json_Model Meta_Model Meta_Spec Meta_Proofs.
Import ListNotations.
Open Scope list_scope.

Section P.
Variable H : host.

Lemma accepts_named req opt kw : accepts req opt kw = true -> incl (map fst kw) (req ++ opt).
Proof.
  unfold accepts. intros A. apply andb_true_iff in A. destruct A as [A _].
  rewrite forallb_forall in A. intros k I. apply in_map_iff in I. destruct I as (kv & <- & I).
  specialize (A kv I). apply orb_true_iff in A. apply in_or_app.
  destruct A as [A|A]; apply mem_spec in A; auto.
Qed.
Lemma section_kept ns m m' : kept H ns m m' -> ~ In ns root_fields -> section ns m' = section ns m.
Proof. intros [E|[I _]] N; [unfold section; now rewrite E|contradiction]. Qed.

(** ** Values stored *)
Lemma field_inv ns k kw conv x m' : field_of ns k kw conv x = (m', None) ->
  exists m0, x = (m0, None) /\
    ((arg k kw = JNull /\ m' = m0) \/
     (arg k kw <> JNull /\ exists c, conv (arg k kw) = Ok c /\ m' = write ns k c m0)).
Proof.
  unfold field_of. destruct x as [m0 [e|]]; [discriminate|]. intros E. exists m0. split; [reflexivity|].
  destruct (arg k kw) eqn:A; [left; split; [reflexivity|congruence]|..];
  (right; split; [discriminate|]; destruct (conv _) eqn:C; [|discriminate]; eexists; split; [reflexivity|congruence]).
Qed.
(** after a successful chain, each field whose argument is given holds its converted value *)
Definition stored (ns : text) (kw : kwargs) (l : list (text * (json -> res json))) (x : outcome) : Prop :=
  snd x = None -> forall k conv, In (k, conv) l -> arg k kw <> JNull ->
    exists c, conv (arg k kw) = Ok c /\ get k (section ns (fst x)) = Some c.
Lemma stored_field ns kw l k conv x : ~ In k (map fst l) -> stored ns kw l x ->
  stored ns kw ((k, conv) :: l) (field_of ns k kw conv x).
Proof.
  intros N S E. destruct (field_of ns k kw conv x) as [m' o] eqn:F. cbn [fst snd] in *. subst o.
  destruct (field_inv _ _ _ _ _ _ F) as (m0 & -> & D).
  intros k0 c0 I G. destruct D as [[A ->]|(A & c & C & ->)].
  - destruct I as [I|I]; [inversion I; subst; congruence|]. now apply (S eq_refl).
  - destruct I as [I|I].
    + inversion I; subst. exists c. split; [exact C|]. now rewrite section_write, get_put_same.
    + destruct (S eq_refl _ _ I G) as (c' & C' & G'). exists c'. split; [exact C'|].
      rewrite section_write, get_put_other; [exact G'|]. intros ->. apply N. exact (in_map fst _ _ I).
Qed.
Lemma kept_field ns k kw conv x f : f <> k -> get f (section ns (fst (field_of ns k kw conv x))) = get f (section ns (fst x)).
Proof.
  intros N. destruct x as [m [e|]]; [reflexivity|]. cbn [field_of]. destruct (arg k kw); [reflexivity|..];
  (destruct (conv _); [|reflexivity]; cbn [fst]; rewrite section_write; now apply get_put_other).
Qed.

Lemma set_operation_stored m kw m' : set_operation H m kw = (m', None) ->
  get (t "kind") (section (t "operation") m') = Some (arg (t "kind") kw) /\
  forall k conv, In (k, conv) [(t "target_filter", cstrs H); (t "priority", cfloat H); (t "through", cbool H);
     (t "consume", cbool H); (t "policy", csame); (t "feature_id", cstr H); (t "feature_kind", csame); (t "stage", cstr H)] ->
  arg k kw <> JNull -> exists c, conv (arg k kw) = Ok c /\ get k (section (t "operation") m') = Some c.
Proof.
  intros E. unfold set_operation in E. destruct (negb _); [discriminate|].
  do 3 (destruct (validate_enum _ _); [discriminate|]).
  set (m0 := write _ _ _ _) in E. split.
  - match type of E with ?x = _ => assert (X : get (t "kind") (section (t "operation") (fst x)) = Some (arg (t "kind") kw)) end.
    { rewrite !kept_field by discriminate. cbn [fst]. unfold m0. rewrite section_write. apply get_put_same. }
    rewrite E in X. exact X.
  - set (x0 := (m0, None)) in E.
    assert (S0 : stored (t "operation") kw [] x0) by (intros _ k conv []).
    apply (stored_field _ _ _ (t "target_filter") (cstrs H)) in S0; [|cbn; intuition discriminate].
    apply (stored_field _ _ _ (t "priority") (cfloat H)) in S0; [|cbn; intuition discriminate].
    apply (stored_field _ _ _ (t "through") (cbool H)) in S0; [|cbn; intuition discriminate].
    apply (stored_field _ _ _ (t "consume") (cbool H)) in S0; [|cbn; intuition discriminate].
    apply (stored_field _ _ _ (t "policy") csame) in S0; [|cbn; intuition discriminate].
    apply (stored_field _ _ _ (t "feature_id") (cstr H)) in S0; [|cbn; intuition discriminate].
    apply (stored_field _ _ _ (t "feature_kind") csame) in S0; [|cbn; intuition discriminate].
    apply (stored_field _ _ _ (t "stage") (cstr H)) in S0; [|cbn; intuition discriminate].
    unfold x0 in *. rewrite E in S0. intros k conv I A. apply (S0 eq_refl k conv); [|exact A]. cbn in *. tauto.
Qed.
Lemma set_material_stored m kw m' : set_material H m kw = (m', None) ->
  forall k conv, In (k, conv) [(t "name", csame); (t "standard", csame); (t "grade", csame);
     (t "density_kg_m3", cfloat H); (t "source", csame)] ->
  arg k kw <> JNull -> exists c, conv (arg k kw) = Ok c /\ get k (section (t "material") m') = Some c.
Proof.
  intros E. unfold set_material in E. destruct (negb _); [discriminate|].
  set (x0 := (_, None)) in E.
  assert (S0 : stored (t "material") kw [] x0) by (intros _ k conv []).
  apply (stored_field _ _ _ (t "name") csame) in S0; [|cbn; intuition discriminate].
  apply (stored_field _ _ _ (t "standard") csame) in S0; [|cbn; intuition discriminate].
  apply (stored_field _ _ _ (t "grade") csame) in S0; [|cbn; intuition discriminate].
  apply (stored_field _ _ _ (t "density_kg_m3") (cfloat H)) in S0; [|cbn; intuition discriminate].
  apply (stored_field _ _ _ (t "source") csame) in S0; [|cbn; intuition discriminate].
  unfold x0 in *. rewrite E in S0. intros k conv I A. apply (S0 eq_refl k conv); [|exact A]. cbn in *. tauto.
Qed.

(** ** Entries *)
Lemma opt_field_get k v conv e e' k' : opt_field k v conv e = Ok e' -> k' <> k -> get k' e' = get k' e.
Proof.
  unfold opt_field, bind. intros E N.
  destruct v; [congruence|..]; (destruct (conv _); [|discriminate]; inversion E; now apply get_put_other).
Qed.
Lemma opt_field_own k v conv e e' : opt_field k v conv e = Ok e' -> v <> JNull ->
  exists c, conv v = Ok c /\ get k e' = Some c.
Proof.
  unfold opt_field, bind. intros E N.
  destruct v; [congruence|..]; (destruct (conv _) as [c|]; [|discriminate]; exists c; split; [reflexivity|]; inversion E; apply get_put_same).
Qed.
Lemma opt_field_null k conv e e' : opt_field k JNull conv e = Ok e' -> e' = e.
Proof. cbn. congruence. Qed.
Lemma bind_inv {A B} (r : res A) (f : A -> res B) b : bind r f = Ok b -> exists a, r = Ok a /\ f a = Ok b.
Proof. destruct r; cbn; [eauto|discriminate]. Qed.

Lemma enum_ok v allowed : validate_enum v allowed = None -> one_of_or_none v allowed.
Proof.
  destruct v as [|b|z|f|s|l|d|o]; cbn; try discriminate; [now left|].
  destruct (mem s allowed) eqn:M; [|discriminate]. intros _. right. exists s. split; [reflexivity|now apply mem_spec].
Qed.
Lemma enum_iff v allowed : validate_enum v allowed = None <-> one_of_or_none v allowed.
Proof.
  split; [apply enum_ok|]. intros [->|(s & -> & I)]; [reflexivity|]. cbn. apply mem_spec in I. now rewrite I.
Qed.

Lemma bolt_entry_fields kw e : bolt_entry H kw = Ok e ->
  get (t "id") e = Some (JStr (to_str H (arg (t "id") kw))) /\ get (t "ring") e = Some (arg (t "ring") kw) /\
  (exists r, to_float H (arg (t "R_mm") kw) = Ok r /\ get (t "R_mm") e = Some (JFloat r)) /\
  (exists z, to_float H (arg (t "z_mm") kw) = Ok z /\ get (t "z_mm") e = Some (JFloat z)) /\
  (exists n, to_int H (arg (t "count") kw) = Ok n /\ get (t "count") e = Some (JInt n)).
Proof.
  unfold bolt_entry. intros E.
  apply bind_inv in E. destruct E as (r & R & E). apply bind_inv in E. destruct E as (z & Z & E).
  apply bind_inv in E. destruct E as (n & N & E). apply bind_inv in E. destruct E as (e1 & E1 & E).
  apply bind_inv in E. destruct E as (f & F & E).
  assert (G : forall k, k <> t "theta0_deg" -> k <> t "fastener" -> k <> t "tolerance_mm" -> get k e = get k
    [(t "id", JStr (to_str H (arg (t "id") kw))); (t "ring", arg (t "ring") kw);
     (t "R_mm", JFloat r); (t "z_mm", JFloat z); (t "count", JInt n)]).
  { intros k K1 K2 K3. rewrite (opt_field_get _ _ _ _ _ k E K3).
    destruct f; rewrite ?get_put_other by exact K2; exact (opt_field_get _ _ _ _ _ k E1 K1). }
  repeat apply conj; try (eexists; split; [eassumption|]); rewrite G by discriminate; reflexivity.
Qed.
Lemma datum_entry_fields kw e : datum_entry H kw = Ok e ->
  get (t "id") e = Some (JStr (to_str H (arg (t "id") kw))) /\ get (t "kind") e = Some (arg (t "kind") kw) /\
  (get (t "ring") e = Some (arg (t "ring") kw) \/ get (t "ring") e = None).
Proof.
  unfold datum_entry. intros E.
  apply bind_inv in E. destruct E as (e1 & E1 & E). apply bind_inv in E. destruct E as (e2 & E2 & E).
  apply bind_inv in E. destruct E as (e3 & E3 & E). apply bind_inv in E. destruct E as (e4 & E4 & E).
  assert (G : forall k, k <> t "R_mm" -> k <> t "z_mm" -> k <> t "origin_mm" -> k <> t "direction" -> get k e = get k e1).
  { intros k K1 K2 K3 K4. rewrite (opt_field_get _ _ _ _ _ k E K4), (opt_field_get _ _ _ _ _ k E4 K3),
      (opt_field_get _ _ _ _ _ k E3 K2). exact (opt_field_get _ _ _ _ _ k E2 K1). }
  rewrite !G by discriminate. repeat apply conj.
  - rewrite (opt_field_get _ _ _ _ _ _ E1) by discriminate. reflexivity.
  - rewrite (opt_field_get _ _ _ _ _ _ E1) by discriminate. reflexivity.
  - assert (D : arg (t "ring") kw = JNull \/ arg (t "ring") kw <> JNull) by (destruct (arg (t "ring") kw); auto; right; discriminate).
    destruct D as [D|D].
    + rewrite D in E1. apply opt_field_null in E1. subst e1. right. reflexivity.
    + destruct (opt_field_own _ _ _ _ _ E1 D) as (c & C & G1). left. unfold csame in C. congruence.
Qed.
Lemma surface_entry_fields kw e : surface_entry H kw = Ok e ->
  get (t "id") e = Some (JStr (to_str H (arg (t "id") kw))) /\ get (t "kind") e = Some (arg (t "kind") kw).
Proof.
  unfold surface_entry. intros E.
  apply bind_inv in E. destruct E as (e1 & E1 & E). apply bind_inv in E. destruct E as (e2 & E2 & E).
  rewrite !(opt_field_get _ _ _ _ _ _ E), !(opt_field_get _ _ _ _ _ _ E2), !(opt_field_get _ _ _ _ _ _ E1) by discriminate.
  split; reflexivity.
Qed.
Lemma keepout_entry_fields kw e : keepout_entry H kw = Ok e ->
  get (t "id") e = Some (JStr (to_str H (arg (t "id") kw))) /\ get (t "kind") e = Some (arg (t "kind") kw).
Proof.
  unfold keepout_entry. intros E. apply bind_inv in E. destruct E as (e1 & E1 & E).
  rewrite !(opt_field_get _ _ _ _ _ _ E), !(opt_field_get _ _ _ _ _ _ E1) by discriminate. split; reflexivity.
Qed.

(** an add_* call: at the end of its list, a new entry, or nothing *)
Definition added (ns k : text) (m : dict) (x : outcome) (e : dict) : Prop :=
  snd x = None /\
  (get k (section ns m) = None /\ get k (section ns (fst x)) = Some (JList [JObj e]) \/
   exists l, get k (section ns m) = Some (JList l) /\ get k (section ns (fst x)) = Some (JList (l ++ [JObj e]))).
Lemma finish_cases ns k m b : ~ In ns root_fields ->
  (exists e, b = Ok e /\ added ns k m (finish ns k (open_ns H ns m) b) e) \/
  (snd (finish ns k (open_ns H ns m) b) <> None /\ section ns (fst (finish ns k (open_ns H ns m) b)) = section ns m).
Proof.
  intros N. unfold finish. destruct b as [e|er]; cbn [fst snd].
  - unfold append_entry, added. rewrite section_open by exact N.
    destruct (get k (section ns m)) as [[|b|z|f|s|l|d|o]|] eqn:G; cbn [fst snd];
      try (right; split; [discriminate|now apply section_open]).
    + left. exists e. split; [reflexivity|]. split; [reflexivity|]. right. exists l. split; [reflexivity|].
      now rewrite section_write, get_put_same.
    + left. exists e. split; [reflexivity|]. split; [reflexivity|]. left. split; [reflexivity|].
      now rewrite section_write, get_put_same.
  - right. split; [discriminate|now apply section_open].
Qed.

(** ** The enumerations *)
Definition valid_a (a : dict) : Prop :=
  (forall v, get (t "joint_kind") a = Some v -> one_of v joint_kinds) /\
  entries a "bolt_patterns" bolt_ok /\ entries a "datums" datum_ok /\
  entries a "surfaces" surface_ok /\ entries a "keepouts" keepout_ok.
Definition valid_o (o : dict) : Prop :=
  field_ok o "kind" operation_kinds /\ field_ok o "policy" operation_policies /\ field_ok o "feature_kind" feature_kinds.
Lemma valid_split m : valid m <-> valid_a (section (t "assembly") m) /\ valid_o (section (t "operation") m).
Proof. unfold valid, valid_a, valid_o. cbv zeta. tauto. Qed.

Lemma entries_same a a' k P : get (t k) a' = get (t k) a -> entries a k P -> entries a' k P.
Proof. intros E A l e G. rewrite E in G. exact (A l e G). Qed.
Lemma field_ok_same a a' k l : get (t k) a' = get (t k) a -> field_ok a k l -> field_ok a' k l.
Proof. intros E A v G. rewrite E in G. exact (A v G). Qed.
Definition a_fields := [t "joint_kind"; t "bolt_patterns"; t "datums"; t "surfaces"; t "keepouts"].
Lemma valid_a_same a a' : (forall k, In k a_fields -> get k a' = get k a) -> valid_a a -> valid_a a'.
Proof.
  intros E (A & B & C & D & F). unfold valid_a. repeat apply conj.
  - intros v G. rewrite E in G by (cbn; tauto). auto.
  - eapply entries_same; [apply E; cbn; tauto|exact B].
  - eapply entries_same; [apply E; cbn; tauto|exact C].
  - eapply entries_same; [apply E; cbn; tauto|exact D].
  - eapply entries_same; [apply E; cbn; tauto|exact F].
Qed.
Definition o_fields := [t "kind"; t "policy"; t "feature_kind"].
Lemma valid_o_same a a' : (forall k, In k o_fields -> get k a' = get k a) -> valid_o a -> valid_o a'.
Proof.
  intros E (A & B & C). unfold valid_o. repeat apply conj.
  - eapply field_ok_same; [apply E; cbn; tauto|exact A].
  - eapply field_ok_same; [apply E; cbn; tauto|exact B].
  - eapply field_ok_same; [apply E; cbn; tauto|exact C].
Qed.

Lemma entries_added m k (P : dict -> Prop) x e : added (t "assembly") (t k) m x e -> P e ->
  entries (section (t "assembly") m) k P -> entries (section (t "assembly") (fst x)) k P.
Proof.
  intros (_ & D) Pe En l e0 G I. destruct D as [[G0 G1]|(l0 & G0 & G1)]; rewrite G1 in G; inversion G; subst l.
  - destruct I as [<-|[]]. eauto.
  - apply in_app_or in I. destruct I as [I|[<-|[]]]; [exact (En _ _ G0 I)|eauto].
Qed.
Lemma not_in_1 (k k' : text) : k <> k' -> ~ In k [k'].
Proof. intros N [E|[]]. congruence. Qed.

Lemma valid_list m c k (P : dict -> Prop) (b : build) : namespace c = t "assembly" -> named c = [t k] ->
  In (t k) [t "bolt_patterns"; t "datums"; t "surfaces"; t "keepouts"] ->
  (forall e, b = Ok e -> P e) -> run_call H m c = finish (t "assembly") (t k) (open_ns H (t "assembly") m) b ->
  valid m ->
  (entries (section (t "assembly") m) k P -> entries (section (t "assembly") (fst (run_call H m c))) k P) /\
  valid_o (section (t "operation") (fst (run_call H m c))) /\
  (forall f, In f a_fields -> f <> t k -> get f (section (t "assembly") (fst (run_call H m c))) = get f (section (t "assembly") m)).
Proof.
  intros NS NM IK Pe E V. apply valid_split in V. destruct V as [Va Vo].
  pose proof (frame H c m) as F. rewrite NS, NM in F. destruct (F ltac:(discriminate)) as [F1 F2]. split; [|split].
  - intros En. rewrite E. destruct (finish_cases (t "assembly") (t k) m b asm_root) as [(e & B & A)|[_ S]].
    + eapply entries_added; [exact A|now apply Pe|exact En].
    + rewrite S. exact En.
  - rewrite (section_kept (t "operation") m); [exact Vo|apply F1; discriminate|exact opn_root].
  - intros f _ N. apply F2. now apply not_in_1.
Qed.
Lemma entries_other f k a a' P : (forall g, In g a_fields -> g <> t k -> get g a' = get g a) -> In (t f) a_fields -> t f <> t k ->
  entries a f P -> entries a' f P.
Proof. intros G I N. apply entries_same. now apply G. Qed.

Lemma bolt_call m kw : fst (run_call H m (CBolt kw)) = m \/
  (accepts bolt_req bolt_opt kw = true /\ validate_enum (arg (t "ring") kw) bolt_rings = None /\
   run_call H m (CBolt kw) = finish (t "assembly") (t "bolt_patterns") (open_ns H (t "assembly") m) (bolt_entry H kw)).
Proof.
  cbn [run_call]. unfold add_bolt_pattern. destruct (accepts bolt_req bolt_opt kw); [|now left]. cbn [negb].
  destruct (truthy H (arg (t "id") kw)); [|now left]. cbn [negb].
  destruct (validate_enum _ _) eqn:V; [now left|right; auto].
Qed.
Lemma datum_call m kw : fst (run_call H m (CDatum kw)) = m \/
  (validate_enum (arg (t "kind") kw) datum_kinds = None /\ validate_enum (arg (t "ring") kw) bolt_rings = None /\
   run_call H m (CDatum kw) = finish (t "assembly") (t "datums") (open_ns H (t "assembly") m) (datum_entry H kw)).
Proof.
  cbn [run_call]. unfold add_datum. destruct (negb _); [now left|]. destruct (negb _); [now left|].
  destruct (validate_enum _ _) eqn:V; [now left|]. destruct (validate_enum _ bolt_rings) eqn:V2; [now left|right; auto].
Qed.
Lemma surface_call m kw : fst (run_call H m (CSurface kw)) = m \/
  (validate_enum (arg (t "kind") kw) surface_kinds = None /\
   run_call H m (CSurface kw) = finish (t "assembly") (t "surfaces") (open_ns H (t "assembly") m) (surface_entry H kw)).
Proof.
  cbn [run_call]. unfold add_surface. destruct (negb _); [now left|]. destruct (negb _); [now left|].
  destruct (validate_enum _ _) eqn:V; [now left|right; auto].
Qed.
Lemma keepout_call m kw : fst (run_call H m (CKeepout kw)) = m \/
  (validate_enum (arg (t "kind") kw) keepout_kinds = None /\
   run_call H m (CKeepout kw) = finish (t "assembly") (t "keepouts") (open_ns H (t "assembly") m) (keepout_entry H kw)).
Proof.
  cbn [run_call]. unfold add_keepout. destruct (negb _); [now left|]. destruct (negb _); [now left|].
  destruct (validate_enum _ _) eqn:V; [now left|right; auto].
Qed.

Lemma set_assembly_section m kw : set_assembly H m kw = (m, snd (set_assembly H m kw)) \/
  (validate_enum (arg (t "joint_kind") kw) joint_kinds = None /\ snd (set_assembly H m kw) = None /\
   section (t "assembly") (fst (set_assembly H m kw)) =
     let a := section (t "assembly") m in
     let a := match arg (t "joint_kind") kw with JNull => a | v => put (t "joint_kind") v a end in
     match arg (t "no_cut") kw with JNull => a | v => put (t "no_cut") (JBool (truthy H v)) a end).
Proof.
  unfold set_assembly. destruct (negb _); [now left|]. destruct (validate_enum _ _) eqn:V; [now left|].
  right. split; [reflexivity|]. split; [reflexivity|]. cbn [fst snd].
  set (m1 := ensure_namespace _ _).
  assert (S1 : section (t "assembly") m1 = section (t "assembly") m).
  { unfold m1, ensure_namespace. rewrite section_put. apply section_root. exact asm_root. }
  cbv zeta. destruct (arg (t "joint_kind") kw); destruct (arg (t "no_cut") kw); rewrite ?section_write, ?S1; reflexivity.
Qed.

Lemma valid_call m c : valid m -> valid (fst (run_call H m c)).
Proof.
  intros V. destruct c as [kw|kw|kw|kw|kw|kw|kw|l|v].
  - pose proof (frame H (CAssembly kw) m ltac:(discriminate)) as [F1 _]. cbn [namespace run_call] in *.
    destruct (set_assembly_section m kw) as [E|(J & _ & S)]; [rewrite E; exact V|].
    apply valid_split in V. destruct V as [Va Vo]. apply valid_split. split.
    + rewrite S. cbv zeta. set (a := section (t "assembly") m) in *.
      set (a1 := match arg (t "joint_kind") kw with JNull => a | _ => _ end).
      assert (V1 : valid_a a1).
      { unfold a1. apply enum_ok in J. destruct J as [J|(s & J & I)]; rewrite J; [exact Va|].
        destruct Va as (A & B & C & D & F). unfold valid_a. repeat apply conj.
        - intros v G. rewrite get_put_same in G. exists s. split; [congruence|exact I].
        - eapply entries_same; [|exact B]. now apply get_put_other.
        - eapply entries_same; [|exact C]. now apply get_put_other.
        - eapply entries_same; [|exact D]. now apply get_put_other.
        - eapply entries_same; [|exact F]. now apply get_put_other. }
      assert (V2 : forall b, valid_a (put (t "no_cut") b a1)).
      { intros b. eapply valid_a_same; [|exact V1]. intros k I. apply get_put_other. intros ->. cbn in I. intuition discriminate. }
      destruct (arg (t "no_cut") kw); try exact V1; apply V2.
    + rewrite (section_kept (t "operation") m); [exact Vo|apply F1; discriminate|exact opn_root].
  - destruct (bolt_call m kw) as [E|(_ & R & E)]; [rewrite E; exact V|].
    destruct (valid_list m (CBolt kw) "bolt_patterns" bolt_ok (bolt_entry H kw)) as (A & O & S); try reflexivity; try assumption; [cbn; tauto| |].
    { intros e Be. destruct (bolt_entry_fields kw e Be) as (G1 & G2 & (r & _ & G3) & (z & _ & G4) & (n & _ & G5)).
      unfold bolt_ok. repeat apply conj; try (eexists; eassumption). intros v G. rewrite G2 in G.
      apply enum_ok in R. congruence. }
    apply valid_split. split; [|exact O]. apply valid_split in V. destruct V as [(J & B & C & D & F) _].
    unfold valid_a. repeat apply conj; [..|auto| | |];
      [|eapply entries_other; try eassumption; try discriminate; cbn; tauto..].
    intros v. rewrite S by (discriminate || (cbn; tauto)). apply J.
  - destruct (datum_call m kw) as [E|(K & R & E)]; [rewrite E; exact V|].
    destruct (valid_list m (CDatum kw) "datums" datum_ok (datum_entry H kw)) as (A & O & S); try reflexivity; try assumption; [cbn; tauto| |].
    { intros e Be. destruct (datum_entry_fields kw e Be) as (G1 & G2 & G3). apply enum_ok in K. apply enum_ok in R.
      split; intros v G; [congruence|]. destruct G3 as [G3|G3]; rewrite G3 in G; congruence. }
    apply valid_split. split; [|exact O]. apply valid_split in V. destruct V as [(J & B & C & D & F) _].
    unfold valid_a. repeat apply conj; [..|auto| |];
      [|eapply entries_other; try eassumption; try discriminate; cbn; tauto..].
    intros v. rewrite S by (discriminate || (cbn; tauto)). apply J.
  - destruct (surface_call m kw) as [E|(K & E)]; [rewrite E; exact V|].
    destruct (valid_list m (CSurface kw) "surfaces" surface_ok (surface_entry H kw)) as (A & O & S); try reflexivity; try assumption; [cbn; tauto| |].
    { intros e Be. destruct (surface_entry_fields kw e Be) as (G1 & G2). apply enum_ok in K. intros v G. congruence. }
    apply valid_split. split; [|exact O]. apply valid_split in V. destruct V as [(J & B & C & D & F) _].
    unfold valid_a. repeat apply conj; [..|auto|];
      [|eapply entries_other; try eassumption; try discriminate; cbn; tauto..].
    intros v. rewrite S by (discriminate || (cbn; tauto)). apply J.
  - destruct (keepout_call m kw) as [E|(K & E)]; [rewrite E; exact V|].
    destruct (valid_list m (CKeepout kw) "keepouts" keepout_ok (keepout_entry H kw)) as (A & O & S); try reflexivity; try assumption; [cbn; tauto| |].
    { intros e Be. destruct (keepout_entry_fields kw e Be) as (G1 & G2). apply enum_ok in K. intros v G. congruence. }
    apply valid_split. split; [|exact O]. apply valid_split in V. destruct V as [(J & B & C & D & F) _].
    unfold valid_a. repeat apply conj; [..|auto];
      [|eapply entries_other; try eassumption; try discriminate; cbn; tauto..].
    intros v. rewrite S by (discriminate || (cbn; tauto)). apply J.
  - pose proof (frame H (COperation kw) m ltac:(discriminate)) as [F1 _]. cbn [namespace run_call] in *.
    apply valid_split in V. destruct V as [Va Vo]. apply valid_split. split.
    { rewrite (section_kept (t "assembly") m); [exact Va|apply F1; discriminate|exact asm_root]. }
    clear F1. unfold set_operation. destruct (negb _); [exact Vo|].
    destruct (validate_enum _ operation_kinds) eqn:K; [exact Vo|].
    destruct (validate_enum _ operation_policies) eqn:P; [exact Vo|].
    destruct (validate_enum _ feature_kinds) eqn:FK; [exact Vo|].
    assert (W : forall k conv x, ~ In k o_fields -> valid_o (section (t "operation") (fst x)) ->
      valid_o (section (t "operation") (fst (field_of (t "operation") k kw conv x)))).
    { intros k conv x N W. eapply valid_o_same; [|exact W]. intros f I. apply kept_field. intros ->. contradiction. }
    apply W; [cbn; intuition discriminate|].
    match goal with |- valid_o (section _ (fst (field_of _ _ _ _ ?y))) => set (x := y) end.
    assert (X : valid_o (section (t "operation") (fst x))).
    { unfold x. clear x. apply W; [cbn; intuition discriminate|].
      match goal with |- valid_o (section _ (fst (field_of _ _ _ _ ?y))) => set (x := y) end.
      assert (X : valid_o (section (t "operation") (fst x))).
      { unfold x. do 4 (apply W; [cbn; intuition discriminate|]). cbn [fst].
        rewrite section_write, section_open by exact opn_root. destruct Vo as (A & B & C). apply enum_ok in K.
        unfold valid_o. repeat apply conj.
        - intros v. rewrite get_put_same. congruence.
        - eapply field_ok_same; [|exact B]. now apply get_put_other.
        - eapply field_ok_same; [|exact C]. now apply get_put_other. }
      clearbody x. destruct x as [m1 [e|]]; [exact X|]. cbn [field_of fst] in *. apply enum_ok in P.
      destruct P as [P|(s & P & I)]; rewrite P; [exact X|]. cbn [csame fst]. rewrite section_write.
      destruct X as (A & B & C). unfold valid_o. repeat apply conj.
      - eapply field_ok_same; [|exact A]. now apply get_put_other.
      - intros v. rewrite get_put_same. intros G. right. exists s. split; [congruence|exact I].
      - eapply field_ok_same; [|exact C]. now apply get_put_other. }
    clearbody x. destruct x as [m1 [e|]]; [exact X|]. cbn [field_of fst] in *. apply enum_ok in FK.
    destruct FK as [FK|(s & FK & I)]; rewrite FK; [exact X|]. cbn [csame fst]. rewrite section_write.
    destruct X as (A & B & C). unfold valid_o. repeat apply conj.
    + eapply field_ok_same; [|exact A]. now apply get_put_other.
    + eapply field_ok_same; [|exact B]. now apply get_put_other.
    + intros v. rewrite get_put_same. intros G. right. exists s. split; [congruence|exact I].
  - pose proof (frame H (CMaterial kw) m ltac:(discriminate)) as [F1 _]. cbn [namespace] in *.
    apply valid_split in V. destruct V as [Va Vo]. apply valid_split. split.
    + rewrite (section_kept (t "assembly") m); [exact Va|apply F1; discriminate|exact asm_root].
    + rewrite (section_kept (t "operation") m); [exact Vo|apply F1; discriminate|exact opn_root].
  - cbn [run_call fst]. unfold add_tags. apply valid_split in V. destruct V as [Va Vo]. apply valid_split.
    assert (S : forall ns l m0, ns <> t "tags" -> section ns (fold_left append_tag l m0) = section ns m0).
    { intros ns l0. induction l0 as [|x l0 IH]; intros m0 N; cbn [fold_left]; [reflexivity|]. rewrite IH by exact N.
      unfold append_tag. destruct x; [reflexivity|].
      assert (P : forall v, section ns (put (t "tags") v m0) = section ns m0)
        by (intros v; unfold section; now rewrite get_put_other).
      destruct (get (t "tags") m0) as [[| | | | |tl| |]|]; try reflexivity; [destruct (existsb _ _); [reflexivity|]|]; apply P. }
    rewrite !S by discriminate. rewrite !section_root by (exact asm_root || exact opn_root). auto.
  - cbn [run_call fst]. unfold set_layer. apply valid_split in V. destruct V as [Va Vo]. apply valid_split.
    assert (P : forall ns v m0, ns <> t "layer" -> section ns (put (t "layer") v m0) = section ns m0)
        by (intros ns v0 m0 N; unfold section; now rewrite get_put_other).
    rewrite !P by discriminate. rewrite !section_root by (exact asm_root || exact opn_root). auto.
Qed.
Lemma valid_empty : valid [].
Proof. unfold valid, entries, field_ok. cbn. repeat apply conj; intros; discriminate. Qed.
Lemma valid_history cs : forall m, valid m -> valid (history H m cs).
Proof.
  induction cs as [|c cs IH]; intros m V; [exact V|]. change (valid (history H (fst (run_call H m c)) cs)).
  apply IH. now apply valid_call.
Qed.
End P.
