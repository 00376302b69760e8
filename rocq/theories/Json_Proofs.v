From Coq Require Import ZArith String List Bool Lia Permutation.
From Verif Require Import Dict Json_Model Json_Spec.
Import ListNotations.
Open Scope Z_scope.
Open Scope list_scope.

Lemma json_ind' (P : json -> Prop) :
  P JNull -> (forall b, P (JBool b)) -> (forall z, P (JInt z)) -> (forall f, P (JFloat f)) -> (forall s, P (JStr s)) ->
  (forall l, Forall P l -> P (JList l)) -> (forall d, Forall (fun kv => P (snd kv)) d -> P (JObj d)) -> (forall n, P (JOpaque n)) ->
  forall j, P j.
Proof.
  intros Hn Hb Hi Hf Hs Hl Ho Hq. fix F 1. destruct j.
  - exact Hn.
  - apply Hb.
  - apply Hi.
  - apply Hf.
  - apply Hs.
  - apply Hl. induction l; constructor; [apply F|assumption].
  - apply Ho. induction d as [|[k v] d IH]; constructor; [exact (F v)|assumption].
  - apply Hq.
Qed.

(** * Text order and sorting *)
Lemma tle_total a : forall b, tle a b = true \/ tle b a = true.
Proof.
  induction a as [|x a IH]; intros [|y b]; cbn; auto. destruct (Z.ltb_spec x y), (Z.ltb_spec y x); auto; lia.
Qed.
Lemma tle_antisym a : forall b, tle a b = true -> tle b a = true -> a = b.
Proof.
  induction a as [|x a IH]; intros [|y b]; cbn; try discriminate; auto.
  destruct (Z.ltb_spec x y), (Z.ltb_spec y x); try discriminate; try lia. intros. f_equal; [lia|auto].
Qed.
Lemma tle_trans a : forall b c, tle a b = true -> tle b c = true -> tle a c = true.
Proof.
  induction a as [|x a IH]; intros [|y b] [|z c]; cbn; try discriminate; auto.
  destruct (Z.ltb_spec x y), (Z.ltb_spec y z), (Z.ltb_spec y x), (Z.ltb_spec z y), (Z.ltb_spec x z), (Z.ltb_spec z x);
    try discriminate; try lia; eauto.
Qed.
Lemma insert_perm {A} (kv : text * A) l : Permutation (kv :: l) (insert kv l).
Proof.
  induction l as [|k l IH]; cbn; auto. destruct (tle _ _); auto. rewrite perm_swap. constructor. exact IH.
Qed.
Lemma sort_perm {A} (l : list (text * A)) : Permutation l (sort l).
Proof. induction l; cbn; auto. etransitivity; [|apply insert_perm]. constructor. auto. Qed.
Lemma insert_comm {A} (a b : text * A) l : fst a <> fst b -> insert a (insert b l) = insert b (insert a l).
Proof.
  intros N. induction l as [|k l IH]; cbn.
  - destruct (tle (fst a) (fst b)) eqn:E1, (tle (fst b) (fst a)) eqn:E2; auto.
    + destruct N. apply tle_antisym; auto.
    + destruct (tle_total (fst a) (fst b)); congruence.
  - destruct (tle (fst b) (fst k)) eqn:Eb, (tle (fst a) (fst k)) eqn:Ea; cbn; rewrite ?Ea, ?Eb.
    + destruct (tle (fst a) (fst b)) eqn:E1, (tle (fst b) (fst a)) eqn:E2; auto.
      * destruct N. apply tle_antisym; auto.
      * destruct (tle_total (fst a) (fst b)); congruence.
    + destruct (tle (fst a) (fst b)) eqn:E1; auto. rewrite (tle_trans _ _ _ E1 Eb) in Ea. discriminate.
    + destruct (tle (fst b) (fst a)) eqn:E1; auto. rewrite (tle_trans _ _ _ E1 Ea) in Eb. discriminate.
    + rewrite IH. reflexivity.
Qed.
Lemma sort_permutation {A} (l l' : list (text * A)) : Permutation l l' -> NoDup (map fst l) -> sort l = sort l'.
Proof.
  induction 1; intros N; auto.
  - inversion N; subst. change (insert x (sort l) = insert x (sort l')). rewrite IHPermutation; auto.
  - inversion N; subst. inversion H2; subst. change (insert y (insert x (sort l)) = insert x (insert y (sort l))). apply insert_comm. intros E. apply H1. left. auto.
  - rewrite IHPermutation1 by auto. apply IHPermutation2. eapply Permutation_NoDup; [apply Permutation_map; eassumption|]. auto.
Qed.
Lemma sort_map {A B} (f : A -> B) l : sort (map (fun kv => (fst kv, f (snd kv))) l) = map (fun kv => (fst kv, f (snd kv))) (sort l).
Proof.
  induction l as [|kv l IH]; [reflexivity|].
  change (insert (fst kv, f (snd kv)) (sort (map (fun kv => (fst kv, f (snd kv))) l)) = map (fun kv => (fst kv, f (snd kv))) (insert kv (sort l))).
  rewrite IH. generalize (sort l). induction l0 as [|k l0 IH0]; cbn; auto.
  destruct (tle _ _); cbn; auto. rewrite IH0. reflexivity.
Qed.

(** * Strings *)
Lemma hexdigit_inj a b : 0 <= a < 16 -> 0 <= b < 16 -> hexdigit a = hexdigit b -> a = b.
Proof. unfold hexdigit. intros. destruct (Z.ltb_spec a 10), (Z.ltb_spec b 10); lia. Qed.
Lemma hex4_inj a b x y : 0 <= a < 65536 -> 0 <= b < 65536 -> hex4 a ++ x = hex4 b ++ y -> a = b /\ x = y.
Proof.
  unfold hex4. cbn [app]. intros Ha Hb E. injection E as E1 E2 E3 E4 E5. split; auto.
  apply hexdigit_inj in E1, E2, E3, E4; try (apply Z.mod_pos_bound; lia).
  assert (G : forall n, 0 <= n < 65536 -> n = 4096 * (n / 4096 mod 16) + 256 * (n / 256 mod 16) + 16 * (n / 16 mod 16) + n mod 16).
  { intros n Hn. Z.to_euclidean_division_equations. nia. }
  rewrite (G a Ha), (G b Hb). congruence.
Qed.
Definition ord (c : Z) := 0 <= c < 55296 \/ 57344 <= c < 1114112.
Definition dec (e : Z) : Z := if e =? 110 then 10 else if e =? 114 then 13 else if e =? 116 then 9 else if e =? 102 then 12 else if e =? 98 then 8 else e.
Inductive esc (c : Z) : text -> Prop :=
  | e_plain : c <> 92 -> c <> 34 -> esc c [c]
  | e_two e : e <> 117 -> dec e = c -> esc c [92; e]
  | e_u : 0 <= c < 65536 -> ord c -> esc c (92 :: 117 :: hex4 c)
  | e_pair h l : 0 <= h < 1024 -> 0 <= l < 1024 -> c = 65536 + 1024 * h + l ->
      esc c (92 :: 117 :: hex4 (55296 + h) ++ 92 :: 117 :: hex4 (56320 + l)).
Lemma escape_esc c : ord c -> esc c (escape c).
Proof.
  unfold escape, ord. intros H.
  destruct (Z.eqb_spec c 34) as [-> |]; [apply e_two; [lia|reflexivity]|].
  destruct (Z.eqb_spec c 92) as [-> |]; [apply e_two; [lia|reflexivity]|].
  destruct (Z.eqb_spec c 10) as [-> |]; [apply e_two; [lia|reflexivity]|].
  destruct (Z.eqb_spec c 13) as [-> |]; [apply e_two; [lia|reflexivity]|].
  destruct (Z.eqb_spec c 9) as [-> |]; [apply e_two; [lia|reflexivity]|].
  destruct (Z.eqb_spec c 12) as [-> |]; [apply e_two; [lia|reflexivity]|].
  destruct (Z.eqb_spec c 8) as [-> |]; [apply e_two; [lia|reflexivity]|].
  destruct ((32 <=? c) && (c <=? 126)); [apply e_plain; auto|].
  destruct (Z.ltb_spec c 65536); [apply e_u; [lia|exact H]|]. cbv zeta.
  assert (B : (c - 65536) / 1024 mod 1024 = (c - 65536) / 1024).
  { apply Z.mod_small. split; [apply Z.div_pos; lia|apply Z.div_lt_upper_bound; lia]. }
  rewrite B. apply e_pair.
  - split; [apply Z.div_pos; lia|apply Z.div_lt_upper_bound; lia].
  - apply Z.mod_pos_bound; lia.
  - pose proof (Z.div_mod (c - 65536) 1024). lia.
Qed.
Lemma escape_inj a b x y : ord a -> ord b -> escape a ++ x = escape b ++ y -> a = b /\ x = y.
Proof.
  intros Ha Hb. destruct (escape_esc a Ha) as [N1 N2|e Ne De|Ra _|h l Hh Hl Ea];
    destruct (escape_esc b Hb) as [M1 M2|e' Ne' De'|Rb _|h' l' Hh' Hl' Eb]; cbn [app]; intros E.
  - injection E; auto.
  - injection E as E1 E2. congruence.
  - injection E as E1 E2. congruence.
  - injection E as E1 E2. congruence.
  - injection E as E1 E2. congruence.
  - injection E as E1 E2. split; congruence.
  - injection E as E1 E2. congruence.
  - injection E as E1 E2. congruence.
  - injection E as E1 E2. congruence.
  - injection E as E1 E2. congruence.
  - assert (E' : hex4 a ++ x = hex4 b ++ y) by (injection E; intros; unfold hex4; cbn [app]; congruence). apply hex4_inj in E'; auto.
  - exfalso. rewrite <- app_assoc in E. apply (f_equal (fun l => skipn 2 l)) in E. cbn [skipn] in E.
    apply hex4_inj in E; [|lia|lia]. unfold ord in *. lia.
  - injection E as E1 E2. congruence.
  - injection E as E1 E2. congruence.
  - exfalso. rewrite <- app_assoc in E. apply (f_equal (fun l => skipn 2 l)) in E. cbn [skipn] in E.
    apply hex4_inj in E; [|lia|lia]. unfold ord in *. lia.
  - rewrite <- !app_assoc in E. apply (f_equal (fun l => skipn 2 l)) in E. cbn [skipn] in E.
    apply hex4_inj in E; [|lia|lia]. destruct E as [E1 E]. cbn [app] in E. apply (f_equal (fun l => skipn 2 l)) in E. cbn [skipn] in E.
    apply hex4_inj in E; [|lia|lia]. destruct E as [E2 E]. split; auto. lia.
Qed.
Lemma escape_first c : exists x r, escape c = x :: r /\ x <> 34.
Proof.
  unfold escape. repeat match goal with |- context [if ?b then _ else _] => destruct b eqn:? end; try (eexists _, _; split; [reflexivity|lia]).
Qed.
Lemma quote_prefix s1 : forall s2 r1 r2, ordinary s1 -> ordinary s2 ->
  flat_map escape s1 ++ 34 :: r1 = flat_map escape s2 ++ 34 :: r2 -> s1 = s2 /\ r1 = r2.
Proof.
  induction s1 as [|c s1 IH]; intros [|d s2] r1 r2 O1 O2 E; cbn in E.
  - injection E; auto.
  - destruct (escape_first d) as (x & r & Ex & Nx). rewrite Ex in E. cbn in E. injection E; intros; congruence.
  - destruct (escape_first c) as (x & r & Ex & Nx). rewrite Ex in E. cbn in E. injection E; intros; congruence.
  - rewrite <- !app_assoc in E. inversion O1; subst. inversion O2; subst. apply escape_inj in E; auto. destruct E as [-> E].
    destruct (IH s2 r1 r2) as [-> ->]; auto.
Qed.

(** * Numbers *)
Definition val (l : text) (n : Z) : Z := fold_left (fun a c => 10 * a + (c - 48)) l n.
Lemma val_cons c l n : val (c :: l) n = val l (10 * n + (c - 48)). Proof. reflexivity. Qed.
Lemma digits_S f n acc : digits (S f) n acc = if n <? 10 then (48 + n) :: acc else digits f (n / 10) ((48 + n mod 10) :: acc).
Proof. reflexivity. Qed.
Lemma digits_val f : forall n acc, 0 <= n < 2 ^ (Z.of_nat f) -> (0 < f)%nat -> val (digits f n acc) 0 = val acc n.
Proof.
  induction f as [|f IH]; intros n acc H Hf; [lia|]. rewrite digits_S. destruct (Z.ltb_spec n 10).
  - rewrite val_cons. f_equal. lia.
  - rewrite Nat2Z.inj_succ, Z.pow_succ_r in H by lia. pose proof (Z.div_mod n 10 ltac:(lia)). rewrite IH.
    + rewrite val_cons. f_equal. lia.
    + split; [apply Z.div_pos; lia|]. apply Z.div_lt_upper_bound; lia.
    + destruct f; [cbn in H; lia|lia].
Qed.
Lemma digits_chars f : forall n acc, 0 <= n -> Forall (fun c => 48 <= c <= 57) acc -> Forall (fun c => 48 <= c <= 57) (digits f n acc).
Proof.
  induction f as [|f IH]; intros n acc H F; [exact F|]. rewrite digits_S. destruct (Z.ltb_spec n 10); [constructor; auto; lia|].
  apply IH; [Z.to_euclidean_division_equations; lia|]. constructor; auto. Z.to_euclidean_division_equations; lia.
Qed.
Lemma digits_nonempty f n acc : digits (S f) n acc <> [].
Proof.
  assert (G : forall f n acc, acc <> [] -> digits f n acc <> []).
  { induction f0 as [|f0 IH]; intros m a Ha; cbn; auto. destruct (_ <? _); [discriminate|]. apply IH. discriminate. }
  cbn. destruct (_ <? _); [discriminate|]. apply G. discriminate.
Qed.
Lemma fuel_ok z : 0 <= z -> 0 <= z < 2 ^ Z.of_nat (S (Z.to_nat (Z.log2 z))).
Proof.
  intros H. rewrite Nat2Z.inj_succ, Z2Nat.id by apply Z.log2_nonneg. destruct (Z.eq_dec z 0) as [-> |]; [cbn; lia|].
  pose proof (Z.log2_spec z ltac:(lia)). lia.
Qed.
Lemma decimal_inj a b : decimal a = decimal b -> a = b.
Proof.
  assert (F : forall z, 0 <= z -> val (digits (S (Z.to_nat (Z.log2 z))) z []) 0 = z).
  { intros z H. rewrite digits_val by (auto using fuel_ok; lia). reflexivity. }
  assert (N : forall z r, 0 <= z -> digits (S (Z.to_nat (Z.log2 z))) z [] <> 45 :: r).
  { intros z r H E. pose proof (digits_chars (S (Z.to_nat (Z.log2 z))) z [] H (Forall_nil _)) as C. rewrite E in C. inversion C; lia. }
  unfold decimal. destruct (Z.ltb_spec a 0), (Z.ltb_spec b 0); intros E.
  - injection E as E. apply (f_equal (fun l => val l 0)) in E. rewrite <- !digits_S in E. rewrite !F in E by lia. lia.
  - symmetry in E. destruct (N b _ ltac:(lia) E).
  - destruct (N a _ ltac:(lia) E).
  - apply (f_equal (fun l => val l 0)) in E. rewrite !F in E by lia. exact E.
Qed.

(** * Tokens and delimiters *)
Definition delim (c : Z) : Prop := In c [44; 93; 125].
Definition stop (r : text) : Prop := r = [] \/ exists c r', r = c :: r' /\ delim c.
Definition atom (a : text) : Prop := a <> [] /\ Forall (fun c => ~ In c [44; 93; 125; 34; 91; 123]) a.
Lemma atom_prefix a : forall b r1 r2, Forall (fun c => ~ In c [44; 93; 125; 34; 91; 123]) a -> Forall (fun c => ~ In c [44; 93; 125; 34; 91; 123]) b ->
  stop r1 -> stop r2 -> a ++ r1 = b ++ r2 -> a = b /\ r1 = r2.
Proof.
  assert (B : forall c b r1 r2, Forall (fun c => ~ In c [44; 93; 125; 34; 91; 123]) (c :: b) -> stop r1 -> r1 = (c :: b) ++ r2 -> False).
  { intros c b r1 r2 F [-> |(d & r & -> & D)] E; [discriminate|]. cbn in E. injection E as -> _. inversion F; subst.
    unfold delim in D. cbn in *. tauto. }
  induction a as [|c a IH]; intros [|d b] r1 r2 F1 F2 S1 S2 E; auto.
  - destruct (B _ _ _ _ F2 S1 E).
  - destruct (B _ _ _ _ F1 S2 (eq_sym E)).
  - cbn in E. injection E as -> E. inversion F1; subst. inversion F2; subst. destruct (IH b r1 r2) as [-> ->]; auto.
Qed.
Lemma decimal_atom z : atom (decimal z).
Proof.
  assert (D : forall l, Forall (fun c => 48 <= c <= 57) l -> Forall (fun c => ~ In c [44; 93; 125; 34; 91; 123]) l).
  { intros l. apply Forall_impl. intros c H X. cbn in X. lia. }
  unfold decimal, atom. destruct (Z.ltb_spec z 0).
  - split; [discriminate|]. constructor; [cbn; lia|]. apply D, digits_chars; [lia|constructor].
  - split; [apply digits_nonempty|]. apply D, digits_chars; [lia|constructor].
Qed.
Ltac ground_atom := split; [discriminate|]; repeat constructor; cbn; lia.
Lemma null_atom : atom (t "null"). Proof. ground_atom. Qed.
Lemma true_atom : atom (t "true"). Proof. ground_atom. Qed.
Lemma false_atom : atom (t "false"). Proof. ground_atom. Qed.
Lemma decimal_first z c r : decimal z = c :: r -> c = 45 \/ 48 <= c <= 57.
Proof.
  unfold decimal. destruct (Z.ltb_spec z 0); intros E; [injection E; auto|]. right.
  pose proof (digits_chars (S (Z.to_nat (Z.log2 z))) z [] H (Forall_nil _)) as C. rewrite E in C. inversion C; auto.
Qed.

Lemma join_cons x r : join (x :: r) = x ++ match r with [] => [] | _ => 44 :: join r end.
Proof. destruct r; cbn; auto. rewrite app_nil_r. reflexivity. Qed.
Lemma join_prefix {A} (enc : A -> text) (P : A -> A -> Prop) e : delim e -> e <> 44 -> forall l1 l2 r1 r2,
  (forall x y r1 r2, In x l1 -> In y l2 -> stop r1 -> stop r2 -> enc x ++ r1 = enc y ++ r2 -> P x y /\ r1 = r2) ->
  (forall x, In x l1 \/ In x l2 -> exists c w, enc x = c :: w /\ c <> e) ->
  join (map enc l1) ++ e :: r1 = join (map enc l2) ++ e :: r2 -> Forall2 P l1 l2 /\ r1 = r2.
Proof.
  intros De Ne. induction l1 as [|x l1 IH]; intros [|y l2] r1 r2 H N E; cbn [map] in E.
  - cbn in E. injection E as ->. auto.
  - exfalso. rewrite join_cons in E. destruct (N y) as (c & w & Ec & Nc); [cbn; auto|]. rewrite Ec in E. cbn in E. injection E; intros; congruence.
  - exfalso. rewrite join_cons in E. destruct (N x) as (c & w & Ec & Nc); [cbn; auto|]. rewrite Ec in E. cbn in E. injection E; intros; congruence.
  - rewrite !join_cons, <- !app_assoc in E.
    apply H in E; [|cbn; auto|cbn; auto| |].
    + destruct E as [Pxy E]. destruct l1 as [|x' l1], l2 as [|y' l2]; cbn [map app] in E.
      * injection E as ->. auto.
      * injection E; intros; congruence.
      * injection E; intros; congruence.
      * injection E as E. change (enc x' :: map enc l1) with (map enc (x' :: l1)) in E. change (enc y' :: map enc l2) with (map enc (y' :: l2)) in E.
        destruct (IH (y' :: l2) r1 r2) as [F ->]; auto.
        -- intros. eapply H; eauto; cbn; auto.
        -- intros z [Z|Z]; apply N; cbn; cbn in Z; tauto.
    + destruct l1; cbn; right; eexists _, _; split; [reflexivity| |reflexivity|]; unfold delim in *; cbn; tauto.
    + destruct l2; cbn; right; eexists _, _; split; [reflexivity| |reflexivity|]; unfold delim in *; cbn; tauto.
Qed.

Section Dumps.
  Variable frepr : Z -> text.
  Hypothesis FR : float_repr frepr.
  Notation dumps := (dumps frepr).
  Lemma float_atom f : atom (frepr f). Proof. destruct FR as (_ & H & _). apply H. Qed.
  Lemma atom_first a : atom a -> exists c r, a = c :: r /\ ~ In c [44; 93; 125; 34; 91; 123].
  Proof. intros [N F]. destruct a as [|c r]; [destruct N; auto|]. inversion F; eauto. Qed.
  (** The first character tells the kind of value. *)
  Lemma dumps_first j : wf j -> exists c r, dumps j = c :: r /\ ~ delim c /\
    match j with JStr _ => c = 34 | JList _ => c = 91 | JObj _ => c = 123 | JOpaque _ => False | _ => atom (dumps j) end.
  Proof.
    assert (G : forall a, atom a -> exists c r, a = c :: r /\ ~ delim c /\ atom a).
    { intros a A. destruct (atom_first a A) as (c & r & -> & H). exists c, r. repeat split; auto; try apply A. unfold delim. cbn in *. tauto. }
    destruct j; intros W.
    - apply G, null_atom.
    - destruct b; apply G; [apply true_atom|apply false_atom].
    - apply G, decimal_atom.
    - apply G, float_atom.
    - eexists 34, _. repeat split. unfold delim; cbn; lia.
    - eexists 91, _. repeat split. unfold delim; cbn; lia.
    - eexists 123, _. repeat split. unfold delim; cbn; lia.
    - destruct W.
  Qed.
  Lemma wf_list l : wf (JList l) <-> Forall wf l.
  Proof. cbn. induction l; cbn; split; intros H; auto; [constructor; tauto|]. inversion H; subst. tauto. Qed.
  Lemma wf_obj d : wf (JObj d) <-> NoDup (map fst d) /\ Forall (fun kv => ordinary (fst kv) /\ wf (snd kv)) d.
  Proof.
    cbn. assert (G : forall d : list (text * json), fold_right (fun kv P => (ordinary (fst kv) /\ wf (snd kv)) /\ P) True d <-> Forall (fun kv => ordinary (fst kv) /\ wf (snd kv)) d).
    { induction d0; cbn; split; intros H; auto; [constructor; tauto|]. inversion H; subst. tauto. }
    rewrite G. tauto.
  Qed.
  Definition member (kv : text * json) : text := quote (fst kv) ++ 58 :: dumps (snd kv).
  Lemma dumps_obj d : dumps (JObj d) = 123 :: join (map member (sort d)) ++ [125].
  Proof. cbn. rewrite sort_map, map_map. reflexivity. Qed.
  Lemma dumps_list l : dumps (JList l) = 91 :: join (map dumps l) ++ [93]. Proof. reflexivity. Qed.

  Lemma dumps_prefix j1 : forall j2 r1 r2, wf j1 -> wf j2 -> stop r1 -> stop r2 ->
    dumps j1 ++ r1 = dumps j2 ++ r2 -> same_data j1 j2 /\ r1 = r2.
  Proof.
    assert (A : forall a b r1 r2 (Q : Prop), atom a -> atom b -> stop r1 -> stop r2 -> a ++ r1 = b ++ r2 -> (a = b -> Q) -> Q /\ r1 = r2).
    { intros a b r1 r2 Q [_ Ha] [_ Hb] S1 S2 E H. destruct (atom_prefix a b r1 r2) as [E1 E2]; auto. }
    assert (K : forall j1 j2 r1 r2, wf j1 -> wf j2 -> dumps j1 ++ r1 = dumps j2 ++ r2 ->
      match j1 with JStr _ => exists s, j2 = JStr s | JList _ => exists l, j2 = JList l | JObj _ => exists d, j2 = JObj d
        | _ => atom (dumps j1) /\ atom (dumps j2) /\ match j2 with JStr _ | JList _ | JObj _ | JOpaque _ => False | _ => True end end).
    { intros j j' r1 r2 W1 W2 E. destruct (dumps_first j W1) as (c & w & Ec & _ & M). destruct (dumps_first j' W2) as (c' & w' & Ec' & _ & M').
      assert (c = c') by (rewrite Ec, Ec' in E; cbn in E; congruence). subst c'.
      assert (X : forall a, atom a -> forall c w, a = c :: w -> c <> 34 /\ c <> 91 /\ c <> 123).
      { intros a [_ F] c0 w0 ->. inversion F; subst. cbn in *. repeat split; intros ->; tauto. }
      destruct j, j'; try contradiction; eauto; try (exfalso; specialize (X _ M _ _ Ec); lia); try (exfalso; specialize (X _ M' _ _ Ec'); lia); try lia; auto. }
    induction j1 using json_ind'; intros j2 r1 r2 W1 W2 S1 S2 E; pose proof (K _ _ _ _ W1 W2 E) as M; cbv beta iota in M.
    - destruct M as (A1 & A2 & M). apply (A _ _ _ _ _ A1 A2 S1 S2 E). intros D. destruct j2; try contradiction; try constructor.
      + destruct b; discriminate D.
      + exfalso. destruct (decimal_first z _ _ (eq_sym D)) as [X|X]; cbn in X; lia.
      + destruct FR as (_ & _ & _ & F). destruct (F f) as (F1 & _). destruct F1. symmetry. exact D.
    - destruct M as (A1 & A2 & M). apply (A _ _ _ _ _ A1 A2 S1 S2 E). intros D. destruct j2; try contradiction.
      + destruct b; discriminate D.
      + destruct b, b0; try discriminate D; constructor.
      + exfalso. destruct b; destruct (decimal_first z _ _ (eq_sym D)) as [X|X]; cbn in X; lia.
      + destruct FR as (_ & _ & _ & F). destruct (F f) as (F1 & F2 & F3). exfalso. destruct b; [apply F2|apply F3]; symmetry; exact D.
    - destruct M as (A1 & A2 & M). apply (A _ _ _ _ _ A1 A2 S1 S2 E). intros D. destruct j2; try contradiction.
      + exfalso. destruct (decimal_first z _ _ D) as [X|X]; cbn in X; lia.
      + exfalso. destruct b; destruct (decimal_first z _ _ D) as [X|X]; cbn in X; lia.
      + apply decimal_inj in D as ->. constructor.
      + exfalso. destruct FR as (_ & _ & F & _). apply (F f z). symmetry. exact D.
    - destruct M as (A1 & A2 & M). apply (A _ _ _ _ _ A1 A2 S1 S2 E). intros D. destruct j2; try contradiction.
      + exfalso. destruct FR as (_ & _ & _ & F). destruct (F f) as (F1 & F2 & F3). apply F1. exact D.
      + exfalso. destruct FR as (_ & _ & _ & F). destruct (F f) as (F1 & F2 & F3). destruct b; [apply F2|apply F3]; exact D.
      + exfalso. destruct FR as (_ & _ & F & _). apply (F f z). exact D.
      + destruct FR as (F & _). apply F in D as ->. constructor.
    - destruct M as [s2 ->]. cbn in E. injection E as E. rewrite <- !app_assoc in E. cbn [app] in E.
      apply quote_prefix in E as [-> ->]; auto. split; auto. constructor.
    - destruct M as [l2 ->]. rewrite !dumps_list in E. cbn in E. injection E as E. rewrite <- !app_assoc in E. cbn [app] in E.
      apply wf_list in W1. apply wf_list in W2. rewrite Forall_forall in *.
      apply (join_prefix dumps same_data 93) in E as [F ->]; [split; auto; constructor; exact F| | | |].
      + unfold delim; cbn; auto.
      + lia.
      + intros x y q1 q2 Hx Hy Q1 Q2 E'. apply H; auto.
      + intros x Hx. destruct (dumps_first x) as (c & w & Ec & D & _); [destruct Hx; auto|]. exists c, w. split; auto. intros ->. apply D. unfold delim; cbn; auto.
    - destruct M as [d2 ->]. rewrite !dumps_obj in E. cbn in E. injection E as E. rewrite <- !app_assoc in E. cbn [app] in E.
      apply wf_obj in W1 as [N1 W1]. apply wf_obj in W2 as [N2 W2]. rewrite Forall_forall in *.
      apply (join_prefix member (fun x y => fst x = fst y /\ same_data (snd x) (snd y)) 125) in E as [F ->]; [split; auto| | | |].
      + destruct (Permutation_Forall2 (Permutation_sym (sort_perm d)) F) as (c & Pc & Fc).
        apply sd_obj with (c := c); auto. etransitivity; [apply sort_perm|exact Pc].
      + unfold delim; cbn; auto.
      + lia.
      + intros x y q1 q2 Hx Hy Q1 Q2 E'. apply (Permutation_in _ (Permutation_sym (sort_perm _))) in Hx, Hy.
        unfold member, quote in E'. cbn [app] in E'. injection E' as E'. rewrite <- !app_assoc in E'. cbn [app] in E'.
        apply quote_prefix in E' as [Ek E']; [|apply W1; auto|apply W2; auto]. injection E' as E'.
        apply H in E' as [Sv ->]; auto; [apply W1; auto|apply W2; auto].
      + intros x _. eexists 34, _. split; [reflexivity|lia].
    - destruct W1.
  Qed.
  Lemma dumps_injective j1 j2 : wf j1 -> wf j2 -> dumps j1 = dumps j2 -> same_data j1 j2.
  Proof.
    intros W1 W2 E. apply (dumps_prefix j1 j2 [] []); auto; try (left; reflexivity). rewrite !app_nil_r. exact E.
  Qed.
  Lemma dumps_same j1 : forall j2, wf j1 -> wf j2 -> same_data j1 j2 -> dumps j1 = dumps j2.
  Proof.
    induction j1 using json_ind'; intros j2 W1 W2 S; inversion S; subst; auto.
    - apply wf_list in W1. apply wf_list in W2. rewrite !dumps_list. do 3 f_equal.
      clear S. match goal with F : Forall2 same_data _ _ |- _ => revert H W1 W2; induction F as [|x y a b Sxy F IHF] end; intros HH W1 W2; auto.
      inversion HH; subst. inversion W1; subst. inversion W2; subst. cbn. f_equal; auto.
    - apply wf_obj in W1 as [N1 W1]. apply wf_obj in W2 as [N2 W2]. rewrite !dumps_obj. do 3 f_equal.
      rewrite (sort_permutation b c) by auto. assert (Wc : Forall (fun kv => ordinary (fst kv) /\ wf (snd kv)) c).
      { rewrite Forall_forall in *. intros x Hx. apply W2. eapply Permutation_in; [apply Permutation_sym; eassumption|exact Hx]. }
      assert (E : map (fun kv => (fst kv, dumps (snd kv))) d = map (fun kv => (fst kv, dumps (snd kv))) c).
      { match goal with F : Forall2 _ d c |- _ => rename F into F2 end. clear - H F2 W1 Wc. revert H W1 Wc.
        induction F2 as [|x y a b [Ek Sv] F2 IHF]; intros HH W1 Wc; auto. inversion HH; subst. inversion W1; subst. inversion Wc; subst. cbn.
        f_equal; auto. f_equal; auto. match goal with X : forall j, _ |- _ => apply X; auto; tauto end. }
      assert (X : forall l, map member l = map (fun kv : text * text => quote (fst kv) ++ 58 :: snd kv) (map (fun kv => (fst kv, dumps (snd kv))) l)).
      { intros l. rewrite map_map. reflexivity. }
      rewrite !X, <- !sort_map, E. reflexivity.
  Qed.
End Dumps.
