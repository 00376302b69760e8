(** Subdivision keeps the mesh on the sphere, closed and outward. *)
From Coq Require Import Reals List Bool ZArith Lra Lia Permutation.
From Verif Require Import Xform_Model Xform_Proofs Fig_Model Fig_Proofs Fig_Proofs2 Solid_Model Solid_Spec Prim_Model Prim_Lab Dict
  Sphere_Model Sphere_Spec Sphere_Proofs Sphere_Proofs2.
Import ListNotations.
Open Scope R_scope.

Definition good (r : R) (m : mesh) : Prop := Forall (ball r) (fst m) /\ snd m = map (unitn r) (fst m).
Definition face_ok (r C : R) (vs : list vec) (f : nat * nat * nat) : Prop :=
  let '(i, j, k) := f in exists p q s, nth_error vs i = Some p /\ nth_error vs j = Some q /\ nth_error vs k = Some s /\
    0 <= dot p q /\ 0 <= dot q s /\ 0 <= dot s p /\ (0 <= C -> C * (r * r * r) <= det3 p q s).
Definition state_ok (r : R) (m : mesh) (H : vhash) : Prop := good r m /\ hash_ok H.
(** growth: vertices are only appended, filed points stay filed *)
Definition grows (m : mesh) (H : vhash) (m' : mesh) (H' : vhash) : Prop :=
  (exists ws, fst m' = fst m ++ ws) /\ (forall p j, filed (fst m) H p j -> filed (fst m') H' p j) /\ (hash_history H -> hash_history H').
Lemma grows_refl m H : grows m H m H.
Proof. split; [exists []; rewrite app_nil_r; reflexivity|auto]. Qed.
Lemma grows_trans m H m1 H1 m2 H2 : grows m H m1 H1 -> grows m1 H1 m2 H2 -> grows m H m2 H2.
Proof.
  intros ((w1 & E1) & F1 & G1) ((w2 & E2) & F2 & G2). split; [|auto]. exists (w1 ++ w2). rewrite E2, E1, app_assoc. reflexivity.
Qed.
Lemma grows_nth m H m' H' i v : grows m H m' H' -> nth_error (fst m) i = Some v -> nth_error (fst m') i = Some v.
Proof. intros ((w & E) & _) N. rewrite E, nth_error_app1; [exact N|apply nth_error_Some; congruence]. Qed.
Lemma grows_face m H m' H' r C f : grows m H m' H' -> face_ok r C (fst m) f -> face_ok r C (fst m') f.
Proof.
  intros G. destruct f as [[i j] k]. intros (p & q & s & E1 & E2 & E3 & D). exists p, q, s.
  repeat (split; [eapply grows_nth; eassumption|]). exact D.
Qed.

Lemma add_step r nv m H i m' H' : state_ok r m H -> ball r nv -> addVertex nv (unitn r nv) m H = (i, m', H') ->
  state_ok r m' H' /\ grows m H m' H' /\ filed (fst m') H' nv i /\ exists v, nth_error (fst m') i = Some v /\ ball r v /\ near2 epsilon v nv.
Proof.
  intros [[GB GN] OK] B E. destruct m as [vs ns]. cbn [fst snd] in GB, GN.
  pose proof E as E0. apply addVertex_spec in E as (OK' & Fi & Hm & Hs); [|exact OK].
  assert (G' : good r m').
  { destruct Hm as [-> | [-> _]]; [split; auto|]. split; cbn [fst snd].
    - apply Forall_app. split; [exact GB|constructor; [exact B|constructor]].
    - rewrite map_app, GN. reflexivity. }
  split; [split; auto|]. split; [|split; [exact Fi|]].
  - split; [|split; [exact Hs|intros HH; eapply hh_add; eassumption]].
    destruct Hm as [-> | [-> _]]; cbn [fst]; [exists []; rewrite app_nil_r; reflexivity|exists [nv]; reflexivity].
  - destruct Fi as (_ & _ & _ & _ & (v & Ev & Cv)). exists v. split; [exact Ev|]. split; [|apply vclose_near2; exact Cv].
    destruct G' as [GB' _]. rewrite Forall_forall in GB'. apply GB'. eapply nth_error_In. exact Ev.
Qed.
Definition four (i1 i2 i3 a b c : nat) : list (nat * nat * nat) := [(i1, a, c); (a, i2, b); (b, i3, c); (a, b, c)].
(** the faces that replace f *)
Definition halved (r : R) (vs : list vec) (H : vhash) (f : nat * nat * nat) (l : list (nat * nat * nat)) : Prop :=
  let '(i1, i2, i3) := f in exists v1 v2 v3 a b c,
    nth_error vs i1 = Some v1 /\ nth_error vs i2 = Some v2 /\ nth_error vs i3 = Some v3 /\
    filed vs H (mid r v1 v2) a /\ filed vs H (mid r v2 v3) b /\ filed vs H (mid r v3 v1) c /\ l = four i1 i2 i3 a b c.
Lemma lookup_val l i v : nth_error l i = Some v -> lookup l i = Val v.
Proof. intros H. unfold lookup. rewrite H. reflexivity. Qed.
Definition next_bound (r C : R) : R := C / 4 - 3 * (epsilon / r).
Lemma subdivide_spec r C f m H : 0 < r -> 8 * epsilon <= r -> state_ok r m H -> face_ok r C (fst m) f ->
  exists fs m' H', subdivide r f m H = Val (fs, m', H') /\ state_ok r m' H' /\ grows m H m' H' /\
    halved r (fst m') H' f fs /\ Forall (face_ok r (next_bound r C) (fst m')) fs.
Proof.
  intros Hr He S0 Fk. destruct f as [[i1 i2] i3]. destruct Fk as (v1 & v2 & v3 & E1 & E2 & E3 & D12 & D23 & D31 & DT).
  pose proof S0 as [[GB GN] _]. rewrite Forall_forall in GB.
  pose proof (GB _ (nth_error_In _ _ E1)) as B1. pose proof (GB _ (nth_error_In _ _ E2)) as B2. pose proof (GB _ (nth_error_In _ _ E3)) as B3.
  destruct (mid_facts r v1 v2 Hr B1 B2 D12) as (_ & _ & _ & Na & Ia & Pa).
  destruct (mid_facts r v2 v3 Hr B2 B3 D23) as (_ & _ & _ & Nb & Ib & Pb).
  destruct (mid_facts r v3 v1 Hr B3 B1 D31) as (_ & _ & _ & Nc & Ic & Pc).
  unfold subdivide. rewrite (lookup_val _ _ _ E1), (lookup_val _ _ _ E2), (lookup_val _ _ _ E3). cbn [obind].
  assert (LN : forall i v, nth_error (fst m) i = Some v -> lookup (snd m) i = Val (unitn r v)).
  { intros i v E. apply lookup_val. rewrite GN. apply map_nth_error. exact E. }
  rewrite (LN _ _ E1), (LN _ _ E2), (LN _ _ E3). cbn [obind].
  rewrite !mid_vertex_val by assumption. cbn [obind]. rewrite !mid_normal_val by assumption. cbn [obind].
  destruct (addVertex (mid r v1 v2) (unitn r (mid r v1 v2)) m H) as [[a ma] Ha] eqn:Ea.
  destruct (add_step _ _ _ _ _ _ _ S0 Ia Ea) as (Sa & Ga & Fa & va & Va & Ba & Ka).
  destruct (addVertex (mid r v2 v3) (unitn r (mid r v2 v3)) ma Ha) as [[b mb] Hb] eqn:Eb.
  destruct (add_step _ _ _ _ _ _ _ Sa Ib Eb) as (Sb & Gb & Fb & vb & Vb & Bb & Kb).
  destruct (addVertex (mid r v3 v1) (unitn r (mid r v3 v1)) mb Hb) as [[c mc] Hc] eqn:Ec.
  destruct (add_step _ _ _ _ _ _ _ Sb Ic Ec) as (Sc & Gc & Fc & vc & Vc & Bc & Kc).
  exists (four i1 i2 i3 a b c), mc, Hc. split; [reflexivity|]. split; [exact Sc|].
  pose proof (grows_trans _ _ _ _ _ _ Gb Gc) as Gbc. pose proof (grows_trans _ _ _ _ _ _ Ga Gbc) as G.
  split; [exact G|]. 
  pose proof (grows_nth _ _ _ _ _ _ G E1) as E1'. pose proof (grows_nth _ _ _ _ _ _ G E2) as E2'. pose proof (grows_nth _ _ _ _ _ _ G E3) as E3'.
  pose proof (grows_nth _ _ _ _ _ _ Gbc Va) as Va'. pose proof (grows_nth _ _ _ _ _ _ Gc Vb) as Vb'.
  split.
  - exists v1, v2, v3, a, b, c. do 3 (split; [assumption|]). split; [apply Gbc; exact Fa|]. split; [apply Gc; exact Fb|]. split; [exact Fc|reflexivity].
  - assert (E0 : 0 <= epsilon) by (unfold epsilon; lra).
    destruct (split_geometry r epsilon C v1 v2 v3 va vb vc Hr E0 He B1 B2 B3 D12 D23 D31 Ba Bb Bc Ka Kb Kc DT) as (O1 & O2 & O3 & O4).
    unfold next_bound. repeat constructor.
    + exists v1, va, vc. auto.
    + exists va, v2, vb. auto.
    + exists vb, v3, vc. auto.
    + exists va, vb, vc. auto.
Qed.
Lemma halved_grows r m H m' H' f l : grows m H m' H' -> halved r (fst m) H f l -> halved r (fst m') H' f l.
Proof.
  intros G. destruct f as [[i1 i2] i3]. intros (v1 & v2 & v3 & a & b & c & E1 & E2 & E3 & Fa & Fb & Fc & ->).
  exists v1, v2, v3, a, b, c. do 3 (split; [eapply grows_nth; eassumption|]). do 3 (split; [apply G; assumption|]). reflexivity.
Qed.
Lemma subdivide_all_spec r C fs : 0 < r -> 8 * epsilon <= r -> forall m H, state_ok r m H -> Forall (face_ok r C (fst m)) fs ->
  exists ls m' H', subdivide_all r fs m H = Val (concat ls, m', H') /\ state_ok r m' H' /\ grows m H m' H' /\
    Forall2 (halved r (fst m') H') fs ls /\ Forall (face_ok r (next_bound r C) (fst m')) (concat ls).
Proof.
  intros Hr He. induction fs as [|f fs IH]; intros m H S0 F; cbn [subdivide_all].
  - exists [], m, H. split; [reflexivity|]. split; [exact S0|]. split; [apply grows_refl|]. split; constructor.
  - inversion F as [|? ? F1 F2]; subst. destruct (subdivide_spec r C f m H Hr He S0 F1) as (l & m1 & H1 & -> & S1 & G1 & Hf & K1).
    cbn [obind]. destruct (IH m1 H1 S1) as (ls & m2 & H2 & -> & S2 & G2 & Hfs & K2).
    { rewrite Forall_forall in F2. apply Forall_forall. intros g Hg. eapply grows_face; [exact G1|apply F2; exact Hg]. }
    cbn [obind]. exists (l :: ls), m2, H2. split; [reflexivity|]. split; [exact S2|]. split; [eapply grows_trans; eassumption|].
    split; [constructor; [eapply halved_grows; eassumption|exact Hfs]|]. cbn [concat]. apply Forall_app. split; [|exact K2].
    rewrite Forall_forall in K1. apply Forall_forall. intros g Hg. eapply grows_face; [exact G2|apply K1; exact Hg].
Qed.

(** orientation *)
Definition midx (r : R) (vs : list vec) (H : vhash) (i j : nat) : nat :=
  match nth_error vs i, nth_error vs j with
  | Some p, Some q => match dget key_eqb (vkey (mid r p q)) H with
                      | Some l => match probe (mid r p q) vs l [] with inl a => a | inr _ => O end
                      | None => O end
  | _, _ => O
  end.
Lemma midx_sym r vs H i j : midx r vs H i j = midx r vs H j i.
Proof.
  unfold midx. destruct (nth_error vs i) as [p|], (nth_error vs j) as [q|]; try reflexivity. rewrite (mid_comm r q p). reflexivity.
Qed.
Lemma filed_midx r vs H i j p q a : nth_error vs i = Some p -> nth_error vs j = Some q -> filed vs H (mid r p q) a -> midx r vs H i j = a.
Proof.
  intros E1 E2 F. unfold midx. rewrite E1, E2. pose proof F as (l1 & l2 & G & M & Hi). rewrite G.
  pose proof (probe_spec (mid r p q) vs (l1 ++ a :: l2) []) as PS. destruct (probe _ _ _ _) as [b|x].
  - destruct PS as (k1 & k2 & E & M' & Hb). rewrite E in G. apply (filed_unique vs H (mid r p q)); [exists k1, k2; auto|exact F].
  - destruct PS as [_ A]. destruct Hi as (v & Ev & Cv). rewrite (A a (in_elt a l1 l2) v Ev) in Cv. discriminate.
Qed.
Definition split4 (M : nat -> nat -> nat) (f : nat * nat * nat) : list (nat * nat * nat) :=
  let '(i, j, k) := f in four i j k (M i j) (M j k) (M k i).
Lemma halved_split r vs H fs ls : Forall2 (halved r vs H) fs ls -> concat ls = flat_map (split4 (midx r vs H)) fs.
Proof.
  induction 1 as [|f l fs ls Hf _ IH]; [reflexivity|]. cbn [concat flat_map]. rewrite IH. f_equal.
  destruct f as [[i1 i2] i3]. destruct Hf as (v1 & v2 & v3 & a & b & c & E1 & E2 & E3 & Fa & Fb & Fc & ->).
  cbn [split4]. rewrite (filed_midx r vs H _ _ _ _ _ E1 E2 Fa), (filed_midx r vs H _ _ _ _ _ E2 E3 Fb), (filed_midx r vs H _ _ _ _ _ E3 E1 Fc). reflexivity.
Qed.
Definition half (M : nat -> nat -> nat) (e : nat * nat) : list (nat * nat) := [(fst e, M (fst e) (snd e)); (M (fst e) (snd e), snd e)].
Definition inner (M : nat -> nat -> nat) (f : nat * nat * nat) : list (nat * nat) :=
  let '(i, j, k) := f in [(M i j, M j k); (M j k, M k i); (M k i, M i j)].
Definition npair_dec : forall x y : nat * nat, {x = y} + {x <> y}.
Proof. decide equality; apply Nat.eq_dec. Defined.
Lemma split_sides M fs : Permutation (lall (flat_map (split4 M) fs))
  (flat_map (half M) (lall fs) ++ flat_map (inner M) fs ++ map lback (flat_map (inner M) fs)).
Proof.
  induction fs as [|[[i j] k] fs IH]; [constructor|].
  unfold lall in *. cbn [flat_map]. rewrite !flat_map_app, map_app.
  eapply Permutation_trans; [apply Permutation_app_head; exact IH|].
  set (X := flat_map (half M) _). set (Y := flat_map (inner M) fs). set (Z := map lback Y).
  apply (perm_count npair_dec). intros e. rewrite !count_occ_app.
  set (cx := count_occ npair_dec X e). set (cy := count_occ npair_dec Y e). set (cz := count_occ npair_dec Z e).
  assert (Q : (count_occ npair_dec (flat_map lsides (split4 M (i, j, k))) e =
     count_occ npair_dec (flat_map (half M) (lsides (i, j, k))) e + count_occ npair_dec (inner M (i, j, k)) e + count_occ npair_dec (map lback (inner M (i, j, k))) e)%nat).
  { assert (C1 : exists one, forall x l, count_occ npair_dec (x :: l) e = (one x + count_occ npair_dec l e)%nat)
      by (exists (fun x => if npair_dec x e then 1%nat else 0%nat); intros x l; cbn [count_occ]; destruct (npair_dec x e); reflexivity).
    destruct C1 as [one C1].
    cbn [split4 four flat_map lsides half inner map app fst snd]. unfold lback. cbn [fst snd]. rewrite !C1. cbn [count_occ].
    generalize (one (i, M i j)), (one (M i j, M k i)), (one (M k i, i)), (one (M i j, j)), (one (j, M j k)), (one (M j k, M i j)),
      (one (M j k, k)), (one (k, M k i)), (one (M k i, M j k)), (one (M i j, M j k)), (one (M j k, M k i)), (one (M k i, M i j)). intros. lia. }
  etransitivity; [apply f_equal2; [exact Q|reflexivity]|]. change (@ltri nat) with (nat * nat * nat)%type. lia.
Qed.
Lemma swap_inv l : map lback (map lback l) = l :> list (nat * nat).
Proof. rewrite map_map. rewrite <- (map_id l) at 2. apply map_ext. intros [a b]. reflexivity. Qed.
Lemma half_back M l : (forall i j, M i j = M j i) -> Permutation (map lback (flat_map (half M) l)) (flat_map (half M) (map lback l)).
Proof.
  intros S. induction l as [|[i j] l IH]; [constructor|]. cbn [flat_map map half app lback fst snd]. rewrite (S j i).
  eapply Permutation_trans; [apply perm_swap|]. repeat apply perm_skip. exact IH.
Qed.
Lemma split_orient M fs : (forall i j, M i j = M j i) -> lorient fs -> lorient (flat_map (split4 M) fs).
Proof.
  intros S O. unfold lorient in *. pose proof (split_sides M fs) as P.
  eapply Permutation_trans; [exact P|]. eapply Permutation_trans; [|apply Permutation_map; apply Permutation_sym; exact P].
  rewrite !map_app, swap_inv. apply Permutation_app; [|apply Permutation_app_comm].
  eapply Permutation_trans; [|apply Permutation_sym; apply half_back; exact S]. apply flat_map_perm. exact O.
Qed.
Lemma split_length M fs : length (flat_map (split4 M) fs) = (4 * length fs)%nat.
Proof. induction fs as [|[[i j] k] fs IH]; [reflexivity|]. cbn [flat_map split4 four app length] in *. rewrite IH. cbn [length]. lia. Qed.

Fixpoint bound (r C : R) (n : nat) : R := match n with O => C | S n => bound r (next_bound r C) n end.
Lemma refine_spec r n : 0 < r -> 8 * epsilon <= r -> forall C fs m H, state_ok r m H -> Forall (face_ok r C (fst m)) fs -> lorient fs ->
  exists fs' m' H', refine r n fs m H = Val (fs', m', H') /\ state_ok r m' H' /\ grows m H m' H' /\
    Forall (face_ok r (bound r C n) (fst m')) fs' /\ lorient fs' /\ length fs' = (length fs * 4 ^ n)%nat.
Proof.
  intros Hr He. induction n as [|n IH]; intros C fs m H S0 F O; cbn [refine bound].
  - exists fs, m, H. split; [reflexivity|]. split; [exact S0|]. split; [apply grows_refl|]. split; [exact F|]. split; [exact O|]. cbn. lia.
  - destruct (subdivide_all_spec r C fs Hr He m H S0 F) as (ls & m1 & H1 & -> & S1 & G1 & Hh & F1). cbn [obind].
    rewrite (halved_split _ _ _ _ _ Hh) in *.
    destruct (IH (next_bound r C) (flat_map (split4 (midx r (fst m1) H1)) fs) m1 H1 S1 F1) as (fs' & m2 & H2 & -> & S2 & G2 & F2 & O2 & L2).
    { apply split_orient; [apply midx_sym|exact O]. }
    exists fs', m2, H2. split; [reflexivity|]. split; [exact S2|]. split; [eapply grows_trans; eassumption|]. split; [exact F2|]. split; [exact O2|].
    rewrite L2, split_length. cbn [Nat.pow]. lia.
Qed.
(** the bound stays positive on a large enough sphere *)
Lemma bound_value r C n : 0 < r -> bound r C n = (C + 4 * (epsilon / r)) / 4 ^ n - 4 * (epsilon / r).
Proof.
  intros Hr. revert C. induction n as [|n IH]; intros C; cbn [bound pow]; [field; lra|].
  rewrite IH. unfold next_bound. field. split; [lra|apply pow_nonzero; lra].
Qed.
Lemma bound_pos r n : 0 < r -> 8 * epsilon * 4 ^ n <= r -> 0 < bound r (1 / 2) n.
Proof.
  intros Hr H. rewrite bound_value by exact Hr. assert (P : 0 < 4 ^ n) by (apply pow_lt; lra). set (k := 4 ^ n) in *.
  assert (E : epsilon / r * k <= 1 / 8).
  { apply Rmult_le_reg_r with r; [exact Hr|]. replace (epsilon / r * k * r) with (epsilon * k) by (field; lra). lra. }
  assert (E0 : 0 < epsilon / r) by (apply Rdiv_lt_0_compat; [unfold epsilon; lra|exact Hr]).
  apply Rmult_lt_reg_r with k; [exact P|]. rewrite Rmult_0_l.
  replace (((1 / 2 + 4 * (epsilon / r)) / k - 4 * (epsilon / r)) * k) with (1 / 2 + 4 * (epsilon / r) - 4 * (epsilon / r * k)) by (field; lra). lra.
Qed.
