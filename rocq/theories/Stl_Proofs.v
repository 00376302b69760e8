From Coq Require Import ZArith List Bool Lia.
From Verif Require Import Dict Stl_Model Stl_Spec.
Import ListNotations.
Open Scope Z_scope.
Open Scope list_scope.

(** ** strip *)
Lemma starts_app_l p l r : starts p l = true -> starts p (l ++ r) = true.
Proof. revert l. induction p as [|a p IH]; intros [|b l]; cbn; auto; try discriminate. intros H. apply andb_true_iff in H as [H1 H2]. rewrite H1, IH; auto. Qed.
Lemma starts_app_spaces p l r : forallb (fun c => negb (space c)) p = true -> forallb space r = true -> starts p (map lower (l ++ r)) = starts p (map lower l).
Proof.
  intros P S. destruct (starts p (map lower l)) eqn:E; [rewrite map_app; apply starts_app_l, E|].
  apply not_true_iff_false. intros X. apply not_true_iff_false in E. apply E. clear E.
  revert l X P. induction p as [|a p IH]; intros [|b l]; cbn [app map starts forallb]; auto; intros X P.
  - destruct r as [|b r]; cbn in X; [discriminate X|]. cbn in S. apply andb_true_iff in S as [S _]. apply andb_true_iff in X as [X _], P as [P _].
    apply Z.eqb_eq in X. subst a. unfold lower in P. assert (Q : (65 <=? b) && (b <=? 90) = false).
    { unfold space in S. apply orb_true_iff in S as [S|S]; apply andb_true_iff in S as [S1 S2]; apply andb_false_iff; left; apply Z.leb_gt; apply Z.leb_le in S2; lia. }
    rewrite Q, S in P. discriminate P.
  - apply andb_true_iff in X as [X1 X2], P as [_ P]. rewrite X1. apply IH; auto.
Qed.
Lemma lstrip_split l : exists s, l = s ++ lstrip l /\ forallb space s = true.
Proof.
  induction l as [|c l (s & E & S)]; [exists []; auto|]. cbn [lstrip]. destruct (space c) eqn:C; [|exists []; auto].
  exists (c :: s). cbn. rewrite C. split; [f_equal; exact E|exact S].
Qed.
Lemma forallb_rev {A} (f : A -> bool) l : forallb f (rev l) = forallb f l.
Proof. induction l as [|a l IH]; auto. cbn. rewrite forallb_app, IH. cbn. rewrite andb_true_r. apply andb_comm. Qed.
Lemma strip_starts p l : forallb (fun c => negb (space c)) p = true -> starts p (map lower (strip l)) = starts p (map lower (lstrip l)).
Proof.
  intros P. unfold strip. set (m := lstrip l). destruct (lstrip_split (rev m)) as (s & E & S).
  assert (M : m = rev (lstrip (rev m)) ++ rev s) by (rewrite <- rev_app_distr, <- E, rev_involutive; reflexivity).
  rewrite M at 2. symmetry. apply starts_app_spaces; auto. rewrite forallb_rev. exact S.
Qed.
Lemma lstrip_app l r : forallb space r = true -> exists r', lstrip (l ++ r) = lstrip l ++ r' /\ forallb space r' = true.
Proof.
  intros S. induction l as [|c l IH]; cbn [app lstrip].
  - exists (lstrip r). split; auto. clear -S. induction r as [|c r IH]; auto. cbn in *. apply andb_true_iff in S as [C S]. rewrite C. auto.
  - destruct (space c); auto. exists r. auto.
Qed.
Lemma header_length name : length (header name) = 80%nat.
Proof. unfold header. rewrite app_length, repeat_length, map_length, firstn_length. lia. Qed.
Lemma header_solid name : starts solid_word (map lower (strip (filter (fun c => c <? 128) (header name)))) = named_solid name.
Proof.
  assert (Fid : filter (fun c => c <? 128) (header name) = header name).
  { unfold header. rewrite filter_app. f_equal.
    - induction (firstn 80 name) as [|c l IH]; auto. cbn. unfold ascii at 1. destruct (c <? 128) eqn:C; [rewrite C|]; cbn; rewrite ?C, IH; f_equal; unfold ascii; rewrite C; reflexivity.
    - induction (80 - _)%nat as [|n IH]; auto. cbn. rewrite IH. reflexivity. }
  rewrite Fid, strip_starts by reflexivity. unfold header, named_solid.
  destruct (lstrip_app (map ascii (firstn 80 name)) (repeat 32 (80 - length (map ascii (firstn 80 name))))) as (r' & -> & S).
  - induction (80 - _)%nat; auto.
  - apply starts_app_spaces; auto.
Qed.

(** ** binary *)
Lemma un32_le32 n : 0 <= n < 4294967296 -> un32 (le32 n) = n.
Proof.
  intros H. unfold un32, le32. pose proof (Z.div_mod n 256 ltac:(lia)). pose proof (Z.div_mod (n / 256) 256 ltac:(lia)). pose proof (Z.div_mod (n / 256 / 256) 256 ltac:(lia)).
  replace (n / 65536) with (n / 256 / 256) by (rewrite Z.div_div by lia; reflexivity).
  replace (n / 16777216) with (n / 256 / 256 / 256) by (rewrite !Z.div_div by lia; reflexivity).
  rewrite (Z.mod_small (n / 256 / 256 / 256)); [lia|]. split; [repeat (apply Z.div_pos; [|lia]); lia|].
  rewrite !Z.div_div by lia. apply Z.div_lt_upper_bound; lia.
Qed.
Lemma skipn_app_len {A} (a b : list A) : skipn (length a) (a ++ b) = b.
Proof. rewrite skipn_app, skipn_all, Nat.sub_diag. reflexivity. Qed.
Lemma firstn_app_len {A} (a b : list A) : firstn (length a) (a ++ b) = a.
Proof. rewrite firstn_app, firstn_all, Nat.sub_diag. cbn. apply app_nil_r. Qed.
Section Binary.
  Context {F : Type}.
  Variables (pack : F -> option (list Z)) (unpack : list Z -> F).
  Hypothesis pack_length : forall f b, pack f = Some b -> length b = 4%nat.
  Lemma pack3_length v b : pack3 pack v = Some b -> length b = 12%nat.
  Proof.
    destruct v as [[x y] z]. cbn. destruct (pack x) as [a|] eqn:A; [|discriminate]. destruct (pack y) as [c|] eqn:C; [|discriminate]. destruct (pack z) as [d|] eqn:D; [|discriminate].
    cbn. intros [= <-]. rewrite !app_length. apply pack_length in A, C, D. lia.
  Qed.
  Lemma firstn_exact {A} n (a b : list A) : length a = n -> firstn n (a ++ b) = a.
  Proof. intros <-. apply firstn_app_len. Qed.
  Lemma skipn_exact {A} n (a b : list A) : length a = n -> skipn n (a ++ b) = b.
  Proof. intros <-. apply skipn_app_len. Qed.
  Lemma unpack3_pack3 v b r : pack3 pack v = Some b -> unpack3 unpack (b ++ r) = single3 pack unpack v.
  Proof.
    destruct v as [[x y] z]. cbn [pack3 single3]. unfold single. destruct (pack x) as [a|] eqn:A; [|discriminate]. destruct (pack y) as [c|] eqn:C; [|discriminate]. destruct (pack z) as [d|] eqn:D; [|discriminate].
    cbn [bind]. intros [= <-]. apply pack_length in A, C, D. unfold unpack3.
    assert (E8 : skipn 8 ((a ++ c ++ d) ++ r) = d ++ r) by (replace ((a ++ c ++ d) ++ r) with ((a ++ c) ++ d ++ r) by (rewrite <- !app_assoc; reflexivity); apply skipn_exact; rewrite app_length; lia).
    assert (E4 : skipn 4 ((a ++ c ++ d) ++ r) = c ++ d ++ r) by (rewrite <- !app_assoc; apply skipn_exact, A).
    rewrite E8, E4, (firstn_exact 4 d), (firstn_exact 4 c) by assumption. rewrite <- app_assoc, (firstn_exact 4 a) by exact A. reflexivity.
  Qed.
  Lemma record_ok t b : record pack t = Some b -> length b = 50%nat /\ unrecord unpack b = single_triangle pack unpack t.
  Proof.
    unfold record. destruct (pack3 pack (normal t)) as [n|] eqn:N; [|discriminate]. destruct (pack3 pack (v0 t)) as [x|] eqn:X; [|discriminate].
    destruct (pack3 pack (v1 t)) as [y|] eqn:Y; [|discriminate]. destruct (pack3 pack (v2 t)) as [z|] eqn:Z; [|discriminate]. cbn [bind]. intros [= <-].
    pose proof (pack3_length _ _ N) as Ln. pose proof (pack3_length _ _ X) as Lx. pose proof (pack3_length _ _ Y) as Ly. pose proof (pack3_length _ _ Z) as Lz.
    split; [rewrite !app_length; cbn; lia|]. unfold unrecord, single_triangle. f_equal.
    - apply unpack3_pack3, N.
    - rewrite (skipn_exact 12 n) by exact Ln. apply unpack3_pack3, X.
    - replace (n ++ x ++ y ++ z ++ [0; 0]) with ((n ++ x) ++ y ++ z ++ [0; 0]) by (rewrite <- !app_assoc; reflexivity). rewrite skipn_exact by (rewrite app_length; lia). apply unpack3_pack3, Y.
    - replace (n ++ x ++ y ++ z ++ [0; 0]) with ((n ++ x ++ y) ++ z ++ [0; 0]) by (rewrite <- !app_assoc; reflexivity). rewrite skipn_exact by (rewrite !app_length; lia). apply unpack3_pack3, Z.
  Qed.
  Lemma records_ok ts : forall b, records pack ts = Some b -> length b = (50 * length ts)%nat /\ parse_records unpack (length ts) b = map (single_triangle pack unpack) ts.
  Proof.
    induction ts as [|t ts IH]; cbn [records]; intros b; [intros [= <-]; auto|].
    destruct (record pack t) as [r|] eqn:R; [|discriminate]. destruct (records pack ts) as [rs|] eqn:Rs; [|discriminate]. cbn [bind]. intros [= <-].
    apply record_ok in R as [L U]. destruct (IH rs eq_refl) as [Ls P]. cbn [length parse_records map]. rewrite app_length. split; [lia|].
    replace (length r + length rs <? 50)%nat with false by (symmetry; apply Nat.ltb_ge; lia). rewrite firstn_exact, skipn_exact by exact L. rewrite U, P. reflexivity.
  Qed.
  Lemma records_total ts : Forall (packable_triangle pack) ts -> exists b, records pack ts = Some b.
  Proof.
    assert (K : forall v, packable3 pack v -> exists b, pack3 pack v = Some b).
    { intros [[x y] z] (A & B & C). unfold packable in *. cbn. destruct (pack x); [|contradiction]. destruct (pack y); [|contradiction]. destruct (pack z); [|contradiction]. cbn. eauto. }
    induction 1 as [|t ts (A & B & C & D) _ (rs & E)]; cbn [records]; eauto. unfold record.
    destruct (K _ A) as [? ->], (K _ B) as [? ->], (K _ C) as [? ->], (K _ D) as [? ->]. cbn [bind]. rewrite E. cbn. eauto.
  Qed.
  (** pieces of at most four bytes that do not end in a letter *)
  Definition letter (c : Z) : bool := (97 <=? c) && (c <=? 122).
  Definition piece (b : list Z) : Prop := (length b <= 4)%nat /\ exists a c, b = a ++ [c] /\ letter c = false.
  Lemma starts_piece w a c r : forallb letter w = true -> (length a < length w)%nat -> letter c = false -> starts w (a ++ c :: r) = false.
  Proof.
    revert a. induction w as [|x w IH]; intros a W L C; [cbn in L; lia|]. cbn [forallb] in W. apply andb_true_iff in W as [Wx W]. destruct a as [|y a]; cbn [app starts].
    - destruct (x =? c) eqn:E; auto. apply Z.eqb_eq in E. congruence.
    - cbn [length] in L. rewrite IH by (auto; lia). apply andb_false_r.
  Qed.
  Lemma contains_pieces w bs : forallb letter w = true -> (4 < length w)%nat -> Forall piece bs -> contains w (concat bs) = false.
  Proof.
    intros W L. induction 1 as [|b bs (Lb & a & c & -> & C) _ IH]; cbn [concat].
    - destruct w; [cbn in L; lia|reflexivity].
    - rewrite app_length in Lb. cbn [length] in Lb. rewrite <- app_assoc. cbn [app]. induction a as [|x a IHa]; cbn [app contains].
      + rewrite IH. change (c :: concat bs) with ([] ++ c :: concat bs). rewrite starts_piece by (cbn; auto; lia). reflexivity.
      + cbn [length] in *. rewrite IHa by lia. rewrite orb_false_r. change (x :: a ++ c :: concat bs) with ((x :: a) ++ c :: concat bs). apply starts_piece; auto. cbn [length]. lia.
  Qed.
  Lemma contains_firstn w n : forall l, contains w l = false -> contains w (firstn n l) = false.
  Proof.
    assert (S : forall w n l, starts w (firstn n l) = true -> starts w l = true).
    { clear. induction w as [|a w IH]; intros [|n] [|b l]; cbn; auto; try discriminate. intros H. apply andb_true_iff in H as [H1 H2]. rewrite H1. eauto. }
    induction n as [|n IH]; intros l H.
    - cbn. destruct l; cbn in *; rewrite ?orb_false_iff in *; destruct w; cbn in *; intuition discriminate.
    - destruct l as [|c l]; auto. cbn [firstn contains] in *. apply orb_false_iff in H as [H1 H2]. rewrite IH by exact H2. rewrite orb_false_r.
      apply not_true_iff_false. intros X. apply not_true_iff_false in H1. apply H1. apply (S w (Datatypes.S n) (c :: l)), X.
  Qed.
  Lemma pack_piece f b : moderate pack f -> pack f = Some b -> piece b.
  Proof.
    intros M P. specialize (M b P). apply pack_length in P. destruct b as [|a [|c [|d [|e [|]]]]]; cbn in P; try discriminate P. cbn [nth] in M.
    split; [cbn; lia|]. exists [a; c; d], e. split; auto. unfold letter. apply andb_false_iff. destruct M; [left|right]; apply Z.leb_gt; lia.
  Qed.
  Lemma pack3_pieces v b : moderate3 pack v -> pack3 pack v = Some b -> exists bs, b = concat bs /\ Forall piece bs.
  Proof.
    destruct v as [[x y] z]. intros (X & Y & Z). cbn. destruct (pack x) as [a|] eqn:A; [|discriminate]. destruct (pack y) as [c|] eqn:C; [|discriminate]. destruct (pack z) as [d|] eqn:D; [|discriminate].
    cbn. intros [= <-]. exists [a; c; d]. split; [cbn; rewrite app_nil_r; reflexivity|]. apply Forall_cons; [apply (pack_piece x); auto|]. apply Forall_cons; [apply (pack_piece y); auto|]. apply Forall_cons; [apply (pack_piece z); auto|]. constructor.
  Qed.
  Lemma records_pieces ts : forall b, Forall (moderate_triangle pack) ts -> records pack ts = Some b -> exists bs, b = concat bs /\ Forall piece bs.
  Proof.
    induction ts as [|t ts IH]; cbn [records]; intros b M.
    - intros [= <-]. exists []. split; [reflexivity|constructor].
    - inversion M as [|? ? (Mn & M0 & M1 & M2) Mt]; subst. unfold record. destruct (pack3 pack (normal t)) as [n|] eqn:N; [|discriminate]. destruct (pack3 pack (v0 t)) as [x|] eqn:X; [|discriminate].
      destruct (pack3 pack (v1 t)) as [y|] eqn:Y; [|discriminate]. destruct (pack3 pack (v2 t)) as [z|] eqn:Z; [|discriminate]. cbn [bind]. destruct (records pack ts) as [rs|]; [|discriminate].
      cbn [bind]. intros [= <-]. destruct (IH rs Mt eq_refl) as (bs & -> & B). destruct (pack3_pieces _ _ Mn N) as (b0 & -> & B0). destruct (pack3_pieces _ _ M0 X) as (b1 & -> & B1).
      destruct (pack3_pieces _ _ M1 Y) as (b2 & -> & B2). destruct (pack3_pieces _ _ M2 Z) as (b3 & -> & B3).
      exists (b0 ++ b1 ++ b2 ++ b3 ++ [[0; 0]] ++ bs). split; [rewrite !concat_app, <- !app_assoc; reflexivity|]. repeat (apply Forall_app; split; auto).
      repeat constructor. exists [0], 0. auto.
  Qed.
  Lemma moderate_unmarked ts : Forall (moderate_triangle pack) ts -> marked pack ts = false.
  Proof.
    intros M. unfold marked. destruct (records pack ts) as [b|] eqn:R; auto. destruct (records_pieces ts b M R) as (bs & -> & B).
    rewrite !contains_firstn; auto; apply contains_pieces; auto; cbn; lia.
  Qed.
  Lemma binary_layout ts name data : write_binary pack ts name = Some data ->
    length data = (84 + 50 * length ts)%nat /\ is_binary data = negb (named_solid name && marked pack ts) /\ parse_binary unpack data = map (single_triangle pack unpack) ts.
  Proof.
    unfold write_binary. destruct (Z.of_nat (length ts) <? 4294967296) eqn:C; [|discriminate]. apply Z.ltb_lt in C.
    destruct (records pack ts) as [rs|] eqn:R; [|discriminate]. cbn [bind]. intros E. assert (D : data = header name ++ le32 (Z.of_nat (length ts)) ++ rs) by congruence. clear E. subst data. destruct (records_ok ts rs R) as [L P].
    pose proof (header_length name) as Lh. set (n := Z.of_nat (length ts)) in *.
    assert (Lc : length (le32 n) = 4%nat) by reflexivity.
    assert (S80 : skipn 80 (header name ++ le32 n ++ rs) = le32 n ++ rs) by (apply skipn_exact, Lh).
    assert (S84 : skipn 84 (header name ++ le32 n ++ rs) = rs) by (rewrite app_assoc; apply skipn_exact; rewrite app_length, Lh, Lc; reflexivity).
    assert (F4 : firstn 4 (skipn 80 (header name ++ le32 n ++ rs)) = le32 n) by (rewrite S80; apply firstn_exact, Lc).
    assert (Ld : length (header name ++ le32 n ++ rs) = (84 + 50 * length ts)%nat) by (rewrite !app_length, Lh, Lc, L; lia).
    assert (U : un32 (le32 n) = n) by (apply un32_le32; unfold n; lia).
    split; [exact Ld|]. split.
    - unfold is_binary. rewrite Ld, F4, S84, U. replace (84 + 50 * length ts <? 84)%nat with false by (symmetry; apply Nat.ltb_ge; lia).
      rewrite (firstn_exact 80) by exact Lh. rewrite header_solid. unfold marked. rewrite R.
      replace (Z.of_nat (84 + 50 * length ts) =? 84 + n * 50) with true by (symmetry; apply Z.eqb_eq; unfold n; lia).
      destruct (named_solid name); reflexivity.
    - unfold parse_binary. rewrite F4, S84, U. unfold n. rewrite Nat2Z.id. exact P.
  Qed.
  Lemma write_total ts name : Forall (packable_triangle pack) ts -> Z.of_nat (length ts) < 4294967296 -> exists data, write_binary pack ts name = Some data.
  Proof. intros P L. unfold write_binary. apply Z.ltb_lt in L. rewrite L. destruct (records_total ts P) as [b ->]. cbn. eauto. Qed.
End Binary.

(** ** surfaces *)
Section Surface.
  Context {F K : Type}.
  Variables (keq : K -> K -> bool) (keq_spec : forall a b, keq a b = true <-> a = b) (key : v3 (F := F) -> K) (average : list (v3 (F := F)) -> v3 (F := F)).
  Notation builder := (@builder F K).
  (** vertex_map lists the keys of the vertices, in order *)
  Definition built (b : builder) : Prop :=
    let '(vm, vs, ns) := b in NoDup (map key vs) /\ vm = combine (map key vs) (seq 0 (length vs)).
  Lemma combine_snoc {A B} (l : list A) (m : list B) a b : length l = length m -> combine (l ++ [a]) (m ++ [b]) = combine l m ++ [(a, b)].
  Proof. revert m. induction l as [|x l IH]; intros [|y m] E; cbn in *; try discriminate; auto. rewrite IH; auto. Qed.
  Lemma dset_fresh (k : K) (v : nat) d : dget keq k d = None -> dset keq k v d = d ++ [(k, v)].
  Proof. induction d as [|[k' v'] d IH]; cbn; auto. destruct (keq k k'); [discriminate|]. intros H. rewrite IH; auto. Qed.
  Lemma dget_combine (l : list K) : forall s i k, NoDup l -> (dget keq k (combine l (seq s (length l))) = Some i <-> (s <= i)%nat /\ nth_error l (i - s) = Some k).
  Proof.
    induction l as [|a l IH]; intros s i k N; cbn [length seq combine dget].
    - split; [discriminate|]. intros [_ H]. destruct (i - s)%nat; discriminate H.
    - inversion N as [|? ? Nin N']; subst. destruct (keq k a) eqn:E.
      + apply keq_spec in E. subst. split.
        * intros [= <-]. rewrite Nat.sub_diag. auto.
        * intros [L H]. destruct (i - s)%nat as [|j] eqn:J; [f_equal; lia|]. cbn in H. exfalso. apply Nin. eapply nth_error_In; eauto.
      + rewrite IH by exact N'. split.
        * intros [L H]. split; [lia|]. replace (i - s)%nat with (S (i - S s)) by lia. exact H.
        * intros [L H]. destruct (i - s)%nat as [|j] eqn:J; cbn in H; [injection H as ->; rewrite (proj2 (keq_spec k k) eq_refl) in E; discriminate|].
          split; [lia|]. replace (i - S s)%nat with j by lia. exact H.
  Qed.
  Lemma get_index vs k i : NoDup (map key vs) -> (dget keq k (combine (map key vs) (seq 0 (length vs))) = Some i <-> exists v, nth_error vs i = Some v /\ key v = k).
  Proof.
    intros N. pose proof (dget_combine (map key vs) 0 i k N) as D. rewrite map_length in D. rewrite D. rewrite Nat.sub_0_r, nth_error_map. split.
    - intros [_ H]. destruct (nth_error vs i); [injection H as <-; eauto|discriminate].
    - intros (v & -> & <-). split; [lia|reflexivity].
  Qed.
  Definition verts (b : builder) : list v3 := let '(_, vs, _) := b in vs.
  Lemma add_vertex_ok n v b b' i : built b -> add_vertex keq key n v b = (b', i) ->
    built b' /\ (exists more, verts b' = verts b ++ more) /\ (exists w, nth_error (verts b') i = Some w /\ key w = key v).
  Proof.
    destruct b as [[vm vs] ns]. intros [N ->]. unfold add_vertex. destruct (dget keq (key v) (combine (map key vs) (seq 0 (length vs)))) as [j|] eqn:G.
    - cbn beta iota. rewrite G. intros [= <- <-]. cbn [built verts]. split; [auto|]. split; [exists []; rewrite app_nil_r; reflexivity|]. apply get_index in G; auto.
    - cbn beta iota. rewrite dset_fresh by exact G.
      assert (C : combine (map key vs) (seq 0 (length vs)) ++ [(key v, length vs)] = combine (map key (vs ++ [v])) (seq 0 (length (vs ++ [v])))).
      { rewrite map_app, app_length. cbn [map length]. rewrite seq_app. cbn [seq]. symmetry. apply combine_snoc. rewrite map_length, seq_length. reflexivity. }
      assert (N' : NoDup (map key (vs ++ [v]))).
      { rewrite map_app. apply NoDup_app_snoc; auto. intros Hin. apply in_map_iff in Hin as (w & E & Hw). apply In_nth_error in Hw as [j Hj].
        assert (X : dget keq (key v) (combine (map key vs) (seq 0 (length vs))) = Some j) by (apply get_index; eauto). congruence. }
      rewrite C. assert (G' : dget keq (key v) (combine (map key (vs ++ [v])) (seq 0 (length (vs ++ [v])))) = Some (length vs)).
      { apply get_index; auto. exists v. rewrite nth_error_app2, Nat.sub_diag by lia. auto. }
      rewrite G'. intros [= <- <-]. cbn [built verts]. split; [auto|]. split; [eauto|]. exists v. rewrite nth_error_app2, Nat.sub_diag by lia. auto.
  Qed.
  Lemma corner_app vs more i v : corner key vs i v -> corner key (vs ++ more) i v.
  Proof. intros (w & H & E). exists w. split; auto. rewrite nth_error_app1; auto. apply nth_error_Some. congruence. Qed.
  Lemma face_app vs more f t : face_of key vs f t -> face_of key (vs ++ more) f t.
  Proof. unfold face_of. intros H. induction H; constructor; auto. apply corner_app; auto. Qed.
  Lemma add_triangle_ok t b b' f : built b -> add_triangle keq key t b = (b', f) -> built b' /\ (exists more, verts b' = verts b ++ more) /\ face_of key (verts b') f t.
  Proof.
    intros B. unfold add_triangle. destruct (add_vertex keq key (normal t) (v0 t) b) as [b1 i] eqn:E1. destruct (add_vertex keq key (normal t) (v1 t) b1) as [b2 j] eqn:E2.
    destruct (add_vertex keq key (normal t) (v2 t) b2) as [b3 k] eqn:E3. intros [= <- <-].
    destruct (add_vertex_ok _ _ _ _ _ B E1) as (B1 & [m1 M1] & C1). destruct (add_vertex_ok _ _ _ _ _ B1 E2) as (B2 & [m2 M2] & C2). destruct (add_vertex_ok _ _ _ _ _ B2 E3) as (B3 & [m3 M3] & C3).
    split; auto. split; [exists (m1 ++ m2 ++ m3); rewrite M3, M2, M1, <- !app_assoc; reflexivity|].
    constructor; [|constructor; [|constructor; [|constructor]]]; auto.
    - rewrite M3, M2. apply corner_app, corner_app, C1.
    - rewrite M3. apply corner_app, C2.
  Qed.
  Lemma add_all_ok ts : forall b b' fs, built b -> add_all keq key ts b = (b', fs) -> built b' /\ (exists more, verts b' = verts b ++ more) /\ Forall2 (face_of key (verts b')) fs ts.
  Proof.
    induction ts as [|t ts IH]; cbn [add_all]; intros b b' fs B E.
    - injection E as <- <-. split; auto. split; [exists []; rewrite app_nil_r; reflexivity|constructor].
    - destruct (add_triangle keq key t b) as [b1 f] eqn:E1. destruct (add_all keq key ts b1) as [b2 fs'] eqn:E2. injection E as <- <-.
      destruct (add_triangle_ok _ _ _ _ B E1) as (B1 & [m1 M1] & C1). destruct (IH _ _ _ B1 E2) as (B2 & [m2 M2] & C2).
      split; auto. split; [exists (m1 ++ m2); rewrite M2, M1, <- app_assoc; reflexivity|]. constructor; auto. rewrite M2. apply face_app, C1.
  Qed.
  Lemma merged_ok ts : let s := merged keq key average ts in
    NoDup (map key (vertices s)) /\ length (normals s) = length (vertices s) /\ Forall2 (face_of key (vertices s)) (faces s) ts.
  Proof.
    unfold merged. destruct (add_all keq key ts ([], [], [])) as [[[vm vs] ns] fs] eqn:E.
    assert (B0 : built ([], [], [])) by (split; [constructor|reflexivity]).
    destruct (add_all_ok ts _ _ _ B0 E) as ((N & ->) & _ & Fs). cbn [vertices normals faces]. split; [exact N|]. split; [|exact Fs].
    rewrite map_length, combine_length, map_length, seq_length. lia.
  Qed.
  Lemma separate_ok ts : let s := separate (F := F) ts in
    length (vertices s) = (3 * length ts)%nat /\ length (normals s) = length (vertices s) /\
    Forall2 (fun f t => map (nth_error (vertices s)) f = [Some (v0 t); Some (v1 t); Some (v2 t)] /\ map (nth_error (normals s)) f = [Some (normal t); Some (normal t); Some (normal t)]) (faces s) ts.
  Proof.
    cbn [separate vertices normals faces].
    assert (L : forall (g : triangle (F := F) -> list (v3 (F := F))) l, (forall t, length (g t) = 3%nat) -> length (flat_map g l) = (3 * length l)%nat).
    { intros g l H. induction l as [|t l IH]; auto. cbn [flat_map length]. rewrite app_length, H, IH. lia. }
    split; [apply L; auto|]. split; [rewrite !L by auto; reflexivity|].
    assert (G : forall (g : triangle (F := F) -> list (v3 (F := F))) pre t post j, (forall t, length (g t) = 3%nat) -> (j < 3)%nat -> nth_error (flat_map g (pre ++ t :: post)) (3 * length pre + j) = nth_error (g t) j).
    { intros g pre t post j H J. rewrite flat_map_app. rewrite nth_error_app2 by (rewrite L by auto; lia). rewrite L by auto. replace (3 * length pre + j - 3 * length pre)%nat with j by lia.
      cbn [flat_map]. apply nth_error_app1. rewrite H. exact J. }
    assert (X : forall post pre : list (triangle (F := F)), Forall2 (fun (f : list nat) (t : triangle (F := F)) => map (nth_error (flat_map (fun t => [v0 t; v1 t; v2 t]) (pre ++ post))) f = [Some (v0 t); Some (v1 t); Some (v2 t)] /\
      map (nth_error (flat_map (fun t => [normal t; normal t; normal t]) (pre ++ post))) f = [Some (normal t); Some (normal t); Some (normal t)])
      (map (fun i => [3 * i; 3 * i + 1; 3 * i + 2]%nat) (seq (length pre) (length post))) post).
    { induction post as [|t post IH]; intros pre; cbn [length seq map]; constructor.
      - assert (Z0 : (3 * length pre = 3 * length pre + 0)%nat) by lia.
        split; (cbn [map]; f_equal; [rewrite Z0 at 1; refine (eq_trans (G _ pre t post 0%nat _ _) eq_refl); auto; lia|f_equal; [refine (eq_trans (G _ pre t post 1%nat _ _) eq_refl); auto; lia|f_equal; refine (eq_trans (G _ pre t post 2%nat _ _) eq_refl); auto; lia]]).
      - specialize (IH (pre ++ [t])). rewrite app_length in IH. cbn [length] in IH. rewrite Nat.add_1_r in IH. rewrite <- app_assoc in IH. exact IH. }
    apply (X ts []).
  Qed.
End Surface.
