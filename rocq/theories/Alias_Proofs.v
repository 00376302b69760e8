(** Programs that do not share rows see matrices as values. *)
From Coq Require Import Reals List Bool ZArith Lia.
From Verif Require Import Xform_Model Alias_Model Alias_Spec.
Import ListNotations.
Open Scope nat_scope.

Lemma lset_length {A} (l : list A) i v : length (lset l i v) = length l.
Proof. revert i; induction l as [|x l IH]; intros [|i]; cbn; congruence. Qed.
Lemma lset_same {A} (l : list A) i v d : i < length l -> nth i (lset l i v) d = v.
Proof. revert i; induction l as [|x l IH]; intros [|i] H; cbn in *; try lia; [reflexivity|]. apply IH. lia. Qed.
Lemma lset_other {A} (l : list A) i j v d : i <> j -> nth j (lset l i v) d = nth j l d.
Proof.
  revert i j; induction l as [|x l IH]; intros [|i] [|j] H; cbn; try congruence; try lia; try reflexivity.
  apply IH. lia.
Qed.

Lemma put_length s a m : a < length s -> length (put s a m) = length s.
Proof. intros H. unfold put. rewrite app_length, firstn_length. cbn [length]. rewrite skipn_length. lia. Qed.
Lemma put_same s a m : a < length s -> mget (put s a m) a = m.
Proof.
  intros H. unfold mget, put. rewrite app_nth2; rewrite firstn_length; [|lia].
  replace (a - Nat.min a (length s)) with 0 by lia. reflexivity.
Qed.
Lemma put_other s a b m : a < length s -> a <> b -> mget (put s a m) b = mget s b.
Proof.
  intros H N. unfold mget, put. destruct (Nat.lt_ge_cases b a) as [L|G].
  - rewrite app_nth1 by (rewrite firstn_length; lia).
    transitivity (nth b (firstn a s ++ skipn a s) Matrix0); [|now rewrite firstn_skipn].
    now rewrite app_nth1 by (rewrite firstn_length; lia).
  - rewrite app_nth2 by (rewrite firstn_length; lia). rewrite firstn_length.
    replace (b - Nat.min a (length s)) with (S (b - S a)) by lia. cbn [nth].
    transitivity (nth b (firstn (S a) s ++ skipn (S a) s) Matrix0); [|now rewrite firstn_skipn].
    rewrite app_nth2 by (rewrite firstn_length; lia). rewrite firstn_length.
    now replace (b - Nat.min (S a) (length s)) with (b - S a) by lia.
Qed.

Lemma rd_write_same h r k x : r < length (lists h) -> rd (write h r k x) r = vset (rd h r) k x.
Proof. intros H. unfold rd at 1, write. cbn [lists]. now apply lset_same. Qed.
Lemma rd_write_other h r r' k x : r <> r' -> rd (write h r k x) r' = rd h r'.
Proof. intros H. unfold rd at 1, write. cbn [lists]. now apply lset_other. Qed.
Lemma mat_write h r k x a : mat (write h r k x) a = mat h a.
Proof. reflexivity. Qed.
Lemma lists_write h r k x : length (lists (write h r k x)) = length (lists h).
Proof. unfold write. cbn [lists]. apply lset_length. Qed.

(** No two rows share a list, and every row list exists. *)
Definition separate (h : heap) : Prop :=
  (forall a i, a < length (mats h) -> i < 4 -> ref (mat h a) i < length (lists h)) /\
  (forall a b i p, a < length (mats h) -> b < length (mats h) -> i < 4 -> p < 4 ->
     ref (mat h a) i = ref (mat h b) p -> a = b /\ i = p).
Definition inv (h : heap) (s : list matrix) : Prop :=
  length (mats h) = length s /\ separate h /\ forall a, a < length s -> reads h a = mget s a.
Definition not_row (h : heap) (x : nat) : Prop :=
  forall b p, b < length (mats h) -> p < 4 -> ref (mat h b) p <> x.

Lemma reads_ext h h' a b : o_trans (mat h a) = o_trans (mat h' b) ->
  (forall i, i < 4 -> rd h (ref (mat h a) i) = rd h' (ref (mat h' b) i)) -> reads h a = reads h' b.
Proof.
  intros T H. unfold reads. rewrite T.
  pose proof (H 0 ltac:(lia)) as H0. pose proof (H 1 ltac:(lia)) as H1.
  pose proof (H 2 ltac:(lia)) as H2. pose proof (H 3 ltac:(lia)) as H3. cbn in *.
  rewrite H0, H1, H2, H3. reflexivity.
Qed.

Lemma reads_rget h a i : i < 4 -> rget (mm (reads h a)) i = rd h (ref (mat h a) i).
Proof. intros H. destruct i as [|[|[|[|i]]]]; reflexivity || lia. Qed.

(** * One write *)
Lemma write_reads_same h a i k x : separate h -> a < length (mats h) -> i < 4 ->
  reads (write h (ref (mat h a) i) k x) a
  = mkmat (rset (mm (reads h a)) i (vset (rget (mm (reads h a)) i) k x)) (o_trans (mat h a)).
Proof.
  intros [Rg Sp] Ha Hi.
  assert (W : forall j, j < 4 -> rd (write h (ref (mat h a) i) k x) (ref (mat h a) j)
            = if Nat.eqb j i then vset (rd h (ref (mat h a) i)) k x else rd h (ref (mat h a) j)).
  { intros j Hj. destruct (Nat.eqb_spec j i) as [->|N].
    - now apply rd_write_same, Rg.
    - apply rd_write_other. intros E. apply N. symmetry. now apply (Sp a a i j). }
  unfold reads at 1. rewrite mat_write.
  pose proof (W 0 ltac:(lia)) as W0. pose proof (W 1 ltac:(lia)) as W1.
  pose proof (W 2 ltac:(lia)) as W2. pose proof (W 3 ltac:(lia)) as W3.
  cbn [ref] in W0, W1, W2, W3. rewrite W0, W1, W2, W3.
  rewrite reads_rget by assumption.
  destruct i as [|[|[|[|i]]]]; try lia; reflexivity.
Qed.

Lemma write_reads_other h a b i k x : separate h -> a < length (mats h) -> b < length (mats h) -> i < 4 -> a <> b ->
  reads (write h (ref (mat h a) i) k x) b = reads h b.
Proof.
  intros [Rg Sp] Ha Hb Hi N. apply reads_ext; [reflexivity|].
  intros p Hp. rewrite mat_write. apply rd_write_other. intros E.
  apply N. now apply (Sp a b i p).
Qed.

Lemma write_separate h r k x : separate h -> separate (write h r k x).
Proof.
  intros [Rg Sp]. split.
  - intros a i Ha Hi. rewrite lists_write. now apply Rg.
  - exact Sp.
Qed.

Lemma inv_set h s a i j x : inv h s -> a < length s -> i < 4 -> j < 4 ->
  inv (h_set h a i j x) (put s a (vset_entry (mget s a) i j x)).
Proof.
  intros (L & Sp & V) Ha Hi Hj. unfold h_set, vset_entry, set.
  assert (B : Nat.ltb 3 i = false /\ Nat.ltb 3 j = false) by (split; apply Nat.ltb_ge; lia).
  destruct B as [-> ->]. cbn [orb].
  rewrite <- (V a Ha). change (trans (reads h a)) with (o_trans (mat h a)).
  destruct (o_trans (mat h a)) eqn:T.
  - split; [rewrite put_length by assumption; exact L|]. split; [now apply write_separate|].
    intros b Hb. rewrite put_length in Hb by assumption.
    destruct (Nat.eq_dec a b) as [<-|N].
    + rewrite put_same by assumption. rewrite write_reads_same by (assumption || lia). now rewrite T.
    + rewrite put_other by assumption. rewrite write_reads_other by (assumption || lia). now apply V.
  - split; [rewrite put_length by assumption; exact L|]. split; [now apply write_separate|].
    intros b Hb. rewrite put_length in Hb by assumption.
    destruct (Nat.eq_dec a b) as [<-|N].
    + rewrite put_same by assumption. rewrite write_reads_same by (assumption || lia). now rewrite T.
    + rewrite put_other by assumption. rewrite write_reads_other by (assumption || lia). now apply V.
Qed.

(** * Spreading a list over a column *)
Lemma spread_reads h a i x : separate h -> a < length (mats h) ->
  (forall p, p < 4 -> ref (mat h a) p <> x) ->
  reads (spread h (mat h a) i x) a = mkmat (rsetcol (mm (reads h a)) i (rd h x)) (o_trans (mat h a)).
Proof.
  intros Sp Ha NX. unfold spread.
  set (h1 := write h (r0 (mat h a)) i (vget (rd h x) 0)).
  set (h2 := write h1 (r1 (mat h a)) i (vget (rd h1 x) 1)).
  set (h3 := write h2 (r2 (mat h a)) i (vget (rd h2 x) 2)).
  assert (X1 : rd h1 x = rd h x) by (apply rd_write_other; apply (NX 0); lia).
  assert (X2 : rd h2 x = rd h x) by (rewrite <- X1; apply rd_write_other; apply (NX 1); lia).
  assert (X3 : rd h3 x = rd h x) by (rewrite <- X2; apply rd_write_other; apply (NX 2); lia).
  assert (S1 : separate h1) by now apply write_separate.
  assert (S2 : separate h2) by now apply write_separate.
  assert (S3 : separate h3) by now apply write_separate.
  pose proof (write_reads_same h a 0 i (vget (rd h x) 0) Sp Ha ltac:(lia)) as R1.
  pose proof (write_reads_same h1 a 1 i (vget (rd h1 x) 1) S1 Ha ltac:(lia)) as R2.
  pose proof (write_reads_same h2 a 2 i (vget (rd h2 x) 2) S2 Ha ltac:(lia)) as R3.
  pose proof (write_reads_same h3 a 3 i (vget (rd h3 x) 3) S3 Ha ltac:(lia)) as R4.
  change (ref (mat h a) 0) with (r0 (mat h a)) in R1. fold h1 in R1.
  change (ref (mat h1 a) 1) with (r1 (mat h a)) in R2. fold h2 in R2.
  change (ref (mat h2 a) 2) with (r2 (mat h a)) in R3. fold h3 in R3.
  change (ref (mat h3 a) 3) with (r3 (mat h a)) in R4.
  rewrite R4, R3, R2, R1, X1, X2, X3. cbn [mm rset rget row0 row1 row2 row3].
  unfold rsetcol. destruct (rd h x). reflexivity.
Qed.

Lemma spread_reads_other h a b i x : separate h -> a < length (mats h) -> b < length (mats h) -> a <> b ->
  reads (spread h (mat h a) i x) b = reads h b.
Proof.
  intros Sp Ha Hb N. unfold spread.
  set (h1 := write h (r0 (mat h a)) i (vget (rd h x) 0)).
  set (h2 := write h1 (r1 (mat h a)) i (vget (rd h1 x) 1)).
  set (h3 := write h2 (r2 (mat h a)) i (vget (rd h2 x) 2)).
  assert (S1 : separate h1) by now apply write_separate.
  assert (S2 : separate h2) by now apply write_separate.
  assert (S3 : separate h3) by now apply write_separate.
  rewrite (write_reads_other h3 a b 3) by (assumption || lia).
  unfold h3. rewrite (write_reads_other h2 a b 2) by (assumption || lia).
  unfold h2. rewrite (write_reads_other h1 a b 1) by (assumption || lia).
  unfold h1. now rewrite (write_reads_other h a b 0) by (assumption || lia).
Qed.

Lemma spread_separate h m i x : separate h -> separate (spread h m i x).
Proof. intros H. unfold spread. now do 4 apply write_separate. Qed.

Lemma inv_spread h s a i x : inv h s -> a < length s ->
  (forall p, p < 4 -> ref (mat h a) p <> x) ->
  inv (spread h (mat h a) i x) (put s a (mkmat (rsetcol (mm (mget s a)) i (rd h x)) (trans (mget s a)))).
Proof.
  intros (L & Sp & V) Ha NX.
  split; [rewrite put_length by assumption; exact L|]. split; [now apply spread_separate|].
  intros b Hb. rewrite put_length in Hb by assumption.
  destruct (Nat.eq_dec a b) as [<-|N].
  - rewrite put_same by assumption. rewrite <- (V a Ha). apply spread_reads; [assumption|lia|assumption].
  - rewrite put_other by assumption. rewrite spread_reads_other by (assumption || lia). now apply V.
Qed.

(** * Storing a list as a row *)
Lemma ref_set_ref m i r p : i < 4 -> p < 4 -> ref (set_ref m i r) p = if Nat.eqb p i then r else ref m p.
Proof. intros H1 H2. destruct i as [|[|[|[|i]]]]; try lia; destruct p as [|[|[|[|p]]]]; try lia; reflexivity. Qed.

Lemma inv_store h s a i x : inv h s -> a < length s -> i < 4 ->
  x < length (lists h) -> not_row h x ->
  inv (store h a i x) (put s a (mkmat (rset (mm (mget s a)) i (rd h x)) (trans (mget s a)))).
Proof.
  intros (L & [Rg Sp] & V) Ha Hi Hx NX.
  assert (M : forall b, mat (store h a i x) b = if Nat.eqb b a then set_ref (mat h a) i x else mat h b).
  { intros b. unfold mat at 1, store. cbn [mats]. destruct (Nat.eqb_spec b a) as [->|N].
    - apply lset_same. lia.
    - apply lset_other; congruence. }
  assert (LM : length (mats (store h a i x)) = length (mats h)) by (unfold store; cbn [mats]; apply lset_length).
  assert (RF : forall b p, p < 4 -> ref (mat (store h a i x) b) p
              = if Nat.eqb b a && Nat.eqb p i then x else ref (mat h b) p).
  { intros b p Hp. rewrite M. destruct (Nat.eqb_spec b a) as [->|N]; cbn [andb]; [|reflexivity].
    now rewrite ref_set_ref. }
  split; [rewrite put_length by assumption; lia|]. split; [split|].
  - intros b p Hb Hp. rewrite RF by assumption. cbn [lists store].
    destruct (_ && _); [assumption|]. apply Rg; lia.
  - intros b c p q Hb Hc Hp Hq. rewrite !RF by assumption.
    destruct (Nat.eqb_spec b a) as [->|Nb]; destruct (Nat.eqb_spec c a) as [->|Nc]; cbn [andb];
    destruct (Nat.eqb_spec p i) as [->|Np]; destruct (Nat.eqb_spec q i) as [->|Nq]; intros E; auto;
      try (exfalso; eapply NX; [| |exact E]; lia); try (exfalso; eapply NX; [| |symmetry; exact E]; lia);
      try (apply Sp; lia || assumption).
  - intros b Hb. rewrite put_length in Hb by assumption.
    destruct (Nat.eq_dec a b) as [<-|N].
    + rewrite put_same by assumption. rewrite <- (V a Ha).
      unfold reads at 1. rewrite M, Nat.eqb_refl.
      destruct i as [|[|[|[|i]]]]; try lia; reflexivity.
    + rewrite put_other by assumption. rewrite <- (V b Hb).
      unfold reads. rewrite M. destruct (Nat.eqb_spec b a); [lia|reflexivity].
Qed.

(** * Allocation *)
Lemma rd_alloc_old h v r : r < length (lists h) -> rd (fst (alloc h v)) r = rd h r.
Proof. intros H. unfold rd, alloc. cbn [fst lists]. now apply app_nth1. Qed.
Lemma rd_alloc_new h v : rd (fst (alloc h v)) (snd (alloc h v)) = v.
Proof. unfold rd, alloc. cbn [fst snd lists]. rewrite app_nth2 by lia. now rewrite Nat.sub_diag. Qed.

Lemma inv_alloc h s v : inv h s -> inv (fst (alloc h v)) s /\
  snd (alloc h v) < length (lists (fst (alloc h v))) /\ not_row (fst (alloc h v)) (snd (alloc h v)).
Proof.
  intros (L & [Rg Sp] & V). split; [split; [exact L|split; [split|]]|split].
  - intros a i Ha Hi. cbn [alloc fst lists]. rewrite app_length. specialize (Rg a i Ha Hi).
    change (mat (mkheap (lists h ++ [v]) (mats h)) a) with (mat h a). cbn. lia.
  - exact Sp.
  - intros a Ha. rewrite <- (V a Ha). apply reads_ext; [reflexivity|].
    intros i Hi. apply rd_alloc_old. apply Rg; lia.
  - cbn. rewrite app_length. cbn. lia.
  - intros b p Hb Hp. specialize (Rg b p Hb Hp). cbn [alloc snd].
    change (ref (mat h b) p <> length (lists h)). lia.
Qed.

Lemma inv_new h s m t : inv h s -> inv (new_matrix h m t) (s ++ [mkmat m t]).
Proof.
  intros (L & [Rg Sp] & V).
  set (n := length (lists h)).
  assert (Mo : forall a, a < length s -> mat (new_matrix h m t) a = mat h a).
  { intros a Ha. unfold mat, new_matrix. cbn [mats]. apply app_nth1. lia. }
  assert (Mn : mat (new_matrix h m t) (length s) = mkmo n (S n) (S (S n)) (S (S (S n))) t).
  { unfold mat, new_matrix. cbn [mats]. rewrite app_nth2 by lia. now rewrite L, Nat.sub_diag. }
  assert (LL : length (lists (new_matrix h m t)) = n + 4) by (cbn; now rewrite app_length).
  assert (Cmp : forall a, a < length (mats (new_matrix h m t)) -> a < length s \/ a = length s).
  { intros a. unfold new_matrix. cbn [mats]. rewrite app_length. cbn. lia. }
  assert (Rn : forall i, i < 4 -> ref (mat (new_matrix h m t) (length s)) i = n + i).
  { intros i Hi. rewrite Mn. destruct i as [|[|[|[|i]]]]; cbn; lia. }
  split; [|split; [split|]].
  - unfold new_matrix. cbn [mats]. rewrite !app_length. cbn. lia.
  - intros a i Ha Hi. rewrite LL. destruct (Cmp a Ha) as [H| ->].
    + rewrite Mo by assumption. specialize (Rg a i ltac:(lia) Hi). fold n in Rg. lia.
    + rewrite Rn by assumption. lia.
  - intros a b i p Ha Hb Hi Hp E.
    destruct (Cmp a Ha) as [H1|H1]; destruct (Cmp b Hb) as [H2|H2].
    + rewrite !Mo in E by assumption. apply Sp; lia || assumption.
    + subst b. rewrite Rn in E by assumption. rewrite Mo in E by assumption.
      specialize (Rg a i ltac:(lia) Hi). fold n in Rg. lia.
    + subst a. rewrite Rn in E by assumption. rewrite Mo in E by assumption.
      specialize (Rg b p ltac:(lia) Hp). fold n in Rg. lia.
    + subst a b. rewrite !Rn in E by assumption. lia.
  - intros a Ha. rewrite app_length in Ha. cbn in Ha.
    destruct (Nat.eq_dec a (length s)) as [->|N].
    + unfold mget. rewrite app_nth2 by lia. rewrite Nat.sub_diag. cbn [nth].
      unfold reads. rewrite Mn. cbn [r0 r1 r2 r3 o_trans].
      unfold rd, new_matrix. cbn [lists]. fold n.
      rewrite !app_nth2 by (fold n; lia). fold n.
      replace (n - n) with 0 by lia. replace (S n - n) with 1 by lia.
      replace (S (S n) - n) with 2 by lia. replace (S (S (S n)) - n) with 3 by lia.
      cbn [nth]. destruct m; reflexivity.
    + assert (H : a < length s) by lia. unfold mget. rewrite app_nth1 by assumption.
      fold (mget s a). rewrite <- (V a H).
      apply reads_ext; [now rewrite Mo|]. intros i Hi. rewrite Mo by assumption.
      specialize (Rg a i ltac:(lia) Hi). unfold rd, new_matrix. cbn [lists]. now apply app_nth1.
Qed.

(** * setrow / setcol *)
Lemma trans_reads h a : trans (reads h a) = o_trans (mat h a). Proof. reflexivity. Qed.

Lemma inv_setrow h s a i x : inv h s -> a < length s -> i < 4 -> x < length (lists h) ->
  (if trans (mget s a) then (forall p, p < 4 -> ref (mat h a) p <> x) else not_row h x) ->
  inv (h_setrow h a i x) (put s a (setrow (mget s a) i (rd h x))).
Proof.
  intros I Ha Hi Hx C. unfold h_setrow, setrow.
  pose proof I as (_ & _ & V).
  assert (T : o_trans (mat h a) = trans (mget s a)) by (rewrite <- (V a Ha); reflexivity).
  rewrite T. destruct (trans (mget s a)) eqn:E.
  - pose proof (inv_spread h s a i x I Ha C) as P. rewrite E in P. exact P.
  - pose proof (inv_store h s a i x I Ha Hi Hx C) as P. rewrite E in P. exact P.
Qed.

Lemma inv_setcol h s a i x : inv h s -> a < length s -> i < 4 -> x < length (lists h) ->
  (if trans (mget s a) then not_row h x else (forall p, p < 4 -> ref (mat h a) p <> x)) ->
  inv (h_setcol h a i x) (put s a (setcol (mget s a) i (rd h x))).
Proof.
  intros I Ha Hi Hx C. unfold h_setcol, setcol.
  pose proof I as (_ & _ & V).
  assert (T : o_trans (mat h a) = trans (mget s a)) by (rewrite <- (V a Ha); reflexivity).
  rewrite T. destruct (trans (mget s a)) eqn:E.
  - pose proof (inv_store h s a i x I Ha Hi Hx C) as P. rewrite E in P. exact P.
  - pose proof (inv_spread h s a i x I Ha C) as P. rewrite E in P. exact P.
Qed.

Lemma column_getcol h a i : column h (mat h a) i = rcol (mm (reads h a)) i.
Proof. reflexivity. Qed.

(** What a row or column request yields: the list's contents, and whether it is
    a new list. *)
Lemma getrow_spec h s a i : inv h s -> a < length s -> i < 4 ->
  let h' := fst (h_getrow h a i) in let x := snd (h_getrow h a i) in
  inv h' s /\ rd h' x = getrow (mget s a) i /\ x < length (lists h') /\
  (if trans (mget s a) then not_row h' x else h' = h /\ x = ref (mat h a) i).
Proof.
  intros I Ha Hi. pose proof I as (L & [Rg Sp] & V). unfold h_getrow, getrow.
  assert (T : o_trans (mat h a) = trans (mget s a)) by (rewrite <- (V a Ha); reflexivity).
  rewrite T. destruct (trans (mget s a)) eqn:E.
  - destruct (inv_alloc h s (column h (mat h a) i) I) as (I' & X & N).
    cbn [fst snd]. split; [exact I'|]. split; [|split; [exact X|exact N]].
    rewrite rd_alloc_new, column_getcol, (V a Ha). reflexivity.
  - cbn [fst snd]. split; [exact I|]. split; [|split; [apply Rg; lia|auto]].
    rewrite <- (V a Ha), reads_rget by assumption. reflexivity.
Qed.

Lemma getcol_spec h s a i : inv h s -> a < length s -> i < 4 ->
  let h' := fst (h_getcol h a i) in let x := snd (h_getcol h a i) in
  inv h' s /\ rd h' x = getcol (mget s a) i /\ x < length (lists h') /\
  (if trans (mget s a) then h' = h /\ x = ref (mat h a) i else not_row h' x).
Proof.
  intros I Ha Hi. pose proof I as (L & [Rg Sp] & V). unfold h_getcol, getcol.
  assert (T : o_trans (mat h a) = trans (mget s a)) by (rewrite <- (V a Ha); reflexivity).
  rewrite T. destruct (trans (mget s a)) eqn:E.
  - cbn [fst snd]. split; [exact I|]. split; [|split; [apply Rg; lia|auto]].
    rewrite <- (V a Ha), reads_rget by assumption. reflexivity.
  - destruct (inv_alloc h s (column h (mat h a) i) I) as (I' & X & N).
    cbn [fst snd]. split; [exact I'|]. split; [|split; [exact X|exact N]].
    rewrite rd_alloc_new, column_getcol, (V a Ha). reflexivity.
Qed.

Lemma not_row_own h s a x : inv h s -> a < length s -> not_row h x -> forall p, p < 4 -> ref (mat h a) p <> x.
Proof. intros (L & _) Ha N p Hp. apply N; lia. Qed.
Lemma other_row h s a b k : inv h s -> a < length s -> b < length s -> k < 4 -> a <> b ->
  forall p, p < 4 -> ref (mat h a) p <> ref (mat h b) k.
Proof. intros (L & [_ Sp] & _) Ha Hb Hk N p Hp E. apply N. eapply (Sp a b p k); lia || assumption. Qed.

(** * Copying a transposed matrix *)
Lemma inv_copy_row h s a b i : inv h s -> a < length s -> b < length s -> a <> b -> i < 4 ->
  trans (mget s a) = true -> trans (mget s b) = false ->
  inv (copy_row h a b i) (put s b (setrow (mget s b) i (getrow (mget s a) i))).
Proof.
  intros I Ha Hb N Hi Ta Tb. unfold copy_row.
  pose proof (getrow_spec h s a i I Ha Hi) as G. cbn zeta in G.
  destruct (h_getrow h a i) as [h' x]. cbn [fst snd] in G.
  destruct G as (I' & E & X & C). rewrite Ta in C.
  rewrite <- E. apply inv_setrow; auto. rewrite Tb. exact C.
Qed.

Lemma inv_flag h s b t : inv h s -> b < length s ->
  inv (mkheap (lists h) (lset (mats h) b (mkmo (r0 (mat h b)) (r1 (mat h b)) (r2 (mat h b)) (r3 (mat h b)) t)))
      (put s b (mkmat (mm (mget s b)) t)).
Proof.
  intros (L & [Rg Sp] & V) Hb.
  set (h' := mkheap _ _).
  assert (M : forall c, mat h' c = if Nat.eqb c b then mkmo (r0 (mat h b)) (r1 (mat h b)) (r2 (mat h b)) (r3 (mat h b)) t else mat h c).
  { intros c. unfold mat at 1, h'. cbn [mats]. destruct (Nat.eqb_spec c b) as [->|N].
    - apply lset_same. lia.
    - apply lset_other; congruence. }
  assert (RF : forall c p, ref (mat h' c) p = ref (mat h c) p).
  { intros c p. rewrite M. destruct (Nat.eqb_spec c b) as [->|N]; [|reflexivity].
    destruct p as [|[|[|p]]]; reflexivity. }
  assert (LM : length (mats h') = length (mats h)) by (unfold h'; cbn [mats]; apply lset_length).
  split; [rewrite put_length by assumption; lia|]. split; [split|].
  - intros c p Hc Hp. rewrite RF. cbn [lists h']. apply Rg; lia.
  - intros c d p q Hc Hd Hp Hq. rewrite !RF. apply Sp; lia.
  - intros c Hc. rewrite put_length in Hc by assumption. destruct (Nat.eq_dec b c) as [<-|N].
    + rewrite put_same by assumption. rewrite <- (V b Hb). unfold reads. rewrite M, Nat.eqb_refl. reflexivity.
    + rewrite put_other by assumption. rewrite <- (V c Hc). unfold reads. rewrite M.
      destruct (Nat.eqb_spec c b); [lia|reflexivity].
Qed.

Lemma put_app_last s m m' : put (s ++ [m]) (length s) m' = s ++ [m'].
Proof.
  unfold put. rewrite firstn_app, firstn_all, Nat.sub_diag. cbn [firstn]. rewrite app_nil_r.
  replace (S (length s)) with (length (s ++ [m])) by (rewrite app_length; cbn; lia).
  rewrite skipn_all. reflexivity.
Qed.
Lemma mget_app_last s m : mget (s ++ [m]) (length s) = m.
Proof. unfold mget. rewrite app_nth2 by lia. now rewrite Nat.sub_diag. Qed.
Lemma mget_app_old s m a : a < length s -> mget (s ++ [m]) a = mget s a.
Proof. intros H. unfold mget. now apply app_nth1. Qed.

Lemma inv_copy h s a t : inv h s -> a < length s -> trans (mget s a) = true ->
  inv (h_copy h a t) (s ++ [vcopy (mget s a) t]).
Proof.
  intros I Ha Ta. unfold h_copy. assert (Lb : length (mats h) = length s) by apply I.
  rewrite Lb. set (b := length s).
  assert (I0 : inv (new_matrix h ident_rows false) (s ++ [mkmat ident_rows false])) by now apply inv_new.
  assert (Step : forall h' m i, inv h' (s ++ [m]) -> trans m = false -> i < 4 ->
            inv (copy_row h' a b i) (s ++ [setrow m i (getrow (mget s a) i)])).
  { intros h' m i I' Tm Hi.
    pose proof (inv_copy_row h' (s ++ [m]) a b i I') as P.
    rewrite (mget_app_old s m a Ha) in P. unfold b in P |- *. rewrite mget_app_last in P.
    rewrite put_app_last in P. apply P; auto; rewrite ?app_length; cbn; lia. }
  pose proof (Step _ _ 0 I0 eq_refl ltac:(lia)) as I1.
  pose proof (Step _ _ 1 I1 eq_refl ltac:(lia)) as I2.
  pose proof (Step _ _ 2 I2 eq_refl ltac:(lia)) as I3.
  pose proof (Step _ _ 3 I3 eq_refl ltac:(lia)) as I4.
  match type of I4 with inv ?h' ?s' => pose proof (inv_flag h' s' b t I4) as P end.
  unfold b in P. rewrite put_app_last, mget_app_last in P.
  apply P. rewrite app_length. cbn. lia.
Qed.

(** * Every step *)
Lemma inv_step h s o : inv h s -> well_formed s o -> no_sharing s o -> inv (h_step h o) (v_step s o).
Proof.
  intros I W N. pose proof I as (L & Sp & V).
  destruct o as [t|m t|a t|a i j x|a i v|a j v|a i b k|a j b k|a i b k|a j b k|a b|a c];
    cbn [well_formed no_sharing h_step v_step] in *.
  - now apply inv_new.
  - now apply inv_new.
  - now apply inv_copy.
  - destruct W as (Ha & Hi & Hj). now apply inv_set.
  - destruct W as (Ha & Hi). destruct (inv_alloc h s v I) as (I' & X & NR).
    pose proof (rd_alloc_new h v) as E. destruct (alloc h v) as [h' x]. cbn [fst snd] in *.
    rewrite <- E. apply inv_setrow; auto.
    destruct (trans (mget s a)); [|assumption]. now apply (not_row_own h' s a x).
  - destruct W as (Ha & Hi). destruct (inv_alloc h s v I) as (I' & X & NR).
    pose proof (rd_alloc_new h v) as E. destruct (alloc h v) as [h' x]. cbn [fst snd] in *.
    rewrite <- E. apply inv_setcol; auto.
    destruct (trans (mget s a)); [assumption|]. now apply (not_row_own h' s a x).
  - destruct W as (Ha & Hb & Hi & Hk). pose proof (getrow_spec h s b k I Hb Hk) as G. cbn zeta in G.
    destruct (h_getrow h b k) as [h' x]. cbn [fst snd] in G. destruct G as (I' & E & X & C).
    rewrite <- E. apply inv_setrow; auto.
    destruct (trans (mget s b)) eqn:Tb.
    + destruct (trans (mget s a)); [|assumption]. now apply (not_row_own h' s a x).
    + destruct N as [N|N]; [|discriminate]. rewrite N. destruct C as [-> ->].
      apply (other_row h s a b k); auto. intros ->. congruence.
  - destruct W as (Ha & Hb & Hi & Hk). pose proof (getcol_spec h s b k I Hb Hk) as G. cbn zeta in G.
    destruct (h_getcol h b k) as [h' x]. cbn [fst snd] in G. destruct G as (I' & E & X & C).
    rewrite <- E. apply inv_setcol; auto.
    destruct (trans (mget s b)) eqn:Tb.
    + destruct N as [N|N]; [|discriminate]. rewrite N. destruct C as [-> ->].
      apply (other_row h s a b k); auto. intros ->. congruence.
    + destruct (trans (mget s a)); [assumption|]. now apply (not_row_own h' s a x).
  - destruct W as (Ha & Hb & Hi & Hk). pose proof (getcol_spec h s b k I Hb Hk) as G. cbn zeta in G.
    destruct (h_getcol h b k) as [h' x]. cbn [fst snd] in G. destruct G as (I' & E & X & C).
    rewrite <- E. apply inv_setrow; auto.
    destruct (trans (mget s b)) eqn:Tb.
    + destruct N as [[N D]|N]; [|discriminate]. rewrite N. destruct C as [-> ->].
      now apply (other_row h s a b k).
    + destruct (trans (mget s a)); [|assumption]. now apply (not_row_own h' s a x).
  - destruct W as (Ha & Hb & Hi & Hk). pose proof (getrow_spec h s b k I Hb Hk) as G. cbn zeta in G.
    destruct (h_getrow h b k) as [h' x]. cbn [fst snd] in G. destruct G as (I' & E & X & C).
    rewrite <- E. apply inv_setcol; auto.
    destruct (trans (mget s b)) eqn:Tb.
    + destruct (trans (mget s a)); [assumption|]. now apply (not_row_own h' s a x).
    + destruct N as [[N D]|N]; [|discriminate]. rewrite N. destruct C as [-> ->].
      now apply (other_row h s a b k).
  - destruct W as (Ha & Hb). rewrite (V a Ha), (V b Hb).
    change (mulMM (mget s a) (mget s b)) with (mkmat (mm (mulMM (mget s a) (mget s b))) false) at 2.
    now apply inv_new.
  - rewrite (V a W).
    change (mulMS (mget s a) c) with (mkmat (mm (mulMS (mget s a) c)) false) at 2.
    now apply inv_new.
Qed.

Lemma inv_run ops : forall h s, inv h s -> allowed s ops -> inv (fold_left h_step ops h) (fold_left v_step ops s).
Proof.
  induction ops as [|o r IH]; intros h s I A; [exact I|].
  cbn [allowed] in A. destruct A as (W & N & A). cbn [fold_left]. apply IH; [|exact A]. now apply inv_step.
Qed.

Lemma inv_empty : inv (mkheap [] []) [].
Proof.
  split; [reflexivity|]. split; [split|]; intros; cbn in *; lia.
Qed.

Lemma h_get_reads h a i j : i < 4 -> j < 4 -> get (reads h a) i j = Ok (h_get h a i j).
Proof.
  intros Hi Hj. unfold get, h_get.
  assert (B : Nat.ltb 3 i = false /\ Nat.ltb 3 j = false) by (split; apply Nat.ltb_ge; lia).
  destruct B as [-> ->]. cbn [orb]. rewrite trans_reads.
  destruct (o_trans (mat h a)); rewrite reads_rget by assumption; reflexivity.
Qed.
