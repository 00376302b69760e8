From Coq Require Import Reals String List Bool ZArith Lia.
From Verif Require Import Dict Xform_Model Datum_Model Datum_Spec Datum_Proofs Constr_Model Mate_Model Asm_Model Asm_Spec.
Import ListNotations.
Open Scope string_scope.
Open Scope list_scope.
Open Scope nat_scope.

Notation seqb := String.eqb_eq.
Lemma len_update {A} (l : list A) i a : length (update l i a) = length l.
Proof. revert i. induction l; intros [|i]; cbn; auto. Qed.
Lemma nth_update {A} (l : list A) i j a d : nth j (update l i a) d = if Nat.eqb j i && Nat.ltb j (length l) then a else nth j l d.
Proof.
  revert i j. induction l as [|x l IH]; intros i j; cbn [update length].
  - rewrite andb_false_r. destruct i; reflexivity.
  - destruct i as [|i], j as [|j]; cbn [nth Nat.eqb andb]; auto. rewrite IH. reflexivity.
Qed.
Lemma pair_eqb_eq a b : pair_eqb a b = true <-> a = b.
Proof. unfold pair_eqb. destruct a as [a a'], b as [b b']. cbn. rewrite andb_true_iff, !seqb. split; [intros [-> ->]; auto|intros [= -> ->]; auto]. Qed.
Lemma validate_fits m a b : mate_validate m a b = [] <-> fits (mate_type m) (datum_type a) (datum_type b).
Proof. unfold mate_validate, fits, both, inset. destruct (mate_type m), (datum_type a), (datum_type b); cbn; split; intros H; auto 6; try discriminate; intuition discriminate. Qed.

(** lookups survive *)
Definition ext (s s' : asm) : Prop :=
  length (heap s) <= length (heap s') /\ (forall n i, dget String.eqb n (a_parts s) = Some i -> dget String.eqb n (a_parts s') = Some i) /\
  (forall i d x, i < length (heap s) -> dget String.eqb d (pd_datums (part_at s i)) = Some x -> dget String.eqb d (pd_datums (part_at s' i)) = Some x).
Lemma ext_refl s : ext s s. Proof. repeat split; auto. Qed.
Lemma ext_trans a b c : ext a b -> ext b c -> ext a c.
Proof. intros (A & B & C) (A' & B' & C'). split; [lia|]. split; auto. intros i d x L E. apply C'; [lia|auto]. Qed.
Lemma ext_same s s' : heap s' = heap s -> a_parts s' = a_parts s -> ext s s'.
Proof. intros H P. unfold ext, part_at. rewrite H, P. auto. Qed.
Lemma import_same l : forall s, heap (fst (import_loop s l)) = heap s /\ a_parts (fst (import_loop s l)) = a_parts s /\ a_mates (fst (import_loop s l)) = a_mates s /\
  a_constraints (fst (import_loop s l)) = a_constraints s /\ a_loads (fst (import_loop s l)) = a_loads s /\ a_bolts (fst (import_loop s l)) = a_bolts s.
Proof.
  induction l as [|[n e] l IH]; intros s; cbn [import_loop]; [auto 10|]. destruct (dmem String.eqb n (a_parts s)); [|apply IH].
  destruct e; cbn [fst bad]; auto 10. destruct (IH (Asm (heap s) (a_parts s) (dset String.eqb n (TArray m) (a_transforms s)) (a_mates s) (a_constraints s) (a_loads s) (a_bolts s))) as (A & B & C & D & E & F).
  rewrite A, B, C, D, E, F. auto 10.
Qed.
Lemma step_ext s o : ext s (fst (step s o)).
Proof.
  destruct o as [n|i n raw|i n t|m|k|l|p c b|n t|j]; cbn [step].
  - unfold new_part, good, ext, part_at. cbn. split; [rewrite app_length; cbn; lia|]. split; auto. intros i d x L. rewrite app_nth1 by exact L. auto.
  - destruct (Nat.ltb i (length (heap s))) eqn:I; [|apply ext_refl]. apply Nat.ltb_lt in I. unfold add_datum. destruct (post_init raw) as [dm|]; [|apply ext_refl]. destruct (dmem String.eqb n (pd_datums (part_at s i))) eqn:M; [apply ext_refl|].
    cbn. unfold ext, part_at. cbn. rewrite len_update. split; auto. split; auto. intros j d x L E. rewrite nth_update. destruct (Nat.eqb j i && Nat.ltb j (length (heap s))) eqn:B; [|exact E]. apply andb_true_iff in B as [B _]. apply Nat.eqb_eq in B. subst j. cbn.
    rewrite dget_set by exact seqb. destruct (String.eqb d n) eqn:Q; [|exact E]. apply seqb in Q. subst d. unfold dmem, part_at in M. rewrite E in M. discriminate.
  - destruct (Nat.ltb i (length (heap s))) eqn:I; [|apply ext_refl]. unfold add_part. set (nm := match n with Some n => n | None => _ end). destruct (dmem String.eqb nm (a_parts s)) eqn:M; [apply ext_refl|].
    assert (X : forall n i0, dget String.eqb n (a_parts s) = Some i0 -> dget String.eqb n (dset String.eqb nm i (a_parts s)) = Some i0).
    { intros x i0 E. rewrite dget_set by exact seqb. destruct (String.eqb x nm) eqn:Q; [|exact E]. apply seqb in Q. subst x. unfold dmem in M. rewrite E in M. discriminate. }
    destruct t as [[]|]; cbn; repeat split; cbn; auto.
  - unfold add_mate. destruct (find_part s (part_a m)), (find_part s (part_b m)); try apply ext_refl. destruct (find_datum s (part_a m) (datum_a m)), (find_datum s (part_b m) (datum_b m)); try apply ext_refl. destruct (mate_validate m _ _); try apply ext_refl. apply ext_same; reflexivity.
  - unfold add_constraint. destruct (find_datum s (c_part k) (c_datum k)); [apply ext_same; reflexivity|apply ext_refl].
  - unfold add_load_case. destruct (negb _ && negb _); [apply ext_refl|]. destruct (dmem _ _ _); [apply ext_refl|apply ext_same; reflexivity].
  - unfold add_bolt_pattern. destruct (negb (dmem String.eqb p (a_parts s))); [apply ext_refl|]. destruct (negb (dmem String.eqb c (a_parts s))); [apply ext_refl|]. destruct (dmem pair_eqb (p, c) (a_bolts s)); [apply ext_refl|apply ext_same; reflexivity].
  - apply ext_same; reflexivity.
  - destruct j as [| |l]; try apply ext_refl. cbn [import_transforms]. destruct (import_same l s) as (A & B & _). apply ext_same; auto.
Qed.

Record inv (s : asm) : Prop := Inv {
  I_parts : forall n i, dget String.eqb n (a_parts s) = Some i -> i < length (heap s);
  I_np : NoDup (keys (a_parts s)); I_nl : NoDup (keys (a_loads s)); I_nb : NoDup (keys (a_bolts s));
  I_datums : forall i, i < length (heap s) -> NoDup (keys (pd_datums (part_at s i))) /\ forall n d, dget String.eqb n (pd_datums (part_at s i)) = Some d -> valid d;
  I_mates : forall m, In m (a_mates s) -> exists d1 d2, find_datum s (part_a m) (datum_a m) = Some d1 /\ find_datum s (part_b m) (datum_b m) = Some d2 /\ fits (mate_type m) (datum_type d1) (datum_type d2);
  I_cons : forall k, In k (a_constraints s) -> exists d, find_datum s (c_part k) (c_datum k) = Some d;
  I_loads : forall i l, In (i, l) (a_loads s) -> lc_id l = i /\ (lc_part l = "_assembly" \/ In (lc_part l) (keys (a_parts s)));
  I_bolts : forall p c b, In ((p, c), b) (a_bolts s) -> In p (keys (a_parts s)) /\ In c (keys (a_parts s)) }.
Lemma find_datum_ext s s' n d x : inv s -> ext s s' -> find_datum s n d = Some x -> find_datum s' n d = Some x.
Proof.
  intros V (_ & P & D) E. unfold find_datum, find_part in *. destruct (dget String.eqb n (a_parts s)) as [i|] eqn:Q; [|discriminate]. rewrite (P _ _ Q). cbn [option_map] in *. apply D; auto. apply (I_parts _ V n). auto.
Qed.
Lemma keys_ext s s' n : ext s s' -> In n (keys (a_parts s)) -> In n (keys (a_parts s')).
Proof. intros (_ & P & _) H. apply (dget_some_key _ seqb) in H as (i & H). apply (dget_some_key _ seqb). exists i. auto. Qed.
Lemma in_dset_pair {K V} (eqb : K -> K -> bool) (S : forall a b, eqb a b = true <-> a = b) k v (d : list (K * V)) x : In x (dset eqb k v d) -> x = (k, v) \/ In x d.
Proof.
  induction d as [|[a b] d IH]; cbn [dset]; [intros [<- |[]]; auto|]. destruct (eqb k a) eqn:E.
  - apply S in E. subst. intros [<- |H]; auto. right; right; auto.
  - intros [<- |H]; [right; left; auto|]. destruct (IH H); auto. right; right; auto.
Qed.
Lemma mates_ext s s' : inv s -> ext s s' -> forall m, In m (a_mates s) -> exists d1 d2, find_datum s' (part_a m) (datum_a m) = Some d1 /\ find_datum s' (part_b m) (datum_b m) = Some d2 /\ fits (mate_type m) (datum_type d1) (datum_type d2).
Proof. intros V X m M. destruct (I_mates _ V m M) as (d1 & d2 & A & B & C). exists d1, d2. split; [|split]; auto; eapply find_datum_ext; eauto. Qed.
Lemma cons_ext s s' : inv s -> ext s s' -> forall k, In k (a_constraints s) -> exists d, find_datum s' (c_part k) (c_datum k) = Some d.
Proof. intros V X k M. destruct (I_cons _ V k M) as (d & A). exists d. eapply find_datum_ext; eauto. Qed.
Lemma loads_ext s s' : inv s -> ext s s' -> forall i l, In (i, l) (a_loads s) -> lc_id l = i /\ (lc_part l = "_assembly" \/ In (lc_part l) (keys (a_parts s'))).
Proof. intros V X i l M. destruct (I_loads _ V i l M) as (A & [B|B]); split; auto. right. eapply keys_ext; eauto. Qed.
Lemma bolts_ext s s' : inv s -> ext s s' -> forall p c b, In ((p, c), b) (a_bolts s) -> In p (keys (a_parts s')) /\ In c (keys (a_parts s')).
Proof. intros V X p c b M. destruct (I_bolts _ V p c b M) as (A & B). split; eapply keys_ext; eauto. Qed.
Lemma inv_same s s' : inv s -> heap s' = heap s -> a_parts s' = a_parts s -> a_mates s' = a_mates s -> a_constraints s' = a_constraints s -> a_loads s' = a_loads s -> a_bolts s' = a_bolts s -> inv s'.
Proof.
  intros V H P M C L B. pose proof (ext_same _ _ H P) as X. constructor.
  - rewrite P, H. apply (I_parts _ V).
  - rewrite P. apply (I_np _ V).
  - rewrite L. apply (I_nl _ V).
  - rewrite B. apply (I_nb _ V).
  - unfold part_at. rewrite H. apply (I_datums _ V).
  - rewrite M. eapply mates_ext; eauto.
  - rewrite C. eapply cons_ext; eauto.
  - rewrite L. eapply loads_ext; eauto.
  - rewrite B. eapply bolts_ext; eauto.
Qed.
Lemma step_inv s o : inv s -> inv (fst (step s o)).
Proof.
  intros V. pose proof (step_ext s o) as X. pose proof (mates_ext _ _ V X) as XM. pose proof (cons_ext _ _ V X) as XC. pose proof (loads_ext _ _ V X) as XL. pose proof (bolts_ext _ _ V X) as XB.
  destruct o as [n|i n raw|i n t|m|k|l|p c b|n t|j]; cbn [step] in *.
  - unfold new_part, good in *. cbn [fst] in *. constructor; cbn [heap a_parts a_loads a_bolts a_mates a_constraints] in *; auto; try apply V.
    + intros x i E. rewrite app_length. cbn. pose proof (I_parts _ V x i E). lia.
    + intros i L. rewrite app_length in L. cbn in L. unfold part_at. cbn [heap]. destruct (Nat.eq_dec i (length (heap s))) as [-> |N].
      * rewrite nth_middle. cbn. split; [constructor|discriminate].
      * rewrite app_nth1 by lia. apply (I_datums _ V). lia.
  - destruct (Nat.ltb i (length (heap s))) eqn:I; [|exact V]. apply Nat.ltb_lt in I. unfold add_datum in *. destruct (post_init raw) as [dm|] eqn:PI; [|exact V]. destruct (dmem String.eqb n (pd_datums (part_at s i))) eqn:M; [exact V|].
    cbn [fst good] in *. constructor; cbn [heap a_parts a_loads a_bolts a_mates a_constraints] in *; auto; try apply V.
    + intros x j E. rewrite len_update. apply (I_parts _ V x j E).
    + intros j L. rewrite len_update in L. destruct (I_datums _ V i I) as [N D]. pose proof (I_datums _ V j L) as J. unfold part_at in N, D, J |- *. cbn [heap]. rewrite nth_update. destruct (Nat.eqb j i && Nat.ltb j (length (heap s))) eqn:B; [|exact J].
      cbn [pd_datums]. split; [apply (nodup_set _ seqb); auto|].
      intros x d. rewrite dget_set by exact seqb. destruct (String.eqb x n); [intros [= <-]; exists raw; auto|apply D].
  - destruct (Nat.ltb i (length (heap s))) eqn:I; [|exact V]. apply Nat.ltb_lt in I. unfold add_part in *. set (nm := match n with Some n => n | None => _ end) in *. destruct (dmem String.eqb nm (a_parts s)) eqn:M; [exact V|].
    assert (G : forall ts, ext s (Asm (heap s) (dset String.eqb nm i (a_parts s)) ts (a_mates s) (a_constraints s) (a_loads s) (a_bolts s)) -> inv (Asm (heap s) (dset String.eqb nm i (a_parts s)) ts (a_mates s) (a_constraints s) (a_loads s) (a_bolts s))).
    { clear - V I. intros ts X. constructor; cbn [heap a_parts a_loads a_bolts a_mates a_constraints]; try apply V.
      - intros x j. rewrite dget_set by exact seqb. destruct (String.eqb x nm); [intros [= <-]; exact I|apply (I_parts _ V)].
      - apply (nodup_set _ seqb). apply V.
      - eapply mates_ext; eauto.
      - eapply cons_ext; eauto.
      - apply (loads_ext _ _ V X).
      - apply (bolts_ext _ _ V X). }
    destruct t as [[]|]; cbn [fst good bad heap a_parts a_transforms a_mates a_constraints a_loads a_bolts] in *; apply G; exact X.
  - unfold add_mate in *. destruct (find_part s (part_a m)), (find_part s (part_b m)); try exact V. destruct (find_datum s (part_a m) (datum_a m)) as [d1|] eqn:F1, (find_datum s (part_b m) (datum_b m)) as [d2|] eqn:F2; try exact V.
    destruct (mate_validate m d1 d2) eqn:VM; try exact V. cbn [fst good] in *. constructor; cbn [heap a_parts a_loads a_bolts a_mates a_constraints] in *; auto; try apply V.
    intros x. rewrite in_app_iff. intros [H|[<- |[]]]; [apply XM; auto|]. exists d1, d2. split; [exact F1|]. split; [exact F2|]. apply validate_fits; auto.
  - unfold add_constraint in *. destruct (find_datum s (c_part k) (c_datum k)) as [d|] eqn:F; [|exact V]. cbn [fst good] in *. constructor; cbn [heap a_parts a_loads a_bolts a_mates a_constraints] in *; auto; try apply V.
    intros x. rewrite in_app_iff. intros [H|[<- |[]]]; [apply XC; auto|]. exists d. exact F.
  - unfold add_load_case in *. destruct (negb (String.eqb (lc_part l) "_assembly") && negb (dmem String.eqb (lc_part l) (a_parts s))) eqn:B; [exact V|]. destruct (dmem String.eqb (lc_id l) (a_loads s)) eqn:M; [exact V|].
    cbn [fst good] in *. constructor; cbn [heap a_parts a_loads a_bolts a_mates a_constraints] in *; auto; try apply V.
    + apply (nodup_set _ seqb). apply V.
    + intros i l' H. apply (in_dset_pair _ seqb) in H as [H|H]; [|apply XL; auto]. injection H as -> ->. split; auto. apply andb_false_iff in B as [B|B]; apply negb_false_iff in B; [left; apply seqb; auto|right; apply (dmem_in _ seqb); auto].
  - unfold add_bolt_pattern in *. destruct (dmem String.eqb p (a_parts s)) eqn:P; cbn [negb] in *; [|exact V]. destruct (dmem String.eqb c (a_parts s)) eqn:C; cbn [negb] in *; [|exact V]. destruct (dmem pair_eqb (p, c) (a_bolts s)) eqn:M; [exact V|].
    cbn [fst good] in *. constructor; cbn [heap a_parts a_loads a_bolts a_mates a_constraints] in *; auto; try apply V.
    + apply (nodup_set _ pair_eqb_eq). apply V.
    + intros p' c' b' H. apply (in_dset_pair _ pair_eqb_eq) in H as [H|H]; [|eapply XB; eauto]. injection H as -> -> ->. split; apply (dmem_in _ seqb); auto.
  - eapply inv_same; [exact V|..]; reflexivity.
  - destruct j as [| |l]; try exact V. cbn [import_transforms] in *. destruct (import_same l s) as (A & B & C & D & E & F). eapply inv_same; eauto.
Qed.
Lemma inv_empty : inv empty.
Proof. constructor; cbn; try constructor; try discriminate; try contradiction; intros; lia. Qed.
Lemma run_ind (P : asm -> Prop) : P empty -> (forall s o, P s -> P (fst (step s o))) -> forall ops, P (run ops).
Proof.
  intros P0 PS ops. unfold run. assert (G : forall s, P s -> P (fold_left (fun s o => fst (step s o)) ops s)); [|apply G, P0].
  induction ops as [|o ops IH]; intros s H; cbn [fold_left]; auto.
Qed.
Lemma run_ind' (Q : op -> Prop) (P : asm -> Prop) : P empty -> (forall s o, Q o -> P s -> P (fst (step s o))) -> forall ops, Forall Q ops -> P (run ops).
Proof.
  intros P0 PS ops. unfold run. assert (G : forall s, P s -> Forall Q ops -> P (fold_left (fun s o => fst (step s o)) ops s)); [|apply G, P0].
  induction ops as [|o ops IH]; intros s H F; cbn [fold_left]; auto. inversion F; subst. auto.
Qed.
Lemma inv_run ops : inv (run ops).
Proof. apply run_ind; [exact inv_empty|exact step_inv]. Qed.

(** transforms *)
Definition posed (s : asm) : Prop := (forall n, In n (keys (a_parts s)) -> exists t, dget String.eqb n (a_transforms s) = Some t) /\ (forall n t m, dget String.eqb n (a_transforms s) = Some t -> carries t m -> rigid m).
Lemma array_carries r m : ~ carries (TArray r) m.
Proof. intros [H|(x & H & _)]; discriminate. Qed.
Lemma posed_set s n t ps : posed s -> (forall m, carries t m -> rigid m) -> (forall x, In x (keys ps) -> x = n \/ In x (keys (a_parts s))) ->
  posed (Asm (heap s) ps (dset String.eqb n t (a_transforms s)) (a_mates s) (a_constraints s) (a_loads s) (a_bolts s)).
Proof.
  intros [A B] C K. split; cbn.
  - intros x H. rewrite dget_set by exact seqb. destruct (String.eqb x n) eqn:E; eauto. destruct (K x H) as [-> |H']; [rewrite String.eqb_refl in E; discriminate|]. apply A. auto.
  - intros x t' m. rewrite dget_set by exact seqb. destruct (String.eqb x n); [intros [= <-]; auto|apply B].
Qed.
Lemma posed_import l : forall s, posed s -> posed (fst (import_loop s l)).
Proof.
  induction l as [|[n e] l IH]; intros s P; cbn [import_loop]; [exact P|]. destruct (dmem String.eqb n (a_parts s)); [|apply IH, P]. destruct e; try exact P.
  apply IH. apply posed_set; auto. intros m' H. destruct (array_carries _ _ H).
Qed.
Lemma step_posed s o : placed o -> posed s -> posed (fst (step s o)).
Proof.
  intros Q P. destruct o as [n|i n raw|i n t|m|k|l|p c b|n t|j]; cbn [step].
  - exact P.
  - destruct (Nat.ltb i (length (heap s))); [|exact P]. unfold add_datum. destruct (post_init raw); [|exact P]. destruct (dmem _ _ _); exact P.
  - destruct (Nat.ltb i (length (heap s))); [|exact P]. unfold add_part. set (nm := match n with Some n => n | None => _ end). destruct (dmem String.eqb nm (a_parts s)) eqn:M; [exact P|].
    assert (K : forall x, In x (keys (dset String.eqb nm i (a_parts s))) -> x = nm \/ In x (keys (a_parts s))) by (intros x; rewrite (in_keys_set _ seqb); tauto).
    destruct t as [[r|r|r]|]; cbn [placed] in Q; cbn [fst good heap a_parts a_transforms a_mates a_constraints a_loads a_bolts]; try contradiction; apply posed_set; auto; intros m' H; destruct (array_carries _ _ H).
  - unfold add_mate. destruct (find_part s (part_a m)), (find_part s (part_b m)); try exact P. destruct (find_datum s (part_a m) (datum_a m)), (find_datum s (part_b m) (datum_b m)); try exact P. destruct (mate_validate m _ _); exact P.
  - unfold add_constraint. destruct (find_datum s (c_part k) (c_datum k)); exact P.
  - unfold add_load_case. destruct (negb _ && negb _); [exact P|]. destruct (dmem _ _ _); exact P.
  - unfold add_bolt_pattern. destruct (negb (dmem String.eqb p (a_parts s))); [exact P|]. destruct (negb (dmem String.eqb c (a_parts s))); [exact P|]. destruct (dmem pair_eqb (p, c) (a_bolts s)); exact P.
  - cbn [set_transform good fst]. apply posed_set; auto.
  - destruct j as [| |l]; try exact P. apply posed_import, P.
Qed.
Lemma posed_run ops : Forall placed ops -> posed (run ops).
Proof. apply run_ind'; [split; cbn; [contradiction|discriminate]|exact step_posed]. Qed.
Lemma as_Matrix_rigid t : (forall m, carries t m -> rigid m) -> rigid (as_Matrix t).
Proof.
  intros H. destruct t as [r|r|m]; cbn [as_Matrix]; [exact identity_rigid| |]; apply H; [right; eauto|left; auto].
Qed.
Lemma world_total s n d x : inv s -> posed s -> find_datum s n d = Some x -> exists w, get_transformed_datum s n d = Done w.
Proof.
  intros V [A B] F. unfold get_transformed_datum. rewrite F. assert (K : In n (keys (a_parts s))).
  { unfold find_datum, find_part in F. destruct (dget String.eqb n (a_parts s)) eqn:E; [|discriminate]. apply (dget_some_key _ seqb). eauto. }
  destruct (A n K) as (t & T). rewrite T. assert (X : valid x). { unfold find_datum, find_part in F. destruct (dget String.eqb n (a_parts s)) as [i|] eqn:E; [|discriminate]. cbn in F. destruct (I_datums _ V i (I_parts _ V _ _ E)) as [_ D]. apply (D _ _ F). }
  rewrite transform_image; eauto. apply as_Matrix_rigid. intros m. apply (B n t m T).
Qed.

(** validation *)
Definition record (rs : list (string * cresult)) (l : list (constraint * cresult)) : list (string * cresult) := fold_left (fun rs kr => dset String.eqb (c_name (fst kr)) (snd kr) rs) l rs.
Lemma validate_loop_eq s ks : forall ds rs fs ws, worlds s ks ds ->
  validate_loop s ks rs fs ws = Done (VResult (Nat.eqb (length (fs ++ failing "error" (results ks ds))) 0) (record rs (results ks ds)) (fs ++ failing "error" (results ks ds)) (ws ++ failing "warning" (results ks ds))).
Proof.
  induction ks as [|k ks IH]; intros ds rs fs ws W; inversion W; subst; cbn [validate_loop].
  - unfold results, failing. cbn. rewrite !app_nil_r. reflexivity.
  - rewrite H1. cbn zeta. unfold results. cbn [combine map]. fold (results ks l'). unfold failing, record. cbn [fold_left filter fst snd]. fold (record (dset String.eqb (c_name k) (evaluate k y) rs) (results ks l')).
    destruct (passed (evaluate k y)); cbn [negb andb]; [apply IH; auto|].
    destruct (String.eqb (c_severity k) "error") eqn:E1.
    + apply seqb in E1. rewrite E1. cbn [String.eqb Ascii.eqb Bool.eqb]. rewrite (IH l') by auto. cbn [map fst]. unfold failing. rewrite <- !app_assoc. reflexivity.
    + destruct (String.eqb (c_severity k) "warning") eqn:E2; rewrite (IH l') by auto; unfold failing; cbn [map fst]; rewrite <- ?app_assoc; reflexivity.
Qed.
Lemma validate_loop_raises s ks : forall rs fs ws v, validate_loop s ks rs fs ws = Done v -> exists ds, worlds s ks ds.
Proof.
  induction ks as [|k ks IH]; intros rs fs ws v; cbn [validate_loop]; [exists []; constructor|]. destruct (get_transformed_datum s (c_part k) (c_datum k)) as [d|] eqn:E; [|discriminate]. cbn zeta. intros H.
  assert (exists ds, worlds s ks ds) as (ds & W). { destruct (passed (evaluate k d)); [eapply IH; eauto|]. destruct (String.eqb (c_severity k) "error"); [eapply IH; eauto|]. destruct (String.eqb (c_severity k) "warning"); eapply IH; eauto. }
  exists (d :: ds). constructor; auto.
Qed.
Lemma record_last l : forall rs n, dget String.eqb n (record rs l) = match find (fun kr => String.eqb n (c_name (fst kr))) (rev l) with Some kr => Some (snd kr) | None => dget String.eqb n rs end.
Proof.
  induction l as [|[k r] l IH]; intros rs n; cbn [record fold_left rev]; [reflexivity|]. fold (record (dset String.eqb (c_name (fst (k, r))) (snd (k, r)) rs) l). rewrite IH. cbn [fst snd].
  assert (F : forall A (f : A -> bool) a b, find f (a ++ b) = match find f a with Some x => Some x | None => find f b end) by (intros A f a b; induction a as [|x a IHa]; cbn; auto; destruct (f x); auto).
  rewrite F. destruct (find _ (rev l)); auto. cbn [find fst]. rewrite dget_set by exact seqb. destruct (String.eqb n (c_name k)); reflexivity.
Qed.

(** degrees of freedom *)
Local Open Scope Z_scope.
Lemma dof_done ms : forall d d', dof_loop ms d = Done d' -> (forall m, In m ms -> mate_type m = MCOINCIDENT \/ mate_type m = MCONCENTRIC) /\ keys d' = keys d.
Proof.
  induction ms as [|m ms IH]; intros d d'; cbn [dof_loop]; [intros [= <-]; split; auto; intros ? []|].
  assert (G : forall k, match dget String.eqb (part_b m) d with Some x => dof_loop ms (dset String.eqb (part_b m) (Z.max 0 (x - k)) d) | None => Raised KeyErr end = Done d' -> (forall m, In m ms -> mate_type m = MCOINCIDENT \/ mate_type m = MCONCENTRIC) /\ keys d' = keys d).
  { intros k. destruct (dget String.eqb (part_b m) d) as [x|] eqn:E; [|discriminate]. intros H. apply IH in H as [A B]. split; auto. rewrite B. rewrite keys_set. replace (dmem String.eqb (part_b m) d) with true; [reflexivity|]. unfold dmem. rewrite E. reflexivity. }
  destruct (mate_type m) eqn:T; try discriminate; intros H; apply G in H as [A B]; split; auto; intros x [<- |I]; auto.
Qed.
Lemma dof_value ms : forall d d' n x y, dof_loop ms d = Done d' -> dget String.eqb n d = Some x -> dget String.eqb n d' = Some y -> 0 <= x -> y = Z.max 0 (x - 3 * count MCOINCIDENT n ms - 2 * count MCONCENTRIC n ms).
Proof.
  induction ms as [|m ms IH]; intros d d' n x y; cbn [dof_loop].
  - intros [= <-] A B P. unfold count. cbn. rewrite A in B. injection B as <-. lia.
  - intros H A B P.
    assert (G : forall k, 0 <= k -> match dget String.eqb (part_b m) d with Some x => dof_loop ms (dset String.eqb (part_b m) (Z.max 0 (x - k)) d) | None => Raised KeyErr end = Done d' ->
       y = Z.max 0 ((if String.eqb n (part_b m) then Z.max 0 (x - k) else x) - 3 * count MCOINCIDENT n ms - 2 * count MCONCENTRIC n ms)).
    { intros k K. destruct (dget String.eqb (part_b m) d) as [z|] eqn:E; [|discriminate]. intros L. eapply IH; [exact L| |exact B|]; rewrite ?dget_set by exact seqb.
      - destruct (String.eqb n (part_b m)) eqn:Q; [|exact A]. apply seqb in Q. subst n. rewrite A in E. injection E as <-. reflexivity.
      - destruct (String.eqb n (part_b m)); lia. }
    assert (N : forall t, 0 <= count t n ms) by (intros t; unfold count; lia).
    pose proof (N MCOINCIDENT) as N1. pose proof (N MCONCENTRIC) as N2.
    assert (CC : forall t, count t n (m :: ms) = (if mtype_beq (mate_type m) t && String.eqb (part_b m) n then 1 else 0) + count t n ms) by (intros t; unfold count; cbn [filter]; destruct (mtype_beq (mate_type m) t && String.eqb (part_b m) n); cbn [length]; lia).
    rewrite !CC. replace (String.eqb (part_b m) n) with (String.eqb n (part_b m)) by apply String.eqb_sym.
    destruct (mate_type m); try discriminate; cbn [mtype_beq andb]; [apply (G 3) in H; [|lia]|apply (G 2) in H; [|lia]]; destruct (String.eqb n (part_b m)); lia.
Qed.
Lemma dof_total ms : forall d, (forall m, In m ms -> (mate_type m = MCOINCIDENT \/ mate_type m = MCONCENTRIC) /\ In (part_b m) (keys d)) -> exists d', dof_loop ms d = Done d'.
Proof.
  induction ms as [|m ms IH]; intros d H; cbn [dof_loop]; [eauto|]. destruct (H m (or_introl eq_refl)) as [T K]. apply (dget_some_key _ seqb) in K as (x & X). rewrite X.
  assert (G : forall k, exists d', dof_loop ms (dset String.eqb (part_b m) k d) = Done d') by (intros k; apply IH; intros m' I; destruct (H m' (or_intror I)) as [T' K']; split; auto; apply (in_keys_set _ seqb); auto).
  destruct T as [-> | ->]; apply G.
Qed.
Lemma dof_raises ms : forall d, (forall m, In m ms -> In (part_b m) (keys d)) -> (exists m, In m ms /\ mate_type m <> MCOINCIDENT /\ mate_type m <> MCONCENTRIC) -> dof_loop ms d = Raised AttributeErr.
Proof.
  induction ms as [|m ms IH]; intros d H (b & I & B1 & B2); cbn [dof_loop]; [destruct I|].
  pose proof (H m (or_introl eq_refl)) as K. apply (dget_some_key _ seqb) in K as (x & X). rewrite X.
  assert (G : (mate_type m = MCOINCIDENT \/ mate_type m = MCONCENTRIC) -> forall k, dof_loop ms (dset String.eqb (part_b m) k d) = Raised AttributeErr).
  { intros T k. apply IH; [intros m' I'; apply (in_keys_set _ seqb); right; apply H; right; auto|]. exists b. split; auto. destruct I as [<- |I]; auto. destruct T; contradiction. }
  destruct (mate_type m); auto.
Qed.
Lemma keys_init {A} (l : list (string * A)) (z : Z) : keys (map (fun p => (fst p, z)) l) = keys l.
Proof. unfold keys. rewrite map_map. reflexivity. Qed.
Lemma get_init {A} (l : list (string * A)) (z : Z) n : In n (keys l) -> dget String.eqb n (map (fun p => (fst p, z)) l) = Some z.
Proof. induction l as [|[a b] l IH]; cbn; [intros []|]. intros [-> |H]; [rewrite String.eqb_refl; auto|]. destruct (String.eqb n a); auto. Qed.

(** imports *)
Lemma import_good l : forall s s', NoDup (map fst l) -> import_loop s l = (s', None) -> forall n,
  (forall e, In (n, e) l -> In n (keys (a_parts s)) -> exists m, e = JRows m /\ dget String.eqb n (a_transforms s') = Some (TArray m)) /\
  (~ In n (map fst l) \/ ~ In n (keys (a_parts s)) -> dget String.eqb n (a_transforms s') = dget String.eqb n (a_transforms s)).
Proof.
  induction l as [|[k e] l IH]; intros s s' N; cbn [import_loop]; [intros [= <-] n; split; [intros ? []|auto]|]. cbn [map fst] in N. inversion N as [|? ? K N']; subst. intros H n.
  destruct (dmem String.eqb k (a_parts s)) eqn:M.
  - destruct e as [| | |m]; try discriminate H. destruct (IH _ _ N' H n) as [A B]. cbn [a_transforms a_parts] in A, B. rewrite (dget_set _ seqb) in B. split.
    + intros e [E|I] P; [|apply A; auto]. injection E as -> <-. exists m. split; auto. rewrite B, String.eqb_refl by (left; exact K). reflexivity.
    + intros D. cbn [map fst In] in D. destruct (String.eqb n k) eqn:E.
      * apply seqb in E. subst k. apply (dmem_in _ seqb) in M. exfalso. destruct D as [D|D]; apply D; auto.
      * apply B. destruct D as [D|D]; auto.
  - destruct (IH _ _ N' H n) as [A B]. split.
    + intros x [E|I] P; [|apply A; auto]. injection E as -> <-. apply (dmem_in _ seqb) in P. congruence.
    + intros D. apply B. cbn [map fst In] in D. destruct D as [D|D]; auto.
Qed.
Lemma import_ok l : forall s, (exists s', import_loop s l = (s', None)) <-> forall n e, In (n, e) l -> In n (keys (a_parts s)) -> exists m, e = JRows m.
Proof.
  induction l as [|[k e] l IH]; intros s; cbn [import_loop]; [split; [intros _ ? ? []|intros _; exists s; reflexivity]|]. destruct (dmem String.eqb k (a_parts s)) eqn:M.
  - apply (dmem_in _ seqb) in M. destruct e as [| | |m]; [split; [intros (s' & H); discriminate|intros H; destruct (H k _ (or_introl eq_refl) M) as (m & F); discriminate]..|]. rewrite IH. cbn [a_parts]. split.
    + intros H n e [[= <- <-]|I] P; [eauto|apply (H n e I P)].
    + intros H n e I P. apply (H n e (or_intror I) P).
  - rewrite IH. split.
    + intros H n e' [[= <- <-]|I] P; [apply (dmem_in _ seqb) in P; congruence|apply (H n e' I P)].
    + intros H n e' I P. apply (H n e' (or_intror I) P).
Qed.
