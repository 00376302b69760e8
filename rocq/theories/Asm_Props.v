(** Properties of assemblies (assembly/assembly.py). *)
From Coq Require Import Reals String List Bool ZArith Lra Lia.
From Verif Require Import Dict Xform_Model Xform_Proofs Datum_Model Datum_Spec Datum_Proofs Constr_Model Mate_Model Asm_Model Asm_Spec Asm_Proofs.
Import ListNotations.
Open Scope string_scope.
Open Scope R_scope.
Open Scope list_scope.

Lemma part_known s n : In n (keys (a_parts s)) <-> exists p, find_part s n = Some p.
Proof. unfold find_part. rewrite <- (dget_some_key _ seqb). destruct (dget String.eqb n (a_parts s)); cbn; split; intros (x & H); try discriminate; eauto. Qed.

(** C215.  Whatever calls are made, failing ones included: names are unique, and mates, constraints, load cases and bolt patterns refer to parts and datums that exist and fit. *)
Theorem c215_names : forall ops, NoDup (keys (a_parts (run ops))) /\ NoDup (keys (a_loads (run ops))) /\ NoDup (keys (a_bolts (run ops))) /\
  forall n p, find_part (run ops) n = Some p -> NoDup (keys (pd_datums p)).
Proof.
  intros ops. pose proof (inv_run ops) as V. repeat split; try apply V. intros n p. unfold find_part. destruct (dget String.eqb n (a_parts (run ops))) as [i|] eqn:E; [|discriminate]. intros [= <-]. apply (I_datums _ V i). apply (I_parts _ V n). exact E.
Qed.
Print Assumptions c215_names.
Theorem c215_datums : forall ops n d x, find_datum (run ops) n d = Some x -> valid x.
Proof.
  intros ops n d x. pose proof (inv_run ops) as V. unfold find_datum, find_part. destruct (dget String.eqb n (a_parts (run ops))) as [i|] eqn:E; [|discriminate]. cbn [option_map]. apply (I_datums _ V i). apply (I_parts _ V n). exact E.
Qed.
Print Assumptions c215_datums.
Theorem c215_mates : forall ops m, In m (a_mates (run ops)) ->
  exists d1 d2, find_datum (run ops) (part_a m) (datum_a m) = Some d1 /\ find_datum (run ops) (part_b m) (datum_b m) = Some d2 /\ fits (mate_type m) (datum_type d1) (datum_type d2).
Proof. intros ops. apply (I_mates _ (inv_run ops)). Qed.
Print Assumptions c215_mates.
Theorem c215_constraints : forall ops k, In k (a_constraints (run ops)) -> exists d, find_datum (run ops) (c_part k) (c_datum k) = Some d.
Proof. intros ops. apply (I_cons _ (inv_run ops)). Qed.
Print Assumptions c215_constraints.
Theorem c215_load_cases : forall ops i l, get_load_case (run ops) i = Some l -> lc_id l = i /\ (lc_part l = "_assembly" \/ exists p, find_part (run ops) (lc_part l) = Some p).
Proof. intros ops i l H. apply (dget_in _ seqb) in H. apply (I_loads _ (inv_run ops)) in H as [A B]. split; auto. rewrite <- part_known. exact B. Qed.
Print Assumptions c215_load_cases.
Theorem c215_bolt_patterns : forall ops p c b, get_bolt_pattern (run ops) p c = Some b -> (exists x, find_part (run ops) p = Some x) /\ exists y, find_part (run ops) c = Some y.
Proof. intros ops p c b H. apply (dget_in _ pair_eqb_eq) in H. apply (I_bolts _ (inv_run ops)) in H as [A B]. rewrite <- !part_known. auto. Qed.
Print Assumptions c215_bolt_patterns.
(** Once found, a part's datum is never changed or lost. *)
Theorem c215_stable : forall ops more n d x, find_datum (run ops) n d = Some x -> find_datum (run (ops ++ more)) n d = Some x.
Proof.
  intros ops more n d x F. unfold run. rewrite fold_left_app. fold (run ops). assert (V := inv_run ops). revert V F. generalize (run ops). induction more as [|o more IH]; intros s V F; cbn [fold_left]; auto.
  apply IH; [apply step_inv, V|]. eapply find_datum_ext; [exact V|apply step_ext|exact F].
Qed.
Print Assumptions c215_stable.
Definition pt (x y z : R) : datum := Datum POINT (mkv x y z 1) None None None None None.
Definition ax : datum := Datum AXIS (mkv 0 0 0 1) (Some (mkv 0 0 1 0)) None None None None.
Definition demo_mate : mate := Mate "m" MCONCENTRIC "base" "shaft" "wheel" "shaft" 0 0 [0; 0; 1; 0] [1; 0; 0; 0] None None 1 0 false None [].
Definition build : list op := [NewPart "base"; AddDatum 0 "shaft" ax; AddPart 0 None None; AddPart 0 (Some "wheel") None; AddMate demo_mate].
Lemma ax_init : post_init ax = Some ax.
Proof. unfold post_init, ax. cbn [datum_type direction origin normal x_axis y_axis radius]. unfold zero_length. replace (mag (as_direction (mkv 0 0 1 0))) with 1; [replace (Rltb 1 epsilon) with false by (symmetry; apply Rltb_false; unfold epsilon; lra); reflexivity|]. unfold mag. cbn. replace (0 * 0 + 0 * 0 + 1 * 1) with 1 by ring. symmetry. apply sqrt_1. Qed.
Lemma build_eq : run build = Asm [PartDef "base" [("shaft", ax)]] [("base", 0%nat); ("wheel", 0%nat)] [("base", TArray eye); ("wheel", TArray eye)] [demo_mate] [] [] [].
Proof. unfold run, build. cbn [fold_left]. cbn [step]. unfold add_datum. rewrite ax_init. reflexivity. Qed.
Example c215_nonvacuous : In demo_mate (a_mates (run build)).
Proof. rewrite build_eq. left. reflexivity. Qed.

(** C216.  What each call accepts; a refused call raises AssemblyError (ValueError for a datum) and changes nothing. *)
Theorem c216_add_mate : forall s m, snd (add_mate s m) = None <->
  exists d1 d2, find_datum s (part_a m) (datum_a m) = Some d1 /\ find_datum s (part_b m) (datum_b m) = Some d2 /\ fits (mate_type m) (datum_type d1) (datum_type d2).
Proof.
  intros s m. unfold add_mate. split.
  - destruct (find_part s (part_a m)), (find_part s (part_b m)); try discriminate. destruct (find_datum s (part_a m) (datum_a m)) as [d1|], (find_datum s (part_b m) (datum_b m)) as [d2|]; try discriminate. destruct (mate_validate m d1 d2) eqn:V; [|discriminate]. intros _. exists d1, d2. split; auto. split; auto. apply validate_fits, V.
  - intros (d1 & d2 & F1 & F2 & F). rewrite F1, F2. unfold find_datum in F1, F2. destruct (find_part s (part_a m)), (find_part s (part_b m)); try discriminate. apply validate_fits in F. rewrite F. reflexivity.
Qed.
Print Assumptions c216_add_mate.
Theorem c216_add_part : forall s i name t, (forall m, t <> Some (TMatrix m)) ->
  let n := match name with Some n => n | None => pd_name (part_at s i) end in
  (snd (add_part s i name t) = None <-> find_part s n = None) /\
  (find_part s n = None -> let s' := fst (add_part s i name t) in
     find_part s' n = Some (part_at s i) /\ dget String.eqb n (a_transforms s') = Some (match t with Some t => t | None => TArray eye end) /\
     (forall n', n' <> n -> find_part s' n' = find_part s n' /\ dget String.eqb n' (a_transforms s') = dget String.eqb n' (a_transforms s)) /\
     a_mates s' = a_mates s /\ a_constraints s' = a_constraints s).
Proof.
  intros s i name t NM. cbn zeta. unfold add_part. set (n := match name with Some n => n | None => _ end). unfold find_part at 1 2, dmem. destruct (dget String.eqb n (a_parts s)) as [j|] eqn:E; cbn [option_map].
  - split; [split; discriminate|discriminate].
  - split; [split; auto; intros _; destruct t as [[]|]; auto; destruct (NM m); auto|]. intros _. unfold find_part.
    assert (A : option_map (part_at s) (dget String.eqb n (dset String.eqb n i (a_parts s))) = Some (part_at s i)) by (rewrite (dget_set_same _ seqb); reflexivity).
    assert (B : forall x n', n' <> n -> dget String.eqb n' (dset String.eqb n x (a_parts s)) = dget String.eqb n' (a_parts s)) by (intros x n' N; apply (dget_set_other _ seqb); auto).
    assert (C : forall x n', n' <> n -> dget String.eqb n' (dset String.eqb n x (a_transforms s)) = dget String.eqb n' (a_transforms s)) by (intros x n' N; apply (dget_set_other _ seqb); auto).
    destruct t as [[]|]; cbn [fst good bad heap a_parts a_transforms a_mates a_constraints]; try (destruct (NM m); reflexivity); (split; [exact A|]); (split; [apply (dget_set_same _ seqb)|]); (split; [|auto]); intros n' N; rewrite B, C by exact N; auto.
Qed.
Print Assumptions c216_add_part.
Theorem c216_add_constraint : forall s k, snd (add_constraint s k) = None <-> exists d, find_datum s (c_part k) (c_datum k) = Some d.
Proof. intros s k. unfold add_constraint. destruct (find_datum s (c_part k) (c_datum k)); split; eauto; try discriminate. intros (d & H); discriminate. Qed.
Print Assumptions c216_add_constraint.
Theorem c216_add_load_case : forall s l, snd (add_load_case s l) = None <-> (lc_part l = "_assembly" \/ exists p, find_part s (lc_part l) = Some p) /\ get_load_case s (lc_id l) = None.
Proof.
  intros s l. rewrite <- part_known. unfold add_load_case, get_load_case, dmem at 2. destruct (negb (String.eqb (lc_part l) "_assembly") && negb (dmem String.eqb (lc_part l) (a_parts s))) eqn:B.
  - split; [discriminate|]. intros [H _]. exfalso. apply andb_true_iff in B as [B1 B2]. apply negb_true_iff in B1, B2. destruct H as [H|H]; [rewrite H in B1; discriminate|]. apply (dmem_in _ seqb) in H. congruence.
  - assert (K : lc_part l = "_assembly" \/ In (lc_part l) (keys (a_parts s))) by (apply andb_false_iff in B as [B|B]; apply negb_false_iff in B; [left; apply seqb; auto|right; apply (dmem_in _ seqb); auto]).
    destruct (dget String.eqb (lc_id l) (a_loads s)); cbn; split; auto; try discriminate. intros [_ H]; discriminate.
Qed.
Print Assumptions c216_add_load_case.
Theorem c216_add_bolt_pattern : forall s p c b, snd (add_bolt_pattern s p c b) = None <-> (exists x, find_part s p = Some x) /\ (exists y, find_part s c = Some y) /\ get_bolt_pattern s p c = None.
Proof.
  intros s p c b. rewrite <- !part_known. unfold add_bolt_pattern, get_bolt_pattern, dmem at 3. rewrite <- !(dmem_in _ seqb).
  destruct (dmem String.eqb p (a_parts s)), (dmem String.eqb c (a_parts s)), (dget pair_eqb (p, c) (a_bolts s)); cbn; split; auto; try discriminate; intros (? & ? & ?); discriminate.
Qed.
Print Assumptions c216_add_bolt_pattern.
Theorem c216_effects : forall s, (forall m, snd (add_mate s m) = None -> a_mates (fst (add_mate s m)) = a_mates s ++ [m]) /\
  (forall k, snd (add_constraint s k) = None -> a_constraints (fst (add_constraint s k)) = a_constraints s ++ [k]) /\
  (forall l, snd (add_load_case s l) = None -> get_load_case (fst (add_load_case s l)) (lc_id l) = Some l /\ forall i, i <> lc_id l -> get_load_case (fst (add_load_case s l)) i = get_load_case s i) /\
  (forall p c b, snd (add_bolt_pattern s p c b) = None -> get_bolt_pattern (fst (add_bolt_pattern s p c b)) p c = Some b /\ forall p' c', (p', c') <> (p, c) -> get_bolt_pattern (fst (add_bolt_pattern s p c b)) p' c' = get_bolt_pattern s p' c').
Proof.
  intros s. repeat split.
  - intros m. unfold add_mate. destruct (find_part s (part_a m)), (find_part s (part_b m)); try discriminate. destruct (find_datum s (part_a m) (datum_a m)), (find_datum s (part_b m) (datum_b m)); try discriminate. destruct (mate_validate m _ _); [auto|discriminate].
  - intros k. unfold add_constraint. destruct (find_datum s (c_part k) (c_datum k)); [auto|discriminate].
  - revert H. unfold add_load_case. destruct (negb _ && negb _); [discriminate|]. destruct (dmem _ _ _); [discriminate|]. intros _. apply (dget_set_same _ seqb).
  - revert H. unfold add_load_case. destruct (negb _ && negb _); [discriminate|]. destruct (dmem _ _ _); [discriminate|]. intros _ i N. apply (dget_set_other _ seqb). auto.
  - revert H. unfold add_bolt_pattern. destruct (negb (dmem String.eqb p (a_parts s))); [discriminate|]. destruct (negb (dmem String.eqb c (a_parts s))); [discriminate|]. destruct (dmem pair_eqb (p, c) (a_bolts s)); [discriminate|]. intros _. apply (dget_set_same _ pair_eqb_eq).
  - revert H. unfold add_bolt_pattern. destruct (negb (dmem String.eqb p (a_parts s))); [discriminate|]. destruct (negb (dmem String.eqb c (a_parts s))); [discriminate|]. destruct (dmem pair_eqb (p, c) (a_bolts s)); [discriminate|]. intros _ p' c' N. apply (dget_set_other _ pair_eqb_eq). auto.
Qed.
Print Assumptions c216_effects.
Theorem c216_refused : forall s o e, atomic o -> snd (step s o) = Some e -> fst (step s o) = s /\ (e = AssemblyError \/ (exists i n d, o = AddDatum i n d) /\ e = ValueErr).
Proof.
  intros s o e A. destruct o as [n|i n raw|i n t|m|k|l|p c b|n t|j]; cbn [step].
  - discriminate.
  - destruct (Nat.ltb i (length (heap s))); [|discriminate]. unfold add_datum. destruct (post_init raw); [destruct (dmem _ _ _); [|discriminate]|]; intros [= <-]; split; auto; right; eauto.
  - destruct (Nat.ltb i (length (heap s))); [|discriminate]. unfold add_part. destruct (dmem _ _ _); [intros [= <-]; auto|]. destruct t as [[]|]; try discriminate. destruct A.
  - unfold add_mate. destruct (find_part s (part_a m)), (find_part s (part_b m)); try (intros [= <-]; auto). destruct (find_datum s (part_a m) (datum_a m)), (find_datum s (part_b m) (datum_b m)); try (intros [= <-]; auto). destruct (mate_validate m _ _); [discriminate|intros [= <-]; auto].
  - unfold add_constraint. destruct (find_datum s (c_part k) (c_datum k)); [discriminate|intros [= <-]; auto].
  - unfold add_load_case. destruct (negb _ && negb _); [intros [= <-]; auto|]. destruct (dmem _ _ _); [intros [= <-]; auto|discriminate].
  - unfold add_bolt_pattern. destruct (negb (dmem String.eqb p (a_parts s))); [intros [= <-]; auto|]. destruct (negb (dmem String.eqb c (a_parts s))); [intros [= <-]; auto|]. destruct (dmem pair_eqb (p, c) (a_bolts s)); [intros [= <-]; auto|discriminate].
  - discriminate.
  - destruct A.
Qed.
Print Assumptions c216_refused.
Example c216_nonvacuous : snd (add_mate (run build) demo_mate) = None /\ snd (step (run build) (AddPart 0 None None)) = Some AssemblyError.
Proof. rewrite build_eq. split; reflexivity. Qed.

(** C217 (REFUTED).  add_part given a yapCAD Matrix raises AttributeError after adding the part, which is left without a transform: its datums cannot be placed any more. *)
Theorem c217_matrix_refuted : forall s i name m, let n := match name with Some n => n | None => pd_name (part_at s i) end in
  find_part s n = None -> dget String.eqb n (a_transforms s) = None ->
  let (s', e) := add_part s i name (Some (TMatrix m)) in
  e = Some AttributeErr /\ find_part s' n = Some (part_at s i) /\
  (forall d x, find_datum s' n d = Some x -> get_transformed_datum s' n d = Raised KeyErr) /\ snd (add_part s' i name (Some (TLists eye))) = Some AssemblyError.
Proof.
  intros s i name m. cbn zeta. unfold add_part at 1. set (n := match name with Some n => n | None => _ end). unfold find_part at 1, dmem at 1. destruct (dget String.eqb n (a_parts s)) as [j|] eqn:E; [discriminate|]. intros _ T. cbn.
  split; auto. split; [unfold find_part; cbn; rewrite (dget_set_same _ seqb); reflexivity|]. split.
  - intros d x F. unfold get_transformed_datum. rewrite F. cbn. rewrite T. reflexivity.
  - unfold add_part. cbn [a_parts heap]. change (match name with Some n0 => n0 | None => pd_name (part_at (Asm (heap s) (dset String.eqb n i (a_parts s)) (a_transforms s) (a_mates s) (a_constraints s) (a_loads s) (a_bolts s)) i) end) with n.
    unfold dmem. rewrite (dget_set_same _ seqb). reflexivity.
Qed.
Print Assumptions c217_matrix_refuted.

(** C218.  Datums are placed by the part's transform (a list of lists or a Matrix) and constraints judged there. *)
Theorem c218_world : forall s n d x t m w, find_datum s n d = Some x -> dget String.eqb n (a_transforms s) = Some t -> carries t m ->
  (get_transformed_datum s n d = Done w <-> transform m x = Some w).
Proof.
  intros s n d x t m w F T C. unfold get_transformed_datum. rewrite F, T. replace (as_Matrix t) with m by (destruct C as [-> |(r & -> & ->)]; reflexivity).
  destruct (transform m x); split; try discriminate; congruence.
Qed.
Print Assumptions c218_world.
(** With rigid transforms, and no Matrix given to add_part, validation never raises. *)
Theorem c218_total : forall ops, Forall placed ops -> exists v, validate (run ops) = Done v.
Proof.
  intros ops P. pose proof (posed_run ops P) as Q. pose proof (inv_run ops) as V. assert (exists ds, worlds (run ops) (a_constraints (run ops)) ds) as (ds & W).
  { pose proof (I_cons _ V) as C. revert C. generalize (a_constraints (run ops)). induction l as [|k l IH]; intros C; [exists []; constructor|]. destruct IH as (ds & W); [intros; apply C; right; auto|]. destruct (C k (or_introl eq_refl)) as (x & F).
    destruct (world_total _ _ _ _ V Q F) as (w & E). exists (w :: ds). constructor; auto. }
  unfold validate. rewrite (validate_loop_eq _ _ ds) by exact W. eauto.
Qed.
Print Assumptions c218_total.
Theorem c218_verdict : forall s v, validate s = Done v -> exists ds, worlds s (a_constraints s) ds /\
  failed_constraints v = failing "error" (results (a_constraints s) ds) /\ warnings v = failing "warning" (results (a_constraints s) ds) /\
  (is_valid v = true <-> forall k r, In (k, r) (results (a_constraints s) ds) -> c_severity k = "error" -> passed r = true).
Proof.
  intros s v H. destruct (validate_loop_raises s _ _ _ _ _ H) as (ds & W). exists ds. split; auto. unfold validate in H. rewrite (validate_loop_eq s _ ds) in H by exact W. injection H as <-. cbn [failed_constraints warnings is_valid]. split; auto. split; auto. cbn [app].
  rewrite Nat.eqb_eq. unfold failing. rewrite map_length. generalize (results (a_constraints s) ds). clear. intros l. split.
  - intros H k r I S. apply length_zero_iff_nil in H. destruct (passed r) eqn:P; auto. exfalso. assert (X : In (k, r) (filter (fun kr => negb (passed (snd kr)) && String.eqb (c_severity (fst kr)) "error") l)) by (apply filter_In; split; auto; cbn; rewrite P, S; reflexivity). rewrite H in X. destruct X.
  - intros H. destruct (filter _ l) as [|[k r] f] eqn:E; auto. exfalso. assert (X : In (k, r) (filter (fun kr => negb (passed (snd kr)) && String.eqb (c_severity (fst kr)) "error") l)) by (rewrite E; left; auto). apply filter_In in X as [X Y]. apply andb_true_iff in Y as [Y1 Y2]. cbn in Y1, Y2. apply seqb in Y2. rewrite (H k r X Y2) in Y1. discriminate.
Qed.
Print Assumptions c218_verdict.
(** The recorded result of a name is that of the last constraint so named. *)
Theorem c218_recorded : forall s v ds, validate s = Done v -> worlds s (a_constraints s) ds ->
  forall n r, dget String.eqb n (constraint_results v) = Some r <-> exists l k l', results (a_constraints s) ds = l ++ (k, r) :: l' /\ c_name k = n /\ forall k' r', In (k', r') l' -> c_name k' <> n.
Proof.
  intros s v ds H W n r. unfold validate in H. rewrite (validate_loop_eq s _ ds) in H by exact W. injection H as <-. cbn [constraint_results]. rewrite record_last. cbn [dget]. generalize (results (a_constraints s) ds). clear. intros l. split.
  - intros H. rewrite <- (rev_involutive l). revert H. generalize (rev l). clear l. intros l. induction l as [|[k x] l IH]; cbn [find]; [discriminate|]. cbn [fst]. destruct (String.eqb n (c_name k)) eqn:E.
    + intros [= ->]. apply seqb in E. exists (rev l), k, []. cbn [rev]. split; auto.
    + intros H. destruct (IH H) as (a & k' & b & R & N & D). exists a, k', (b ++ [(k, x)]). cbn [rev]. rewrite R, <- app_assoc. split; auto. split; auto. intros k2 r2. rewrite in_app_iff. intros [I|[[= <- <-]|[]]]; [eapply D; eauto|]. intros F. rewrite F, String.eqb_refl in E. discriminate.
  - intros (a & k & b & -> & N & D). rewrite rev_app_distr. cbn [rev]. rewrite <- app_assoc. cbn [app].
    assert (F : forall l y, (forall k' r', In (k', r') l -> c_name k' <> n) -> find (fun kr : constraint * cresult => String.eqb n (c_name (fst kr))) (l ++ y) = find (fun kr => String.eqb n (c_name (fst kr))) y).
    { induction l as [|[k' x] l IH]; intros y H; cbn [app find fst]; auto. destruct (String.eqb n (c_name k')) eqn:E; [apply seqb in E; destruct (H k' x (or_introl eq_refl)); auto|]. apply IH. intros. eapply H. right; eauto. }
    rewrite F by (intros k' r' I; apply (D k' r'), in_rev, I). cbn [find fst]. rewrite <- N, String.eqb_refl. reflexivity.
Qed.
Print Assumptions c218_recorded.
Definition facing (name part : string) (dir : string) : constraint := Constraint name FACING part "top" None None (Some dir) None None 1 (1 / 10) "error".
Definition up : datum := Datum PLANE (mkv 0 0 0 1) None (Some (mkv 0 0 1 0)) None None None.
Example c218_nonvacuous : Forall placed (build ++ [SetTransform "base" (TMatrix (Translation (mkv 1 2 3 1) false))]).
Proof. unfold build. cbn [app]. do 5 (constructor; [exact I|]). constructor; [|constructor]. cbn. intros m [H|(r & H & _)]; [|discriminate]. injection H as <-. apply translation_rigid. Qed.

(** C219 (REFUTED).  A transform given as a numpy array, the documented form and the one every import stores, does not move anything. *)
Theorem c219_arrays_ignored : forall ops n d x r, find_datum (run ops) n d = Some x -> dget String.eqb n (a_transforms (run ops)) = Some (TArray r) ->
  exists w, get_transformed_datum (run ops) n d = Done w /\ origin w = origin x.
Proof.
  intros ops n d x r F T. unfold get_transformed_datum. rewrite F, T. cbn [as_Matrix]. change (mkmat eye false) with Matrix0. rewrite (transform_image Matrix0 x identity_rigid (c215_datums ops n d x F)). eexists. split; [reflexivity|].
  assert (O : origin (image Matrix0 x) = mulMV Matrix0 (origin x)) by (unfold image; destruct (datum_type x); reflexivity). rewrite O. destruct (origin x) as [a b c e]. unfold mulMV, Matrix0. cbn. unfold dot4. cbn. apply mkv_eq; ring.
Qed.
Print Assumptions c219_arrays_ignored.
Definition moved : rows := mkrows (mkv 1 0 0 10) (mkv 0 1 0 0) (mkv 0 0 1 0) (mkv 0 0 0 1).
Theorem c219_import_refuted : let s := run [NewPart "base"; AddDatum 0 "p" (pt 0 0 0); AddPart 0 None None; Import (JParts [("base", JRows moved)])] in
  mulMV (mkmat moved false) (mkv 0 0 0 1) = mkv 10 0 0 1 /\ exists w, get_transformed_datum s "base" "p" = Done w /\ vx (origin w) = 0.
Proof.
  cbn zeta. split; [unfold mulMV, moved; cbn; unfold dot4; cbn; apply mkv_eq; ring|].
  destruct (c219_arrays_ignored [NewPart "base"; AddDatum 0 "p" (pt 0 0 0); AddPart 0 None None; Import (JParts [("base", JRows moved)])] "base" "p" (pt 0 0 0) moved) as (w & E & O); [reflexivity|reflexivity|]. exists w. split; auto. rewrite O. reflexivity.
Qed.
Print Assumptions c219_import_refuted.

(** C220 (REFUTED).  validate_and_raise never raises AssemblyError for a failed constraint: it raises AttributeError. *)
Theorem c220_never_assembly_error : forall s v, validate s = Done v -> is_valid v = false -> validate_and_raise s = Raised AttributeErr.
Proof.
  intros s v H I. unfold validate_and_raise. rewrite H, I. destruct (c218_verdict s v H) as (ds & W & F & _ & Z).
  destruct (failed_constraints v) as [|f r] eqn:E.
  - exfalso. unfold validate in H. rewrite (validate_loop_eq s _ ds) in H by exact W. injection H as <-. cbn [is_valid failed_constraints app] in *. rewrite E in I. discriminate.
  - cbn [messages]. unfold cr_message. destruct (dget String.eqb f (constraint_results v)) eqn:D; [reflexivity|]. exfalso.
    assert (In f (failing "error" (results (a_constraints s) ds))) as IN by (rewrite <- F; left; auto). unfold failing in IN. apply in_map_iff in IN as ([k x] & N & X). apply filter_In in X as [X _]. cbn in N.
    unfold validate in H. rewrite (validate_loop_eq s _ ds) in H by exact W. injection H as <-. cbn [constraint_results] in D. rewrite record_last in D.
    destruct (find (fun kr => String.eqb f (c_name (fst kr))) (rev (results (a_constraints s) ds))) eqn:Q; [discriminate|]. apply (find_none _ _ Q) in X || (apply in_rev in X; apply (find_none _ _ Q) in X). cbn in X. rewrite N, String.eqb_refl in X. discriminate.
Qed.
Print Assumptions c220_never_assembly_error.
Theorem c220_passes : forall s v, validate s = Done v -> is_valid v = true -> validate_and_raise s = Done tt.
Proof. intros s v H I. unfold validate_and_raise. rewrite H, I. reflexivity. Qed.
Print Assumptions c220_passes.
Definition yes (n : string) (b : bool) : constraint := Constraint n CUSTOM "base" "p" None None None None (Some (fun _ => Some b)) 1 1 "error".
Definition two (n1 n2 : string) (b1 b2 : bool) : list op := [NewPart "base"; AddDatum 0 "p" (pt 0 0 0); AddPart 0 None None; AddConstraint (yes n1 b1); AddConstraint (yes n2 b2)].
Lemma two_eq n1 n2 b1 b2 : run (two n1 n2 b1 b2) = Asm [PartDef "base" [("p", pt 0 0 0)]] [("base", 0%nat)] [("base", TArray eye)] [] [yes n1 b1; yes n2 b2] [] [].
Proof. reflexivity. Qed.
Lemma two_validate n1 n2 b1 b2 : exists r1 r2, validate (run (two n1 n2 b1 b2)) = Done (VResult (Nat.eqb (length ((if b1 then [] else [n1]) ++ (if b2 then [] else [n2]))) 0) (dset String.eqb n2 r2 [(n1, r1)]) ((if b1 then [] else [n1]) ++ (if b2 then [] else [n2])) []) /\ passed r1 = b1 /\ passed r2 = b2.
Proof.
  rewrite two_eq. unfold validate. cbn [a_constraints validate_loop]. unfold get_transformed_datum. cbn [find_datum find_part c_part c_datum yes a_parts dget String.eqb Ascii.eqb Bool.eqb option_map part_at heap nth pd_datums a_transforms].
  destruct (transform (as_Matrix (TArray eye)) (pt 0 0 0)) as [w|] eqn:T; [|discriminate T]. cbn zeta. unfold evaluate, yes. cbn [c_type c_validator].
  destruct b1, b2; cbn; do 2 eexists; (split; [reflexivity|]); split; reflexivity.
Qed.
Theorem c220_documented_error_refuted : exists ops, (exists v, validate (run ops) = Done v /\ is_valid v = false /\ failed_constraints v = ["b"]) /\ validate_and_raise (run ops) = Raised AttributeErr.
Proof.
  exists (two "a" "b" true false). destruct (two_validate "a" "b" true false) as (r1 & r2 & E & _). split; [eexists; split; [exact E|]; split; reflexivity|]. eapply c220_never_assembly_error; [exact E|reflexivity].
Qed.
Print Assumptions c220_documented_error_refuted.

(** C221 (REFUTED).  Two constraints of the same name share one entry: a name can be listed as failed while its recorded result has passed. *)
Theorem c221_failed_means_failed_refuted : exists ops v r, validate (run ops) = Done v /\ In "a" (failed_constraints v) /\ dget String.eqb "a" (constraint_results v) = Some r /\ passed r = true.
Proof.
  exists (two "a" "a" false true). destruct (two_validate "a" "a" false true) as (r1 & r2 & E & P1 & P2). do 2 eexists. split; [exact E|]. cbn [failed_constraints constraint_results dset String.eqb Ascii.eqb Bool.eqb dget app]. split; [left; auto|]. split; [reflexivity|exact P2].
Qed.
Print Assumptions c221_failed_means_failed_refuted.

(** C222.  get_degrees_of_freedom, for assemblies mated only by COINCIDENT and CONCENTRIC: 6 less 3 and 2 for each such mate that names the part second, never below 0. *)
Theorem c222_value : forall ops d, get_degrees_of_freedom (run ops) = Done d -> keys d = keys (a_parts (run ops)) /\
  forall n x, dget String.eqb n d = Some x -> x = Z.max 0 (6 - 3 * count MCOINCIDENT n (a_mates (run ops)) - 2 * count MCONCENTRIC n (a_mates (run ops))).
Proof.
  intros ops d H. unfold get_degrees_of_freedom in H. pose proof (dof_done _ _ _ H) as [_ K]. rewrite keys_init in K. split; auto. intros n x X.
  eapply dof_value; [exact H| |exact X|lia]. apply get_init. rewrite <- K. apply (dget_some_key _ seqb). eauto.
Qed.
Print Assumptions c222_value.
Theorem c222_when : forall ops, (exists d, get_degrees_of_freedom (run ops) = Done d) <-> forall m, In m (a_mates (run ops)) -> mate_type m = MCOINCIDENT \/ mate_type m = MCONCENTRIC.
Proof.
  intros ops. split.
  - intros (d & H). apply (dof_done _ _ _ H).
  - intros H. apply dof_total. intros m I. split; auto. rewrite keys_init. destruct (c215_mates ops m I) as (_ & d2 & _ & F & _). apply part_known. unfold find_datum in F. destruct (find_part (run ops) (part_b m)); [eauto|discriminate].
Qed.
Print Assumptions c222_when.
Example c222_nonvacuous : exists d, get_degrees_of_freedom (run build) = Done d /\ dget String.eqb "wheel" d = Some 4%Z /\ dget String.eqb "base" d = Some 6%Z.
Proof. rewrite build_eq. eexists. split; [reflexivity|]. split; reflexivity. Qed.
(** C224 (REFUTED).  With any other type of mate, REVOLUTE and RIGID among them, it raises AttributeError. *)
Theorem c224_other_mates : forall ops m, In m (a_mates (run ops)) -> mate_type m <> MCOINCIDENT -> mate_type m <> MCONCENTRIC -> get_degrees_of_freedom (run ops) = Raised AttributeErr.
Proof.
  intros ops m I A B. apply dof_raises; [|eauto]. intros m' I'. rewrite keys_init. destruct (c215_mates ops m' I') as (_ & d2 & _ & F & _). apply part_known. unfold find_datum in F. destruct (find_part (run ops) (part_b m')); [eauto|discriminate].
Qed.
Print Assumptions c224_other_mates.
Theorem c224_total_refuted : exists ops, (exists m, In m (a_mates (run ops)) /\ mate_type m = MREVOLUTE) /\ get_degrees_of_freedom (run ops) = Raised AttributeErr.
Proof.
  set (m := Mate "hinge" MREVOLUTE "base" "shaft" "wheel" "shaft" 0 0 [0; 0; 1; 0] [1; 0; 0; 0] None None 1 0 false None []).
  exists (build ++ [AddMate m]). assert (I : In m (a_mates (run (build ++ [AddMate m])))). { unfold run. rewrite fold_left_app. change (fold_left (fun s o => fst (step s o)) build empty) with (run build). rewrite build_eq. cbn. auto. }
  split; [exists m; split; [exact I|reflexivity]|]. apply (c224_other_mates _ m I); discriminate.
Qed.
Print Assumptions c224_total_refuted.

(** C223.  Importing a document (whose part names are distinct, as JSON object keys are once read): accepted exactly when every part it shares with the assembly has a transform of the right shape; then those parts, and no others, get them. *)
Theorem c223_accepted : forall s l, snd (import_transforms s (JParts l)) = None <-> forall n e, In (n, e) l -> (exists p, find_part s n = Some p) -> exists m, e = JRows m.
Proof.
  intros s l. cbn [import_transforms]. assert (E : snd (import_loop s l) = None <-> exists s', import_loop s l = (s', None)). { destruct (import_loop s l) as [s' [e|]]; cbn; split; eauto; try discriminate. intros (x & H); discriminate. }
  rewrite E, import_ok. split; intros H n e I P; apply (H n e I); apply part_known; auto.
Qed.
Print Assumptions c223_accepted.
Theorem c223_effect : forall s l, NoDup (map fst l) -> snd (import_transforms s (JParts l)) = None -> let s' := fst (import_transforms s (JParts l)) in
  (forall n m p, In (n, JRows m) l -> find_part s n = Some p -> dget String.eqb n (a_transforms s') = Some (TArray m)) /\
  (forall n, ~ In n (map fst l) \/ find_part s n = None -> dget String.eqb n (a_transforms s') = dget String.eqb n (a_transforms s)) /\
  a_parts s' = a_parts s /\ a_mates s' = a_mates s /\ a_constraints s' = a_constraints s.
Proof.
  intros s l N H. cbn [import_transforms] in *. destruct (import_loop s l) as [s' e] eqn:E. cbn in H. subst e. cbn zeta. cbn [fst]. split.
  - intros n m p I F. destruct (import_good l s s' N E n) as [A _]. destruct (A _ I) as (m' & [= <-] & D); [apply part_known; eauto|exact D].
  - split.
    + intros n D. destruct (import_good l s s' N E n) as [_ B]. apply B. destruct D as [D|D]; auto. right. rewrite part_known. intros (p & P). congruence.
    + destruct (import_same l s) as (_ & A & B & C & _). rewrite E in A, B, C. auto.
Qed.
Print Assumptions c223_effect.
Example c223_nonvacuous : snd (import_transforms (run build) (JParts [("base", JRows moved); ("other", JMissing)])) = None.
Proof. rewrite build_eq. reflexivity. Qed.
(** C225 (REFUTED).  An import that raises has already replaced the transforms of the parts before the faulty one; and part names the assembly does not have raise nothing. *)
Theorem c225_failed_import_refuted : exists l, snd (import_transforms (run build) (JParts l)) = Some AssemblyError /\
  dget String.eqb "base" (a_transforms (run build)) = Some (TArray eye) /\ dget String.eqb "base" (a_transforms (fst (import_transforms (run build) (JParts l)))) = Some (TArray moved).
Proof. exists [("base", JRows moved); ("wheel", JMissing)]. rewrite build_eq. repeat split. Qed.
Print Assumptions c225_failed_import_refuted.
Theorem c225_unknown_names_refuted : forall s l, (forall n e, In (n, e) l -> find_part s n = None) -> import_transforms s (JParts l) = (s, None).
Proof.
  intros s l H. cbn [import_transforms]. induction l as [|[n e] l IH]; cbn [import_loop]; [reflexivity|]. assert (M : dmem String.eqb n (a_parts s) = false).
  { apply not_true_iff_false. intros M. apply (dmem_in _ seqb), part_known in M as (p & P). rewrite (H n e (or_introl eq_refl)) in P. discriminate. }
  rewrite M. apply IH. intros n' e' I. apply (H n' e'). right; auto.
Qed.
Print Assumptions c225_unknown_names_refuted.
