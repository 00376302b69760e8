(** Properties of mates (assembly/mate.py). *)
From Coq Require Import Reals String List Bool ZArith Lra Lia Psatz.
From Verif Require Import Dict Xform_Model Xform_Proofs Datum_Model Datum_Spec Datum_Proofs Constr_Model Constr_Spec Constr_Proofs Mate_Model Mate_Spec Mate_Proofs.
Import ListNotations.
Open Scope string_scope.
Open Scope R_scope.
Open Scope list_scope.

Definition sample_limits : limits := MateLimits (Some (-1)) (Some 1) None (Some 2) None (Some 5) None None 1000000 1000 0.
Definition sample : mate := Mate "shoulder" MREVOLUTE "base" "axis" "arm" "hub" 0 0 [0; 0; 1; 0] [1; 0; 0; 0] (Some sample_limits) None 1 0 false None [].

(** C205.  A mate is satisfied exactly when the position is within its limits; the error is how far it is from the nearest allowed position. *)
Theorem c205_satisfied : forall m l p vel eff, m_limits m = Some l ->
  (satisfied (mate_evaluate m (Some p) vel eff) = true <-> within (min_value l) (max_value l) p).
Proof.
  intros m l p vel eff L. rewrite within_iff, (eval_eq m l) by exact L. cbn [satisfied]. rewrite andb_true_iff, !negb_true_iff. reflexivity.
Qed.
Print Assumptions c205_satisfied.
Theorem c205_error : forall m l p vel eff, m_limits m = Some l -> (exists q, within (min_value l) (max_value l) q) ->
  let e := m_error (mate_evaluate m (Some p) vel eff) in
  (exists q, within (min_value l) (max_value l) q /\ Rabs (p - q) = e) /\ forall q, within (min_value l) (max_value l) q -> e <= Rabs (p - q).
Proof.
  intros m l p vel eff L (q0 & Q0). cbn zeta.
  rewrite (eval_eq m l) by exact L. cbn [m_error]. destruct (below p (min_value l)) eqn:B.
  - apply below_iff in B as (b & Eb & Lb). assert (A : above p (max_value l) = false).
    { apply not_true_iff_false. intros A. apply above_iff in A as (h & Eh & Lh). destruct Q0 as [Q1 Q2]. specialize (Q1 _ Eb). specialize (Q2 _ Eh). lra. }
    rewrite A. replace (theval (min_value l)) with b by (rewrite Eb; reflexivity). split.
    + exists b. split. { destruct Q0 as [Q1 Q2]. split; intros x Ex; [rewrite Eb in Ex; injection Ex as <-; lra|]. specialize (Q1 _ Eb). specialize (Q2 _ Ex). lra. }
      rewrite (Rabs_minus_sym p b). ring.
    + intros q [Q1 _]. specialize (Q1 _ Eb). rewrite (Rabs_minus_sym p q), !Rabs_right by lra. lra.
  - destruct (above p (max_value l)) eqn:A.
    + apply above_iff in A as (h & Eh & Lh). replace (theval (max_value l)) with h by (rewrite Eh; reflexivity). split.
      * exists h. split. { destruct Q0 as [Q1 Q2]. split; intros x Ex; [|rewrite Eh in Ex; injection Ex as <-; lra]. specialize (Q1 _ Ex). specialize (Q2 _ Eh). lra. } ring.
      * intros q [_ Q2]. specialize (Q2 _ Eh). rewrite !Rabs_right by lra. lra.
    + split; [|intros q _; pose proof (Rabs_pos (p - q)); lra]. exists p. split; [apply within_iff; auto|]. rewrite Rminus_diag_eq, Rabs_R0 by auto. ring.
Qed.
Print Assumptions c205_error.
(** The violations listed are the limits broken, each once. *)
Theorem c205_violations : forall m l pos vel eff, m_limits m = Some l ->
  NoDup (limit_violations (mate_evaluate m pos vel eff)) /\
  forall v, In v (limit_violations (mate_evaluate m pos vel eff)) <-> broken l pos vel eff v.
Proof.
  intros m l pos vel eff L.
  rewrite (eval_eq m l) by exact L. cbn [limit_violations]. split.
  - repeat apply nodup_app; try (apply nodup_twov; discriminate); intros x; rewrite ?in_app_iff, !in_twov; intuition congruence.
  - intros v. rewrite !in_app_iff, !in_twov. destruct v; cbn [broken]; intuition discriminate.
Qed.
Print Assumptions c205_violations.
Theorem c205_unlimited : forall m pos vel eff, m_limits m = None \/ pos = None ->
  satisfied (mate_evaluate m pos vel eff) = true /\ m_error (mate_evaluate m pos vel eff) = 0 /\ (m_limits m = None -> limit_violations (mate_evaluate m pos vel eff) = []).
Proof.
  intros m pos vel eff H. destruct (m_limits m) as [l|] eqn:L; [|rewrite !eval_none by exact L; auto]. destruct H as [H| ->]; [discriminate|].
  rewrite (eval_eq m l) by exact L. cbn. repeat split; discriminate.
Qed.
Print Assumptions c205_unlimited.
Example c205_nonvacuous : m_limits sample = Some sample_limits /\ within (min_value sample_limits) (max_value sample_limits) 0 /\ ~ within (min_value sample_limits) (max_value sample_limits) 3.
Proof.
  split; [reflexivity|]. unfold within, sample_limits. cbn [min_value max_value]. split.
  - split; intros x [= <-]; lra.
  - intros [_ H]. specialize (H 1 eq_refl). lra.
Qed.

(** C206 (REFUTED).  A broken velocity or effort limit never makes a mate unsatisfied. *)
Theorem c206_rates_unchecked : forall m pos vel eff, satisfied (mate_evaluate m pos vel eff) = satisfied (mate_evaluate m pos None None) /\
  m_error (mate_evaluate m pos vel eff) = m_error (mate_evaluate m pos None None).
Proof.
  intros. destruct (m_limits m) as [l|] eqn:L; [|rewrite !eval_none by exact L; auto]. rewrite !(eval_eq m l) by exact L. auto.
Qed.
Print Assumptions c206_rates_unchecked.
Theorem c206_satisfied_means_no_violation_refuted : ~ (forall m pos vel eff, satisfied (mate_evaluate m pos vel eff) = true -> limit_violations (mate_evaluate m pos vel eff) = []).
Proof.
  intros H. specialize (H sample (Some 0) (Some 3) None). pose proof (c205_satisfied sample sample_limits 0 (Some 3) None eq_refl) as [_ S].
  pose proof c205_nonvacuous as (_ & W & _). specialize (H (S W)). pose proof (c205_violations sample sample_limits (Some 0) (Some 3) None eq_refl) as [_ V].
  specialize (V Vmax_velocity). rewrite H in V. destruct V as [_ V]. destruct V. exists 3, 2. rewrite Rabs_right by lra. repeat split; lra.
Qed.
Print Assumptions c206_satisfied_means_no_violation_refuted.

(** C207.  A mate survives to_dict and from_dict. *)
Theorem c207_round_trip : forall m, mate_from_dict (mate_to_dict m) = Some m.
Proof.
  intros [nm t pa da pb db off an ax sx lim dyn cr co rv pt md]. unfold mate_from_dict, mate_to_dict. cbn -[mtype_of mtype_value].
  rewrite mtype_round. cbn [obnd]. destruct lim as [[]|], dyn as [[]|], pt as [p|]; reflexivity.
Qed.
Print Assumptions c207_round_trip.
(** What a document may leave out: everything except the name, the type, the two parts and the two datums. *)
Theorem c207_minimal : forall nm t pa da pb db,
  mate_from_dict [("name", MStr nm); ("mate_type", MStr (mtype_value t)); ("part_a", MStr pa); ("datum_a", MStr da); ("part_b", MStr pb); ("datum_b", MStr db)]
  = Some (Mate nm t pa da pb db 0 0 [0; 0; 1; 0] [1; 0; 0; 0] None None 1 0 false None []).
Proof. intros. unfold mate_from_dict. cbn -[mtype_of mtype_value]. rewrite mtype_round. reflexivity. Qed.
Print Assumptions c207_minimal.
Theorem c207_required : forall d k, In k ["name"; "mate_type"; "part_a"; "datum_a"; "part_b"; "datum_b"] -> dget String.eqb k d = None -> mate_from_dict d = None.
Proof.
  intros d k K N. assert (E : getstr d k = None) by (unfold getstr; rewrite N; reflexivity).
  assert (OB : forall A B (o : option A) (f : A -> option B), (forall a, f a = None) -> obnd o f = None) by (intros A B [a|] f F; cbn; auto).
  unfold mate_from_dict. cbn [In] in K.
  repeat (destruct K as [<- |K]; [repeat (first [rewrite E; reflexivity | apply OB; intros])|]). destruct K.
Qed.
Print Assumptions c207_required.
Theorem c207_unknown_type : forall d s, getstr d "mate_type" = Some s -> (forall t, mtype_value t <> s) -> mate_from_dict d = None.
Proof.
  intros d s E N. unfold mate_from_dict. rewrite E. cbn [obnd]. destruct (mtype_of s) as [t|] eqn:F; [|reflexivity].
  unfold mtype_of in F. apply find_some in F as [_ F]. apply String.eqb_eq in F. destruct (N t F).
Qed.
Print Assumptions c207_unknown_type.
Example c207_nonvacuous : forall t, mtype_value t <> "welded".
Proof. intros []; discriminate. Qed.

(** C208 (REFUTED).  degrees_of_freedom is documented as a number from 0 to 6; it is -1 for three types of mate. *)
Theorem c208_range : forall m, (-1 <= mate_dof m <= 6)%Z /\ (mate_dof m = -1 <-> mate_type m = MGEAR \/ mate_type m = MRACK_PINION \/ mate_type m = MCAM)%Z.
Proof. intros m. unfold mate_dof. destruct (mate_type m); (split; [lia|]); split; intros H; auto; try discriminate H; try lia; destruct H as [H|[H|H]]; discriminate H. Qed.
Print Assumptions c208_range.
Theorem c208_zero_to_six_refuted : ~ (forall m, 0 <= mate_dof m <= 6)%Z.
Proof. intros H. specialize (H (Mate "g" MGEAR "a" "x" "b" "y" 0 0 [] [] None None 3 0 false None [])). cbn in H. lia. Qed.
Print Assumptions c208_zero_to_six_refuted.

(** C209.  Coupled motion. *)
Theorem c209_who : forall m x, (exists y, compute_coupled_motion m x = Some y) <-> In (mate_type m) [MGEAR; MRACK_PINION; MCAM; MSCREW].
Proof.
  intros m x. unfold compute_coupled_motion, is_coupled. destruct (mate_type m); cbn [In]; split; intros H; auto 6; try (destruct H as (y & H); discriminate H); try (destruct (coupling_pitch m); eauto);
    try (eexists; reflexivity); repeat (destruct H as [H|H]; [discriminate H|]); destruct H.
Qed.
Print Assumptions c209_who.
Theorem c209_ratio : forall m x, In (mate_type m) [MGEAR; MRACK_PINION; MCAM] \/ (mate_type m = MSCREW /\ coupling_pitch m = None) ->
  compute_coupled_motion m x = Some ((if coupling_reverse m then -1 else 1) * (coupling_ratio m * x + coupling_offset m)).
Proof.
  intros m x H. unfold compute_coupled_motion, is_coupled. destruct H as [H|[-> ->]].
  - destruct H as [<- |[<- |[<- |[]]]]; destruct (coupling_reverse m); f_equal; ring.
  - destruct (coupling_reverse m); f_equal; ring.
Qed.
Print Assumptions c209_ratio.
Theorem c209_screw_turn : forall m p x, mate_type m = MSCREW -> coupling_pitch m = Some p ->
  exists a b, compute_coupled_motion m x = Some a /\ compute_coupled_motion m (x + 2 * PI) = Some b /\ b - a = p.
Proof.
  intros m p x T P. unfold compute_coupled_motion, is_coupled. rewrite T, P. eexists. eexists. split; [reflexivity|]. split; [reflexivity|]. pose proof PI_RGT_0. field. lra.
Qed.
Print Assumptions c209_screw_turn.
(** Two gears of inverse ratio in a train give back the motion of the first (offsets zero, both reversing or neither). *)
Theorem c209_idler : forall m m' x y, In (mate_type m) [MGEAR; MRACK_PINION; MCAM] -> In (mate_type m') [MGEAR; MRACK_PINION; MCAM] ->
  coupling_ratio m * coupling_ratio m' = 1 -> coupling_offset m = 0 -> coupling_offset m' = 0 -> coupling_reverse m = coupling_reverse m' ->
  compute_coupled_motion m x = Some y -> compute_coupled_motion m' y = Some x.
Proof.
  intros m m' x y T T' R O O' V E. rewrite c209_ratio in E by auto. rewrite c209_ratio by auto. rewrite <- V. rewrite O in E. rewrite O'. assert (y = (if coupling_reverse m then -1 else 1) * (coupling_ratio m * x + 0)) by congruence. subst y. f_equal.
  replace x with ((coupling_ratio m * coupling_ratio m') * x) at 2 by (rewrite R; ring). destruct (coupling_reverse m); ring.
Qed.
Print Assumptions c209_idler.
Definition gear (ratio : R) (rev : bool) : mate := Mate "g" MGEAR "a" "x" "b" "y" 0 0 [] [] None None ratio 0 rev None [].
Example c209_nonvacuous : compute_coupled_motion (gear 3 true) 1 = Some (-(3)) /\ compute_coupled_motion (gear (/ 3) true) (-(3)) = Some 1.
Proof. unfold compute_coupled_motion. cbn. split; f_equal; field. Qed.

(** C210 (REFUTED).  Half a turn of the documented 2 mm screw moves 1 mm, not 2; and a screw given a pitch ignores coupling_reverse and coupling_offset. *)
Definition screw (off : R) (rev : bool) : mate := Mate "s" MSCREW "a" "x" "b" "y" 0 0 [] [] None None 1 off rev (Some 2) [].
Theorem c210_documented_screw_refuted : compute_coupled_motion (screw 0 false) PI = Some 1 /\ compute_coupled_motion (screw 0 false) PI <> Some 2.
Proof.
  assert (E : compute_coupled_motion (screw 0 false) PI = Some 1). { unfold compute_coupled_motion, screw. cbn. f_equal. pose proof PI_RGT_0. field. lra. }
  rewrite E. split; [reflexivity|]. intros H. assert (1 = 2) by congruence. lra.
Qed.
Print Assumptions c210_documented_screw_refuted.
Theorem c210_screw_reverse_ignored : forall m m' p x, mate_type m = MSCREW -> mate_type m' = MSCREW -> coupling_pitch m = Some p -> coupling_pitch m' = Some p ->
  compute_coupled_motion m x = compute_coupled_motion m' x.
Proof. intros m m' p x T T' P P'. unfold compute_coupled_motion, is_coupled. rewrite T, T', P, P'. reflexivity. Qed.
Print Assumptions c210_screw_reverse_ignored.
Theorem c210_reverse_refuted : ~ (forall m m' x y, mate_type m = mate_type m' -> coupling_ratio m = coupling_ratio m' -> coupling_offset m = coupling_offset m' -> coupling_pitch m = coupling_pitch m' ->
  coupling_reverse m = false -> coupling_reverse m' = true -> compute_coupled_motion m x = Some y -> compute_coupled_motion m' x = Some (- y)).
Proof.
  intros H. pose proof (proj1 c210_documented_screw_refuted) as E. specialize (H (screw 0 false) (screw 0 true) PI 1 eq_refl eq_refl eq_refl eq_refl eq_refl eq_refl E).
  rewrite (c210_screw_reverse_ignored (screw 0 true) (screw 0 false) 2 PI eq_refl eq_refl eq_refl eq_refl), E in H. injection H. lra.
Qed.
Print Assumptions c210_reverse_refuted.

(** C211.  Coincidence of datums: the error is the distance to the nearest point, and directions must be aligned. *)
Theorem c211_distance : forall a b tm td, valid a -> same_kind a b -> nearest (points a) (origin b) (error_distance (evaluate_coincident a b tm td)).
Proof. exact coinc_distance. Qed.
Print Assumptions c211_distance.
Theorem c211_point_on_plane : forall a b tm td, valid b -> datum_type a = POINT -> datum_type b = PLANE -> nearest (points b) (origin a) (error_distance (evaluate_coincident a b tm td)).
Proof.
  intros a b tm td V A B. pose proof (coinc_distance b a tm td V (or_intror (conj B A))) as H. unfold evaluate_coincident in *. rewrite A, B in *. exact H.
Qed.
Print Assumptions c211_point_on_plane.
Theorem c211_unique : forall S p e e', nearest S p e -> nearest S p e' -> e = e'.
Proof. exact nearest_unique. Qed.
Print Assumptions c211_unique.
(** Planes, axes and circles: near and aligned. *)
Theorem c211_aligned : forall a b tm td u v, valid a -> valid b -> datum_type a = datum_type b -> heading a u -> heading b v ->
  (co_satisfied (evaluate_coincident a b tm td) = true <-> error_distance (evaluate_coincident a b tm td) <= tm /\ aligned u v td).
Proof. exact coinc_angle. Qed.
Print Assumptions c211_aligned.
(** Everything else: near. *)
Theorem c211_near : forall a b tm td, valid a -> valid b -> datum_type a <> datum_type b \/ datum_type a = POINT \/ datum_type a = FRAME ->
  (co_satisfied (evaluate_coincident a b tm td) = true <-> error_distance (evaluate_coincident a b tm td) <= tm).
Proof.
  intros a b tm td Va Vb H. apply valid_cases in Va as [_ Va]. apply valid_cases in Vb as [_ Vb]. unfold evaluate_coincident.
  destruct (datum_type a) eqn:A, (datum_type b) eqn:B; cbn [co_satisfied error_distance]; rewrite ?rleb_iff; try reflexivity; try (exfalso; destruct H as [H|[H|H]]; congruence).
  - destruct Vb as (y & Ey & _ & Zy). apply nz in Zy. rewrite Ey. cbn [ovec]. rewrite plane_dist_eq by exact Zy. cbn [nle nshow]. rewrite rleb_iff. reflexivity.
  - destruct Va as (y & Ey & _ & Zy). apply nz in Zy. rewrite Ey. cbn [ovec]. rewrite plane_dist_eq by exact Zy. cbn [nle nshow]. rewrite rleb_iff. reflexivity.
Qed.
Print Assumptions c211_near.
(** Moving both datums by the same rigid motion changes nothing. *)
Theorem c211_moves : forall m a b a' b' tm td, rigid m -> valid a -> valid b -> transform m a = Some a' -> transform m b = Some b' -> evaluate_coincident a' b' tm td = evaluate_coincident a b tm td.
Proof.
  intros m a b a' b' tm td Rm Va Vb Ea Eb. rewrite transform_image in Ea, Eb by auto. assert (a' = image m a) by congruence. assert (b' = image m b) by congruence. subst. apply coinc_moves; auto.
Qed.
Print Assumptions c211_moves.

Definition flat (o n : vec) : datum := Datum PLANE o None (Some n) None None None.
Lemma flat_valid o n : vw o = 1 -> vw n = 0 -> mag n = 1 -> valid (flat o n).
Proof.
  intros O N M. exists (flat o n). unfold post_init, flat. cbn [datum_type normal origin direction x_axis y_axis radius]. rewrite as_dir_id, as_point_id by auto.
  unfold zero_length. rewrite M. replace (Rltb 1 epsilon) with false by (symmetry; apply Rltb_false; unfold epsilon; lra). reflexivity.
Qed.
Lemma mag1 x y z w : x * x + y * y + z * z = 1 -> mag (mkv x y z w) = 1.
Proof. intros E. unfold mag. cbn [vx vy vz]. rewrite E. apply sqrt_1. Qed.
Example c211_nonvacuous : valid (flat (mkv 0 0 0 1) (mkv 0 0 1 0)) /\ heading (flat (mkv 0 0 0 1) (mkv 0 0 1 0)) (mkv 0 0 1 0) /\ rigid (Translation (mkv 1 2 3 1) false).
Proof. split; [apply flat_valid; auto; apply mag1; ring|]. split; [reflexivity|apply translation_rigid]. Qed.

(** C212 (REFUTED).  Coincidence of two planes depends on which is given first. *)
Definition deg1 : R := 1 * PI / 180.
Lemma deg1_range : 0 < deg1 < PI / 2. Proof. unfold deg1. pose proof PI_RGT_0. lra. Qed.
Definition plane1 : datum := flat (mkv 0 0 0 1) (mkv 0 0 1 0).
Definition plane2 : datum := flat (mkv (1 / sin deg1) 0 0 1) (mkv (sin deg1) 0 (cos deg1) 0).
Theorem c212_symmetric_refuted : valid plane1 /\ valid plane2 /\
  co_satisfied (evaluate_coincident plane1 plane2 (1 / 10) 1) = true /\ co_satisfied (evaluate_coincident plane2 plane1 (1 / 10) 1) = false.
Proof.
  pose proof deg1_range as D. assert (S : 0 < sin deg1) by (apply sin_gt_0; lra).
  assert (M1 : mag (mkv 0 0 1 0) = 1) by (apply mag1; ring).
  assert (M2 : mag (mkv (sin deg1) 0 (cos deg1) 0) = 1) by (apply mag1; pose proof (sin2_cos2 deg1) as P; unfold Rsqr in P; lra).
  assert (V1 : valid plane1) by (apply flat_valid; auto). assert (V2 : valid plane2) by (apply flat_valid; auto).
  split; auto. split; auto. split.
  - apply (proj2 (c211_aligned plane1 plane2 (1 / 10) 1 (mkv 0 0 1 0) (mkv (sin deg1) 0 (cos deg1) 0) V1 V2 eq_refl eq_refl eq_refl)). split.
    + unfold evaluate_coincident, plane1, plane2, flat. cbn [datum_type normal origin ovec error_distance]. rewrite plane_dist_eq by lra. cbn [nshow]. unfold dot, sub. cbn [vx vy vz].
      replace (0 * (1 / sin deg1 - 0) + 0 * (0 - 0) + 1 * (0 - 0)) with 0 by ring. rewrite Rabs_R0, M1. lra.
    + exists 1. split; [|left; lra]. unfold angle. split; [lra|]. rewrite M1, M2. fold deg1. unfold dot. cbn [vx vy vz]. ring.
  - apply not_true_iff_false. intros H.
    apply (proj1 (c211_aligned plane2 plane1 (1 / 10) 1 (mkv (sin deg1) 0 (cos deg1) 0) (mkv 0 0 1 0) V2 V1 eq_refl eq_refl eq_refl)) in H as [H _].
    unfold evaluate_coincident, plane1, plane2, flat in H. cbn [datum_type normal origin ovec error_distance] in H. rewrite plane_dist_eq in H by lra. cbn [nshow] in H. unfold dot, sub in H. cbn [vx vy vz] in H.
    replace (sin deg1 * (0 - 1 / sin deg1) + 0 * (0 - 0) + cos deg1 * (0 - 0)) with (-1) in H by (field; lra). rewrite M2, (Rabs_left (-1)) in H by lra. lra.
Qed.
Print Assumptions c212_symmetric_refuted.

(** C213.  Bolt circles. *)
Theorem c213_refused : forall a b n tol off, datum_type a <> CIRCLE \/ datum_type b <> CIRCLE -> exists r, check_bolt_circle_alignment a b n tol off = Some r /\ co_satisfied r = false.
Proof. intros a b n tol off H. unfold check_bolt_circle_alignment. destruct (datum_type a), (datum_type b); eauto. destruct H as [H|H]; destruct H; reflexivity. Qed.
Print Assumptions c213_refused.
(** An accepted pair of circles: centres, axes and radii agree and every hole is within the tolerance of its partner. *)
Theorem c213_sound : forall a b n tol off ra rb na nb r, valid a -> valid b -> datum_type a = CIRCLE -> datum_type b = CIRCLE -> radius a = Some ra -> radius b = Some rb -> normal a = Some na -> normal b = Some nb ->
  check_bolt_circle_alignment a b n tol off = Some r -> co_satisfied r = true ->
  dist (origin b) (origin a) <= tol /\ aligned na nb 1 /\ Rabs (ra - rb) <= tol /\
  exists u v, dot u u = 1 /\ dot v v = 1 /\ dot u v = 0 /\
    forall i, (i < n)%nat -> dist (nth_hole (origin b) rb u v n off i) (nth_hole (origin a) ra u v n 0 i) <= tol.
Proof.
  intros a b n tol off ra rb na nb r Va Vb Ta Tb Ra Rb Na Nb E S. unfold check_bolt_circle_alignment in E. rewrite Ta, Tb, Ra, Rb in E. cbn zeta in E. cbn [theval] in E.
  destruct (co_satisfied (evaluate_coincident a b tol 1)) eqn:C; cbn [negb] in E; [|injection E as <-; congruence].
  assert (K : datum_type a = datum_type b) by congruence. assert (Ha : heading a na) by (unfold heading; rewrite Ta; exact Na). assert (Hb : heading b nb) by (unfold heading; rewrite Tb; exact Nb).
  apply (proj1 (c211_aligned a b tol 1 na nb Va Vb K Ha Hb)) in C as [C1 C2].
  destruct (Rltb tol (Rabs (ra - rb))) eqn:L; [injection E as <-; discriminate S|]. apply Rltb_false in L. destruct (Nat.eqb n 0); [discriminate|]. injection E as <-. cbn [co_satisfied] in S. apply rleb_iff in S. apply fold_max_le in S as [_ S].
  split. { unfold evaluate_coincident in C1. rewrite Ta, Tb in C1. exact C1. } split; auto. split; [lra|].
  pose proof (valid_cases a Va) as [_ Ca]. rewrite Ta in Ca. destruct Ca as (x & rx & Ex & _ & Zx & _). rewrite Na in Ex. injection Ex as <-. apply nz in Zx. apply mag_pos in Zx.
  pose proof (basis_ortho na Zx) as B. destruct (circle_basis na) as (u, v) eqn:UV. destruct B as (U & V & D). exists u, v. split; auto. split; auto. split; auto.
  intros i I. rewrite Forall_forall in S. assert (HI : In (hole_error a b ra rb n off i) (map (hole_error a b ra rb n off) (seq 0 n))) by (apply in_map, in_seq; lia). specialize (S _ HI).
  refine (Rle_trans _ _ _ (Req_le _ _ _) S). unfold hole_error. rewrite Na. cbn [ovec]. rewrite UV. cbn zeta. unfold dist.
  unfold nth_hole, hole. f_equal. f_equal; apply mkv_eq; auto; unfold radians; replace ((INR i * 360 / INR n + off) * PI / 180) with (INR i * (360 / INR n) * PI / 180 + off * PI / 180) by (unfold Rdiv; ring); replace ((INR i * 360 / INR n + 0) * PI / 180) with (INR i * (360 / INR n) * PI / 180) by (unfold Rdiv; ring); reflexivity.
Qed.
Print Assumptions c213_sound.
(** Without an offset, circles of equal radius are aligned exactly when they are coincident; of different radii, when the slack leaves room for the difference. *)
Theorem c213_plain : forall a b n tol, valid a -> valid b -> datum_type a = CIRCLE -> datum_type b = CIRCLE -> (0 < n)%nat -> radius a = radius b -> 0 <= tol ->
  exists r, check_bolt_circle_alignment a b n tol 0 = Some r /\ co_satisfied r = co_satisfied (evaluate_coincident a b tol 1).
Proof.
  intros a b n tol Va Vb Ta Tb N Rr P. unfold check_bolt_circle_alignment. rewrite Ta, Tb. cbn zeta. destruct (co_satisfied (evaluate_coincident a b tol 1)) eqn:C; cbn [negb]; [|eauto].
  rewrite Rr, Rminus_diag_eq, Rabs_R0 by auto. replace (Rltb tol 0) with false by (symmetry; apply Rltb_false; lra). replace (Nat.eqb n 0) with false by (symmetry; apply Nat.eqb_neq; lia).
  eexists. split; [reflexivity|]. cbn [co_satisfied]. apply rleb_iff. pose proof (valid_cases a Va) as [_ Ca]. rewrite Ta in Ca. destruct Ca as (x & rx & Ex & _ & Zx & _). apply nz in Zx. apply mag_pos in Zx.
  apply fold_max_le. split; auto. apply Forall_forall. intros y Y. apply in_map_iff in Y as (i & <- & _). pose proof (hole_error_zero a b (theval (radius b)) (theval (radius b)) n i) as H. rewrite Ex in H. cbn [ovec] in H. destruct (H Zx) as [_ ->]; auto.
  unfold evaluate_coincident in C. rewrite Ta, Tb in C. cbn [co_satisfied] in C. apply andb_true_iff in C as [C _]. apply rleb_iff in C. exact C.
Qed.
Print Assumptions c213_plain.
Theorem c213_slack : forall a b n tol ra rb, valid a -> valid b -> datum_type a = CIRCLE -> datum_type b = CIRCLE -> (0 < n)%nat -> radius a = Some ra -> radius b = Some rb ->
  co_satisfied (evaluate_coincident a b tol 1) = true -> dist (origin b) (origin a) + Rabs (rb - ra) <= tol ->
  exists r, check_bolt_circle_alignment a b n tol 0 = Some r /\ co_satisfied r = true.
Proof.
  intros a b n tol ra rb Va Vb Ta Tb N Ra Rb C P. unfold check_bolt_circle_alignment. rewrite Ta, Tb, C, Ra, Rb. cbn [negb theval]. pose proof (mag_nn (sub (origin b) (origin a))) as Q. unfold dist in P. pose proof (Rabs_pos (rb - ra)).
  rewrite (Rabs_minus_sym ra rb). replace (Rltb tol (Rabs (rb - ra))) with false by (symmetry; apply Rltb_false; lra). replace (Nat.eqb n 0) with false by (symmetry; apply Nat.eqb_neq; lia).
  eexists. split; [reflexivity|]. cbn [co_satisfied]. apply rleb_iff. pose proof (valid_cases a Va) as [_ Ca]. rewrite Ta in Ca. destruct Ca as (x & rx & Ex & _ & Zx & _). apply nz in Zx. apply mag_pos in Zx.
  apply fold_max_le. split; [lra|]. apply Forall_forall. intros y Y. apply in_map_iff in Y as (i & <- & _). pose proof (hole_error_zero a b ra rb n i) as H0. rewrite Ex in H0. cbn [ovec] in H0. destruct (H0 Zx) as [H1 _]. lra.
Qed.
Print Assumptions c213_slack.

Definition ring4 : datum := Datum CIRCLE (mkv 0 0 0 1) None (Some (mkv 0 0 1 0)) None None (Some 8).
Lemma ring4_valid : valid ring4.
Proof.
  exists ring4. unfold post_init, ring4. cbn [datum_type normal origin direction x_axis y_axis radius]. rewrite as_dir_id, as_point_id by auto. unfold zero_length. rewrite mag1 by ring.
  replace (Rltb 1 epsilon) with false by (symmetry; apply Rltb_false; unfold epsilon; lra). replace (Rleb 8 0) with false; [reflexivity|]. symmetry. apply not_true_iff_false. rewrite rleb_iff. lra.
Qed.
Lemma ring4_self tol : 0 <= tol -> co_satisfied (evaluate_coincident ring4 ring4 tol 1) = true.
Proof.
  intros P. apply (proj2 (c211_aligned ring4 ring4 tol 1 (mkv 0 0 1 0) (mkv 0 0 1 0) ring4_valid ring4_valid eq_refl eq_refl eq_refl)). split.
  - unfold evaluate_coincident, ring4. cbn [datum_type error_distance origin]. replace (mag (sub (mkv 0 0 0 1) (mkv 0 0 0 1))) with 0; [auto|]. symmetry. unfold mag, sub. cbn [vx vy vz]. replace (_ + _) with 0 by ring. apply sqrt_0.
  - exists 0. split; [|left; lra]. unfold angle. split; [lra|]. rewrite mag1 by ring. unfold Rdiv. rewrite !Rmult_0_l, cos_0. unfold dot. cbn [vx vy vz]. ring.
Qed.
Example c213_nonvacuous : exists r, check_bolt_circle_alignment ring4 ring4 4 (1 / 10) 0 = Some r /\ co_satisfied r = true.
Proof. apply (c213_slack ring4 ring4 4 (1 / 10) 8 8 ring4_valid ring4_valid eq_refl eq_refl); auto; [apply ring4_self; lra|]. unfold dist, mag, sub, ring4. cbn [origin vx vy vz]. replace (_ + _ + _) with 0 by ring. rewrite sqrt_0, Rminus_diag_eq, Rabs_R0 by auto. lra. Qed.

(** C214 (REFUTED).  An "expected angular offset" between two identical concentric patterns is itself counted as the error: the chord of the offset, whatever the number of holes. *)
Theorem c214_offset_is_error : forall a b n tol off r, valid a -> datum_type a = CIRCLE -> datum_type b = CIRCLE -> origin b = origin a -> radius a = Some r -> radius b = Some r -> 0 <= tol -> (0 < n)%nat ->
  co_satisfied (evaluate_coincident a b tol 1) = true ->
  exists res, check_bolt_circle_alignment a b n tol off = Some res /\ error_distance res = 2 * r * Rabs (sin (off * PI / 180 / 2)) /\
    (co_satisfied res = true <-> 2 * r * Rabs (sin (off * PI / 180 / 2)) <= tol).
Proof.
  intros a b n tol off r Va Ta Tb O Ra Rb P N C. unfold check_bolt_circle_alignment. rewrite Ta, Tb, C, Ra, Rb. cbn [negb theval]. rewrite Rminus_diag_eq, Rabs_R0 by auto.
  replace (Rltb tol 0) with false by (symmetry; apply Rltb_false; lra). replace (Nat.eqb n 0) with false by (symmetry; apply Nat.eqb_neq; lia). eexists. split; [reflexivity|]. cbn [error_distance co_satisfied]. rewrite rleb_iff.
  pose proof (valid_cases a Va) as [_ Ca]. rewrite Ta in Ca. destruct Ca as (x & rx & Ex & _ & Zx & Rx & Pr). rewrite Ra in Rx. injection Rx as <-. apply nz in Zx. apply mag_pos in Zx.
  assert (E : fold_left Rmax (map (hole_error a b r r n off) (seq 0 n)) 0 = 2 * r * Rabs (sin (off * PI / 180 / 2))).
  { apply fold_max_const; [apply Rmult_le_pos; [lra|apply Rabs_pos]| |apply map_seq_nil, N]. apply Forall_forall. intros y Y. apply in_map_iff in Y as (i & <- & _).
    rewrite hole_error_same; [reflexivity|rewrite Ex; exact Zx|lra| | |]; rewrite O; reflexivity. }
  rewrite E. split; [auto|reflexivity].
Qed.
Print Assumptions c214_offset_is_error.
(** A four-hole pattern compared with itself, with an offset of 90 degrees (the same four holes) or with the documented 45 degrees, is refused. *)
Theorem c214_same_pattern_refuted : forall off, off = 90 \/ off = 45 -> exists res, check_bolt_circle_alignment ring4 ring4 4 (1 / 10) off = Some res /\ co_satisfied res = false.
Proof.
  intros off H. destruct (c214_offset_is_error ring4 ring4 4 (1 / 10) off 8 ring4_valid eq_refl eq_refl eq_refl eq_refl eq_refl) as (res & E & _ & S); try lra; [lia|apply ring4_self; lra|].
  exists res. split; auto. apply not_true_iff_false. rewrite S. clear - H. pose proof PI_RGT_0 as P. pose proof PI_4 as P4. pose proof PI2_1 as P21.
  assert (L : PI / 8 <= off * PI / 180 / 2 <= PI / 4) by (destruct H as [-> | ->]; lra). set (t := off * PI / 180 / 2) in *.
  assert (S8 : sin (PI / 8) <= sin t) by (destruct (Req_dec (PI / 8) t) as [-> |]; [lra|]; apply Rlt_le, sin_increasing_1; lra).
  assert (B : 1 / 5 <= sin (PI / 8)).
  { assert (D : sin (PI / 4) = 2 * sin (PI / 8) * cos (PI / 8)) by (rewrite <- sin_2a; f_equal; field). rewrite sin_PI4 in D.
    assert (C1 : cos (PI / 8) <= 1) by apply COS_bound. assert (0 < sin (PI / 8)) by (apply sin_gt_0; lra). assert (R2 : 0 < sqrt 2 <= 2). { split; [apply sqrt_lt_R0; lra|]. rewrite <- (sqrt_square 2) at 2 by lra. apply sqrt_le_1_alt. lra. }
    assert (1 / 2 <= 1 / sqrt 2) by (unfold Rdiv; rewrite !Rmult_1_l; apply Rinv_le_contravar; lra). nra. }
  rewrite Rabs_right by lra. lra.
Qed.
Print Assumptions c214_same_pattern_refuted.
