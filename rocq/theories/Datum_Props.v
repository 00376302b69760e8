(** Properties of datums. *)
From Coq Require Import Reals String List Bool Lra Psatz.
From Verif Require Import Xform_Model Xform_Proofs Datum_Model Datum_Spec Datum_Proofs.
Import ListNotations.
Open Scope R_scope.
Open Scope list_scope.

Definition e1 : vec := mkv 1 0 0 0.
Definition e2 : vec := mkv 0 1 0 0.
Definition bore : datum := Datum AXIS (mkv 1 2 3 1) (Some (mkv 0 0 2 0)) None None None None.
Lemma mag3 x y z w r : 0 <= r -> x * x + y * y + z * z = r * r -> mag (mkv x y z w) = r.
Proof. intros P E. unfold mag. cbn. rewrite E. apply sqrt_square, P. Qed.
Lemma bore_valid : valid bore.
Proof.
  exists bore. unfold post_init, bore. cbn [datum_type direction origin normal x_axis y_axis radius].
  assert (Z : zero_length (as_direction (mkv 0 0 2 0)) = false) by (apply Rltb_false; unfold as_direction; cbn [vx vy vz]; rewrite (mag3 _ _ _ _ 2) by lra; unfold epsilon; lra).
  rewrite Z. reflexivity.
Qed.

(** C122.  A rigid motion applied to a datum: it never fails, moves the origin as a point, turns the
    vectors of its kind as directions and makes them unit vectors, and keeps type and radius. *)
Theorem c122_transform : forall m d, rigid m -> valid d -> exists d', transform m d = Some d' /\ valid d' /\
  datum_type d' = datum_type d /\ radius d' = radius d /\ origin d' = mulMV m (origin d) /\
  Forall2 (fun v' v => vw v' = 0 /\ same_way v' (mulMV m v) /\ (epsilon < mag v -> mag v' = 1)) (own d') (own d).
Proof.
  intros m d R V. exists (image m d). pose proof (transform_image m d R V) as E. split; [exact E|]. split; [exact (transform_valid _ _ _ E)|].
  split; [unfold image; destruct (datum_type d); reflexivity|]. split; [unfold image; destruct (datum_type d); reflexivity|].
  split; [unfold image; destruct (datum_type d); reflexivity|].
  rewrite own_image by exact V. pose proof (own_vectors d V) as F. induction F as [|v l [W L] F IH]; cbn [map]; constructor; auto.
  split; [reflexivity|]. split; [apply (tv_same_way m R v W)|]. intros Lt. rewrite (tv_mag m R v W). apply Rltb_true in Lt. rewrite Lt. reflexivity.
Qed.
Print Assumptions c122_transform.
(** Two motions in turn do what their product does. *)
Theorem c122_compose : forall a b d, rigid a -> rigid b -> valid d -> clean d ->
  exists d1 d2, transform b d = Some d1 /\ transform a d1 = Some d2 /\ transform (mulMM a b) d = Some d2.
Proof.
  intros a b d A B V C. exists (image b d), (image a (image b d)). pose proof (transform_image b d B V) as E. split; [exact E|].
  split; [apply transform_image; auto; exact (transform_valid _ _ _ E)|]. rewrite image_compose by auto. apply transform_image; auto. apply rigid_mul; auto.
Qed.
Print Assumptions c122_compose.
(** Rotations, translations and their products are rigid. *)
Theorem c122_rigid_motions : (forall t b, rigid (Translation t b)) /\ (forall u a b r, mag u = 1 -> Rotation u a b = Ok r -> rigid r) /\
  (forall a b, rigid a -> rigid b -> rigid (mulMM a b)).
Proof. split; [exact translation_rigid|]. split; [exact rotation_rigid|exact rigid_mul]. Qed.
Print Assumptions c122_rigid_motions.
Example c122_nonvacuous : valid bore /\ clean bore /\ exists d, transform (Translation (mkv 1 1 1 1) false) bore = Some d /\ own d = [mkv 0 0 1 0].
Proof.
  split; [exact bore_valid|]. split; [cbn; auto|]. exists (image (Translation (mkv 1 1 1 1) false) bore).
  split; [apply transform_image; [apply translation_rigid|exact bore_valid]|]. rewrite own_image by exact bore_valid. cbn [own bore datum_type direction map].
  f_equal. rewrite (tv_eq _ (translation_rigid _ _)) by reflexivity. rewrite (mag3 0 0 2 0 2) by lra.
  replace (Rltb epsilon 2) with true by (symmetry; apply Rltb_true; unfold epsilon; lra). unfold mulMV, Translation, scale4, dot4. cbn. apply mkv_eq; field.
Qed.

(** C123.  Vectors a datum has besides those of its kind are corrupted by translations. *)
Definition slot : datum := Datum PLANE (mkv 0 0 0 1) (Some e1) (Some (mkv 0 0 1 0)) None None None.
Definition shift : matrix := Translation (mkv 0 1 0 1) false.
Theorem c123_extra_vectors_refuted : exists d1 d2, transform shift slot = Some d1 /\ transform shift d1 = Some d2 /\
  normal d2 = normal slot /\ exists v, direction d2 = Some v /\ dot v e1 < dot e1 e1 /\ mag v = 1.
Proof.
  assert (Mn : mag (mkv 0 0 1 0) = 1) by (apply mag3; lra). assert (Me : mag e1 = 1) by (apply mag3; lra).
  assert (Z : zero_length (as_direction (mkv 0 0 1 0)) = false) by (apply Rltb_false; unfold as_direction; cbn [vx vy vz]; rewrite Mn; unfold epsilon; lra).
  assert (V : valid slot) by (exists slot; unfold post_init, slot; cbn [datum_type normal]; rewrite Z; reflexivity).
  assert (R : rigid shift) by apply translation_rigid.
  pose proof (transform_image _ _ R V) as E1. exists (image shift slot). pose proof (transform_valid _ _ _ E1) as V1.
  exists (image shift (image shift slot)). split; [exact E1|]. split; [apply transform_image; auto|].
  assert (Lt : Rltb epsilon 1 = true) by (apply Rltb_true; unfold epsilon; lra).
  assert (Tn : tv shift (mkv 0 0 1 0) = mkv 0 0 1 0).
  { rewrite (tv_eq _ R) by reflexivity. rewrite Mn, Lt. unfold mulMV, shift, Translation, scale4, dot4. cbn. apply mkv_eq; field. }
  assert (T1 : transform_vector shift e1 = mkv 1 0 0 1).
  { unfold transform_vector. assert (M : mulMV shift e1 = e1) by (unfold mulMV, shift, e1, Translation, dot4; cbn; apply mkv_eq; ring). rewrite M, Me, Lt. unfold scale3, e1. cbn. apply mkv_eq; field. }
  assert (S2 : sqrt 2 * sqrt 2 = 2) by (apply sqrt_sqrt; lra). assert (P2 : 0 < sqrt 2) by (apply sqrt_lt_R0; lra).
  assert (T2 : transform_vector shift (mkv 1 0 0 1) = mkv (1 / sqrt 2) (1 / sqrt 2) 0 1).
  { unfold transform_vector. assert (M : mulMV shift (mkv 1 0 0 1) = mkv 1 1 0 1) by (unfold mulMV, shift, Translation, dot4; cbn; apply mkv_eq; ring).
    rewrite M, (mag3 1 1 0 1 (sqrt 2)) by lra. replace (Rltb epsilon (sqrt 2)) with true by (symmetry; apply Rltb_true; unfold epsilon; nra).
    unfold scale3. cbn. apply mkv_eq; try ring. }
  unfold image, slot. cbn [datum_type normal direction option_map origin x_axis y_axis radius]. rewrite Tn, Tn, T1, T2. split; [reflexivity|].
  eexists. split; [reflexivity|]. split.
  - unfold dot, e1. cbn. assert (1 / sqrt 2 < 1); [|lra]. apply Rmult_lt_reg_r with (sqrt 2); [exact P2|]. field_simplify; [nra|lra].
  - apply mag3; [lra|]. field_simplify; [|lra]. replace (sqrt 2 ^ 2) with 2 by (rewrite <- S2 at 1; ring). field.
Qed.
Print Assumptions c123_extra_vectors_refuted.

(** C124.  The placement of a point, axis, plane or circle is rigid, right-handed, puts the origin at
    the datum and the z axis along its direction. *)
Theorem c124_placement : forall d, valid d -> datum_type d <> FRAME ->
  let t := transform_matrix d in
  rigid t /\ mulMV t (mkv 0 0 0 1) = origin d /\
  Forall (fun v => same_way (mulMV t (mkv 0 0 1 0)) v) (own d) /\
  cross (getcol t 0) (getcol t 1) = as_point (getcol t 2).
Proof.
  intros d V N t. pose proof (own_vectors d V) as F. apply valid_cases in V as [W V]. unfold t, transform_matrix, own in *.
  assert (K : forall n o, vw o = 1 -> vw n = 0 /\ epsilon <= mag n ->
    rigid (frame_on n o) /\ mulMV (frame_on n o) (mkv 0 0 0 1) = o /\ Forall (fun v => same_way (mulMV (frame_on n o) (mkv 0 0 1 0)) v) [n] /\
    cross (getcol (frame_on n o) 0) (getcol (frame_on n o) 1) = as_point (getcol (frame_on n o) 2)).
  { intros n o Wo [Wn L]. pose proof eps_pos as P. destruct (frame_on_ok n o Wo ltac:(lra)) as (A & B & C & D). split; [exact A|]. split; [exact B|]. split; [|exact D].
    apply Forall_cons; [|apply Forall_nil]. rewrite C. exists (1 / mag n). split; [apply Rdiv_lt_0_compat; lra|]. unfold unit, as_direction, scale3, scale4. cbn [vx vy vz vw]. rewrite Wn. apply mkv_eq; ring. }
  destruct (datum_type d) eqn:T; try contradiction.
  - split; [apply columns_rigid; auto; unfold dot; cbn; ring|]. split; [apply columns_origin, W|]. split; [apply Forall_nil|].
    unfold columns, getcol, rcol, cross, as_point; cbn. apply mkv_eq; ring.
  - destruct V as (v & E & _). rewrite E in *. apply K; auto. inversion F; auto.
  - destruct V as (v & E & _). rewrite E in *. apply K; auto. destruct (direction d); inversion F; auto.
  - destruct V as (v & r & E & _). rewrite E in *. apply K; auto. destruct (direction d); inversion F; auto.
Qed.
Print Assumptions c124_placement.
Example c124_nonvacuous : valid bore /\ datum_type bore <> FRAME /\ own bore = [mkv 0 0 2 0].
Proof. split; [exact bore_valid|]. split; [discriminate|reflexivity]. Qed.
(** C125.  That of a frame need not be: axes that are not orthogonal are accepted. *)
Definition skew : datum := Datum FRAME (mkv 0 0 0 1) None None (Some e1) (Some (mkv 1 1 0 0)) None.
Theorem c125_frame_refuted : valid skew /\ ~ rigid (transform_matrix skew).
Proof.
  split.
  - exists skew. unfold post_init, skew. cbn [datum_type x_axis y_axis].
    assert (Z1 : zero_length (as_direction e1) = false) by (apply Rltb_false; unfold as_direction, e1; cbn [vx vy vz]; rewrite (mag3 _ _ _ _ 1) by lra; unfold epsilon; lra).
    assert (Z2 : zero_length (as_direction (mkv 1 1 0 0)) = false).
    { apply Rltb_false. unfold as_direction; cbn [vx vy vz]. rewrite (mag3 _ _ _ _ (sqrt 2)).
      - unfold epsilon. assert (sqrt 2 * sqrt 2 = 2) by (apply sqrt_sqrt; lra). pose proof (sqrt_pos 2). nra.
      - apply sqrt_pos.
      - rewrite sqrt_sqrt by lra. ring. }
    rewrite Z1, Z2. reflexivity.
  - intros [_ D]. specialize (D e2 e2 eq_refl eq_refl). unfold transform_matrix, skew, columns, mulMV, dot4, dot, e1, e2 in D. cbn in D. lra.
Qed.
Print Assumptions c125_frame_refuted.

(** C126.  validate_datums reports exactly the pairs of one type at one place. *)
Theorem c126_duplicates : forall ds a da b db, NoDup (map fst ds) -> In (a, da) ds -> In (b, db) ds -> a <> b ->
  (In (SameTypeAndOrigin a b) (validate_datums ds) \/ In (SameTypeAndOrigin b a) (validate_datums ds)) <->
  (datum_type da = datum_type db /\ dist (origin da) (origin db) < epsilon).
Proof.
  intros ds a da b db ND Ia Ib N.
  assert (Uq : forall x d d', In (x, d) ds -> In (x, d') ds -> d = d').
  { clear -ND. induction ds as [|[y e] ds IH]; intros x d d' [] H'; cbn [map fst] in ND; inversion ND as [|? ? Nin ND']; subst.
    - injection H as -> ->. destruct H' as [H'|H']; [congruence|]. exfalso. apply Nin. apply (in_map fst) in H'. exact H'.
    - destruct H' as [H'|H']; [injection H' as -> ->; exfalso; apply Nin; apply (in_map fst) in H; exact H|]. eapply IH; eauto. }
  assert (X : forall x y, In (SameTypeAndOrigin x y) (validate_datums ds) <-> exists d d', In (x, d) ds /\ In (y, d') ds /\ String.leb y x = false /\ dist (origin d) (origin d') < epsilon /\ datum_type d = datum_type d').
  { intros x y. unfold validate_datums. rewrite in_flat_map. split.
    - intros ([x' d] & Hx & H). apply in_flat_map in H as ([y' d'] & Hy & H). unfold pair_issues in H. cbn [fst snd] in H.
      destruct (String.leb y' x') eqn:L; [destruct H|]. destruct (Rltb _ epsilon) eqn:Rl; [|destruct H]. apply Rltb_true in Rl. apply in_app_iff in H as [H|H].
      + destruct (dtype_beq (datum_type d) (datum_type d')) eqn:T; [|destruct H]. destruct H as [H|[]]. injection H as -> ->. apply internal_dtype_dec_bl in T. exists d, d'. auto.
      + exfalso. destruct (lined d && lined d'); [|destruct H]. destruct (line_of d), (line_of d'); try destruct H. destruct (Rltb _ _); [|destruct H]. destruct H as [H|[]]. discriminate H.
    - intros (d & d' & Hx & Hy & L & Rl & T). exists (x, d). split; auto. apply in_flat_map. exists (y, d'). split; auto. unfold pair_issues. cbn [fst snd]. rewrite L.
      apply Rltb_true in Rl. rewrite Rl. apply internal_dtype_dec_lb in T. rewrite T. left. reflexivity. }
  rewrite !X. split.
  - intros [(d & d' & H1 & H2 & _ & Rl & T)|(d & d' & H1 & H2 & _ & Rl & T)].
    + rewrite (Uq _ _ _ Ia H1), (Uq _ _ _ Ib H2). auto.
    + rewrite (Uq _ _ _ Ib H1), (Uq _ _ _ Ia H2). rewrite dist_sym. auto.
  - intros [T Rl]. destruct (String.leb b a) eqn:L.
    + right. exists db, da. rewrite dist_sym. repeat split; auto. destruct (String.leb a b) eqn:L'; auto. exfalso. apply N. apply String.leb_antisym; auto.
    + left. exists da, db. auto.
Qed.
Print Assumptions c126_duplicates.
Example c126_nonvacuous : NoDup (map fst [("face", slot); ("bore", bore)]%string) /\ "face"%string <> "bore"%string.
Proof. split; [repeat constructor; cbn; intuition discriminate|discriminate]. Qed.
(** C127.  Parallel directions are not those reported as parallel. *)
Definition plane_with (n : vec) : datum := Datum PLANE (mkv 0 0 0 1) None (Some n) None None None.
Definition issues_of (n n' : vec) : list issue := validate_datums [("a", plane_with n); ("b", plane_with n')]%string.
Theorem c127_parallel_refuted :
  In (ParallelAtOrigin "a" "b") (issues_of (mkv 2 0 0 0) (mkv 1 1 0 0)) /\              (* 45 degrees apart *)
  forall a b, ~ In (ParallelAtOrigin a b) (issues_of (mkv (1/2) 0 0 0) (mkv (1/2) 0 0 0)).   (* equal *)
Proof.
  assert (D0 : Rltb (dist (mkv 0 0 0 1) (mkv 0 0 0 1)) epsilon = true) by (apply Rltb_true; rewrite dist_refl; unfold epsilon; lra).
  unfold issues_of, validate_datums, plane_with. cbn [flat_map app pair_issues fst snd]. unfold pair_issues. cbn [fst snd origin datum_type lined line_of direction normal andb dtype_beq].
  rewrite D0. replace (String.leb "a" "a") with true by reflexivity. replace (String.leb "b" "b") with true by reflexivity. replace (String.leb "a" "b") with true by reflexivity.
  replace (String.leb "b" "a") with false by reflexivity.
  replace (dot (mkv 2 0 0 0) (mkv 1 1 0 0)) with 2 by (unfold dot; cbn; ring). replace (dot (mkv (1/2) 0 0 0) (mkv (1/2) 0 0 0)) with (1/4) by (unfold dot; cbn; field).
  rewrite (Rabs_right 2), (Rabs_right (1/4)) by lra.
  replace (Rltb (1 - epsilon) 2) with true by (symmetry; apply Rltb_true; unfold epsilon; lra). replace (Rltb (1 - epsilon) (1/4)) with false by (symmetry; apply Rltb_false; unfold epsilon; lra).
  cbn. split; [auto|]. intros a b [H|[]]. discriminate H.
Qed.
Print Assumptions c127_parallel_refuted.
