(** Properties of design constraints (assembly/constraint.py). *)
From Coq Require Import Reals String Ascii List Bool Lra Psatz.
From Verif Require Import Xform_Model Xform_Proofs Datum_Model Constr_Model Constr_Spec Constr_Proofs.
Import ListNotations.
Open Scope char_scope.
Open Scope string_scope.
Open Scope R_scope.
Open Scope list_scope.

Lemma rleb_iff a b : Rleb a b = true <-> a <= b.
Proof. unfold Rleb. destruct (Rle_dec a b); split; congruence || auto; intros; contradiction. Qed.
Lemma runs_eq d v : runs_along d v -> dir_or_normal d = Some v.
Proof. unfold dir_or_normal. intros [-> | [-> ->]]; reflexivity. Qed.
Lemma faces_eq d v : faces_along d v -> normal_or_dir d = Some v.
Proof. unfold normal_or_dir. intros [-> | [-> ->]]; reflexivity. Qed.
Lemma radial_eq d c : radial_of d c = outwards c (origin d). Proof. reflexivity. Qed.
Lemma far_rltb v : far v -> Rltb (mag v) tiny = false.
Proof. intros F. unfold Rltb. destruct (Rlt_dec (mag v) tiny) as [L|]; auto. unfold far in F. unfold tiny in L. lra. Qed.
Lemma near_rltb v : ~ far v -> Rltb (mag v) tiny = true.
Proof. intros F. unfold Rltb. destruct (Rlt_dec (mag v) tiny) as [|L]; auto. exfalso. apply F. unfold far. unfold tiny in L. lra. Qed.
Lemma far_nz v : far v -> mag v <> 0. Proof. unfold far. lra. Qed.
Lemma cardinal_eq s w : cardinal s w <-> parse_direction (Some s) = Some w.
Proof.
  split.
  - intros H. unfold cardinal in H. cbn [In] in H. repeat (destruct H as [H|H]; [assert (s = fst (s, w)) by reflexivity; rewrite <- H in *; inversion H; subst; reflexivity|]). destruct H.
  - unfold parse_direction. intros H. unfold cardinal.
    assert (L : forall p q, lower s = String p (String q "") -> (lower_ascii p = p) -> exists a b, s = String a (String b "") /\ lower_ascii a = p /\ lower_ascii b = q).
    { intros p q E _. destruct s as [|a [|b [|c s']]]; cbn in E; try discriminate. injection E as E1 E2. exists a, b. auto. }
    assert (C : forall p q v, lower s = String p (String q "") -> (p = "+" \/ p = "-")%char -> (q = "x" \/ q = "y" \/ q = "z")%char ->
      s = String p (String q "") \/ s = String p (String (match q with "x" => "X" | "y" => "Y" | "z" => "Z" | c => c end)%char "") \/ v = false).
    { intros p q v E P Q. assert (LP : lower_ascii p = p) by (destruct P as [-> | ->]; reflexivity). destruct (L p q E LP) as (a & b & -> & A & B).
      assert (a = p) by (clear - A P; destruct P as [-> | ->]; destruct a as [[] [] [] [] [] [] [] []]; vm_compute in A; try discriminate; reflexivity). subst a.
      destruct Q as [-> | [-> | ->]]; destruct b as [[] [] [] [] [] [] [] []]; vm_compute in B; try discriminate; auto. }
    cbn [In].
    destruct (String.eqb (lower s) "+x") eqn:E1; [apply String.eqb_eq in E1; destruct (C _ _ true E1) as [-> | [-> | F]]; auto; try discriminate; inversion H; auto 20|].
    destruct (String.eqb (lower s) "-x") eqn:E2; [apply String.eqb_eq in E2; destruct (C _ _ true E2) as [-> | [-> | F]]; auto; try discriminate; inversion H; auto 20|].
    destruct (String.eqb (lower s) "+y") eqn:E3; [apply String.eqb_eq in E3; destruct (C _ _ true E3) as [-> | [-> | F]]; auto; try discriminate; inversion H; auto 20|].
    destruct (String.eqb (lower s) "-y") eqn:E4; [apply String.eqb_eq in E4; destruct (C _ _ true E4) as [-> | [-> | F]]; auto; try discriminate; inversion H; auto 20|].
    destruct (String.eqb (lower s) "+z") eqn:E5; [apply String.eqb_eq in E5; destruct (C _ _ true E5) as [-> | [-> | F]]; auto; try discriminate; inversion H; auto 20|].
    destruct (String.eqb (lower s) "-z") eqn:E6; [apply String.eqb_eq in E6; destruct (C _ _ true E6) as [-> | [-> | F]]; auto; try discriminate; inversion H; auto 20|].
    discriminate.
Qed.
Lemma cardinal_unit s w : cardinal s w -> mag w = 1.
Proof.
  intros H. unfold cardinal in H. cbn [In] in H. assert (U : forall x y z, x * x + y * y + z * z = 1 -> mag (mkv x y z 0) = 1) by (intros x y z E; unfold mag; cbn; rewrite E; apply sqrt_1).
  repeat (destruct H as [H|H]; [inversion H; apply U; lra|]). destruct H.
Qed.

(** C199.  Two directions form exactly one angle. *)
Theorem c199_angle_unique : forall u v, mag u <> 0 -> mag v <> 0 -> exists t, angle u v t /\ forall t', angle u v t' -> t' = t.
Proof. intros u v A B. exists (ang u v). split; [apply ang_angle; auto|]. intros t' H. apply angle_unique; auto. Qed.
Print Assumptions c199_angle_unique.
(** FACING passes exactly when the normal is within the tolerance of the named direction. *)
Theorem c199_facing : forall k d n s w t, c_type k = FACING -> normal d = Some n -> mag n <> 0 -> c_direction k = Some s -> cardinal s w -> angle n w t ->
  error_value (evaluate k d) = t /\ (passed (evaluate k d) = true <-> t <= tolerance_deg k).
Proof.
  intros k d n s w t T N M S C A. unfold evaluate. rewrite T. unfold check_facing. rewrite N, S, (proj1 (cardinal_eq s w) C). cbn zeta.
  pose proof (cardinal_unit s w C) as U. assert (W : mag w <> 0) by lra. apply angle_unique in A; auto.
  assert (E : ndot (nunit n) (Some w) = ndot (nunit n) (nunit w)).
  { rewrite ndot_units, (nunit_some n) by auto. cbn [ndot]. f_equal. rewrite U. unfold dot. cbn [vx vy vz]. field. auto. }
  rewrite E, full_angle, <- A by auto. cbn [passed error_value]. split; [reflexivity|apply rleb_iff].
Qed.
Print Assumptions c199_facing.
Theorem c199_facing_refused : forall k d, c_type k = FACING -> normal d = None \/ c_direction k = None \/ (exists s, c_direction k = Some s /\ forall w, ~ cardinal s w) ->
  passed (evaluate k d) = false.
Proof.
  intros k d T H. unfold evaluate. rewrite T. unfold check_facing. destruct H as [-> | [-> | (s & -> & C)]]; [reflexivity|destruct (normal d); reflexivity|].
  destruct (parse_direction (Some s)) as [w|] eqn:E; [exfalso; apply (C w), cardinal_eq, E|]. destruct (normal d); reflexivity.
Qed.
Print Assumptions c199_facing_refused.
(** PARALLEL_TO: the lines, whichever way they point. *)
Theorem c199_parallel : forall k d a v t, c_type k = PARALLEL_TO -> c_axis k = Some a -> mag a <> 0 -> runs_along d v -> mag v <> 0 -> angle a v t ->
  error_value (evaluate k d) = Rmin t (180 - t) /\ (passed (evaluate k d) = true <-> t <= tolerance_deg k \/ 180 - t <= tolerance_deg k).
Proof.
  intros k d a v t T A MA V MV H. unfold evaluate. rewrite T. unfold check_parallel. rewrite A, (runs_eq _ _ V). cbn zeta.
  apply angle_unique in H; auto. rewrite line_angle_eq, <- H by auto. cbn [passed error_value]. split; [reflexivity|]. rewrite rleb_iff.
  unfold Rmin. destruct (Rle_dec t (180 - t)); lra.
Qed.
Print Assumptions c199_parallel.
Theorem c199_perpendicular : forall k d a v t, c_type k = PERPENDICULAR_TO -> c_axis k = Some a -> mag a <> 0 -> runs_along d v -> mag v <> 0 -> angle a v t ->
  error_value (evaluate k d) = Rabs (90 - t) /\ (passed (evaluate k d) = true <-> 90 - tolerance_deg k <= t <= 90 + tolerance_deg k).
Proof.
  intros k d a v t T A MA V MV H. unfold evaluate. rewrite T. unfold check_perpendicular. rewrite A, (runs_eq _ _ V). cbn zeta.
  apply angle_unique in H; auto. rewrite perp_angle_eq, <- H by auto. cbn [passed error_value]. split; [reflexivity|]. rewrite rleb_iff.
  unfold Rabs. destruct (Rcase_abs (90 - t)); lra.
Qed.
Print Assumptions c199_perpendicular.
(** TANGENT_TO_CIRCLE: seen from above, the axis is at a right angle to the line from the centre. *)
Theorem c199_tangent : forall k d c r v t, c_type k = TANGENT_TO_CIRCLE -> c_center k = Some c -> c_radius k = Some r -> runs_along d v ->
  far (outwards c (origin d)) -> far (horizontal v) -> angle (outwards c (origin d)) (horizontal v) t ->
  error_value (evaluate k d) = Rabs (90 - t) /\ (passed (evaluate k d) = true <-> 90 - tolerance_deg k <= t <= 90 + tolerance_deg k).
Proof.
  intros k d c r v t T C Rd V F1 F2 H. unfold evaluate. rewrite T. unfold check_tangent. rewrite C, Rd, (runs_eq _ _ V), radial_eq. cbn zeta.
  rewrite (far_rltb _ F1). change (flat v) with (horizontal v). rewrite (far_rltb _ F2). apply far_nz in F1. apply far_nz in F2.
  apply angle_unique in H; auto. rewrite perp_angle_eq, <- H by auto. cbn [passed error_value]. split; [reflexivity|]. rewrite rleb_iff.
  unfold Rabs. destruct (Rcase_abs (90 - t)); lra.
Qed.
Print Assumptions c199_tangent.
(** AT_RADIUS: the distance from the centre seen from above. *)
Theorem c199_at_radius : forall k d c r, c_type k = AT_RADIUS -> c_center k = Some c -> c_radius k = Some r ->
  error_value (evaluate k d) = Rabs (sqrt ((vx (origin d) - vx c) * (vx (origin d) - vx c) + (vy (origin d) - vy c) * (vy (origin d) - vy c)) - r) /\
  (passed (evaluate k d) = true <-> error_value (evaluate k d) <= tolerance_mm k).
Proof.
  intros k d c r T C Rd. unfold evaluate. rewrite T. unfold check_at_radius. rewrite C, Rd. cbn zeta. cbn [passed error_value]. split; [|apply rleb_iff].
  f_equal. f_equal. unfold radial_of, flat, mag, sub. cbn [vx vy vz]. f_equal. ring.
Qed.
Print Assumptions c199_at_radius.
(** RADIAL_FROM_CENTER: strictly within the tolerance of the outward (inward) direction. *)
Theorem c199_radial : forall k d c v s t, c_type k = RADIAL_FROM_CENTER -> c_center k = Some c -> c_direction k = Some s -> faces_along d v -> mag v <> 0 ->
  far (outwards c (origin d)) -> angle (outwards c (origin d)) v t -> 0 <= tolerance_deg k <= 180 ->
  (s = "outward"%string -> (passed (evaluate k d) = true <-> t < tolerance_deg k)) /\
  (s = "inward"%string -> (passed (evaluate k d) = true <-> 180 - t < tolerance_deg k)).
Proof.
  intros k d c v s t T C S V M F H [L U]. pose proof (far_nz _ F) as FN. assert (Q := H). destruct Q as [[TL TU] _]. pose proof (cosine_range _ _ FN M) as CR.
  assert (E : dot (outwards c (origin d)) v / (mag (outwards c (origin d)) * mag v) = cos (t * PI / 180)) by (destruct H as [_ ->]; field; auto).
  pose proof PI_pos as PP. assert (BT : 0 <= t * PI / 180 <= PI) by (split; nra). assert (BL : 0 <= radians (tolerance_deg k) <= PI) by (unfold radians; split; nra).
  assert (Lt : forall a b, 0 <= a <= PI -> 0 <= b <= PI -> (cos b < cos a <-> a < b)).
  { intros a b A B. split; intros X; [apply cos_decreasing_0; lra|apply cos_decreasing_1; lra]. }
  unfold evaluate. rewrite T. unfold check_radial. rewrite C, S, (faces_eq _ _ V), radial_eq. cbn zeta. rewrite (far_rltb _ F), ndot_units, E by auto.
  split; intros ->; cbn [String.eqb Ascii.eqb Bool.eqb].
  - cbn [passed ngt]. rewrite Rltb_true. rewrite Lt by auto. unfold radians. split; intros X; nra.
  - cbn [passed nlt]. rewrite Rltb_true. replace (- cos (radians (tolerance_deg k))) with (cos (PI - radians (tolerance_deg k))) by (rewrite Rtrigo_facts.cos_pi_minus; reflexivity).
    rewrite Lt by lra. unfold radians. split; intros X; nra.
Qed.
Print Assumptions c199_radial.
(** Without the parameters a constraint needs it fails; a custom one is what its validator says. *)
Theorem c199_incomplete : forall k d,
  (In (c_type k) [TANGENT_TO_CIRCLE; AT_RADIUS; RADIAL_FROM_CENTER] -> c_center k = None -> passed (evaluate k d) = false) /\
  (In (c_type k) [TANGENT_TO_CIRCLE; AT_RADIUS] -> c_radius k = None -> passed (evaluate k d) = false) /\
  (In (c_type k) [PARALLEL_TO; PERPENDICULAR_TO] -> c_axis k = None -> passed (evaluate k d) = false) /\
  (In (c_type k) [TANGENT_TO_CIRCLE; RADIAL_FROM_CENTER; PARALLEL_TO; PERPENDICULAR_TO] -> direction d = None -> normal d = None -> passed (evaluate k d) = false) /\
  (In (c_type k) [TANGENT_TO_CIRCLE; RADIAL_FROM_CENTER] -> forall c, c_center k = Some c -> ~ far (outwards c (origin d)) -> passed (evaluate k d) = false) /\
  (c_type k = CUSTOM -> (passed (evaluate k d) = true <-> exists f, c_validator k = Some f /\ f d = Some true)).
Proof.
  intros k d. repeat split.
  - cbn. intros [T | [T | [T | []]]] C; unfold evaluate; rewrite <- T; unfold check_tangent, check_at_radius, check_radial; rewrite C; reflexivity.
  - cbn. intros [T | [T | []]] C; unfold evaluate; rewrite <- T; unfold check_tangent, check_at_radius; destruct (c_center k); rewrite ?C; reflexivity.
  - cbn. intros [T | [T | []]] C; unfold evaluate; rewrite <- T; unfold check_parallel, check_perpendicular; rewrite C; reflexivity.
  - cbn. intros [T | [T | [T | [T | []]]]] A B; unfold evaluate; rewrite <- T; unfold check_tangent, check_radial, check_parallel, check_perpendicular, dir_or_normal, normal_or_dir; rewrite A, B.
    + destruct (c_center k); [|reflexivity]. destruct (c_radius k); [|reflexivity]. cbn zeta. destruct (Rltb _ _); reflexivity.
    + destruct (c_center k); [|reflexivity]. destruct (c_direction k) as [s|]; [|reflexivity]. cbn zeta. destruct (Rltb _ _); destruct (String.eqb s "outward"); try destruct (String.eqb s "inward"); reflexivity.
    + destruct (c_axis k); reflexivity.
    + destruct (c_axis k); reflexivity.
  - cbn. intros [T | [T | []]] c C N; unfold evaluate; rewrite <- T; unfold check_tangent, check_radial; rewrite C, radial_eq; cbn zeta; rewrite (near_rltb _ N).
    + destruct (c_radius k); reflexivity.
    + destruct (c_direction k) as [s|]; [|reflexivity]. destruct (String.eqb s "outward"); try destruct (String.eqb s "inward"); reflexivity.
  - intros P. unfold evaluate in P. rewrite H in P. destruct (c_validator k) as [f|]; [|discriminate]. exists f. split; auto. destruct (f d) as [[|]|]; auto; discriminate.
  - intros (f & V & E). unfold evaluate. rewrite H, V, E. reflexivity.
Qed.
Print Assumptions c199_incomplete.
Definition wall : datum := Datum PLANE (mkv 10 0 5 1) None (Some (mkv 2 0 0 0)) None None None.
Definition ask (t : ctype) (s : string) (a : vec) (tol : R) : constraint := Constraint "k" t "p" "d" (Some (mkv 0 0 0 1)) (Some 10) (Some s) (Some a) None tol (1 / 10) "error".
Lemma mag_is x y z w r : 0 <= r -> x * x + y * y + z * z = r * r -> mag (mkv x y z w) = r.
Proof. intros P E. unfold mag. cbn. rewrite E. apply sqrt_square, P. Qed.
Lemma cos_deg_0 : cos (0 * PI / 180) = 1. Proof. replace (0 * PI / 180) with 0 by lra. apply cos_0. Qed.
Lemma cos_deg_90 : cos (90 * PI / 180) = 0. Proof. replace (90 * PI / 180) with (PI / 2) by lra. apply cos_PI2. Qed.
Example c199_nonvacuous : angle (mkv 2 0 0 0) (mkv 1 0 0 0) 0 /\ passed (evaluate (ask FACING "+X" (mkv 0 0 1 0) 1) wall) = true /\
  angle (mkv 2 0 0 0) (mkv 0 0 1 0) 90 /\ passed (evaluate (ask FACING "+z" (mkv 0 0 1 0) 1) wall) = false /\
  passed (evaluate (ask PERPENDICULAR_TO "" (mkv 0 0 3 0) 1) wall) = true /\ passed (evaluate (ask PARALLEL_TO "" (mkv (-4) 0 0 0) 0) wall) = true /\
  passed (evaluate (ask RADIAL_FROM_CENTER "outward" (mkv 0 0 1 0) 1) wall) = true /\ passed (evaluate (ask RADIAL_FROM_CENTER "inward" (mkv 0 0 1 0) 1) wall) = false /\
  passed (evaluate (ask AT_RADIUS "" (mkv 0 0 1 0) 1) wall) = true /\ passed (evaluate (ask TANGENT_TO_CIRCLE "" (mkv 0 0 1 0) 1) wall) = false.
Proof.
  assert (M2 : mag (mkv 2 0 0 0) = 2) by (apply mag_is; lra). assert (Mx : mag (mkv 1 0 0 0) = 1) by (apply mag_is; lra). assert (Mz : mag (mkv 0 0 1 0) = 1) by (apply mag_is; lra).
  assert (M3 : mag (mkv 0 0 3 0) = 3) by (apply mag_is; lra). assert (M4 : mag (mkv (-4) 0 0 0) = 4) by (apply mag_is; lra).
  assert (MO : outwards (mkv 0 0 0 1) (origin wall) = mkv 10 0 0 0) by (unfold outwards; cbn; apply mkv_eq; lra). assert (M10 : mag (mkv 10 0 0 0) = 10) by (apply mag_is; lra).
  assert (FO : far (outwards (mkv 0 0 0 1) (origin wall))) by (rewrite MO; unfold far; lra).
  assert (A0 : angle (mkv 2 0 0 0) (mkv 1 0 0 0) 0) by (split; [lra|rewrite cos_deg_0, M2, Mx; unfold dot; cbn [vx vy vz]; lra]).
  assert (A9 : angle (mkv 2 0 0 0) (mkv 0 0 1 0) 90) by (split; [lra|rewrite cos_deg_90; unfold dot; cbn [vx vy vz]; ring]).
  assert (AO : angle (outwards (mkv 0 0 0 1) (origin wall)) (mkv 2 0 0 0) 0) by (rewrite MO; split; [lra|rewrite cos_deg_0, M2, M10; unfold dot; cbn [vx vy vz]; lra]).
  split; [exact A0|]. split.
  { apply (c199_facing (ask FACING "+X" (mkv 0 0 1 0) 1) wall (mkv 2 0 0 0) "+X" (mkv 1 0 0 0) 0); auto; [lra| |cbn; lra]. unfold cardinal. cbn [In]. auto. }
  split; [exact A9|]. split.
  { apply not_true_iff_false. intros P. apply (c199_facing (ask FACING "+z" (mkv 0 0 1 0) 1) wall (mkv 2 0 0 0) "+z" (mkv 0 0 1 0) 90) in P; auto; [cbn in P; lra|lra|]. unfold cardinal. cbn [In]. auto 20. }
  assert (RA : runs_along wall (mkv 2 0 0 0)) by (right; auto). assert (FA : faces_along wall (mkv 2 0 0 0)) by (left; auto).
  split. { apply (c199_perpendicular (ask PERPENDICULAR_TO "" (mkv 0 0 3 0) 1) wall (mkv 0 0 3 0) (mkv 2 0 0 0) 90); auto; try lra; [|cbn; lra]. split; [lra|rewrite cos_deg_90; unfold dot; cbn [vx vy vz]; ring]. }
  split. { apply (c199_parallel (ask PARALLEL_TO "" (mkv (-4) 0 0 0) 0) wall (mkv (-4) 0 0 0) (mkv 2 0 0 0) 180); auto; try lra; [|cbn; lra].
    split; [lra|]. replace (180 * PI / 180) with PI by lra. rewrite cos_PI, M4, M2. unfold dot; cbn [vx vy vz]; lra. }
  assert (T1 : forall s t, (t = 1 \/ t = 0) -> 0 <= tolerance_deg (ask RADIAL_FROM_CENTER s (mkv 0 0 1 0) t) <= 180) by (intros s t [-> | ->]; cbn; lra). assert (N2 : mag (mkv 2 0 0 0) <> 0) by lra.
  split. { refine (proj2 (proj1 (c199_radial (ask RADIAL_FROM_CENTER "outward" (mkv 0 0 1 0) 1) wall (mkv 0 0 0 1) (mkv 2 0 0 0) "outward" 0 eq_refl eq_refl eq_refl FA N2 FO AO (T1 _ 1 (or_introl eq_refl))) eq_refl) _). cbn. lra. }
  split. { apply not_true_iff_false. intros P. refine (_ (proj1 (proj2 (c199_radial (ask RADIAL_FROM_CENTER "inward" (mkv 0 0 1 0) 1) wall (mkv 0 0 0 1) (mkv 2 0 0 0) "inward" 0 eq_refl eq_refl eq_refl FA N2 FO AO (T1 _ 1 (or_introl eq_refl))) eq_refl) P)). cbn. lra. }
  split. { apply (c199_at_radius (ask AT_RADIUS "" (mkv 0 0 1 0) 1) wall (mkv 0 0 0 1) 10); auto. cbn [error_value evaluate ask c_type check_at_radius c_center c_radius tolerance_mm].
    rewrite radial_eq, MO, M10. replace (10 - 10) with 0 by lra. rewrite Rabs_R0. lra. }
  apply not_true_iff_false. intros P. apply (c199_tangent (ask TANGENT_TO_CIRCLE "" (mkv 0 0 1 0) 1) wall (mkv 0 0 0 1) 10 (mkv 2 0 0 0) 0) in P; auto; [cbn in P; lra|].
  unfold horizontal, far. cbn [vx vy]. rewrite M2. lra.
Qed.

(** C200.  RADIAL_FROM_CENTER compares strictly: with tolerance 0 even an exactly radial datum fails. *)
Theorem c200_exactly_radial_refuted : forall k d, c_type k = RADIAL_FROM_CENTER -> tolerance_deg k = 0 -> passed (evaluate k d) = false.
Proof.
  intros k d T Z. unfold evaluate. rewrite T. unfold check_radial. destruct (c_center k) as [c|]; [|reflexivity]. rewrite Z.
  assert (C1 : cos (radians 0) = 1) by (unfold radians; apply cos_deg_0).
  assert (B : forall w, ngt (ndot (nunit (radial_of d c)) (nunit w)) (cos (radians 0)) = false /\ nlt (ndot (nunit (radial_of d c)) (nunit w)) (- cos (radians 0)) = false).
  { intros w. rewrite C1. destruct (Req_EM_T (mag (radial_of d c)) 0) as [E1|E1]; [rewrite (nunit_none _ E1); split; reflexivity|].
    destruct (Req_EM_T (mag w) 0) as [E2|E2]; [rewrite (nunit_none _ E2), (nunit_some _ E1); split; reflexivity|]. rewrite ndot_units by auto.
    pose proof (cosine_range _ _ E1 E2). cbn [ngt nlt]. split; apply Rltb_false; lra. }
  destruct (c_direction k) as [s|]; [|reflexivity]. cbn zeta. destruct (Rltb _ tiny); destruct (String.eqb s "outward"); try destruct (String.eqb s "inward"); try reflexivity;
  destruct (normal_or_dir d) as [w|]; try reflexivity; destruct (B w) as [B1 B2]; rewrite ?B1, ?B2; reflexivity.
Qed.
Print Assumptions c200_exactly_radial_refuted.
Example c200_nonvacuous : angle (outwards (mkv 0 0 0 1) (origin wall)) (mkv 2 0 0 0) 0 /\ faces_along wall (mkv 2 0 0 0) /\ passed (evaluate (ask RADIAL_FROM_CENTER "outward" (mkv 0 0 1 0) 0) wall) = false.
Proof.
  split; [|split; [left; reflexivity|apply c200_exactly_radial_refuted; reflexivity]].
  split; [lra|]. rewrite cos_deg_0. unfold outwards. cbn [wall origin vx vy]. rewrite (mag_is _ _ _ _ 10), (mag_is _ _ _ _ 2) by lra. unfold dot; cbn [vx vy vz]; lra.
Qed.

(** C201.  PARALLEL_TO with a zero axis passes for every datum that has a direction. *)
Theorem c201_zero_axis_refuted : forall k d v, c_type k = PARALLEL_TO -> c_axis k = Some (mkv 0 0 0 0) -> runs_along d v -> 0 <= tolerance_deg k ->
  passed (evaluate k d) = true /\ error_value (evaluate k d) = 0.
Proof.
  intros k d v T A V L. unfold evaluate. rewrite T. unfold check_parallel. rewrite A, (runs_eq _ _ V). cbn zeta.
  assert (Z : mag (mkv 0 0 0 0) = 0) by (apply mag_is; lra). rewrite (nunit_none _ Z). cbn [ndot nabs option_map pmin1]. rewrite acos_1, deg0. cbn [passed error_value]. split; [apply rleb_iff; auto|reflexivity].
Qed.
Print Assumptions c201_zero_axis_refuted.
Example c201_nonvacuous : exists k, c_type k = PARALLEL_TO /\ c_axis k = Some (mkv 0 0 0 0) /\ runs_along wall (mkv 2 0 0 0) /\ 0 <= tolerance_deg k.
Proof. exists (ask PARALLEL_TO "" (mkv 0 0 0 0) 0). repeat split; [right; auto|cbn; lra]. Qed.

(** C202.  TANGENT_TO_CIRCLE needs a radius but does not use it. *)
Theorem c202_radius_unused : forall n p dn c r r' di ax va td tm sv d,
  evaluate (Constraint n TANGENT_TO_CIRCLE p dn c (Some r) di ax va td tm sv) d = evaluate (Constraint n TANGENT_TO_CIRCLE p dn c (Some r') di ax va td tm sv) d.
Proof. reflexivity. Qed.
Print Assumptions c202_radius_unused.
Definition shaft : datum := Datum AXIS (mkv 10 0 0 1) (Some (mkv 0 1 0 0)) None None None None.
Theorem c202_touching_refuted : exists k r, c_type k = TANGENT_TO_CIRCLE /\ c_radius k = Some r /\ passed (evaluate k shaft) = true /\ tolerance_deg k = 0 /\
  ~ touches (origin shaft) (mkv 0 1 0 0) (mkv 0 0 0 1) r.
Proof.
  exists (Constraint "k" TANGENT_TO_CIRCLE "p" "d" (Some (mkv 0 0 0 1)) (Some 500) None None None 0 (1 / 10) "error"), 500. repeat split.
  - apply (c199_tangent _ shaft (mkv 0 0 0 1) 500 (mkv 0 1 0 0) 90); try reflexivity.
    + left; reflexivity.
    + unfold far, outwards. cbn [shaft origin vx vy]. rewrite (mag_is _ _ _ _ 10) by lra. lra.
    + unfold far, horizontal. cbn [vx vy]. rewrite (mag_is _ _ _ _ 1) by lra. lra.
    + split; [lra|]. rewrite cos_deg_90. unfold dot, outwards, horizontal. cbn [vx vy vz shaft origin]. ring.
    + cbn. lra.
  - unfold touches. intros [_ H]. specialize (H 0). unfold outwards in H. cbn [shaft origin vx vy] in H. rewrite (mag_is _ _ _ _ 10) in H by lra. lra.
Qed.
Print Assumptions c202_touching_refuted.

(** C203.  Four of the declared constraint types can never pass. *)
Theorem c203_unsupported_refuted : forall k d, In (c_type k) [ON_CIRCLE; IN_PLANE; MIN_DISTANCE; NO_INTERFERENCE] -> passed (evaluate k d) = false.
Proof. intros k d H. unfold evaluate. cbn in H. destruct H as [<- | [<- | [<- | [<- | []]]]]; reflexivity. Qed.
Print Assumptions c203_unsupported_refuted.
Example c203_nonvacuous : exists k, c_type k = ON_CIRCLE /\ c_center k = Some (mkv 0 0 0 1) /\ c_radius k = Some 10 /\ mag (outwards (mkv 0 0 0 1) (origin wall)) = 10 /\ passed (evaluate k wall) = false.
Proof. exists (ask ON_CIRCLE "" (mkv 0 0 1 0) 1). repeat split. unfold outwards. cbn [wall origin vx vy]. apply mag_is; lra. Qed.

(** C204.  The module's helper functions agree with the geometry and with the constraints. *)
Theorem c204_angle_between : forall u v, (far u -> far v -> angle u v (angle_between_vectors u v)) /\ (~ far u \/ ~ far v -> angle_between_vectors u v = 0) /\
  angle_between_vectors u v = angle_between_vectors v u /\ 0 <= angle_between_vectors u v <= 180.
Proof.
  intros u v. assert (F : far u -> far v -> angle_between_vectors u v = ang u v).
  { intros A B. unfold angle_between_vectors. rewrite (far_rltb _ A), (far_rltb _ B). cbn [orb]. apply full_angle; apply far_nz; auto. }
  assert (N : ~ far u \/ ~ far v -> angle_between_vectors u v = 0).
  { intros [A|A]; unfold angle_between_vectors; rewrite (near_rltb _ A); cbn [orb]; [reflexivity|]. destruct (Rltb (mag u) tiny); reflexivity. }
  assert (D : forall w, far w \/ ~ far w) by (intros w; unfold far; destruct (Rle_dec (1 / 10000000000) (mag w)); auto).
  split; [intros A B; rewrite F by auto; apply ang_angle; apply far_nz; auto|]. split; [exact N|]. split.
  - destruct (D u) as [A|A]; destruct (D v) as [B|B].
    + rewrite F by auto. unfold angle_between_vectors. rewrite (far_rltb _ A), (far_rltb _ B). cbn [orb]. rewrite full_angle by (apply far_nz; auto). unfold ang. f_equal. f_equal. rewrite (Rmult_comm (mag u)). f_equal. unfold dot. ring.
    + rewrite N by auto. unfold angle_between_vectors. rewrite (near_rltb _ B). reflexivity.
    + rewrite N by auto. unfold angle_between_vectors. rewrite (near_rltb _ A). destruct (Rltb (mag v) tiny); reflexivity.
    + rewrite N by auto. unfold angle_between_vectors. rewrite (near_rltb _ B). reflexivity.
  - destruct (D u) as [A|A]; [destruct (D v) as [B|B]|]; [rewrite F by auto; apply ang_range; apply far_nz; auto|rewrite N by auto; lra|rewrite N by auto; lra].
Qed.
Print Assumptions c204_angle_between.
Theorem c204_helpers_agree : forall k d c r v, c_center k = Some c -> c_radius k = Some r ->
  (c_type k = TANGENT_TO_CIRCLE -> runs_along d v -> passed (evaluate k d) = is_tangent_to_circle (origin d) v c r (tolerance_deg k)) /\
  (c_type k = RADIAL_FROM_CENTER -> faces_along d v -> forall s, c_direction k = Some s ->
     match is_radial_from_center (origin d) v c s (tolerance_deg k) with Some b => passed (evaluate k d) = b | None => passed (evaluate k d) = false /\ s <> "outward"%string /\ s <> "inward"%string end).
Proof.
  intros k d c r v C Rd. split.
  - intros T V. unfold evaluate, check_tangent, is_tangent_to_circle. rewrite T, C, Rd, (runs_eq _ _ V). cbn zeta. unfold radial_of. destruct (Rltb (mag (flat (sub (origin d) c))) tiny); [reflexivity|].
    destruct (Rltb (mag (flat v)) tiny); reflexivity.
  - intros T V s S. unfold evaluate, check_radial, is_radial_from_center. rewrite T, C, S, (faces_eq _ _ V). cbn zeta. unfold radial_of.
    destruct (String.eqb s "outward") eqn:E1; cbn [orb]; [destruct (Rltb (mag (flat (sub (origin d) c))) tiny); reflexivity|].
    destruct (String.eqb s "inward") eqn:E2; cbn [orb]; [destruct (Rltb (mag (flat (sub (origin d) c))) tiny); reflexivity|].
    split; [reflexivity|]. split; intros ->; discriminate.
Qed.
Print Assumptions c204_helpers_agree.
Example c204_nonvacuous : far (mkv 2 0 0 0) /\ far (mkv 0 0 3 0) /\ angle_between_vectors (mkv 2 0 0 0) (mkv 0 0 3 0) = 90.
Proof.
  assert (A : far (mkv 2 0 0 0)) by (unfold far; rewrite (mag_is _ _ _ _ 2) by lra; lra). assert (B : far (mkv 0 0 3 0)) by (unfold far; rewrite (mag_is _ _ _ _ 3) by lra; lra).
  split; [exact A|]. split; [exact B|]. destruct (c204_angle_between (mkv 2 0 0 0) (mkv 0 0 3 0)) as [H _]. specialize (H A B).
  rewrite (angle_unique _ _ _ (far_nz _ A) (far_nz _ B) H). symmetry. apply angle_unique; [apply far_nz; auto|apply far_nz; auto|]. split; [lra|]. rewrite cos_deg_90. unfold dot; cbn [vx vy vz]; ring.
Qed.
