From Coq Require Import Reals String List Bool Lra Psatz.
From Verif Require Import Dict Xform_Model Xform_Proofs Datum_Model Datum_Spec Datum_Proofs Constr_Model Constr_Spec Constr_Proofs Mate_Model Mate_Spec.
Import ListNotations.
Open Scope R_scope.
Open Scope list_scope.

Lemma rleb_iff a b : Rleb a b = true <-> a <= b.
Proof. unfold Rleb. destruct (Rle_dec a b); split; congruence || auto; intros; contradiction. Qed.
Lemma mag_eq2 v r : 0 <= r -> vx v * vx v + vy v * vy v + vz v * vz v = r * r -> mag v = r.
Proof. intros P E. unfold mag. rewrite E. apply sqrt_square, P. Qed.
Lemma plane_dist_eq n p p0 : mag n <> 0 -> plane_dist n p p0 = Some (Rabs (dot n (sub p p0)) / mag n).
Proof.
  intros H. unfold plane_dist. rewrite nunit_some by exact H. cbn [ndot nabs option_map]. f_equal. pose proof (mag_pos n H) as P.
  replace (dot (mkv (vx n / mag n) (vy n / mag n) (vz n / mag n) 0) (sub p p0)) with (dot n (sub p p0) * / mag n) by (unfold dot; cbn [vx vy vz]; field; exact H).
  rewrite Rabs_mult, (Rabs_right (/ mag n)); [reflexivity|]. apply Rle_ge, Rlt_le, Rinv_0_lt_compat, P.
Qed.
Lemma dist_sym a b : dist a b = dist b a.
Proof. unfold dist, mag, sub. cbn [vx vy vz]. f_equal. ring. Qed.
Lemma plane_nearest n p p0 : mag n <> 0 -> nearest (plane_of p0 n) p (Rabs (dot n (sub p p0)) / mag n).
Proof.
  intros H. pose proof (mag_pos n H) as P. pose proof (mag2 n) as M. split.
  - set (s := dot n (sub p p0) / (mag n * mag n)). exists (mkv (vx p - s * vx n) (vy p - s * vy n) (vz p - s * vz n) 1). split.
    + unfold plane_of. cbn [vx vy vz]. replace (vx n * (vx p - s * vx n - vx p0) + vy n * (vy p - s * vy n - vy p0) + vz n * (vz p - s * vz n - vz p0))
        with (dot n (sub p p0) - s * (vx n * vx n + vy n * vy n + vz n * vz n)) by (unfold dot, sub; cbn [vx vy vz]; ring). rewrite <- M. unfold s. field. exact H.
    + unfold dist. apply mag_eq2; [apply Rmult_le_pos; [apply Rabs_pos|apply Rlt_le, Rinv_0_lt_compat, P]|]. unfold sub at 1 2 3 4 5 6. cbn [vx vy vz].
      replace (Rabs (dot n (sub p p0)) / mag n * (Rabs (dot n (sub p p0)) / mag n)) with ((Rabs (dot n (sub p p0)) * Rabs (dot n (sub p p0))) / (mag n * mag n)) by (field; exact H).
      replace (Rabs (dot n (sub p p0)) * Rabs (dot n (sub p p0))) with (dot n (sub p p0) * dot n (sub p p0)) by (rewrite <- Rabs_mult; symmetry; apply Rabs_right, Rle_ge, Rle_0_sqr).
      replace ((vx p - (vx p - s * vx n)) * (vx p - (vx p - s * vx n)) + (vy p - (vy p - s * vy n)) * (vy p - (vy p - s * vy n)) + (vz p - (vz p - s * vz n)) * (vz p - (vz p - s * vz n)))
        with (s * s * (vx n * vx n + vy n * vy n + vz n * vz n)) by ring. rewrite <- M. unfold s. generalize (dot n (sub p p0)). intros x. field. exact H.
  - intros q Q. apply (Rmult_le_reg_r (mag n)); [exact P|]. unfold Rdiv. rewrite Rmult_assoc, Rinv_l, Rmult_1_r by exact H.
    replace (dot n (sub p p0)) with (dot (sub p q) n) by (unfold plane_of in Q; unfold dot, sub; cbn [vx vy vz]; lra). apply cauchy.
Qed.
Lemma nearest_unique S p e e' : nearest S p e -> nearest S p e' -> e = e'.
Proof. intros [(q & Q & E) L] [(q' & Q' & E') L']. pose proof (L _ Q'). pose proof (L' _ Q). lra. Qed.

Definition axis_e (w p p0 : vec) : R := let v := sub p p0 in let s := dot v w / (mag w * mag w) in mag (mkv (vx v - s * vx w) (vy v - s * vy w) (vz v - s * vz w) 0).
Lemma axis_dist_eq w p p0 : mag w <> 0 -> axis_dist w p p0 = Some (axis_e w p p0).
Proof.
  intros H. unfold axis_dist, axis_e. rewrite nunit_some by exact H. cbn zeta. f_equal. cbn [vx vy vz]. f_equal.
  apply mkv_eq; auto; unfold dot; cbn [vx vy vz]; field; exact H.
Qed.
Lemma axis_nearest w p p0 : mag w <> 0 -> nearest (line_through p0 w) p (axis_e w p p0).
Proof.
  intros H. pose proof (mag_pos w H) as P. pose proof (mag2 w) as M. assert (PP : 0 < mag w * mag w) by nra. unfold axis_e. cbn zeta. set (v := sub p p0). set (s := dot v w / (mag w * mag w)).
  assert (SE : s * (mag w * mag w) = dot v w) by (unfold s; field; exact H). split.
  - exists (mkv (vx p0 + s * vx w) (vy p0 + s * vy w) (vz p0 + s * vz w) 1). split; [exists s; cbn; auto|]. unfold dist, mag, sub. cbn [vx vy vz v sub]. f_equal. ring.
  - intros q (k & X & Y & Z). unfold dist. apply sqrt_le_1_alt. cbn [vx vy vz]. unfold sub. cbn [vx vy vz]. rewrite X, Y, Z.
    assert (0 <= (k - s) * (k - s) * (mag w * mag w)) by (apply Rmult_le_pos; [apply Rle_0_sqr|lra]). rewrite M in *. unfold dot in SE. cbn [v sub vx vy vz] in SE |- *.
    set (a := vx w) in *. set (b := vy w) in *. set (c := vz w) in *. set (x := vx p - vx p0) in *. set (y := vy p - vy p0) in *. set (z := vz p - vz p0) in *.
    replace (vx p - (vx p0 + k * a)) with (x - k * a) by (unfold x; ring). replace (vy p - (vy p0 + k * b)) with (y - k * b) by (unfold y; ring). replace (vz p - (vz p0 + k * c)) with (z - k * c) by (unfold z; ring).
    apply Rminus_le. replace (_ - _) with (2 * (k - s) * (x * a + y * b + z * c) - (k * k - s * s) * (a * a + b * b + c * c)) by ring.
    rewrite <- SE. nra.
Qed.
Lemma aligned_eq u v tol : mag u <> 0 -> mag v <> 0 -> (aligned u v tol <-> line_angle u v <= tol).
Proof.
  intros A B. unfold line_angle. rewrite line_angle_eq by auto. split.
  - intros (t & T & H). apply angle_unique in T; auto. subst t. unfold Rmin. destruct (Rle_dec (ang u v) (180 - ang u v)); lra.
  - intros H. exists (ang u v). split; [apply ang_angle; auto|]. unfold Rmin in H. destruct (Rle_dec (ang u v) (180 - ang u v)); lra.
Qed.

(** rigid motions *)
Definition delta (p q : vec) : vec := mkv (vx p - vx q) (vy p - vy q) (vz p - vz q) 0.
Lemma mulMV_delta m p q : vw p = vw q -> mkv (vx (mulMV m p) - vx (mulMV m q)) (vy (mulMV m p) - vy (mulMV m q)) (vz (mulMV m p) - vz (mulMV m q)) (vw (mulMV m p) - vw (mulMV m q)) = mulMV m (delta p q).
Proof. intros W. unfold mulMV, delta. cbn [vx vy vz vw]. unfold dot4. cbn [vx vy vz vw]. apply mkv_eq; rewrite ?W; ring. Qed.
Section Motion.
  Variable m : matrix.
  Hypothesis Rm : rigid m.
  Lemma sub_image u p q : vw p = vw q -> vw u = 0 -> dot (mulMV m u) (sub (mulMV m p) (mulMV m q)) = dot u (sub p q).
  Proof.
    intros W U. replace (dot u (sub p q)) with (dot u (delta p q)) by reflexivity. destruct Rm as [_ D]. rewrite <- (D u (delta p q)) by auto. rewrite <- (mulMV_delta m p q W). reflexivity.
  Qed.
  Lemma dist_image p q : vw p = vw q -> mag (sub (mulMV m p) (mulMV m q)) = mag (sub p q).
  Proof.
    intros W. rewrite !mag_dot. replace (dot (sub p q) (sub p q)) with (dot (delta p q) (delta p q)) by reflexivity. destruct Rm as [_ D]. rewrite <- (D (delta p q) (delta p q)) by auto.
    rewrite <- (mulMV_delta m p q W). reflexivity.
  Qed.
  Lemma tv_form v : vw v = 0 -> exists k, 0 < k /\ tv m v = scale4 (mulMV m v) k.
  Proof. intros W. exact (tv_same_way m Rm v W). Qed.
  Lemma dot_mm u v : vw u = 0 -> vw v = 0 -> dot (mulMV m u) (mulMV m v) = dot u v.
  Proof. apply Rm. Qed.
  Lemma mag_mm v : vw v = 0 -> mag (mulMV m v) = mag v.
  Proof. intros W. rewrite !mag_dot, dot_mm by auto. reflexivity. Qed.
  Lemma dot_scale u v k l : dot (scale4 u k) (scale4 v l) = k * l * dot u v.
  Proof. unfold dot, scale4. cbn. ring. Qed.
  Lemma tv_nz v : vw v = 0 -> mag v <> 0 -> mag (tv m v) <> 0.
  Proof. intros W H. destruct (tv_form v W) as (k & K & ->). rewrite mag_scale4, mag_mm by (auto; lra). intros E. apply Rmult_integral in E. destruct E; lra. Qed.
  Lemma ang_image u v : vw u = 0 -> vw v = 0 -> mag u <> 0 -> mag v <> 0 -> ang (tv m u) (tv m v) = ang u v.
  Proof.
    intros U V A B. destruct (tv_form u U) as (k & K & ->). destruct (tv_form v V) as (l & L & ->). unfold ang. rewrite dot_scale, !mag_scale4, !mag_mm, dot_mm by (auto; lra).
    f_equal. f_equal. field. repeat split; auto; lra.
  Qed.
  Lemma line_angle_image u v : vw u = 0 -> vw v = 0 -> mag u <> 0 -> mag v <> 0 -> line_angle (tv m u) (tv m v) = line_angle u v.
  Proof. intros U V A B. unfold line_angle. rewrite !line_angle_eq by (try apply tv_nz; auto). rewrite ang_image by auto. reflexivity. Qed.
  Lemma plane_image n p p0 : vw n = 0 -> mag n <> 0 -> vw p = vw p0 -> plane_dist (tv m n) (mulMV m p) (mulMV m p0) = plane_dist n p p0.
  Proof.
    intros N A W. rewrite !plane_dist_eq by (try apply tv_nz; auto). destruct (tv_form n N) as (k & K & ->). rewrite mag_scale4, mag_mm by (auto; lra).
    replace (dot (scale4 (mulMV m n) k) (sub (mulMV m p) (mulMV m p0))) with (k * dot (mulMV m n) (sub (mulMV m p) (mulMV m p0))) by (unfold dot, scale4; cbn; ring).
    rewrite sub_image by auto. rewrite Rabs_mult, (Rabs_right k) by lra. f_equal. field. split; auto; lra.
  Qed.
  Lemma axis_sq w p p0 : mag w <> 0 -> axis_e w p p0 = sqrt (dot (sub p p0) (sub p p0) - dot w (sub p p0) * dot w (sub p p0) / (mag w * mag w)).
  Proof.
    intros H. unfold axis_e. cbn zeta. rewrite mag_dot. f_equal. pose proof (mag2 w) as M. set (v := sub p p0). replace (dot w v) with (dot v w) by (unfold dot; ring).
    set (s := dot v w / (mag w * mag w)). assert (SE : s * (mag w * mag w) = dot v w) by (unfold s; field; exact H).
    replace (dot v w * dot v w / (mag w * mag w)) with (s * dot v w) by (unfold s; field; exact H). 
    transitivity (dot v v - 2 * s * dot v w + s * (s * (mag w * mag w))); [rewrite M; unfold dot; cbn [vx vy vz]; ring|rewrite SE; ring].
  Qed.
  Lemma axis_image w p p0 : vw w = 0 -> mag w <> 0 -> vw p = vw p0 -> axis_dist (tv m w) (mulMV m p) (mulMV m p0) = axis_dist w p p0.
  Proof.
    intros N A W. rewrite !axis_dist_eq by (try apply tv_nz; auto). f_equal. rewrite !axis_sq by (try apply tv_nz; auto). destruct (tv_form w N) as (k & K & ->). rewrite mag_scale4, mag_mm by (auto; lra). f_equal.
    replace (dot (sub (mulMV m p) (mulMV m p0)) (sub (mulMV m p) (mulMV m p0))) with (dot (sub p p0) (sub p p0)).
    2:{ pose proof (dist_image p p0 W) as D. rewrite !mag_dot in D. apply sqrt_inj in D; [auto|unfold dot; nra|unfold dot; nra]. }
    replace (dot (scale4 (mulMV m w) k) (sub (mulMV m p) (mulMV m p0))) with (k * dot (mulMV m w) (sub (mulMV m p) (mulMV m p0))) by (unfold dot, scale4; cbn; ring).
    rewrite sub_image by auto. f_equal. field. split; auto; lra.
  Qed.
End Motion.

(** limits *)
Lemma below_iff x lo : below x lo = true <-> exists l, lo = Some l /\ x < l.
Proof. destruct lo as [l|]; cbn; [|split; [discriminate|intros (l & E & _); discriminate]]. rewrite Rltb_true. split; [eauto|intros (l' & E & L)]. assert (l = l') by congruence. lra. Qed.
Lemma above_iff x hi : above x hi = true <-> exists l, hi = Some l /\ l < x.
Proof. destruct hi as [l|]; cbn; [|split; [discriminate|intros (l & E & _); discriminate]]. rewrite Rltb_true. split; [eauto|intros (l' & E & L)]. assert (l = l') by congruence. lra. Qed.
Lemma within_iff lo hi x : within lo hi x <-> below x lo = false /\ above x hi = false.
Proof.
  split.
  - intros [A B]. split; apply not_true_iff_false; intros H; [apply below_iff in H|apply above_iff in H]; destruct H as (l & E & L); [apply A in E|apply B in E]; lra.
  - intros [A B]. apply not_true_iff_false in A. apply not_true_iff_false in B. rewrite below_iff in A. rewrite above_iff in B. split; intros l E; [destruct (Rle_dec l x)|destruct (Rle_dec x l)]; auto; exfalso; [apply A|apply B]; exists l; split; auto; lra.
Qed.
Lemma mtype_round t : mtype_of (mtype_value t) = Some t.
Proof. destruct t; reflexivity. Qed.

Definition twov (o : option R) (f : R -> R) lo hi (a b : violation) : list violation :=
  match o with Some p => (if below p lo then [a] else []) ++ (if above (f p) hi then [b] else []) | None => [] end.
Lemma eval_eq m l pos vel eff : m_limits m = Some l ->
  mate_evaluate m pos vel eff = MResult (mate_dof m)
    (match pos with Some p => (if below p (min_value l) then Rabs (theval (min_value l) - p) else 0) + (if above p (max_value l) then Rabs (p - theval (max_value l)) else 0) | None => 0 end)
    (match pos with Some p => negb (below p (min_value l)) && negb (above p (max_value l)) | None => true end)
    (twov pos (fun x => x) (min_value l) (max_value l) Vmin_value Vmax_value ++ twov vel Rabs (min_velocity l) (max_velocity l) Vmin_velocity Vmax_velocity ++ twov eff Rabs (min_effort l) (max_effort l) Vmin_effort Vmax_effort)
    (match m_dynamics m with Some _ => true | None => false end).
Proof.
  intros L. unfold mate_evaluate. rewrite L. cbn zeta.
  set (dyn := match m_dynamics m with Some _ => true | None => false end).
  set (r1 := match pos with None => _ | Some p => _ end).
  assert (E1 : r1 = MResult (mate_dof m) (match pos with Some p => (if below p (min_value l) then Rabs (theval (min_value l) - p) else 0) + (if above p (max_value l) then Rabs (p - theval (max_value l)) else 0) | None => 0 end)
    (match pos with Some p => negb (below p (min_value l)) && negb (above p (max_value l)) | None => true end)
    (twov pos (fun x => x) (min_value l) (max_value l) Vmin_value Vmax_value) dyn).
  { unfold r1, twov. destruct pos as [p|]; [|reflexivity]. generalize (theval (min_value l) - p), (p - theval (max_value l)). intros a b.
    destruct (below p (min_value l)), (above p (max_value l)); cbn [dof_remaining m_error satisfied limit_violations dynamics_active app negb andb]; f_equal; ring. }
  rewrite E1. clear E1 r1. cbn [dof_remaining m_error satisfied limit_violations dynamics_active].
  generalize (match pos with Some p => (if below p (min_value l) then Rabs (theval (min_value l) - p) else 0) + (if above p (max_value l) then Rabs (p - theval (max_value l)) else 0) | None => 0 end).
  generalize (match pos with Some p => negb (below p (min_value l)) && negb (above p (max_value l)) | None => true end).
  generalize (twov pos (fun x => x) (min_value l) (max_value l) Vmin_value Vmax_value). intros vs b e.
  set (r2 := match vel with None => _ | Some p => _ end).
  assert (E2 : r2 = MResult (mate_dof m) e b (vs ++ twov vel Rabs (min_velocity l) (max_velocity l) Vmin_velocity Vmax_velocity) dyn).
  { unfold r2, twov. destruct vel as [v|]; [|rewrite app_nil_r; reflexivity].
    destruct (below v (min_velocity l)), (above (Rabs v) (max_velocity l)); cbn [dof_remaining m_error satisfied limit_violations dynamics_active app]; rewrite <- ?app_assoc, ?app_nil_r; reflexivity. }
  rewrite E2. clear E2 r2. rewrite app_assoc. generalize (vs ++ twov vel Rabs (min_velocity l) (max_velocity l) Vmin_velocity Vmax_velocity). clear vs. intros vs.
  unfold twov. destruct eff as [v|]; [|rewrite app_nil_r; reflexivity].
  destruct (below v (min_effort l)), (above (Rabs v) (max_effort l)); cbn [dof_remaining m_error satisfied limit_violations dynamics_active app]; rewrite <- ?app_assoc, ?app_nil_r; reflexivity.
Qed.
Lemma in_twov o f lo hi a b x : In x (twov o f lo hi a b) <->
  (x = a /\ exists y z, o = Some y /\ lo = Some z /\ y < z) \/ (x = b /\ exists y z, o = Some y /\ hi = Some z /\ z < f y).
Proof.
  unfold twov. destruct o as [p|]; [|split; [intros []|intros [(_ & y & z & F & _)|(_ & y & z & F & _)]; discriminate]]. rewrite in_app_iff. split.
  - intros [H|H]; [destruct (below p lo) eqn:B; [|destruct H]|destruct (above (f p) hi) eqn:B; [|destruct H]]; destruct H as [<- |[]]; [left|right]; split; auto; [apply below_iff in B|apply above_iff in B]; destruct B as (z & ? & ?); eauto.
  - intros [(-> & y & z & [= <-] & Ez & Lz)|(-> & y & z & [= <-] & Ez & Lz)]; [left|right].
    + replace (below p lo) with true by (symmetry; apply below_iff; eauto). left; auto.
    + replace (above (f p) hi) with true by (symmetry; apply above_iff; eauto). left; auto.
Qed.
Lemma nodup_twov o f lo hi a b : a <> b -> NoDup (twov o f lo hi a b).
Proof. intros N. unfold twov. destruct o as [p|]; [|constructor]. destruct (below p lo), (above (f p) hi); cbn [app]; repeat constructor; cbn; intuition congruence. Qed.
Lemma nodup_app {A} (l r : list A) : NoDup l -> NoDup r -> (forall x, In x l -> ~ In x r) -> NoDup (l ++ r).
Proof.
  induction l as [|x l IH]; cbn [app]; intros L R D; auto. inversion L; subst. constructor; [rewrite in_app_iff; intros [H|H]; auto; apply (D x); cbn; auto|]. apply IH; auto. intros y Y. apply D. right; auto.
Qed.
Lemma eval_none m pos vel eff : m_limits m = None -> mate_evaluate m pos vel eff = MResult (mate_dof m) 0 true [] (match m_dynamics m with Some _ => true | None => false end).
Proof. intros L. unfold mate_evaluate. rewrite L. reflexivity. Qed.

(** coincidence *)
Lemma point_nearest p0 p : nearest (fun q => vx q = vx p0 /\ vy q = vy p0 /\ vz q = vz p0) p (mag (sub p p0)).
Proof.
  assert (D : forall q, vx q = vx p0 /\ vy q = vy p0 /\ vz q = vz p0 -> dist p q = mag (sub p p0)) by (intros q (X & Y & Z); unfold dist, mag, sub; cbn [vx vy vz]; rewrite X, Y, Z; reflexivity).
  split; [exists p0; split; [repeat split|apply D; repeat split]|]. intros q Q. rewrite (D q Q). apply Rle_refl.
Qed.
Lemma nearest_ext S S' p e : (forall q, S q <-> S' q) -> nearest S p e -> nearest S' p e.
Proof. intros X [(q & Q & E) L]. split; [exists q; split; auto; apply X; auto|]. intros q' Q'. apply L, X, Q'. Qed.
Lemma nz v : zero_length v = false -> mag v <> 0.
Proof. unfold zero_length. intros H. apply Rltb_false in H. pose proof eps_pos. lra. Qed.
Lemma mag_sub_sym p q : mag (sub p q) = mag (sub q p).
Proof. unfold mag, sub. cbn [vx vy vz]. f_equal. ring. Qed.
Lemma coinc_distance a b tm td : valid a -> same_kind a b -> nearest (points a) (origin b) (error_distance (evaluate_coincident a b tm td)).
Proof.
  intros V K. apply valid_cases in V as [_ V]. unfold evaluate_coincident, points. destruct K as [K|[Ka Kb]].
  - rewrite <- K. destruct (datum_type a); cbn [error_distance].
    + apply point_nearest.
    + destruct V as (v & E & W & Z). apply nz in Z. rewrite E. cbn [ovec]. rewrite axis_dist_eq by exact Z. cbn [nshow].
      eapply nearest_ext; [|apply axis_nearest, Z]. intros q. split; [intros H; exists v; auto|intros (w & [= <-] & H); exact H].
    + destruct V as (v & E & W & Z). apply nz in Z. rewrite E. cbn [ovec]. rewrite plane_dist_eq by exact Z. cbn [nshow].
      eapply nearest_ext; [|apply plane_nearest, Z]. intros q. split; [intros H; exists v; auto|intros (w & [= <-] & H); exact H].
    + apply point_nearest.
    + apply point_nearest.
  - rewrite Ka in *. rewrite Kb. cbn [error_distance]. destruct V as (v & E & W & Z). apply nz in Z. rewrite E. cbn [ovec]. rewrite plane_dist_eq by exact Z. cbn [nshow].
    eapply nearest_ext; [|apply plane_nearest, Z]. intros q. split; [intros H; exists v; auto|intros (w & [= <-] & H); exact H].
Qed.
Lemma coinc_angle a b tm td u v : valid a -> valid b -> datum_type a = datum_type b -> heading a u -> heading b v ->
  co_satisfied (evaluate_coincident a b tm td) = true <-> error_distance (evaluate_coincident a b tm td) <= tm /\ aligned u v td.
Proof.
  intros Va Vb K U W. apply valid_cases in Va as [_ Va]. apply valid_cases in Vb as [_ Vb]. unfold evaluate_coincident, heading in *. rewrite <- K in *.
  destruct (datum_type a); try contradiction; cbn [co_satisfied error_distance]; rewrite U, W; cbn [ovec]; rewrite andb_true_iff, !rleb_iff.
  - destruct Va as (x & Ex & _ & Zx). destruct Vb as (y & Ey & _ & Zy). rewrite U in Ex. rewrite W in Ey. injection Ex as <-. injection Ey as <-. apply nz in Zx, Zy.
    rewrite aligned_eq by auto. rewrite axis_dist_eq by auto. cbn [nle nshow]. rewrite rleb_iff. reflexivity.
  - destruct Va as (x & Ex & _ & Zx). destruct Vb as (y & Ey & _ & Zy). rewrite U in Ex. rewrite W in Ey. injection Ex as <-. injection Ey as <-. apply nz in Zx, Zy.
    rewrite aligned_eq by auto. rewrite plane_dist_eq by auto. cbn [nle nshow]. rewrite rleb_iff. reflexivity.
  - destruct Va as (x & rx & Ex & _ & Zx & _). destruct Vb as (y & ry & Ey & _ & Zy & _). rewrite U in Ex. rewrite W in Ey. injection Ex as <-. injection Ey as <-. apply nz in Zx, Zy.
    rewrite aligned_eq by auto. reflexivity.
Qed.
Lemma type_image m d : datum_type (image m d) = datum_type d.
Proof. unfold image. destruct (datum_type d); reflexivity. Qed.
Lemma origin_image m d : origin (image m d) = mulMV m (origin d).
Proof. unfold image. destruct (datum_type d); reflexivity. Qed.
Lemma coinc_moves m a b tm td : rigid m -> valid a -> valid b -> evaluate_coincident (image m a) (image m b) tm td = evaluate_coincident a b tm td.
Proof.
  intros Rm Va Vb. apply valid_cases in Va as [Wa Va]. apply valid_cases in Vb as [Wb Vb]. unfold evaluate_coincident. rewrite !type_image, !origin_image.
  assert (W : vw (origin b) = vw (origin a)) by congruence. rewrite (dist_image m Rm) by exact W.
  unfold image. destruct (datum_type a), (datum_type b); try reflexivity; cbn [normal direction option_map].
  - destruct Vb as (y & Ey & W0 & Zy). apply nz in Zy. rewrite Ey. cbn [option_map ovec]. rewrite (plane_image m Rm) by auto. reflexivity.
  - destruct Va as (x & Ex & Wx & Zx). destruct Vb as (y & Ey & Wy & Zy). apply nz in Zx, Zy. rewrite Ex, Ey. cbn [option_map ovec]. rewrite (line_angle_image m Rm), (axis_image m Rm) by auto. reflexivity.
  - destruct Va as (x & Ex & Wx & Zx). apply nz in Zx. rewrite Ex. cbn [option_map ovec]. rewrite (plane_image m Rm) by auto. reflexivity.
  - destruct Va as (x & Ex & Wx & Zx). destruct Vb as (y & Ey & Wy & Zy). apply nz in Zx, Zy. rewrite Ex, Ey. cbn [option_map ovec]. rewrite (line_angle_image m Rm), (plane_image m Rm) by auto. reflexivity.
  - destruct Va as (x & rx & Ex & Wx & Zx & _). destruct Vb as (y & ry & Ey & Wy & Zy & _). apply nz in Zx, Zy. rewrite Ex, Ey. cbn [option_map ovec]. rewrite (line_angle_image m Rm) by auto. reflexivity.
Qed.

(** bolt circles *)
Lemma unit_len v : 0 < mag v -> dot (unit v) (unit v) = 1. Proof. apply unit_dot. Qed.
Lemma dot_unit_r a v : mag v <> 0 -> dot a (unit v) = dot a v / mag v.
Proof. intros H. unfold unit, scale3, dot. cbn. field. exact H. Qed.
Lemma mag_of_dot v : 0 < dot v v -> 0 < mag v. Proof. intros H. rewrite mag_dot. apply sqrt_lt_R0, H. Qed.
Lemma basis_ortho n : 0 < mag n -> let (u, v) := circle_basis n in dot u u = 1 /\ dot v v = 1 /\ dot u v = 0.
Proof.
  intros P. unfold circle_basis. set (z := unit n). assert (Z : dot z z = 1) by (apply unit_len, P).
  set (ref := if Rltb (Rabs (vx z)) (9 / 10) then mkv 1 0 0 0 else mkv 0 1 0 0).
  assert (C : 0 < dot (cross z ref) (cross z ref)).
  { rewrite cross_lagrange, Z. unfold ref, Rltb. destruct (Rlt_dec (Rabs (vx z)) (9 / 10)) as [L|L].
    - unfold dot at 1 2 3. cbn [vx vy vz]. assert (vx z * vx z < 81 / 100). { assert (vx z * vx z = Rabs (vx z) * Rabs (vx z)) by (rewrite <- Rabs_mult; symmetry; apply Rabs_right, Rle_ge, Rle_0_sqr). pose proof (Rabs_pos (vx z)). nra. } nra.
    - unfold dot at 1 2 3. cbn [vx vy vz]. assert (81 / 100 <= vx z * vx z). { assert (vx z * vx z = Rabs (vx z) * Rabs (vx z)) by (rewrite <- Rabs_mult; symmetry; apply Rabs_right, Rle_ge, Rle_0_sqr). nra. } unfold dot in Z. nra. }
  assert (U : dot (unit (cross z ref)) (unit (cross z ref)) = 1) by (apply unit_len, mag_of_dot, C). set (u := unit (cross z ref)) in *.
  assert (ZU : dot z u = 0). { unfold u. rewrite dot_unit_r by (pose proof (mag_of_dot _ C); lra). replace (dot z (cross z ref)) with 0 by (unfold dot, cross; cbn; ring). unfold Rdiv. ring. }
  assert (C2 : dot (cross z u) (cross z u) = 1) by (rewrite cross_lagrange, Z, U, ZU; ring).
  assert (M2 : mag (cross z u) = 1) by (rewrite mag_dot, C2; apply sqrt_1).
  repeat split; auto.
  - apply unit_len. rewrite M2. lra.
  - rewrite dot_unit_r by (rewrite M2; lra). replace (dot u (cross z u)) with 0 by (unfold dot, cross; cbn; ring). unfold Rdiv. ring.
Qed.
Lemma mag_comb u v x y : dot u u = 1 -> dot v v = 1 -> dot u v = 0 -> mag (mkv (x * vx u + y * vx v) (x * vy u + y * vy v) (x * vz u + y * vz v) 1) = sqrt (x * x + y * y).
Proof.
  intros U V D. unfold mag. cbn [vx vy vz]. f_equal.
  transitivity (x * x * dot u u + y * y * dot v v + 2 * x * y * dot u v); [unfold dot; ring|]. rewrite U, V, D. ring.
Qed.
Lemma chord t o : (cos (t + o) - cos t) * (cos (t + o) - cos t) + (sin (t + o) - sin t) * (sin (t + o) - sin t) = (2 * sin (o / 2)) * (2 * sin (o / 2)).
Proof.
  assert (P1 : sin (t + o) * sin (t + o) + cos (t + o) * cos (t + o) = 1) by (pose proof (sin2_cos2 (t + o)) as P; unfold Rsqr in P; exact P).
  assert (P2 : sin t * sin t + cos t * cos t = 1) by (pose proof (sin2_cos2 t) as P; unfold Rsqr in P; exact P).
  assert (C : cos (t + o) * cos t + sin (t + o) * sin t = cos o) by (rewrite <- cos_minus; f_equal; ring).
  assert (H : cos o = 1 - 2 * sin (o / 2) * sin (o / 2)). { rewrite <- cos_2a_sin. f_equal. field. }
  nra.
Qed.
(** concentric circles of the same radius: the error of every hole is the chord of the offset *)
Lemma hole_error_same a b r n off i : 0 < mag (ovec (normal a)) -> 0 <= r -> vx (origin b) = vx (origin a) -> vy (origin b) = vy (origin a) -> vz (origin b) = vz (origin a) ->
  hole_error a b r r n off i = 2 * r * Rabs (sin (radians off / 2)).
Proof.
  intros N P X Y Z. unfold hole_error. cbn zeta. pose proof (basis_ortho _ N) as B. destruct (circle_basis (ovec (normal a))) as (u, v). destruct B as (U & V & D).
  unfold hole, sub. cbn [vx vy vz]. rewrite X, Y, Z. set (t := radians (INR i * (360 / INR n))). set (o := radians off).
  set (p := r * (cos (t + o) - cos t)). set (q := r * (sin (t + o) - sin t)).
  transitivity (mag (mkv (p * vx u + q * vx v) (p * vy u + q * vy v) (p * vz u + q * vz v) 1)); [f_equal; apply mkv_eq; auto; unfold p, q; ring|].
  rewrite (mag_comb u v p q U V D). replace (p * p + q * q) with ((r * r) * ((cos (t + o) - cos t) * (cos (t + o) - cos t) + (sin (t + o) - sin t) * (sin (t + o) - sin t))) by (unfold p, q; ring).
  rewrite chord. replace (r * r * (2 * sin (o / 2) * (2 * sin (o / 2)))) with (Rsqr (2 * r * sin (o / 2))) by (unfold Rsqr; ring). rewrite sqrt_Rsqr_abs, !Rabs_mult, (Rabs_right 2), (Rabs_right r) by lra. reflexivity.
Qed.
(** no offset: the error of every hole is at most the distance of the centres plus the difference of the radii, and equal to it for equal radii *)
Lemma hole_error_zero a b ra rb n i : 0 < mag (ovec (normal a)) -> hole_error a b ra rb n 0 i <= mag (sub (origin b) (origin a)) + Rabs (rb - ra) /\ (ra = rb -> hole_error a b ra rb n 0 i = mag (sub (origin b) (origin a))).
Proof.
  intros N. unfold hole_error. cbn zeta. pose proof (basis_ortho _ N) as B. destruct (circle_basis (ovec (normal a))) as (u, v). destruct B as (U & V & D).
  unfold hole, sub. cbn [vx vy vz]. set (t := radians (INR i * (360 / INR n))). replace (t + radians 0) with t by (unfold radians; lra). split.
  - set (e := mkv ((rb - ra) * (cos t * vx u + sin t * vx v)) ((rb - ra) * (cos t * vy u + sin t * vy v)) ((rb - ra) * (cos t * vz u + sin t * vz v)) 1).
    assert (E : mag e = Rabs (rb - ra)).
    { unfold e. transitivity (mag (mkv (((rb - ra) * cos t) * vx u + ((rb - ra) * sin t) * vx v) (((rb - ra) * cos t) * vy u + ((rb - ra) * sin t) * vy v) (((rb - ra) * cos t) * vz u + ((rb - ra) * sin t) * vz v) 1)); [f_equal; apply mkv_eq; auto; ring|].
      rewrite (mag_comb u v _ _ U V D). replace (((rb - ra) * cos t) * ((rb - ra) * cos t) + ((rb - ra) * sin t) * ((rb - ra) * sin t)) with (Rsqr (rb - ra) * (Rsqr (sin t) + Rsqr (cos t))) by (unfold Rsqr; ring).
      rewrite sin2_cos2, Rmult_1_r. apply sqrt_Rsqr_abs. }
    set (d := mkv (vx (origin b) - vx (origin a)) (vy (origin b) - vy (origin a)) (vz (origin b) - vz (origin a)) 1). rewrite <- E.
    set (w := mkv _ _ _ 1). assert (W : forall f, (f = vx \/ f = vy \/ f = vz) -> f w = f d + f e) by (intros f [-> | [-> | ->]]; unfold w, d, e; cbn [vx vy vz]; ring).
    pose proof (mag_nn d) as Pd. pose proof (mag_nn e) as Pe. pose proof (mag_nn w) as Pw. pose proof (mag2 d) as Md. pose proof (mag2 e) as Me. pose proof (mag2 w) as Mw.
    rewrite (W vx), (W vy), (W vz) in Mw by auto. pose proof (cauchy d e) as Cy. unfold dot in Cy. assert (vx d * vx e + vy d * vy e + vz d * vz e <= mag d * mag e) by (eapply Rle_trans; [apply Rle_abs|exact Cy]).
    apply Rsqr_incr_0; [|lra|lra]. unfold Rsqr. rewrite Mw. nra.
  - intros <-. f_equal. apply mkv_eq; ring.
Qed.
Lemma fold_max_le l x c : (fold_left Rmax l x <= c <-> x <= c /\ Forall (fun y => y <= c) l).
Proof.
  revert x. induction l as [|y l IH]; intros x; cbn [fold_left]; [split; [intros; split; auto|intros []; auto]|]. rewrite IH. split.
  - intros [M F]. pose proof (Rmax_l x y). pose proof (Rmax_r x y). split; [lra|constructor; auto; lra].
  - intros [X F]. inversion F; subst. split; auto. apply Rmax_lub; auto.
Qed.
Lemma fold_max_const l x c : x <= c -> Forall (fun y => y = c) l -> l <> [] -> fold_left Rmax l x = c.
Proof.
  intros X F N. apply Rle_antisym; [apply fold_max_le; split; auto; eapply Forall_impl; [|exact F]; cbn; intros; lra|].
  destruct l as [|y l]; [destruct N; auto|]. inversion F; subst. clear - X. destruct (Rle_dec c (fold_left Rmax (c :: l) x)) as [|H]; auto. exfalso. apply H.
  pose proof (proj1 (fold_max_le (c :: l) x (fold_left Rmax (c :: l) x)) (Rle_refl _)) as [_ G]. inversion G; subst. auto.
Qed.
Lemma map_seq_nil {A} (f : nat -> A) n : (0 < n)%nat -> map f (seq 0 n) <> [].
Proof. destruct n; [intros H; inversion H|discriminate]. Qed.
