From Coq Require Import Reals List Bool ZArith Lra Lia Psatz.
From Verif Require Import Xform_Model Xform_Proofs Fig_Model Fig_Proofs Fig_Proofs2.
Import ListNotations.
Open Scope R_scope.

(** ** the foot of the perpendicular found by linePointXY *)
Section Foot.
  Variables (a b p : vec) (z : R).
  Hypothesis (Ha : vz a = z) (Hb : vz b = z) (Hp : vz p = z) (Hab : epsilon <= dist a b).
  Let L := dist a b.
  Let dx := vx b - vx a.
  Let dy := vy b - vy a.
  Let N := (vy b - vy a) * vx p - (vx b - vx a) * vy p + vx b * vy a - vy b * vx a.
  Let k := N / L.
  Let A := ((vx p - vx a) * dx + (vy p - vy a) * dy) / L.
  Definition nrm : vec := orthoXY (scale3 (sub b a) (1 / mag (sub b a))).
  Lemma ft_L2 : L * L = dx * dx + dy * dy. Proof. exact (ld_L2 a b z Ha Hb). Qed.
  Lemma ft_Lpos : 0 < L. Proof. exact (ld_Lpos a b Hab). Qed.
  Lemma ft_mag : mag (sub b a) = L. Proof. unfold L. rewrite dist_sym. reflexivity. Qed.
  Lemma ft_nrm : nrm = mkv (dy / L) (- (dx / L)) 0 1.
  Proof.
    unfold nrm. rewrite ft_mag. pose proof ft_Lpos. unfold orthoXY, scale3, sub, dx, dy; simpl.
    f_equal; field; lra.
  Qed.
  Definition at_off (s : R) : vec := add p (scale3 nrm s).
  Lemma ft_N : N = dy * (vx p - vx a) - dx * (vy p - vy a).
  Proof. unfold N, dx, dy. ring. Qed.
  Lemma ft_id1 : A * A + k * k = (vx p - vx a) * (vx p - vx a) + (vy p - vy a) * (vy p - vy a).
  Proof.
    pose proof ft_Lpos. unfold A, k. rewrite ft_N.
    set (u := vx p - vx a). set (v := vy p - vy a).
    apply Rmult_eq_reg_r with (L * L); [|nra]. rewrite ft_L2 at 2.
    field_simplify; [|lra]. field_simplify. lra.
  Qed.
  Lemma ft_dista s : dist a (at_off s) = sqrt (A * A + (k + s) * (k + s)).
  Proof.
    pose proof ft_Lpos as HL. rewrite dist_sq. f_equal. unfold at_off, add, scale3, sq; cbn [vx vy vz].
    rewrite ft_nrm; cbn [vx vy vz]. rewrite Ha, Hp.
    replace (A * A + (k + s) * (k + s)) with (A * A + k * k + 2 * k * s + s * s) by ring.
    rewrite ft_id1. unfold k. rewrite ft_N.
    assert (E : dx / L * (dx / L) + dy / L * (dy / L) = 1).
    { replace (dx / L * (dx / L) + dy / L * (dy / L)) with ((dx * dx + dy * dy) / (L * L)) by (field; lra).
      rewrite <- ft_L2. field; lra. }
    set (u := vx p - vx a). set (v := vy p - vy a).
    replace (vx a - (vx p + dy / L * s)) with (- (u + dy / L * s)) by (unfold u; ring).
    replace (vy a - (vy p + - (dx / L) * s)) with (- (v - dx / L * s)) by (unfold v; ring).
    replace (s * s) with ((dx / L * (dx / L) + dy / L * (dy / L)) * (s * s)) by (rewrite E; ring).
    field. lra.
  Qed.
  Lemma ft_distb s : dist (at_off s) b = sqrt ((L - A) * (L - A) + (k + s) * (k + s)).
  Proof.
    pose proof ft_Lpos as HL. rewrite dist_sq. f_equal. unfold at_off, add, scale3, sq; cbn [vx vy vz].
    rewrite ft_nrm; cbn [vx vy vz]. rewrite Hb, Hp.
    replace ((L - A) * (L - A) + (k + s) * (k + s)) with (L * L - 2 * (L * A) + (A * A + k * k) + 2 * k * s + s * s) by ring.
    rewrite ft_id1. replace (L * A) with ((vx p - vx a) * dx + (vy p - vy a) * dy) by (unfold A; field; lra).
    unfold k. rewrite ft_N, ft_L2.
    assert (E : dx / L * (dx / L) + dy / L * (dy / L) = 1).
    { replace (dx / L * (dx / L) + dy / L * (dy / L)) with ((dx * dx + dy * dy) / (L * L)) by (field; lra).
      rewrite <- ft_L2. field; lra. }
    replace (vx p + dy / L * s - vx b) with ((vx p - vx a) + dy / L * s - dx) by (unfold dx; ring).
    replace (vy p + - (dx / L) * s - vy b) with ((vy p - vy a) - dx / L * s - dy) by (unfold dy; ring).
    set (u := vx p - vx a). set (v := vy p - vy a).
    replace (s * s) with ((dx / L * (dx / L) + dy / L * (dy / L)) * (s * s)) by (rewrite E; ring).
    field. lra.
  Qed.
  Lemma ft_sample : sampleline (a, b) (A / L) = at_off (- k).
  Proof.
    pose proof ft_Lpos as HL. pose proof ft_L2 as HL2.
    unfold sampleline, at_off, add, scale3; cbn [fst snd vx vy vz]. rewrite ft_nrm; cbn [vx vy vz].
    rewrite Ha, Hb, Hp. unfold k, A. rewrite ft_N.
    assert (H1 : (vx p - vx a) = ((vx p - vx a) * (dx * dx + dy * dy)) / (L * L)) by (rewrite <- HL2; field; lra).
    assert (H2 : (vy p - vy a) = ((vy p - vy a) * (dx * dx + dy * dy)) / (L * L)) by (rewrite <- HL2; field; lra).
    apply mkv_eq; try ring.
    - transitivity (vx a + ((vx p - vx a) * dx + (vy p - vy a) * dy) * dx / (L * L)).
      { set (X := _ * dx + _ * dy). replace (vx b) with (vx a + dx) by (unfold dx; ring). field. lra. }
      transitivity (vx a + (vx p - vx a) - (dy * (vx p - vx a) - dx * (vy p - vy a)) * dy / (L * L)); [|field; lra].
      rewrite H1 at 2. field. lra.
    - transitivity (vy a + ((vx p - vx a) * dx + (vy p - vy a) * dy) * dy / (L * L)).
      { set (X := _ * dx + _ * dy). replace (vy b) with (vy a + dy) by (unfold dy; ring). field. lra. }
      transitivity (vy a + (vy p - vy a) + (dy * (vx p - vx a) - dx * (vy p - vy a)) * dx / (L * L)); [|field; lra].
      rewrite H2 at 2. field. lra.
  Qed.
  (** among the two candidates the foot has the strictly smaller triangle sum unless they coincide *)
  Definition tri (s : R) := dist a (at_off s) + dist (at_off s) b.
  Lemma tri_foot_le s : tri (- k) <= tri s.
  Proof.
    unfold tri. rewrite !ft_dista, !ft_distb. replace (k + - k) with 0 by ring.
    pose proof (Rle_0_sqr (k + s)) as H. unfold Rsqr in H.
    apply Rplus_le_compat; apply sqrt_le_1_alt; lra.
  Qed.
  Lemma tri_foot_eq s : tri s <= tri (- k) -> s = - k.
  Proof.
    unfold tri. rewrite !ft_dista, !ft_distb. replace (k + - k) with 0 by ring. intros H.
    pose proof (Rle_0_sqr (k + s)) as H0. unfold Rsqr in H0.
    assert (H1 : sqrt ((L - A) * (L - A) + 0 * 0) <= sqrt ((L - A) * (L - A) + (k + s) * (k + s)))
      by (apply sqrt_le_1_alt; lra).
    assert (H2 : sqrt (A * A + (k + s) * (k + s)) <= sqrt (A * A + 0 * 0)) by lra.
    pose proof (Rle_0_sqr A) as H3. unfold Rsqr in H3.
    apply sqrt_le_0 in H2; try lra.
    assert (H4 : (k + s) * (k + s) = 0) by lra. apply Rmult_integral in H4. destruct H4; lra.
  Qed.
  Lemma ft_abs : Rabs k = k \/ Rabs k = - k.
  Proof. unfold Rabs. destruct (Rcase_abs k); auto. Qed.
  (** which candidate the comparison picks *)
  Lemma pick : (if Rleb (tri (Rabs k)) (tri (- Rabs k)) then Rabs k else - Rabs k) = - k.
  Proof.
    destruct (Rleb (tri (Rabs k)) (tri (- Rabs k))) eqn:E; rb.
    - destruct ft_abs as [H|H]; rewrite H in *; [|reflexivity].
      apply tri_foot_eq. exact E.
    - destruct ft_abs as [H|H]; rewrite H in *; [reflexivity|].
      pose proof (tri_foot_le (- - k)). lra.
  Qed.
  Lemma lp_unfold inside distance params : distance && params = false ->
    linePointXY (a, b) p inside distance params =
    if negb inside && distance then Ok (LPNum (Rabs k))
    else if params || negb inside then
      let s := - k in
      Ok (if distance then LPNum (tri s) else if params then LPNum (dist (at_off s) b / L) else LPPoint (at_off s))
    else if Rltb (Rabs (tri (Rabs k) - L)) epsilon then Ok (if distance then LPNum (Rabs k) else LPPoint (at_off (Rabs k)))
    else if Rltb (Rabs (tri (- Rabs k) - L)) epsilon then Ok (if distance then LPNum (Rabs k) else LPPoint (at_off (- Rabs k)))
    else if Rltb (dist a p) (dist b p) then Ok (if distance then LPNum (dist a p) else LPPoint a)
         else Ok (if distance then LPNum (dist b p) else LPPoint b).
  Proof.
    intros Hdp. unfold linePointXY. cbn [fst snd]. rewrite Rltb_f by assumption. rewrite Hdp.
    rewrite (planar3 z) by assumption. cbn [negb]. cbv zeta.
    fold nrm. fold N. fold L. fold k.
    assert (E : scale3 (scale3 nrm (Rabs k)) (-1) = scale3 nrm (- Rabs k))
      by (unfold scale3; cbn [vx vy vz]; apply mkv_eq; ring).
    rewrite E. fold (at_off (Rabs k)). fold (at_off (- Rabs k)).
    fold (tri (Rabs k)). fold (tri (- Rabs k)).
    destruct (negb inside && distance); [reflexivity|].
    destruct (params || negb inside); [|reflexivity].
    pose proof pick as P. destruct (Rleb (tri (Rabs k)) (tri (- Rabs k))); rewrite P; reflexivity.
  Qed.
  Lemma foot_param : exists t, sampleline (a, b) t = at_off (- k) /\
    dist p (at_off (- k)) = Rabs k /\ dist (at_off (- k)) b / L = Rabs (1 - t).
  Proof.
    pose proof ft_Lpos as HL. exists (A / L). split; [apply ft_sample|]. split.
    - rewrite dist_sym. rewrite <- sqrt_Rsqr_abs, dist_sq. f_equal.
      unfold at_off, add, scale3, sq, Rsqr; cbn [vx vy vz]. rewrite ft_nrm; cbn [vx vy vz].
      assert (E : dx / L * (dx / L) + dy / L * (dy / L) = 1).
      { replace (dx / L * (dx / L) + dy / L * (dy / L)) with ((dx * dx + dy * dy) / (L * L)) by (field; lra).
        rewrite <- ft_L2. field; lra. }
      replace (k * k) with ((dx / L * (dx / L) + dy / L * (dy / L)) * (k * k)) by (rewrite E; ring). ring.
    - rewrite ft_distb. replace (k + - k) with 0 by ring.
      replace ((L - A) * (L - A) + 0 * 0) with (Rsqr (L - A)) by (unfold Rsqr; ring).
      rewrite sqrt_Rsqr_abs. replace (1 - A / L) with ((L - A) * / L) by (field; lra).
      rewrite Rabs_mult, (Rabs_right (/ L)); [reflexivity|]. apply Rle_ge, Rlt_le, Rinv_0_lt_compat; lra.
  Qed.
  Lemma tri_foot_inside t : sampleline (a, b) t = at_off (- k) -> 0 <= t <= 1 -> tri (- k) = L.
  Proof.
    intros E Ht. pose proof ft_Lpos as HL. unfold tri. rewrite <- E.
    pose proof (sampleline_dist (a, b) 0 t) as H0. pose proof (sampleline_dist (a, b) t 1) as H1.
    unfold linelength in H0, H1; cbn [fst snd] in H0, H1.
    assert (Ea : dist a (sampleline (a, b) t) = dist (sampleline (a, b) 0) (sampleline (a, b) t)).
    { rewrite !dist_sq. f_equal. unfold sampleline, add, scale3, sq; cbn [fst snd vx vy vz]. ring. }
    assert (Eb : dist (sampleline (a, b) t) b = dist (sampleline (a, b) t) (sampleline (a, b) 1)).
    { rewrite !dist_sq. f_equal. unfold sampleline, add, scale3, sq; cbn [fst snd vx vy vz]. ring. }
    rewrite Ea, Eb, H0, H1. fold L. rewrite (Rabs_left1 (0 - t)), (Rabs_left1 (t - 1)) by lra. ring.
  Qed.
End Foot.

(** inside=False: the returned point is on the line and no point of the line is closer *)
Lemma line_foot a b p z :
  vz a = z -> vz b = z -> vz p = z -> epsilon <= dist a b ->
  exists q t, linePointXY (a, b) p false false false = Ok (LPPoint q) /\ q = sampleline (a, b) t /\
    (forall t', dist p q <= dist p (sampleline (a, b) t')) /\
    (forall inside, linePointXY (a, b) p inside false true = Ok (LPNum (Rabs (1 - t)))).
Proof.
  intros Ha Hb Hp Hab.
  destruct (foot_param a b p z Ha Hb Hp Hab) as (t & E1 & E2 & E3).
  eexists _, t. split.
  { rewrite (lp_unfold a b p z) by auto. reflexivity. }
  split; [symmetry; exact E1|]. split.
  - intros t'. eapply Rle_trans; [right; exact E2|]. exact (ld_lower a b p z Ha Hb Hp Hab t').
  - intros inside. rewrite (lp_unfold a b p z) by auto. rewrite andb_false_r. cbn [orb]. cbv zeta.
    do 2 f_equal. exact E3.
Qed.

(** convexity of the squared distance along the line *)
Lemma dist_sq_affine a b p z t t0 : vz a = z -> vz b = z -> vz p = z -> epsilon <= dist a b ->
  sampleline (a, b) t0 = at_off a b p (- ((((vy b - vy a) * vx p - (vx b - vx a) * vy p + vx b * vy a - vy b * vx a)) / dist a b)) ->
  dist p (sampleline (a, b) t) * dist p (sampleline (a, b) t) =
  dist p (sampleline (a, b) t0) * dist p (sampleline (a, b) t0) + (t - t0) * (t - t0) * (dist a b * dist a b).
Proof.
  intros Ha Hb Hp Hab E.
  assert (Ho : (vx b - vx a) * (vx p - vx (sampleline (a, b) t0)) + (vy b - vy a) * (vy p - vy (sampleline (a, b) t0)) = 0).
  { rewrite E. unfold at_off, add, scale3; cbn [vx vy].
    rewrite (ft_nrm a b Hab); cbn [vx vy]. field. pose proof (ft_Lpos a b Hab). lra. }
  rewrite !dist_sq, !sqrt_sqrt by apply sq_nonneg.
  unfold sampleline, add, scale3, sq in *; cbn [fst snd vx vy vz] in *. rewrite Ha, Hb, Hp in *.
  set (ex := vx p - (vx a * (1 - t0) + vx b * t0)) in *. set (ey := vy p - (vy a * (1 - t0) + vy b * t0)) in *.
  set (dx := vx b - vx a) in *. set (dy := vy b - vy a) in *.
  replace (vx p - (vx a * (1 - t) + vx b * t)) with (ex - (t - t0) * dx) by (unfold ex, dx; ring).
  replace (vy p - (vy a * (1 - t) + vy b * t)) with (ey - (t - t0) * dy) by (unfold ey, dy; ring).
  replace (vx a - vx b) with (- dx) by (unfold dx; ring).
  replace (vy a - vy b) with (- dy) by (unfold dy; ring).
  replace (z - (z * (1 - t) + z * t)) with 0 by ring. replace (z - (z * (1 - t0) + z * t0)) with 0 by ring.
  assert ((t - t0) * (dx * ex + dy * ey) = 0) by (rewrite Ho; ring). nra.
Qed.

(** inside=True, distance=True: never more than the distance to the segment;
    exact when the foot is on the segment *)
Lemma seg_distance a b p z :
  vz a = z -> vz b = z -> vz p = z -> epsilon <= dist a b ->
  exists d, linePointXY (a, b) p true true false = Ok (LPNum d) /\
    (forall t, 0 <= t <= 1 -> d <= dist p (sampleline (a, b) t)) /\
    (exists t, d = dist p (sampleline (a, b) t)).
Proof.
  intros Ha Hb Hp Hab.
  destruct (foot_param a b p z Ha Hb Hp Hab) as (t0 & E1 & E2 & E3).
  rewrite (lp_unfold a b p z) by auto. cbn [negb andb orb].
  set (k := _ / dist a b) in *.
  assert (Hlow : forall t, Rabs k <= dist p (sampleline (a, b) t)) by exact (ld_lower a b p z Ha Hb Hp Hab).
  assert (Hfoot : exists t, Rabs k = dist p (sampleline (a, b) t)) by (exists t0; rewrite E1, E2; reflexivity).
  destruct (Rltb (Rabs (tri a b p (Rabs k) - dist a b)) epsilon) eqn:C1; [eauto|].
  destruct (Rltb (Rabs (tri a b p (- Rabs k) - dist a b)) epsilon) eqn:C2; [eauto|].
  (* the foot is outside the segment *)
  assert (Hout : ~ (0 <= t0 <= 1)).
  { intros Ht. pose proof (tri_foot_inside a b p Hab t0 E1 Ht) as T. fold k in T.
    destruct (ft_abs a b p) as [H|H]; fold k in H; rewrite H in C1, C2; rewrite T in C1 || rewrite T in C2;
    rewrite Rminus_eq_0, Rabs_R0 in C1 || rewrite Rminus_eq_0, Rabs_R0 in C2; rb; pose proof eps_pos; lra. }
  assert (HD : forall t, dist p (sampleline (a, b) t) * dist p (sampleline (a, b) t) =
     Rabs k * Rabs k + (t - t0) * (t - t0) * (dist a b * dist a b)).
  { intros t. rewrite (dist_sq_affine a b p z t t0) by assumption. rewrite E1, E2. reflexivity. }
  assert (Ea : dist a p = dist p (sampleline (a, b) 0)).
  { rewrite !dist_sq. f_equal. unfold sampleline, add, scale3, sq; cbn [fst snd vx vy vz]. ring. }
  assert (Eb : dist b p = dist p (sampleline (a, b) 1)).
  { rewrite !dist_sq. f_equal. unfold sampleline, add, scale3, sq; cbn [fst snd vx vy vz]. ring. }
  assert (HL : 0 < dist a b * dist a b) by (pose proof eps_pos; nra).
  assert (Hmono : forall s t, (s - t0) * (s - t0) <= (t - t0) * (t - t0) ->
     dist p (sampleline (a, b) s) <= dist p (sampleline (a, b) t)).
  { intros s t H. apply Rsqr_incr_0_var; [|apply dist_nonneg]. unfold Rsqr. rewrite !HD. nra. }
  assert (Hmono' : forall s t, dist p (sampleline (a, b) s) <= dist p (sampleline (a, b) t) ->
     (s - t0) * (s - t0) <= (t - t0) * (t - t0)).
  { intros s t H. apply Rsqr_incr_1 in H; try apply dist_nonneg. unfold Rsqr in H. rewrite !HD in H.
    apply Rmult_le_reg_r with (dist a b * dist a b); lra. }
  rewrite Ea, Eb.
  destruct (Rltb (dist p (sampleline (a, b) 0)) (dist p (sampleline (a, b) 1))) eqn:C; rb.
  - eexists. split; [reflexivity|]. split; [|eauto]. intros t Ht. apply Hmono.
    apply Rlt_le, Hmono' in C. nra.
  - eexists. split; [reflexivity|]. split; [|eauto]. intros t Ht. apply Hmono.
    apply Hmono' in C. nra.
Qed.
