(** The icosahedron the refinement starts from. *)
From Coq Require Import Reals List Bool ZArith Lra Lia Permutation.
From Verif Require Import Xform_Model Xform_Proofs Fig_Model Fig_Proofs Fig_Proofs2 Solid_Model Solid_Spec Solid_Proofs Prim_Model Prim_Lab Dict
  Sphere_Model Sphere_Spec Sphere_Proofs Sphere_Proofs2 Sphere_Proofs3.
Import ListNotations.
Open Scope R_scope.

Lemma pymod_below x m : 0 <= x < m -> pymod x m = x.
Proof.
  intros H. unfold pymod. assert (E : Int_part (x / m) = 0%Z).
  { assert (0 < m) by lra. assert (0 <= x / m) by (apply Rmult_le_pos; [lra|left; apply Rinv_0_lt_compat; lra]).
    assert (x / m < 1) by (apply Rmult_lt_reg_r with m; [lra|]; unfold Rdiv; rewrite Rmult_assoc, Rinv_l by lra; lra).
    destruct (base_Int_part (x / m)) as [I1 I2]. set (z := Int_part (x / m)) in *.
    assert (IZR z < IZR 1) by lra. assert (IZR (-1) < IZR z) by lra. apply lt_IZR in H3, H4. lia. }
  rewrite E. lra.
Qed.
Definition q5 : R := / sqrt 5.
Lemma q5_facts : 4 / 9 <= q5 /\ q5 * q5 = 1 / 5 /\ 0 < q5.
Proof.
  assert (P : 0 < sqrt 5) by (apply sqrt_lt_R0; lra). assert (S5 : sqrt 5 * sqrt 5 = 5) by (apply sqrt_sqrt; lra).
  assert (U : sqrt 5 <= 9 / 4) by nra. unfold q5. split; [|split].
  - replace (4 / 9) with (/ (9 / 4)) by field. apply Rinv_le_contravar; auto.
  - rewrite <- Rinv_mult_distr by lra. rewrite S5. field.
  - apply Rinv_0_lt_compat; auto.
Qed.
Lemma lat_vals : cos (atan (1 / 2)) = 2 * q5 /\ sin (atan (1 / 2)) = q5.
Proof.
  rewrite cos_atan, sin_atan. replace (1 + (1 / 2)²) with (5 / (2 * 2)) by (unfold Rsqr; field).
  rewrite sqrt_div_alt by lra. rewrite sqrt_square by lra. unfold q5.
  assert (P : 0 < sqrt 5) by (apply sqrt_lt_R0; lra). split; field; lra.
Qed.
Definition ring (r : R) (k : Z) (t : R) : vec :=
  mkv (2 * q5 * r * cos (IZR k * (PI / 5))) (2 * q5 * r * sin (IZR k * (PI / 5))) (t * q5 * r) 1.
Lemma atan_half : 0 < atan (1 / 2) < PI / 4.
Proof. rewrite <- atan_1, <- atan_0. split; apply atan_increasing; lra. Qed.
Lemma ring_point r k : (k < 10)%nat -> ico_point (S k) r = ring r (Z.of_nat k) (if Nat.even k then -1 else 1).
Proof.
  intros Hk. assert (E : ico_point (S k) r = sphere2cartesian (atan (1 / 2) * 360 * (if Nat.even k then -1 else 1) / pi2) (INR k * 36) r).
  { do 10 (destruct k as [|k]; [reflexivity|]). lia. }
  rewrite E. clear E. pose proof PI_RGT_0 as P0. pose proof atan_half as [A1 A2]. pose proof lat_vals as [LC LS].
  set (sg := if Nat.even k then -1 else 1). assert (Sg : sg = 1 \/ sg = -1) by (unfold sg; destruct (Nat.even k); auto).
  set (lat := atan (1 / 2) * 360 * sg / pi2).
  assert (EL : lat * pi2 / 360 = sg * atan (1 / 2)) by (unfold lat, pi2; field; lra).
  assert (BL : -90 < lat < 90).
  { unfold lat, pi2. assert (X : 0 < atan (1 / 2) / PI < 1 / 4).
    { split; [apply Rdiv_lt_0_compat; lra|]. apply Rmult_lt_reg_r with PI; [lra|]. unfold Rdiv. rewrite Rmult_assoc, Rinv_l by lra. lra. }
    replace (atan (1 / 2) * 360 * sg / (2 * PI)) with (180 * (atan (1 / 2) / PI) * sg) by (field; lra). destruct Sg as [-> | ->]; lra. }
  unfold sphere2cartesian. unfold Reqb. destruct (Req_EM_T lat 90); [lra|]. destruct (Req_EM_T lat (-90)); [lra|].
  assert (K9 : 0 <= INR k <= 9). { split; [apply pos_INR|]. replace 9 with (INR 9) by (rewrite INR_IZR_INZ; reflexivity). apply le_INR. lia. }
  rewrite !pymod_below by lra. replace (lat + 90 - 90) with lat by ring. rewrite EL.
  replace (INR k * 36 * pi2 / 360) with (IZR (Z.of_nat k) * (PI / 5)) by (rewrite <- INR_IZR_INZ; unfold pi2; field).
  assert (CS : cos (sg * atan (1 / 2)) = 2 * q5 /\ sin (sg * atan (1 / 2)) = sg * q5).
  { destruct Sg as [-> | ->].
    - rewrite !Rmult_1_l. auto.
    - replace (-1 * atan (1 / 2)) with (- atan (1 / 2)) by ring. rewrite cos_neg, sin_neg. split; [exact LC|rewrite LS; ring]. }
  destruct CS as [-> ->]. unfold ring. f_equal; ring.
Qed.
Definition north (r : R) : vec := mkv 0 0 r 1.
Definition south (r : R) : vec := mkv 0 0 (- r) 1.
Definition ico_list (r : R) : list vec :=
  [north r; ring r 0 (-1); ring r 1 1; ring r 2 (-1); ring r 3 1; ring r 4 (-1); ring r 5 1; ring r 6 (-1); ring r 7 1; ring r 8 (-1); ring r 9 1; south r].
Lemma ico_points r : map (fun i => ico_point i r) (seq 0 12) = ico_list r.
Proof.
  cbn [seq map]. rewrite !ring_point by lia. unfold ico_list.
  assert (N : ico_point 0 r = north r) by (unfold ico_point, sphere2cartesian, Reqb; destruct (Req_EM_T 90 90); [reflexivity|lra]).
  assert (S : ico_point 11 r = south r).
  { unfold ico_point, sphere2cartesian, Reqb. destruct (Req_EM_T (-90) 90); [lra|]. destruct (Req_EM_T (-90) (-90)); [reflexivity|lra]. }
  rewrite N, S. reflexivity.
Qed.
Lemma ring_ball r k t : t * t = 1 -> ball r (ring r k t).
Proof.
  intros T. split; [reflexivity|]. unfold len2, dot, ring. cbn [vx vy vz]. destruct q5_facts as (_ & Q & _).
  pose proof (sin2_cos2 (IZR k * (PI / 5))) as S. unfold Rsqr in S. set (c := cos _) in *. set (s := sin _) in *.
  replace (_ + _ + _) with (4 * (q5 * q5) * (r * r) * (s * s + c * c) + (t * t) * (q5 * q5) * (r * r)) by ring. rewrite S, Q, T. field.
Qed.
Lemma ico_balls r : Forall (ball r) (ico_list r).
Proof.
  unfold ico_list. repeat constructor; try (apply ring_ball; ring); unfold len2, dot, north, south; cbn [vx vy vz]; ring.
Qed.
Lemma ico_normal_val r p : 0 < r -> ball r p -> ico_normal p = Val (unitn r p).
Proof.
  intros Hr [W L]. unfold ico_normal, odiv. rewrite mag_len2, L, sqrt_square by lra. unfold Reqb. destruct (Req_EM_T r 0); [lra|]. cbn [obind].
  unfold unitn, scale3. cbn [vx vy vz]. do 2 f_equal; field; lra.
Qed.
Lemma omap_normals r ps : 0 < r -> Forall (ball r) ps -> omap ico_normal ps = Val (map (unitn r) ps).
Proof.
  intros Hr. induction 1 as [|p ps B _ IH]; [reflexivity|]. cbn [omap map]. rewrite (ico_normal_val r p Hr B). cbn [obind]. rewrite IH. reflexivity.
Qed.
Lemma ico_start r : 0 < r -> makeIcoPoints origin r = Val (ico_list r, map (unitn r) (ico_list r)).
Proof.
  intros Hr. unfold makeIcoPoints. rewrite ico_points, (omap_normals r _ Hr (ico_balls r)). cbn [obind]. do 2 f_equal.
  rewrite <- (map_id (ico_list r)) at 2. apply map_ext_in. intros p Hp. pose proof (ico_balls r) as B. rewrite Forall_forall in B.
  destruct (B p Hp) as [W _]. destruct p as [x y z w]. cbn [vw] in W. unfold add, origin, point. cbn [vx vy vz]. f_equal; lra.
Qed.

(** angles *)
Definition cz (k : Z) : R := cos (IZR k * (PI / 5)).
Definition sz (k : Z) : R := sin (IZR k * (PI / 5)).
Lemma c_sub k l : cos (IZR k * (PI / 5)) * cos (IZR l * (PI / 5)) + sin (IZR k * (PI / 5)) * sin (IZR l * (PI / 5)) = cz (k - l).
Proof. unfold cz. rewrite minus_IZR, Rmult_minus_distr_r, cos_minus. reflexivity. Qed.
Lemma s_sub k l : sin (IZR k * (PI / 5)) * cos (IZR l * (PI / 5)) - cos (IZR k * (PI / 5)) * sin (IZR l * (PI / 5)) = sz (k - l).
Proof. unfold sz. rewrite minus_IZR, Rmult_minus_distr_r, sin_minus. reflexivity. Qed.
Lemma cz_opp k : cz (- k) = cz k.
Proof. unfold cz. rewrite opp_IZR. replace (- IZR k * (PI / 5)) with (- (IZR k * (PI / 5))) by ring. apply cos_neg. Qed.
Lemma sz_opp k : sz (- k) = - sz k.
Proof. unfold sz. rewrite opp_IZR. replace (- IZR k * (PI / 5)) with (- (IZR k * (PI / 5))) by ring. apply sin_neg. Qed.
Lemma cz_turn k : cz (10 - k) = cz k.
Proof.
  rewrite <- (cz_opp k). unfold cz. rewrite minus_IZR, opp_IZR. replace ((10 - IZR k) * (PI / 5)) with (- IZR k * (PI / 5) + 2 * PI) by field.
  rewrite cos_plus, cos_2PI, sin_2PI. ring.
Qed.
Lemma sz_turn k : sz (10 - k) = - sz k.
Proof.
  rewrite <- (sz_opp k). unfold sz. rewrite minus_IZR, opp_IZR. replace ((10 - IZR k) * (PI / 5)) with (- IZR k * (PI / 5) + 2 * PI) by field.
  rewrite sin_plus, cos_2PI, sin_2PI. ring.
Qed.
Lemma c1_ge : 1 / 2 <= cz 1.
Proof. unfold cz. rewrite <- cos_PI3. pose proof PI_RGT_0. apply cos_decr_1; lra. Qed.
Lemma c2_ge : 0 <= cz 2.
Proof. unfold cz. pose proof PI_RGT_0. apply cos_ge_0; lra. Qed.
Lemma s1_ge : 1 / 2 <= sz 1.
Proof. unfold sz. rewrite <- sin_PI6. pose proof PI_RGT_0. apply sin_incr_1; lra. Qed.
Lemma s2_ge : 4 / 5 <= sz 2.
Proof.
  unfold sz. apply Rle_trans with (sin (PI / 3)).
  - rewrite sin_PI3. assert (sqrt 3 * sqrt 3 = 3) by (apply sqrt_sqrt; lra). pose proof (sqrt_pos 3). nra.
  - pose proof PI_RGT_0. apply sin_incr_1; lra.
Qed.
Lemma ring_dot r k l s t : dot (ring r k s) (ring r l t) = r * r * (4 / 5 * cz (k - l) + s * t / 5).
Proof.
  rewrite <- c_sub. unfold dot, ring. cbn [vx vy vz]. destruct q5_facts as (_ & Q & _).
  set (c := cos (IZR k * (PI / 5))). set (c' := cos (IZR l * (PI / 5))). set (s' := sin (IZR k * (PI / 5))). set (s'' := sin (IZR l * (PI / 5))).
  replace (_ + _ + _) with (r * r * (4 * (q5 * q5) * (c * c' + s' * s'') + s * t * (q5 * q5))) by ring. rewrite Q. field.
Qed.
Lemma north_dot r k t : dot (north r) (ring r k t) = r * r * (t * q5).
Proof. unfold dot, ring, north. cbn [vx vy vz]. ring. Qed.
Lemma south_dot r k t : dot (south r) (ring r k t) = - (r * r * (t * q5)).
Proof. unfold dot, ring, south. cbn [vx vy vz]. ring. Qed.
Lemma ring_det r k l m s t u : det3 (ring r k s) (ring r l t) (ring r m u) =
  r * r * r * (4 / 5 * q5 * (s * sz (m - l) + t * sz (k - m) + u * sz (l - k))).
Proof.
  rewrite <- !s_sub. unfold det3, ring. cbn [vx vy vz]. destruct q5_facts as (_ & Q & _).
  set (c := cos (IZR k * (PI / 5))). set (c' := cos (IZR l * (PI / 5))). set (c2 := cos (IZR m * (PI / 5))).
  set (d := sin (IZR k * (PI / 5))). set (d' := sin (IZR l * (PI / 5))). set (d2 := sin (IZR m * (PI / 5))).
  replace (_ - _ + _) with (r * r * r * (4 * (q5 * q5) * q5 * (s * (d2 * c' - c2 * d') + t * (d * c2 - c * d2) + u * (d' * c - c' * d)))) by ring.
  rewrite Q. field.
Qed.
Lemma north_det r k l s t : det3 (north r) (ring r k s) (ring r l t) = r * r * r * (4 / 5 * sz (l - k)).
Proof.
  rewrite <- s_sub. unfold det3, ring, north. cbn [vx vy vz]. destruct q5_facts as (_ & Q & _).
  set (c := cos (IZR k * (PI / 5))). set (c' := cos (IZR l * (PI / 5))). set (d := sin (IZR k * (PI / 5))). set (d' := sin (IZR l * (PI / 5))).
  replace (_ - _ + _) with (r * r * r * (4 * (q5 * q5) * (d' * c - c' * d))) by ring. rewrite Q. field.
Qed.
Lemma south_det r k l s t : det3 (ring r k s) (south r) (ring r l t) = r * r * r * (4 / 5 * sz (l - k)).
Proof.
  rewrite <- s_sub. unfold det3, ring, south. cbn [vx vy vz]. destruct q5_facts as (_ & Q & _).
  set (c := cos (IZR k * (PI / 5))). set (c' := cos (IZR l * (PI / 5))). set (d := sin (IZR k * (PI / 5))). set (d' := sin (IZR l * (PI / 5))).
  replace (_ - _ + _) with (r * r * r * (4 * (q5 * q5) * (d' * c - c' * d))) by ring. rewrite Q. field.
Qed.
Lemma ico_faces r : 0 < r -> Forall (face_ok r (1 / 2) (ico_list r)) icaIndices.
Proof.
  intros Hr. destruct q5_facts as (Q1 & _ & _). pose proof c1_ge as C1. pose proof c2_ge as C2. pose proof s1_ge as S1. pose proof s2_ge as S2.
  assert (C8 : cz 8 = cz 2) by apply (cz_turn 2). assert (C9 : cz 9 = cz 1) by apply (cz_turn 1).
  assert (S8 : sz 8 = - sz 2) by apply (sz_turn 2). assert (S9 : sz 9 = - sz 1) by apply (sz_turn 1).
  assert (Cm1 : cz (-1) = cz 1) by apply (cz_opp 1). assert (Cm2 : cz (-2) = cz 2) by apply (cz_opp 2).
  assert (Cm8 : cz (-8) = cz 2) by (rewrite <- C8; apply (cz_opp 8)). assert (Cm9 : cz (-9) = cz 1) by (rewrite <- C9; apply (cz_opp 9)).
  assert (Sm1 : sz (-1) = - sz 1) by apply (sz_opp 1). assert (Sm2 : sz (-2) = - sz 2) by apply (sz_opp 2).
  assert (Sm8 : sz (-8) = sz 2) by (change (-8)%Z with (- (8))%Z; rewrite sz_opp, S8; ring).
  assert (Sm9 : sz (-9) = sz 1) by (change (-9)%Z with (- (9))%Z; rewrite sz_opp, S9; ring).
  assert (R2 : 0 < r * r) by nra. assert (R3 : 0 < r * r * r) by nra.
  assert (Qs : 0.64 <= q5 * 4 / 5 * (sz 2 + 2 * sz 1)) by nra.
  unfold icaIndices. repeat (apply Forall_cons; [|]); [..|apply Forall_nil].
  all: eexists; eexists; eexists; split; [reflexivity|]; split; [reflexivity|]; split; [reflexivity|].
  all: rewrite ?ring_det, ?north_det, ?south_det.
  all: repeat first [rewrite ring_dot | rewrite north_dot | rewrite south_dot
                    | rewrite (dot_comm _ (north r)) | rewrite (dot_comm _ (south r))].
  all: match goal with |- ?g => let g' := eval cbn [Z.sub Z.opp Z.add Z.pos_sub Pos.pred_double Pos.succ Pos.add Z.pred_double Z.succ_double Z.double] in g in change g' end.
  all: rewrite ?C8, ?C9, ?Cm1, ?Cm2, ?Cm8, ?Cm9, ?S8, ?S9, ?Sm1, ?Sm2, ?Sm8, ?Sm9.
  all: split; [nra|]; split; [nra|]; split; [nra|]; intros _.
  all: nra.
Qed.
Lemma ico_oriented : lorient icaIndices.
Proof.
  apply (perm_count npair_dec). intros [a b].
  assert (G : forall l : list (nat * nat), NoDup l -> (forall e, In e l -> In (snd e, fst e) l) ->
    count_occ npair_dec l (a, b) = count_occ npair_dec (map lback l) (a, b)).
  { intros l N S. apply (count_perm npair_dec). apply NoDup_Permutation; auto.
    - apply FinFun.Injective_map_NoDup; auto. intros [x y] [x' y'] E. unfold lback in E. cbn [fst snd] in E. congruence.
    - intros e. rewrite in_map_iff. split.
      + intros He. exists (snd e, fst e). split; [destruct e; reflexivity|apply S; exact He].
      + intros (e' & <- & He'). apply S. exact He'. }
  apply G.
  - apply (proj2 (NoDup_count_occ npair_dec _)). intros e. destruct (in_dec npair_dec e (lall icaIndices)) as [H|H].
    + vm_compute in H. repeat (destruct H as [<-|H]; [vm_compute; lia|]). destruct H.
    + apply (count_occ_not_In npair_dec) in H. rewrite H. lia.
  - intros e H. vm_compute in H. repeat (destruct H as [<-|H]; [vm_compute; tauto|]). destruct H.
Qed.
