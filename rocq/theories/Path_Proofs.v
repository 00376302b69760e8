From Coq Require Import Reals List Bool ZArith Lra Lia.
From Verif Require Import Xform_Model Xform_Proofs Path_Model Path_Spec.
Import ListNotations.
Open Scope R_scope.

Lemma tiny_pos : 0 < tiny10. Proof. unfold tiny10. lra. Qed.
Lemma mg2 v : mag v * mag v = dot v v.
Proof. unfold mag, dot. rewrite sqrt_sqrt; [reflexivity|]. assert (forall x, 0 <= x * x) by (intro; nra). pose proof (H (vx v)); pose proof (H (vy v)); pose proof (H (vz v)). lra. Qed.
Lemma mg_nn v : 0 <= mag v. Proof. apply sqrt_pos. Qed.
Lemma mg_one v : dot v v = 1 -> mag v = 1.
Proof. intros H. unfold mag. unfold dot in H. rewrite H. apply sqrt_1. Qed.
Lemma pnorm_big v : tiny10 <= mag v -> pnorm v = mkv (vx v / mag v) (vy v / mag v) (vz v / mag v) 0.
Proof. intros H. unfold pnorm. destruct (Rltb (mag v) tiny10) eqn:E; [apply Rltb_true in E; lra|reflexivity]. Qed.
Lemma dot_pnorm v : tiny10 <= mag v -> dot (pnorm v) (pnorm v) = 1.
Proof.
  intros H. rewrite pnorm_big by exact H. pose proof (mg2 v) as M. pose proof tiny_pos.
  unfold dot in *. cbn [vx vy vz]. assert (mag v <> 0) by lra.
  replace (vx v / mag v * (vx v / mag v) + vy v / mag v * (vy v / mag v) + vz v / mag v * (vz v / mag v)) with ((vx v * vx v + vy v * vy v + vz v * vz v) / (mag v * mag v)) by (field; assumption).
  rewrite <- M. field. assumption.
Qed.
Lemma veq a b : vx a = vx b -> vy a = vy b -> vz a = vz b -> vw a = vw b -> a = b.
Proof. destruct a, b; cbn; intros; subst; reflexivity. Qed.
Lemma sq0 a b c : a * a + b * b + c * c = 0 -> a = 0 /\ b = 0 /\ c = 0.
Proof. intros H. assert (0 <= a * a) by nra. assert (0 <= b * b) by nra. assert (0 <= c * c) by nra. repeat split; nra. Qed.

(** ** the plane of an arc *)
Lemma plane_frame k u E : dot k k = 1 -> dot u u = 1 -> dot k u = 0 -> dot E E = 1 -> dot k E = 0 ->
  dot E u * dot E u + dot (pcross u E) k * dot (pcross u E) k = 1 /\
  vx E = dot E u * vx u + dot (pcross u E) k * vx (pcross k u) /\
  vy E = dot E u * vy u + dot (pcross u E) k * vy (pcross k u) /\
  vz E = dot E u * vz u + dot (pcross u E) k * vz (pcross k u).
Proof.
  intros K U KU EE KE.
  set (C := dot E u). set (S := dot (pcross u E) k).
  (* the cross product is along k *)
  assert (W : vx (pcross u E) = S * vx k /\ vy (pcross u E) = S * vy k /\ vz (pcross u E) = S * vz k).
  { assert (Z : forall w, pcross k w = mkv 0 0 0 0 -> vx w = dot w k * vx k /\ vy w = dot w k * vy k /\ vz w = dot w k * vz k).
    { intros w Hw. unfold pcross in Hw. injection Hw as H1 H2 H3. unfold dot in *.
      repeat split.
      - replace (vx w) with (vx w * (vx k * vx k + vy k * vy k + vz k * vz k)) at 1 by (rewrite K; ring).
        assert (A1 : vx k * vy w = vy k * vx w) by lra. assert (A2 : vz k * vx w = vx k * vz w) by lra.
        transitivity (vx w * vx k * vx k + vy k * (vy k * vx w) + vz k * (vz k * vx w)); [ring|]. rewrite <- A1, A2. ring.
      - replace (vy w) with (vy w * (vx k * vx k + vy k * vy k + vz k * vz k)) at 1 by (rewrite K; ring).
        assert (A1 : vx k * vy w = vy k * vx w) by lra. assert (A2 : vy k * vz w = vz k * vy w) by lra.
        transitivity (vy w * vy k * vy k + vx k * (vx k * vy w) + vz k * (vz k * vy w)); [ring|]. rewrite A1, <- A2. ring.
      - replace (vz w) with (vz w * (vx k * vx k + vy k * vy k + vz k * vz k)) at 1 by (rewrite K; ring).
        assert (A1 : vz k * vx w = vx k * vz w) by lra. assert (A2 : vy k * vz w = vz k * vy w) by lra.
        transitivity (vz w * vz k * vz k + vx k * (vx k * vz w) + vy k * (vy k * vz w)); [ring|]. rewrite <- A1, A2. ring. }
    apply Z.
    assert (forall x y z, x = 0 -> y = 0 -> z = 0 -> mkv x y z 0 = mkv 0 0 0 0) by (intros; subst; reflexivity).
    unfold pcross at 1. apply H; unfold pcross; cbn [vx vy vz]; unfold dot in *.
    - transitivity (vx u * (vx k * vx E + vy k * vy E + vz k * vz E) - vx E * (vx k * vx u + vy k * vy u + vz k * vz u)); [ring|rewrite KE, KU; ring].
    - transitivity (vy u * (vx k * vx E + vy k * vy E + vz k * vz E) - vy E * (vx k * vx u + vy k * vy u + vz k * vz u)); [ring|rewrite KE, KU; ring].
    - transitivity (vz u * (vx k * vx E + vy k * vy E + vz k * vz E) - vz E * (vx k * vx u + vy k * vy u + vz k * vz u)); [ring|rewrite KE, KU; ring]. }
  destruct W as (W1 & W2 & W3).
  assert (L : dot (pcross u E) (pcross u E) = 1 - C * C).
  { transitivity (dot u u * dot E E - C * C); [unfold C, pcross, dot; cbn [vx vy vz]; ring|rewrite U, EE; ring]. }
  assert (S2 : dot (pcross u E) (pcross u E) = S * S).
  { transitivity (S * S * dot k k); [|rewrite K; ring]. unfold dot at 1. rewrite W1, W2, W3. unfold dot. ring. }
  split; [fold C S; lra|].
  (* E = C u + S (k x u): E - C u = (u x E) x u *)
  assert (T : forall a b, dot u u = 1 -> dot a u = b -> True) by (intros; exact I). clear T.
  unfold pcross in W1, W2, W3. cbn [vx vy vz] in W1, W2, W3. unfold pcross. cbn [vx vy vz].
  assert (Uexp : vx u * vx u + vy u * vy u + vz u * vz u = 1) by (unfold dot in U; lra).
  repeat split.
  - transitivity (vx E * (vx u * vx u + vy u * vy u + vz u * vz u)); [rewrite Uexp; ring|].
    transitivity (C * vx u + ((S * vy k) * vz u - (S * vz k) * vy u)); [|ring]. rewrite <- W2, <- W3. unfold C, dot. ring.
  - transitivity (vy E * (vx u * vx u + vy u * vy u + vz u * vz u)); [rewrite Uexp; ring|].
    transitivity (C * vy u + ((S * vz k) * vx u - (S * vx k) * vz u)); [|ring]. rewrite <- W3, <- W1. unfold C, dot. ring.
  - transitivity (vz E * (vx u * vx u + vy u * vy u + vz u * vz u)); [rewrite Uexp; ring|].
    transitivity (C * vz u + ((S * vx k) * vy u - (S * vy k) * vx u)); [|ring]. rewrite <- W1, <- W2. unfold C, dot. ring.
Qed.

Lemma psub_mag a b : mag (psub a b) = dist a b. Proof. reflexivity. Qed.
Lemma psub_dot n a b : dot n (psub a b) = dot n (sub a b). Proof. reflexivity. Qed.

Lemma dot_scaled n v : tiny10 <= mag v -> dot n v = 0 -> dot n (pnorm v) = 0.
Proof.
  intros H D. rewrite pnorm_big by exact H. pose proof tiny_pos. unfold dot in *. cbn [vx vy vz].
  replace (vx n * (vx v / mag v) + vy n * (vy v / mag v) + vz n * (vz v / mag v)) with ((vx n * vx v + vy n * vy v + vz n * vz v) / mag v) by (field; lra).
  rewrite D. field. lra.
Qed.
Lemma dot_comm' a b : dot a b = dot b a. Proof. unfold dot. ring. Qed.

Record framed (c s e n : vec) : Prop := Framed {
  fr_u : dot (pnorm (psub s c)) (pnorm (psub s c)) = 1;
  fr_k : dot (pnorm n) (pnorm n) = 1;
  fr_e : dot (pnorm (psub e c)) (pnorm (psub e c)) = 1;
  fr_ku : dot (pnorm n) (pnorm (psub s c)) = 0;
  fr_ke : dot (pnorm n) (pnorm (psub e c)) = 0 }.
Lemma good_framed c s e n : good (Arc c s e n) -> framed c s e n.
Proof.
  intros (_ & _ & _ & H1 & H2 & H3 & H4 & H5).
  assert (B1 : tiny10 <= mag (psub s c)) by exact H1.
  assert (B2 : tiny10 <= mag (psub e c)) by (rewrite psub_mag, H3; exact H1).
  constructor; try (apply dot_pnorm; assumption).
  - apply dot_scaled; [exact B1|]. rewrite dot_comm'. apply dot_scaled; [exact H2|]. rewrite dot_comm'. exact H4.
  - apply dot_scaled; [exact B2|]. rewrite dot_comm'. apply dot_scaled; [exact H2|]. rewrite dot_comm'. exact H5.
Qed.

(** the code's rotation is [turned] *)
Lemma eval_arc_turned c s e n t : good (Arc c s e n) ->
  fst (eval_arc c s e n t) = turned c n s (t * arc_angle c s e n).
Proof.
  intros G. pose proof (good_framed _ _ _ _ G) as F. destruct G as (_ & _ & _ & H1 & H2 & _ & H4 & _).
  unfold eval_arc. cbn [fst]. rewrite (fr_ku _ _ _ _ F). set (a := t * arc_angle c s e n).
  rewrite (pnorm_big (psub s c)) by exact H1. rewrite (pnorm_big n) by exact H2.
  pose proof tiny_pos. assert (mag (psub s c) <> 0) by (rewrite psub_mag; lra). assert (mag n <> 0) by lra.
  unfold turned. set (r := mag (psub s c)) in *. set (m := mag n) in *. clearbody r m.
  unfold padd, pscale, pcross, psub. cbn [vx vy vz vw]. apply veq; cbn [vx vy vz vw]; try reflexivity.
  - field; auto.
  - field; auto.
  - field; auto.
Qed.

Lemma angle_ok c s e n : good (Arc c s e n) -> angle_of c s e n (arc_angle c s e n).
Proof.
  intros G. pose proof (good_framed _ _ _ _ G) as F.
  pose proof (plane_frame _ _ _ (fr_k _ _ _ _ F) (fr_u _ _ _ _ F) (fr_ku _ _ _ _ F) (fr_e _ _ _ _ F) (fr_ke _ _ _ _ F)) as (PC & PX & PY & PZ).
  unfold angle_of. set (al := arc_angle c s e n).
  set (k := pnorm n) in *. set (u := pnorm (psub s c)) in *. set (E := pnorm (psub e c)) in *.
  set (C := dot E u) in *. set (S := dot (pcross u E) k) in *.
  assert (CR : -1 <= C <= 1) by (assert (0 <= S * S) by nra; split; nra).
  assert (AL : 0 <= al < 2 * PI /\ cos al = C /\ sin al = S).
  { unfold al, arc_angle. fold u E k S. replace (dot u E) with C by apply dot_comm'.
    rewrite Rmin_right, Rmax_right by lra || (rewrite ?Rmin_right; lra).
    pose proof (acos_bound C) as AB. pose proof PI_RGT_0.
    assert (SA : sin (acos C) = sqrt (S * S)) by (rewrite sin_acos by lra; f_equal; unfold Rsqr; lra).
    destruct (Rltb S 0) eqn:ES.
    - apply Rltb_true in ES. assert (acos C <> 0).
      { intros Z. rewrite Z, sin_0 in SA. assert (S * S = 0) by (rewrite <- (sqrt_sqrt (S * S)) by nra; rewrite <- SA; ring). nra. }
      split; [lra|]. split.
      + replace (2 * PI - acos C) with (- acos C + 2 * PI) by ring. rewrite cos_plus, cos_2PI, sin_2PI, cos_neg, cos_acos by lra. ring.
      + replace (2 * PI - acos C) with (- acos C + 2 * PI) by ring. rewrite sin_plus, cos_2PI, sin_2PI, sin_neg, SA.
        replace (S * S) with ((- S) * (- S)) by ring. rewrite sqrt_square by lra. ring.
    - apply Rltb_false in ES. split; [lra|]. split; [apply cos_acos; lra|]. rewrite SA. apply sqrt_square. lra. }
  destruct AL as (AL & CA & SA). split; [exact AL|].
  unfold turned. rewrite CA, SA.
  destruct G as (W1 & W2 & W3 & H1 & H2 & H3 & H4 & H5).
  pose proof tiny_pos as TP.
  assert (R1 : mag (psub s c) <> 0) by (rewrite psub_mag; lra). assert (R2 : mag (psub e c) = mag (psub s c)) by (rewrite !psub_mag; exact H3).
  assert (M0 : mag n <> 0) by lra.
  unfold E in PX, PY, PZ. rewrite (pnorm_big (psub e c)) in PX, PY, PZ by (rewrite psub_mag, H3; exact H1).
  unfold u, k in PX, PY, PZ. rewrite (pnorm_big (psub s c)) in PX, PY, PZ by exact H1. rewrite (pnorm_big n) in PX, PY, PZ by exact H2.
  rewrite R2 in PX, PY, PZ. set (r := mag (psub s c)) in *. set (m := mag n) in *. clearbody r m C S.
  unfold pcross, psub in PX, PY, PZ. cbn [vx vy vz] in PX, PY, PZ.
  apply veq; cbn [vx vy vz vw].
  - apply (f_equal (fun z => z * r)) in PX. replace ((vx e - vx c) / r * r) with (vx e - vx c) in PX by (field; exact R1).
    replace (vx e) with (vx c + (vx e - vx c)) by ring. rewrite PX. field. auto.
  - apply (f_equal (fun z => z * r)) in PY. replace ((vy e - vy c) / r * r) with (vy e - vy c) in PY by (field; exact R1).
    replace (vy e) with (vy c + (vy e - vy c)) by ring. rewrite PY. field. auto.
  - apply (f_equal (fun z => z * r)) in PZ. replace ((vz e - vz c) / r * r) with (vz e - vz c) in PZ by (field; exact R1).
    replace (vz e) with (vz c + (vz e - vz c)) by ring. rewrite PZ. field. auto.
  - symmetry. exact W3.
Qed.

(** equal cosines and sines within one turn *)
Lemma turn_unique a b : 0 <= a < 2 * PI -> 0 <= b < 2 * PI -> cos a = cos b -> sin a = sin b -> a = b.
Proof.
  intros A B HC HS.
  assert (D : cos (a - b) = 1) by (rewrite cos_minus, HC, HS; pose proof (sin2_cos2 b); unfold Rsqr in *; lra).
  replace (a - b) with (2 * ((a - b) / 2)) in D by field. rewrite cos_2a_sin in D.
  assert (Z : sin ((a - b) / 2) = 0) by nra.
  destruct (Rtotal_order a b) as [L|[->|L]]; [|reflexivity|].
  - exfalso. replace ((a - b) / 2) with (- ((b - a) / 2)) in Z by field. rewrite sin_neg in Z.
    assert (0 < sin ((b - a) / 2)) by (apply sin_gt_0; lra). lra.
  - exfalso. assert (0 < sin ((a - b) / 2)) by (apply sin_gt_0; lra). lra.
Qed.

Section plane.
Variables c n s : vec.
Hypothesis Hn : mag n <> 0.
Hypothesis Hs : dist s c <> 0.
Hypothesis Hp : dot n (sub s c) = 0.
Let x := vx s - vx c. Let y := vy s - vy c. Let z := vz s - vz c.
Let kx := vx n / mag n. Let ky := vy n / mag n. Let kz := vz n / mag n.
Lemma kk1 : kx * kx + ky * ky + kz * kz = 1.
Proof.
  unfold kx, ky, kz. pose proof (mg2 n) as M. unfold dot in M.
  replace (vx n / mag n * (vx n / mag n) + vy n / mag n * (vy n / mag n) + vz n / mag n * (vz n / mag n)) with ((vx n * vx n + vy n * vy n + vz n * vz n) / (mag n * mag n)) by (field; exact Hn).
  rewrite <- M. field. exact Hn.
Qed.
Lemma kp0 : kx * x + ky * y + kz * z = 0.
Proof.
  unfold kx, ky, kz, x, y, z. unfold dot, sub in Hp. cbn [vx vy vz] in Hp.
  replace (vx n / mag n * (vx s - vx c) + vy n / mag n * (vy s - vy c) + vz n / mag n * (vz s - vz c)) with ((vx n * (vx s - vx c) + vy n * (vy s - vy c) + vz n * (vz s - vz c)) / mag n) by (field; exact Hn).
  rewrite Hp. field. exact Hn.
Qed.
Lemma rr : x * x + y * y + z * z = dist s c * dist s c.
Proof. unfold x, y, z, dist. rewrite mg2. unfold dot, sub. cbn [vx vy vz]. ring. Qed.
(** moduli of combinations of the radius and its perpendicular *)
Lemma comb_sq A B : 
  (A * x + B * (ky * z - kz * y)) * (A * x + B * (ky * z - kz * y)) +
  (A * y + B * (kz * x - kx * z)) * (A * y + B * (kz * x - kx * z)) +
  (A * z + B * (kx * y - ky * x)) * (A * z + B * (kx * y - ky * x)) = (A * A + B * B) * (dist s c * dist s c).
Proof.
  rewrite <- rr. pose proof kk1 as K. pose proof kp0 as P. clearbody x y z kx ky kz.
  transitivity (A * A * (x * x + y * y + z * z) + B * B * ((kx * kx + ky * ky + kz * kz) * (x * x + y * y + z * z) - (kx * x + ky * y + kz * z) * (kx * x + ky * y + kz * z))); [ring|].
  rewrite K, P. ring.
Qed.
Lemma turned_dist a : dist (turned c n s a) c = dist s c.
Proof.
  unfold dist at 1. unfold mag, turned, sub. cbn [vx vy vz].
  transitivity (sqrt (dist s c * dist s c)); [|apply sqrt_square, mg_nn]. f_equal.
  transitivity ((cos a * cos a + sin a * sin a) * (dist s c * dist s c)); [|pose proof (sin2_cos2 a) as Q; unfold Rsqr in Q; replace (cos a * cos a + sin a * sin a) with 1 by lra; ring].
  rewrite <- comb_sq. unfold x, y, z, kx, ky, kz. ring.
Qed.
Lemma turned_plane a : dot n (sub (turned c n s a) c) = 0.
Proof.
  assert (E : dot n (sub (turned c n s a) c) = mag n * (kx * (cos a * x + sin a * (ky * z - kz * y)) + ky * (cos a * y + sin a * (kz * x - kx * z)) + kz * (cos a * z + sin a * (kx * y - ky * x)))).
  { unfold dot, sub, turned. cbn [vx vy vz]. unfold kx, ky, kz, x, y, z. field. exact Hn. }
  rewrite E. pose proof kp0 as P. clear E. clearbody x y z kx ky kz.
  transitivity (mag n * (cos a * (kx * x + ky * y + kz * z))); [ring|rewrite P; ring].
Qed.
Lemma turned_turned a b : turned c n (turned c n s a) b = turned c n s (a + b).
Proof.
  pose proof kk1 as K. pose proof kp0 as P.
  unfold turned. cbn [vx vy vz]. fold x y z kx ky kz. rewrite cos_plus, sin_plus.
  assert (C1 : ky * (kx * y - ky * x) - kz * (kz * x - kx * z) = - x) by (transitivity (kx * (kx * x + ky * y + kz * z) - x * (kx * kx + ky * ky + kz * kz)); [ring|rewrite K, P; ring]).
  assert (C2 : kz * (ky * z - kz * y) - kx * (kx * y - ky * x) = - y) by (transitivity (ky * (kx * x + ky * y + kz * z) - y * (kx * kx + ky * ky + kz * kz)); [ring|rewrite K, P; ring]).
  assert (C3 : kx * (kz * x - kx * z) - ky * (ky * z - kz * y) = - z) by (transitivity (kz * (kx * x + ky * y + kz * z) - z * (kx * kx + ky * ky + kz * kz)); [ring|rewrite K, P; ring]).
  clearbody x y z kx ky kz. apply veq; cbn [vx vy vz vw]; [| | |reflexivity].
  - transitivity (vx c + (cos a * cos b) * x + (sin a * cos b + cos a * sin b) * (ky * z - kz * y) + sin a * sin b * (ky * (kx * y - ky * x) - kz * (kz * x - kx * z))); [ring|]. rewrite C1. ring.
  - transitivity (vy c + (cos a * cos b) * y + (sin a * cos b + cos a * sin b) * (kz * x - kx * z) + sin a * sin b * (kz * (ky * z - kz * y) - kx * (kx * y - ky * x))); [ring|]. rewrite C2. ring.
  - transitivity (vz c + (cos a * cos b) * z + (sin a * cos b + cos a * sin b) * (kx * y - ky * x) + sin a * sin b * (kx * (kz * x - kx * z) - ky * (ky * z - kz * y))); [ring|]. rewrite C3. ring.
Qed.
Lemma turned_inj a b : 0 <= a < 2 * PI -> 0 <= b < 2 * PI -> turned c n s a = turned c n s b -> a = b.
Proof.
  intros A B E. unfold turned in E. injection E as E1 E2 E3. fold x y z kx ky kz in E1, E2, E3.
  pose proof (comb_sq (cos a - cos b) (sin a - sin b)) as Q.
  assert (R0 : dist s c * dist s c <> 0) by (apply Rmult_integral_contrapositive_currified; exact Hs).
  assert (Z : (cos a - cos b) * (cos a - cos b) + (sin a - sin b) * (sin a - sin b) = 0).
  { apply (Rmult_eq_reg_r (dist s c * dist s c)); [|exact R0]. rewrite <- Q, Rmult_0_l. clearbody x y z kx ky kz.
    replace ((cos a - cos b) * x + (sin a - sin b) * (ky * z - kz * y)) with 0 by lra.
    replace ((cos a - cos b) * y + (sin a - sin b) * (kz * x - kx * z)) with 0 by lra.
    replace ((cos a - cos b) * z + (sin a - sin b) * (kx * y - ky * x)) with 0 by lra. ring. }
  assert (Z1 : (cos a - cos b) * (cos a - cos b) >= 0) by (apply Rle_ge, Rle_0_sqr). assert (Z2 : (sin a - sin b) * (sin a - sin b) >= 0) by (apply Rle_ge, Rle_0_sqr).
  assert (Z3 : forall w, w * w = 0 -> w = 0) by (intros w Hw; apply Rsqr_0_uniq; exact Hw).
  apply turn_unique; auto; apply Rminus_diag_uniq; apply Z3; lra.
Qed.
Lemma turned_0 : vw s = 0 -> turned c n s 0 = s.
Proof. intros W. unfold turned. rewrite cos_0, sin_0. apply veq; cbn [vx vy vz vw]; try ring. symmetry; exact W. Qed.
End plane.

Lemma angle_unique c s e n al : good (Arc c s e n) -> angle_of c s e n al -> al = arc_angle c s e n.
Proof.
  intros G [A1 A2]. pose proof (angle_ok _ _ _ _ G) as [B1 B2]. destruct G as (_ & _ & _ & H1 & H2 & _ & H4 & _).
  pose proof tiny_pos. apply (turned_inj c n s); try assumption; try lra. congruence.
Qed.

(** ** single segments *)
Definition pt (g : seg) (u : R) : vec := match eval_seg g u with Ok (q, _) => q | _ => mkv 0 0 0 0 end.
Lemma pt_along g u : good g -> along g u (pt g u).
Proof.
  destruct g as [s e|c s e n|]; intros G; cbn [along pt eval_seg]; [| |destruct G].
  - unfold pt. cbn. unfold lerp. apply veq; cbn; ring.
  - exists (arc_angle c s e n). split; [apply angle_ok, G|]. unfold pt. cbn [eval_seg]. 
    pose proof (eval_arc_turned c s e n u G) as E. destruct (eval_arc c s e n u). exact E.
Qed.
Lemma along_pt g u q : good g -> along g u q -> q = pt g u.
Proof.
  intros G H. pose proof (pt_along g u G) as P. destruct g as [s e|c s e n|]; cbn [along] in H, P; [rewrite H; symmetry; exact P| |destruct G].
  destruct H as (al & HA & ->), P as (be & HB & P). rewrite P. rewrite (angle_unique _ _ _ _ _ G HA), (angle_unique _ _ _ _ _ G HB). reflexivity.
Qed.
Lemma pt_0 g : good g -> pt g 0 = seg_start g.
Proof.
  intros G. symmetry. apply along_pt; [exact G|]. destruct g as [s e|c s e n|]; [| |destruct G]; cbn.
  - destruct G as [G1 _]. apply veq; cbn [vx vy vz vw]; try ring. exact G1.
  - exists (arc_angle c s e n). split; [apply angle_ok, G|]. rewrite Rmult_0_l. symmetry. apply turned_0. apply G.
Qed.
Lemma pt_1 g : good g -> pt g 1 = seg_end g.
Proof.
  intros G. symmetry. apply along_pt; [exact G|]. destruct g as [s e|c s e n|]; [| |destruct G]; cbn.
  - destruct G as [_ G1]. apply veq; cbn [vx vy vz vw]; try ring. exact G1.
  - exists (arc_angle c s e n). pose proof (angle_ok _ _ _ _ G) as [A B]. split; [split; assumption|]. rewrite Rmult_1_l. congruence.
Qed.
Lemma seg_length_ok g : good g -> has_length g (seg_length g).
Proof.
  intros G. destruct g as [s e|c s e n|]; [| |destruct G]; cbn.
  - rewrite psub_mag. unfold dist, mag, sub. f_equal. cbn [vx vy vz]. ring.
  - exists (arc_angle c s e n). split; [apply angle_ok, G|]. reflexivity.
Qed.
Lemma seg_length_nn g : good g -> 0 <= seg_length g.
Proof.
  intros G. destruct g as [s e|c s e n|]; [| |destruct G]; cbn [seg_length]; [apply mg_nn|].
  apply Rmult_le_pos; [apply mg_nn|]. apply (proj1 (angle_ok _ _ _ _ G)).
Qed.

(** cutting one segment *)
Lemma cut_ok g lo hi : good g -> 0 <= lo -> lo < hi -> hi <= 1 ->
  exists g', cut_seg g lo hi = [g'] /\ good g' /\ (forall u, pt g' u = pt g (lo + u * (hi - lo))) /\ seg_length g' = (hi - lo) * seg_length g.
Proof.
  intros G L1 L2 L3. destruct g as [s e|c s e n|]; [| |destruct G].
  - eexists. split; [reflexivity|]. split; [split; reflexivity|]. split.
    + intros u. unfold pt. cbn. unfold lerp. apply veq; cbn [vx vy vz vw]; ring.
    + cbn [seg_length]. unfold mag, psub, lerp. cbn [vx vy vz].
      replace ((vx s + hi * (vx e - vx s) - (vx s + lo * (vx e - vx s))) * (vx s + hi * (vx e - vx s) - (vx s + lo * (vx e - vx s))) +
        (vy s + hi * (vy e - vy s) - (vy s + lo * (vy e - vy s))) * (vy s + hi * (vy e - vy s) - (vy s + lo * (vy e - vy s))) +
        (vz s + hi * (vz e - vz s) - (vz s + lo * (vz e - vz s))) * (vz s + hi * (vz e - vz s) - (vz s + lo * (vz e - vz s))))
        with (((hi - lo) * (hi - lo)) * ((vx e - vx s) * (vx e - vx s) + (vy e - vy s) * (vy e - vy s) + (vz e - vz s) * (vz e - vz s))) by ring.
      assert (SQ : forall w, 0 <= w * w) by (intros w; apply Rle_0_sqr).
      pose proof (SQ (vx e - vx s)); pose proof (SQ (vy e - vy s)); pose proof (SQ (vz e - vz s)).
      rewrite sqrt_mult; [|apply SQ|lra]. rewrite sqrt_square by lra. reflexivity.
  - pose proof (angle_ok _ _ _ _ G) as [A B]. set (al := arc_angle c s e n) in *.
    pose proof G as (W1 & W2 & W3 & H1 & H2 & H3 & H4 & H5). pose proof tiny_pos.
    assert (Hn : mag n <> 0) by lra. assert (Hs : dist s c <> 0) by lra.
    eexists. split; [reflexivity|].
    rewrite !eval_arc_turned by exact G. fold al.
    set (s1 := turned c n s (lo * al)). set (e1 := turned c n s (hi * al)).
    assert (G1 : good (Arc c s1 e1 n)).
    { repeat split; try assumption; unfold s1, e1; rewrite ?turned_dist by assumption; try assumption; try reflexivity; apply turned_plane; assumption. }
    assert (AN : (hi - lo) * al = arc_angle c s1 e1 n).
    { apply angle_unique; [exact G1|]. split; [split; [apply Rmult_le_pos; lra|nra]|].
      unfold s1, e1. rewrite turned_turned by assumption. f_equal. ring. }
    split; [exact G1|]. split.
    + intros u. symmetry. apply along_pt; [exact G1|]. exists ((hi - lo) * al). split; [rewrite AN; apply angle_ok, G1|].
      unfold s1. rewrite turned_turned by assumption.
      pose proof (pt_along (Arc c s e n) (lo + u * (hi - lo)) G) as P. cbn [along] in P. destruct P as (be & HB & P). rewrite P.
      rewrite (angle_unique _ _ _ _ _ G HB). fold al. f_equal. ring.
    + cbn [seg_length]. rewrite <- AN. rewrite !psub_mag. unfold s1. rewrite turned_dist by assumption. fold al. ring.
Qed.
