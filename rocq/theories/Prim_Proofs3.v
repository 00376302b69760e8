(** Geometry of discs, cylinders, cones and frusta. *)
From Coq Require Import Reals List Bool ZArith Lra Lia Permutation Arith.
From Verif Require Import Xform_Model Xform_Proofs Fig_Model Fig_Proofs Fig_Proofs2 Solid_Model Solid_Spec Solid_Proofs Solid_Proofs2
  Solid_Proofs3 Solid_Proofs4 Solid_Proofs5 Solid_Proofs6 Solid_Proofs7 Prim_Model Prim_Spec Prim_Lab Prim_Proofs Prim_Proofs2.
Import ListNotations.
Open Scope R_scope.

Lemma INR_pos n : (0 < n)%nat -> 0 < INR n. Proof. apply (lt_INR 0). Qed.
Lemma sin_part_low n k : (0 < k < n)%nat -> sin (PI / INR n) <= sin (INR k * (PI / INR n)).
Proof.
  intros H. assert (N : 0 < INR n) by (apply INR_pos; lia). pose proof PI_RGT_0 as HP.
  set (u := PI / INR n). assert (U : 0 < u) by (apply Rdiv_lt_0_compat; auto).
  assert (NU : INR n * u = PI) by (unfold u; field; lra).
  assert (K1 : 1 <= INR k) by (apply (le_INR 1); lia). assert (K2 : INR k + 1 <= INR n) by (rewrite <- S_INR; apply le_INR; lia).
  assert (U2 : u <= INR k * u) by (rewrite <- (Rmult_1_l u) at 1; apply Rmult_le_compat_r; lra).
  assert (U3 : INR k * u + u <= PI) by (rewrite <- NU; replace (INR k * u + u) with ((INR k + 1) * u) by ring; apply Rmult_le_compat_r; lra).
  destruct (Rle_dec (INR k * u) (PI / 2)).
  - apply sin_incr_1; lra.
  - rewrite <- (sin_PI_x (INR k * u)). apply sin_incr_1; lra.
Qed.
Lemma sin_part_pos n : (1 < n)%nat -> 0 < sin (PI / INR n).
Proof.
  intros H. assert (N : 0 < INR n) by (apply INR_pos; lia). pose proof PI_RGT_0 as HP. apply sin_gt_0; [apply Rdiv_lt_0_compat; auto|].
  apply Rmult_lt_reg_r with (INR n); auto. replace (PI / INR n * INR n) with PI by (field; lra).
  assert (1 < INR n) by (apply (lt_INR 1); lia). rewrite <- (Rmult_1_r PI) at 1. apply Rmult_lt_compat_l; lra.
Qed.
Lemma sin_part_half n : (6 <= n)%nat -> sin (PI / INR n) <= 1 / 2.
Proof.
  intros H. rewrite <- sin_PI6. assert (N : 0 < INR n) by (apply INR_pos; lia). pose proof PI_RGT_0 as HP.
  assert (PI / INR n <= PI / 6).
  { apply Rmult_le_compat_l; [lra|]. apply Rinv_le_contravar; [lra|]. replace 6 with (INR 6) by (rewrite INR_IZR_INZ; reflexivity). apply le_INR; auto. }
  assert (0 < PI / INR n) by (apply Rdiv_lt_0_compat; auto).
  apply sin_incr_1; lra.
Qed.
Lemma sin_full_pos n : (2 < n)%nat -> 0 < sin (2 * PI / INR n).
Proof.
  intros H. assert (N : 0 < INR n) by (apply INR_pos; lia). pose proof PI_RGT_0 as HP. apply sin_gt_0; [apply Rdiv_lt_0_compat; lra|].
  apply Rmult_lt_reg_r with (INR n); auto. replace (2 * PI / INR n * INR n) with (PI * 2) by (field; lra).
  assert (2 < INR n) by (replace 2 with (INR 2) by (rewrite INR_IZR_INZ; reflexivity); apply lt_INR; lia). apply Rmult_lt_compat_l; lra.
Qed.
Lemma rim_x c r n i : vx (rim_point c r n i) = vx c + r * cos (part i n). Proof. unfold rim_point, add; cbn [vx]; ring. Qed.
Lemma rim_y c r n i : vy (rim_point c r n i) = vy c + r * sin (part i n). Proof. unfold rim_point, add; cbn [vy]; ring. Qed.
Lemma rim_z c r n i : vz (rim_point c r n i) = vz c. Proof. unfold rim_point, add; cbn [vz]; ring. Qed.
Lemma rim_circle c r n i : on_circle c r (rim_point c r n i).
Proof.
  split; [reflexivity|]. rewrite rim_x, rim_y, rim_z. split; [reflexivity|].
  pose proof (sin2_cos2 (part i n)) as E. unfold Rsqr in E.
  replace ((vx c + r * cos (part i n) - vx c) * (vx c + r * cos (part i n) - vx c) + (vy c + r * sin (part i n) - vy c) * (vy c + r * sin (part i n) - vy c))
    with (r * r * (sin (part i n) * sin (part i n) + cos (part i n) * cos (part i n))) by ring. rewrite E. ring.
Qed.
Lemma dist_ge p q d : 0 <= d -> d * d <= (vx p - vx q) * (vx p - vx q) + (vy p - vy q) * (vy p - vy q) + (vz p - vz q) * (vz p - vz q) -> d <= dist p q.
Proof.
  intros Hd H. unfold dist, mag, sub; cbn [vx vy vz]. rewrite <- (sqrt_square d Hd). apply sqrt_le_1_alt. exact H.
Qed.
Lemma rim_gap c r n i j : 0 <= r -> (i < n)%nat -> (j < n)%nat -> i <> j ->
  2 * (r * sin (PI / INR n)) <= dist (rim_point c r n i) (rim_point c r n j).
Proof.
  intros Hr Hi Hj Hn. pose proof (sin_part_pos n ltac:(lia)) as SP. apply dist_ge; [apply Rmult_le_pos; [lra|apply Rmult_le_pos; lra]|].
  rewrite !rim_x, !rim_y, !rim_z.
  set (a := part i n). set (b := part j n).
  replace ((vx c + r * cos a - (vx c + r * cos b)) * (vx c + r * cos a - (vx c + r * cos b)) + (vy c + r * sin a - (vy c + r * sin b)) * (vy c + r * sin a - (vy c + r * sin b)) + (vz c - vz c) * (vz c - vz c))
    with (r * r * ((Rsqr (sin a) + Rsqr (cos a)) + (Rsqr (sin b) + Rsqr (cos b)) - 2 * (cos a * cos b + sin a * sin b))) by (unfold Rsqr; ring).
  rewrite !sin2_cos2, <- cos_minus.
  replace (a - b) with (2 * ((a - b) / 2)) by field. rewrite cos_2a_sin.
  replace (r * r * (1 + 1 - 2 * (1 - 2 * sin ((a - b) / 2) * sin ((a - b) / 2)))) with (4 * (r * r) * Rsqr (sin ((a - b) / 2))) by (unfold Rsqr; ring).
  replace (2 * (r * sin (PI / INR n)) * (2 * (r * sin (PI / INR n)))) with (4 * (r * r) * Rsqr (sin (PI / INR n))) by (unfold Rsqr; ring).
  apply Rmult_le_compat_l; [apply Rmult_le_pos; [lra|apply Rle_0_sqr || (apply Rmult_le_pos; lra)]|].
  assert (N : 0 < INR n) by (apply INR_pos; lia).
  assert (G : forall k l, (k < n)%nat -> (l < n)%nat -> (l < k)%nat -> Rsqr (sin (PI / INR n)) <= Rsqr (sin ((part k n - part l n) / 2))).
  { intros k l Hk Hl Hlk. rewrite !part_eq by lia.
    replace ((INR k * (2 * PI / INR n) - INR l * (2 * PI / INR n)) / 2) with (INR (k - l) * (PI / INR n)) by (rewrite minus_INR by lia; field; lra).
    apply Rsqr_incr_1; [apply sin_part_low; lia|lra|]. pose proof (sin_part_low n (k - l) ltac:(lia)). lra. }
  destruct (Nat.lt_total i j) as [H|[H|H]]; [|congruence|apply G; auto].
  unfold a, b. replace ((part i n - part j n) / 2) with (- ((part j n - part i n) / 2)) by field. rewrite sin_neg, <- Rsqr_neg. apply G; auto.
Qed.
Lemma rim_centre c r n i : 0 <= r -> r <= dist c (rim_point c r n i) /\ r <= dist (rim_point c r n i) c.
Proof.
  intros Hr. destruct (rim_circle c r n i) as (_ & E1 & E2).
  split; apply dist_ge; auto.
  - replace (vx c - vx (rim_point c r n i)) with (- (vx (rim_point c r n i) - vx c)) by ring.
    replace (vy c - vy (rim_point c r n i)) with (- (vy (rim_point c r n i) - vy c)) by ring. rewrite E1.
    match goal with |- _ <= ?e => replace e with (r * r) by (rewrite <- E2; ring) end. lra.
  - rewrite E1. match goal with |- _ <= ?e => replace e with (r * r) by (rewrite <- E2; ring) end. lra.
Qed.

Definition fpos (c : vec) (r0 r1 h : R) (n : nat) (a : lab) : vec :=
  let c' := add c (point 0 0 h) in
  match a with
  | LC false => c | LC true => c'
  | LR false i => rim_point c r0 n i | LR true i => rim_point c' r1 n i
  end.
Lemma fpos_sep c r0 r1 h n a b : (6 <= n)%nat -> 0 < epsilon -> 2 * epsilon < h -> epsilon < r0 * sin (PI / INR n) -> epsilon < r1 * sin (PI / INR n) ->
  good n a -> good n b -> a = b \/ 2 * epsilon < dist (fpos c r0 r1 h n a) (fpos c r0 r1 h n b).
Proof.
  intros Hn He Hh H0 H1 Ga Gb. pose proof (sin_part_half n Hn) as SH. pose proof (sin_part_pos n ltac:(lia)) as SP.
  assert (R0 : 0 < r0). { destruct (Rlt_dec 0 r0); auto. exfalso. assert (r0 * sin (PI / INR n) <= 0) by (rewrite <- (Rmult_0_l (sin (PI / INR n))); apply Rmult_le_compat_r; lra). lra. }
  assert (R1 : 0 < r1). { destruct (Rlt_dec 0 r1); auto. exfalso. assert (r1 * sin (PI / INR n) <= 0) by (rewrite <- (Rmult_0_l (sin (PI / INR n))); apply Rmult_le_compat_r; lra). lra. }
  assert (Q0 : r0 * sin (PI / INR n) <= r0 * (1 / 2)) by (apply Rmult_le_compat_l; lra).
  assert (Q1 : r1 * sin (PI / INR n) <= r1 * (1 / 2)) by (apply Rmult_le_compat_l; lra).
  set (c' := add c (point 0 0 h)).
  assert (UZ : forall p q, vz p = vz c -> vz q = vz c' -> 2 * epsilon < dist p q /\ 2 * epsilon < dist q p).
  { intros p q Ep Eq. split; apply dist_z; rewrite Ep, Eq; unfold c', add, point; cbn [vz]; [rewrite Rabs_left|rewrite Rabs_right]; lra. }
  destruct a as [[]|[] i], b as [[]|[] j]; cbn [good fpos] in *; fold c';
    try (right; refine (proj1 (UZ _ _ _ _)); rewrite ?rim_z; reflexivity);
    try (right; refine (proj2 (UZ _ _ _ _)); rewrite ?rim_z; reflexivity); try (left; reflexivity).
  - right. pose proof (rim_centre c' r1 n j ltac:(lra)). lra.
  - right. pose proof (rim_centre c r0 n j ltac:(lra)). lra.
  - right. pose proof (rim_centre c' r1 n i ltac:(lra)). lra.
  - destruct (Nat.eq_dec i j) as [->|N]; [left; reflexivity|right]. pose proof (rim_gap c' r1 n i j ltac:(lra) Ga Gb N). lra.
  - right. pose proof (rim_centre c r0 n i ltac:(lra)). lra.
  - destruct (Nat.eq_dec i j) as [->|N]; [left; reflexivity|right]. pose proof (rim_gap c r0 n i j ltac:(lra) Ga Gb N). lra.
Qed.

(** volumes *)
Lemma rsum_const {A} (f : A -> R) k l : (forall a, In a l -> f a = k) -> Rsum f l = INR (length l) * k.
Proof.
  induction l as [|a l IH]; intros H; [simpl; ring|]. cbn [Rsum length]. rewrite S_INR, IH, (H a); [ring|left; auto|intros; apply H; right; auto].
Qed.
Lemma rsum_flat {A B} (f : B -> R) (g : A -> list B) l : Rsum f (flat_map g l) = Rsum (fun a => Rsum f (g a)) l.
Proof. induction l as [|a l IH]; [reflexivity|]. cbn [flat_map Rsum]. rewrite Rsum_app, IH. reflexivity. Qed.
Definition tdet (t : tri) : R := let '(p, q, r) := t in det3 p q r.
Lemma signed_sum ts : signed_volume ts = Rsum tdet ts / 6. Proof. reflexivity. Qed.
Lemma part_cross n i : (0 < n)%nat -> cos (part i n) * sin (part (S i) n) - sin (part i n) * cos (part (S i) n) = sin (2 * PI / INR n).
Proof.
  intros H. rewrite (part_step n i H). rewrite sin_plus, cos_plus. set (u := part i n). set (d := 2 * PI / INR n).
  replace (cos u * (sin u * cos d + cos u * sin d) - sin u * (cos u * cos d - sin u * sin d)) with ((Rsqr (sin u) + Rsqr (cos u)) * sin d) by (unfold Rsqr; ring).
  rewrite sin2_cos2. ring.
Qed.
Lemma rim_origin c r n i : rim_point c r n i = add (rim_point origin r n i) c.
Proof. apply vec_ext; unfold rim_point, add, origin, point; cbn [vx vy vz vw]; ring. Qed.
Lemma fpos_shift c r0 r1 h n a : vw c = 1 -> fpos c r0 r1 h n a = add (fpos origin r0 r1 h n a) c.
Proof.
  intros Hc. destruct a as [[]|[] i]; cbn [fpos]; apply vec_ext; unfold rim_point, add, origin, point; cbn [vx vy vz vw]; try ring. exact Hc.
Qed.
Lemma at_pos_shift c r0 r1 h n ts : vw c = 1 -> map (at_pos (fpos c r0 r1 h n)) ts = map (tmap (act (Atrans c))) (map (at_pos (fpos origin r0 r1 h n)) ts).
Proof.
  intros Hc. rewrite map_map. apply map_ext. intros [[a b] d]. cbn [at_pos tmap]. rewrite <- !act_trans, <- !fpos_shift by auto. reflexivity.
Qed.
Lemma adet_trans c : adet (Atrans c) = 1.
Proof. unfold adet, Atrans, det3. simpl. ring. Qed.
Lemma frustum_signed c r0 r1 h n : (2 < n)%nat -> vw c = 1 -> signed_volume (map (at_pos (fpos c r0 r1 h n)) (frustum n)) = frustum_volume n r0 r1 h.
Proof.
  intros Hn Hc. rewrite at_pos_shift by auto. rewrite signed_volume_act by (apply orient_pos, frustum_lorient; lia). rewrite adet_trans.
  rewrite signed_sum. unfold frustum. rewrite !map_app, !Rsum_app.
  assert (T : forall i, (i < n)%nat -> forall t r, vx (rim_point t r n (S i mod n)) = vx t + r * cos (part (S i) n) /\ vy (rim_point t r n (S i mod n)) = vy t + r * sin (part (S i) n)).
  { intros i Hi t r. rewrite rim_x, rim_y. destruct (part_cyc n i Hi) as [-> ->]. auto. }
  assert (A : Rsum tdet (map (at_pos (fpos origin r0 r1 h n)) (disc_down false n)) = INR n * 0).
  { rewrite Rsum_map. unfold disc_down. rewrite Rsum_map. rewrite (rsum_const _ 0); [rewrite rev_length, seq_length; reflexivity|].
    intros i _. cbn [at_pos fpos tdet]. unfold det3, origin, point; cbn [vx vy vz]. ring. }
  assert (B : Rsum tdet (map (at_pos (fpos origin r0 r1 h n)) (wall n)) = INR n * (h * (r0 * r0 + r0 * r1) * sin (2 * PI / INR n))).
  { rewrite Rsum_map. unfold wall. rewrite rsum_flat. rewrite (rsum_const _ (h * (r0 * r0 + r0 * r1) * sin (2 * PI / INR n))); [rewrite seq_length; reflexivity|].
    intros i Hi. apply in_seq in Hi. cbn [Rsum at_pos fpos tdet]. unfold det3. rewrite !(proj1 (T i ltac:(lia) _ _)), !(proj2 (T i ltac:(lia) _ _)), !rim_x, !rim_y, !rim_z.
    rewrite <- (part_cross n i) by lia. unfold add, origin, point; cbn [vx vy vz]. ring. }
  assert (C : Rsum tdet (map (at_pos (fpos origin r0 r1 h n)) (disc_up true n)) = INR n * (h * (r1 * r1) * sin (2 * PI / INR n))).
  { rewrite Rsum_map. unfold disc_up. rewrite Rsum_map. rewrite (rsum_const _ (h * (r1 * r1) * sin (2 * PI / INR n))); [rewrite seq_length; reflexivity|].
    intros i Hi. apply in_seq in Hi. cbn [at_pos fpos tdet]. unfold det3. rewrite !(proj1 (T i ltac:(lia) _ _)), !(proj2 (T i ltac:(lia) _ _)), !rim_x, !rim_y, !rim_z.
    rewrite <- (part_cross n i) by lia. unfold add, origin, point; cbn [vx vy vz]. ring. }
  rewrite A, B, C. unfold frustum_volume. field.
Qed.
Lemma cone_signed c r0 r1 h n : (2 < n)%nat -> vw c = 1 -> signed_volume (map (at_pos (fpos c r0 r1 h n)) (full_cone n)) = frustum_volume n r0 0 h.
Proof.
  intros Hn Hc. rewrite at_pos_shift by auto. rewrite signed_volume_act by (apply orient_pos, full_cone_lorient; lia). rewrite adet_trans.
  rewrite signed_sum. unfold full_cone. rewrite !map_app, !Rsum_app.
  assert (T : forall i, (i < n)%nat -> forall t r, vx (rim_point t r n (S i mod n)) = vx t + r * cos (part (S i) n) /\ vy (rim_point t r n (S i mod n)) = vy t + r * sin (part (S i) n)).
  { intros i Hi t r. rewrite rim_x, rim_y. destruct (part_cyc n i Hi) as [-> ->]. auto. }
  assert (A : Rsum tdet (map (at_pos (fpos origin r0 r1 h n)) (disc_down false n)) = INR n * 0).
  { rewrite Rsum_map. unfold disc_down. rewrite Rsum_map. rewrite (rsum_const _ 0); [rewrite rev_length, seq_length; reflexivity|].
    intros i _. cbn [at_pos fpos tdet]. unfold det3, origin, point; cbn [vx vy vz]. ring. }
  assert (B : Rsum tdet (map (at_pos (fpos origin r0 r1 h n)) (cone n)) = INR n * (h * (r0 * r0) * sin (2 * PI / INR n))).
  { rewrite Rsum_map. unfold cone. rewrite Rsum_map. rewrite (rsum_const _ (h * (r0 * r0) * sin (2 * PI / INR n))); [rewrite seq_length; reflexivity|].
    intros i Hi. apply in_seq in Hi. cbn [Rsum at_pos fpos tdet]. unfold det3. rewrite !(proj1 (T i ltac:(lia) _ _)), !(proj2 (T i ltac:(lia) _ _)), !rim_x, !rim_y, !rim_z.
    rewrite <- (part_cross n i) by lia. unfold add, origin, point; cbn [vx vy vz]. ring. }
  rewrite A, B. unfold frustum_volume. field.
Qed.
