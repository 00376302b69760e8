From Coq Require Import Reals List Bool ZArith Lra Lia.
From Verif Require Import Xform_Model.
Open Scope R_scope.

(** ** Booleans *)
Lemma Rltb_true a b : Rltb a b = true <-> a < b.
Proof. unfold Rltb. destruct (Rlt_dec a b); split; intros; auto; try discriminate; contradiction. Qed.
Lemma Rltb_false a b : Rltb a b = false <-> b <= a.
Proof. unfold Rltb. destruct (Rlt_dec a b); split; intros; auto; try discriminate; lra. Qed.
Lemma Rleb_true a b : Rleb a b = true <-> a <= b.
Proof. unfold Rleb. destruct (Rle_dec a b); split; intros; auto; try discriminate; contradiction. Qed.
Lemma Rleb_false a b : Rleb a b = false <-> b < a.
Proof. unfold Rleb. destruct (Rle_dec a b); split; intros; auto; try discriminate; lra. Qed.
Lemma Reqb_true a b : Reqb a b = true <-> a = b.
Proof. unfold Reqb. destruct (Req_EM_T a b); split; intros; auto; try discriminate; contradiction. Qed.
Lemma Reqb_false a b : Reqb a b = false <-> a <> b.
Proof. unfold Reqb. destruct (Req_EM_T a b); split; intros; auto; try discriminate; contradiction. Qed.
Lemma eps_pos : 0 < epsilon.
Proof. unfold epsilon. lra. Qed.

Lemma vec_eq a b : vx a = vx b -> vy a = vy b -> vz a = vz b -> vw a = vw b -> a = b.
Proof. destruct a, b; simpl; intros; subst; reflexivity. Qed.

(** ** Matrix algebra *)
(** forget the transpose flag *)
Definition norm (m : matrix) : matrix :=
  mkmat (mkrows (getrow m 0) (getrow m 1) (getrow m 2) (getrow m 3)) false.
Lemma mulMM_norm a b : mulMM a b = mulMM (norm a) (norm b).
Proof. destruct a as [[[] [] [] []] []], b as [[[] [] [] []] []]; reflexivity. Qed.
Lemma mulMV_norm a v : mulMV a v = mulMV (norm a) v.
Proof. destruct a as [[[] [] [] []] []]; reflexivity. Qed.
Lemma norm_mulMM a b : norm (mulMM a b) = mulMM a b.
Proof. reflexivity. Qed.
Lemma rows_eq (a b c d a' b' c' d' : vec) :
  a = a' -> b = b' -> c = c' -> d = d' -> mkmat (mkrows a b c d) false = mkmat (mkrows a' b' c' d') false.
Proof. intros; subst; reflexivity. Qed.
Lemma mkv_eq a b c d a' b' c' d' : a = a' -> b = b' -> c = c' -> d = d' -> mkv a b c d = mkv a' b' c' d'.
Proof. intros; subst; reflexivity. Qed.

Lemma mulMM_assoc_n ra rb rc :
  let a := mkmat ra false in let b := mkmat rb false in let c := mkmat rc false in
  mulMM (mulMM a b) c = mulMM a (mulMM b c).
Proof.
  cbv zeta. unfold mulMM. apply rows_eq; apply mkv_eq;
  cbn [dot4 rcol rget vget getrow getcol trans mm vx vy vz vw row0 row1 row2 row3]; unfold dot4;
  cbn [dot4 rcol rget vget getrow getcol trans mm vx vy vz vw row0 row1 row2 row3]; ring.
Qed.
Lemma mulMM_assoc a b c : mulMM (mulMM a b) c = mulMM a (mulMM b c).
Proof.
  rewrite (mulMM_norm (mulMM a b) c), (mulMM_norm a (mulMM b c)), !norm_mulMM.
  rewrite (mulMM_norm a b), (mulMM_norm b c). apply mulMM_assoc_n.
Qed.

Lemma mulMV_mulMM_n ra rb v :
  let a := mkmat ra false in let b := mkmat rb false in
  mulMV (mulMM a b) v = mulMV a (mulMV b v).
Proof.
  cbv zeta. unfold mulMV, mulMM. apply mkv_eq;
  cbn [dot4 rcol rget vget getrow getcol trans mm vx vy vz vw row0 row1 row2 row3]; unfold dot4;
  cbn [dot4 rcol rget vget getrow getcol trans mm vx vy vz vw row0 row1 row2 row3]; ring.
Qed.
Lemma mulMV_mulMM a b v : mulMV (mulMM a b) v = mulMV a (mulMV b v).
Proof.
  rewrite (mulMM_norm a b), (mulMV_norm a), (mulMV_norm b). apply mulMV_mulMM_n.
Qed.

Lemma mulMV_id v : mulMV Matrix0 v = v.
Proof. destruct v. unfold mulMV, Matrix0, getrow, dot4; simpl. f_equal; ring. Qed.

(** the value-level matrix read by [get]: entry (i,j) *)
Definition entry (m : matrix) (i j : nat) : R :=
  if trans m then vget (rget (mm m) j) i else vget (rget (mm m) i) j.

Lemma get_entry m i j : (i <= 3)%nat -> (j <= 3)%nat -> get m i j = Ok (entry m i j).
Proof.
  intros Hi Hj. unfold get, entry.
  destruct (Nat.ltb_spec 3 i); [lia|]. destruct (Nat.ltb_spec 3 j); [lia|]. simpl.
  destruct (trans m); reflexivity.
Qed.

Ltac four i := destruct i as [|[|[|[|i]]]]; [| | | |exfalso; lia].

Lemma set_get m i j x m' :
  (i <= 3)%nat -> (j <= 3)%nat -> set m i j x = Ok m' ->
  forall k l, (k <= 3)%nat -> (l <= 3)%nat ->
  get m' k l = if (Nat.eqb k i && Nat.eqb l j)%bool then Ok x else get m k l.
Proof.
  intros Hi Hj Hs k l Hk Hl. rewrite !get_entry by assumption.
  unfold set in Hs.
  destruct (Nat.ltb_spec 3 i); [lia|]. destruct (Nat.ltb_spec 3 j); [lia|]. simpl in Hs.
  destruct m as [r t]. cbn [mm trans] in *.
  destruct t; inversion Hs; subst m'; unfold entry; cbn [mm trans];
  four i; four j; four k; four l; reflexivity.
Qed.

Lemma setrow_getrow m i v k : (i <= 3)%nat -> (k <= 3)%nat ->
  getrow (setrow m i v) k = if Nat.eqb k i then v else getrow m k.
Proof.
  intros Hi Hk. destruct m as [r t], v; unfold setrow, getrow.
  destruct t; four i; four k; reflexivity.
Qed.
Lemma setcol_getcol m i v k : (i <= 3)%nat -> (k <= 3)%nat ->
  getcol (setcol m i v) k = if Nat.eqb k i then v else getcol m k.
Proof.
  intros Hi Hk. destruct m as [r t], v; unfold setcol, getcol.
  destruct t; four i; four k; reflexivity.
Qed.
Lemma getrow_entry m i j : (i <= 3)%nat -> (j <= 3)%nat -> vget (getrow m i) j = entry m i j.
Proof. intros. destruct m as [r []]; unfold getrow, entry; simpl; four i; four j; reflexivity. Qed.
Lemma getcol_entry m i j : (i <= 3)%nat -> (j <= 3)%nat -> vget (getcol m j) i = entry m i j.
Proof. intros. destruct m as [r []]; unfold getcol, entry; simpl; four i; four j; reflexivity. Qed.

Lemma mulMM_entry a b i j : (i <= 3)%nat -> (j <= 3)%nat ->
  get (mulMM a b) i j =
  Ok (entry a i 0 * entry b 0 j + entry a i 1 * entry b 1 j
      + entry a i 2 * entry b 2 j + entry a i 3 * entry b 3 j).
Proof.
  intros Hi Hj. rewrite get_entry by assumption. f_equal.
  destruct a as [ra []], b as [rb []]; four i; four j; reflexivity.
Qed.

(** ** Translation and scale *)
Lemma translation_apply d v :
  mulMV (Translation d false) v = mkv (vx v + vx d * vw v) (vy v + vy d * vw v) (vz v + vz d * vw v) (vw v).
Proof. destruct v, d. unfold mulMV, Translation, getrow, dot4; simpl. f_equal; ring. Qed.
Lemma translation_inv d : mulMM (Translation d true) (Translation d false) = Matrix0
                       /\ mulMM (Translation d false) (Translation d true) = Matrix0.
Proof.
  destruct d. unfold mulMM, Translation, Matrix0, ident_rows, getrow, getcol, dot4, rcol; simpl.
  split; apply rows_eq; apply mkv_eq; ring.
Qed.

Lemma scale_inv x y z s si :
  Scale x y z false = Ok s -> Scale x y z true = Ok si ->
  mulMM si s = Matrix0 /\ mulMM s si = Matrix0.
Proof.
  unfold Scale. intros H1 H2.
  assert (G : forall a b c,
     (if (Reqb a 0 || Reqb b 0 || Reqb c 0)%bool then ZeroDivisionError
      else Ok (mkmat (mkrows (mkv (1 / a) 0 0 0) (mkv 0 (1 / b) 0 0) (mkv 0 0 (1 / c) 0) (mkv 0 0 0 1)) false)) = Ok si ->
     Ok (mkmat (mkrows (mkv a 0 0 0) (mkv 0 b 0 0) (mkv 0 0 c 0) (mkv 0 0 0 1)) false) = Ok s ->
     mulMM si s = Matrix0 /\ mulMM s si = Matrix0).
  { intros a b c G1 G2.
    destruct (Reqb a 0) eqn:Ea; [discriminate|]. destruct (Reqb b 0) eqn:Eb; [discriminate|].
    destruct (Reqb c 0) eqn:Ec; [discriminate|]. simpl in G1.
    apply Reqb_false in Ea, Eb, Ec.
    inversion G1; inversion G2; subst.
    unfold mulMM, Matrix0, ident_rows, getrow, getcol, dot4, rcol; simpl.
    split; apply rows_eq; apply mkv_eq; field; assumption. }
  destruct y as [y|]; [destruct z as [z|]|]; eapply G; eassumption.
Qed.

Lemma scale_inv_defined x y z :
  (exists si, Scale x y z true = Ok si) <->
  match y, z with Some y, Some z => x <> 0 /\ y <> 0 /\ z <> 0 | _, _ => x <> 0 end.
Proof.
  unfold Scale.
  destruct y as [y|]; [destruct z as [z|]|];
  repeat match goal with |- context [Reqb ?a ?b] => destruct (Reqb a b) eqn:?E end; simpl;
  repeat match goal with H : Reqb _ _ = true |- _ => apply Reqb_true in H
                       | H : Reqb _ _ = false |- _ => apply Reqb_false in H end;
  split; intros H; try (destruct H as [? H]; discriminate); try tauto; eauto.
Qed.

(** ** Trigonometry with Python's modulo *)
Lemma cos_sin_periodZ (x : R) (k : Z) :
  cos (x + IZR k * pi2) = cos x /\ sin (x + IZR k * pi2) = sin x.
Proof.
  unfold pi2. destruct k as [|p|p].
  - simpl. rewrite Rmult_0_l, Rplus_0_r. auto.
  - rewrite <- (positive_nat_Z p), <- INR_IZR_INZ.
    replace (INR (Pos.to_nat p) * (2 * PI)) with (2 * INR (Pos.to_nat p) * PI) by ring.
    split; [apply cos_period | apply sin_period].
  - assert (E : IZR (Z.neg p) = - INR (Pos.to_nat p)).
    { rewrite INR_IZR_INZ, positive_nat_Z, <- opp_IZR. reflexivity. }
    rewrite E.
    pose proof (cos_period (x + - INR (Pos.to_nat p) * (2 * PI)) (Pos.to_nat p)) as H1.
    pose proof (sin_period (x + - INR (Pos.to_nat p) * (2 * PI)) (Pos.to_nat p)) as H2.
    replace (x + - INR (Pos.to_nat p) * (2 * PI) + 2 * INR (Pos.to_nat p) * PI) with x in H1, H2 by ring.
    auto.
Qed.

Lemma cos_sin_pymod a :
  cos (pymod a 360 * pi2 / 360) = cos (a * pi2 / 360) /\
  sin (pymod a 360 * pi2 / 360) = sin (a * pi2 / 360).
Proof.
  unfold pymod. set (k := Int_part (a / 360)).
  replace ((a - 360 * IZR k) * pi2 / 360) with (a * pi2 / 360 + IZR (- k) * pi2).
  - apply cos_sin_periodZ.
  - rewrite opp_IZR. field.
Qed.

Lemma pymod_range a m : 0 < m -> 0 <= pymod a m < m.
Proof.
  intros Hm. unfold pymod. pose proof (base_Int_part (a / m)) as [H1 H2].
  set (k := IZR (Int_part (a / m))) in *.
  assert (a = a / m * m) by (field; lra). split; nra.
Qed.

(** ** Rotation *)
Lemma mag_one_sq u : mag u = 1 -> vx u * vx u + vy u * vy u + vz u * vz u = 1.
Proof.
  unfold mag. intros H. set (q := _ + _) in *.
  assert (0 <= q) by (unfold q; nra).
  rewrite <- (sqrt_sqrt q) by assumption. rewrite H. ring.
Qed.

Lemma rotation_ok u a b : mag u = 1 -> exists r, Rotation u a b = Ok r.
Proof.
  intros H. unfold Rotation. rewrite H.
  destruct (Rltb 1 epsilon) eqn:E.
  { apply Rltb_true in E. unfold epsilon in E. lra. }
  assert (close 1 1 = true) as ->.
  { unfold close. apply Rltb_true. rewrite Rminus_eq_0, Rabs_R0. apply eps_pos. }
  simpl. eauto.
Qed.

Lemma rotation_form u a (b : bool) r : Rotation u a b = Ok r ->
  r = mkmat (rot_rows u (cos (a * pi2 / 360)) ((if b then -1 else 1) * sin (a * pi2 / 360))) false.
Proof.
  unfold Rotation. destruct (Rltb _ _); [discriminate|]. destruct (close _ _); [|discriminate].
  cbn [negb]. intros H. inversion H; clear H.
  destruct (cos_sin_pymod (if b then a * -1 else a)) as [-> ->].
  destruct b.
  - replace (a * -1 * pi2 / 360) with (- (a * pi2 / 360)) by field.
    rewrite cos_neg, sin_neg. f_equal. f_equal. ring.
  - f_equal. f_equal. ring.
Qed.

(** algebraic core: for a unit axis and c^2+s^2=1, rot(c,s) and rot(c,-s) are inverse *)
Lemma rot_inv_alg u c s :
  vx u * vx u + vy u * vy u + vz u * vz u = 1 -> s * s + c * c = 1 ->
  mulMM (mkmat (rot_rows u c (-1 * s)) false) (mkmat (rot_rows u c (1 * s)) false) = Matrix0.
Proof.
  destruct u as [x y z w]; simpl. intros Hu Hcs.
  assert (Hz : z * z = 1 - x * x - y * y) by lra.
  assert (Hs : s * s = 1 - c * c) by lra.
  unfold mulMM, rot_rows, Matrix0, ident_rows, getrow, getcol, dot4, rcol, rget, vget; simpl.
  apply rows_eq; apply mkv_eq; try ring;
  match goal with |- ?l = ?r =>
    ring_simplify l; ring_simplify r end;
  repeat match goal with
  | |- context [z ^ 4] => replace (z ^ 4) with ((1 - x * x - y * y) * (1 - x*x - y*y)) by (rewrite <- Hz; ring)
  | |- context [z ^ 3] => replace (z ^ 3) with ((1 - x * x - y * y) * z) by (rewrite <- Hz; ring)
  | |- context [z ^ 2] => replace (z ^ 2) with (1 - x * x - y * y) by (rewrite <- Hz; ring)
  | |- context [s ^ 2] => replace (s ^ 2) with (1 - c * c) by (rewrite <- Hs; ring)
  end; ring.
Qed.

Lemma rot_rows_neg_transpose u c s :
  rot_rows u c (- s) =
  let m := mkmat (rot_rows u c s) false in
  mkrows (getcol m 0) (getcol m 1) (getcol m 2) (getcol m 3).
Proof.
  destruct u. unfold rot_rows, getcol, rcol; simpl. f_equal; f_equal; ring.
Qed.

Lemma rotation_inverse u a r ri :
  mag u = 1 -> Rotation u a false = Ok r -> Rotation u a true = Ok ri ->
  mulMM ri r = Matrix0 /\ mulMM r ri = Matrix0.
Proof.
  intros Hu H1 H2. apply mag_one_sq in Hu.
  apply rotation_form in H1. apply rotation_form in H2. subst.
  set (t := a * pi2 / 360).
  assert (Hcs : sin t * sin t + cos t * cos t = 1) by (pose proof (sin2_cos2 t) as H; unfold Rsqr in H; lra).
  split; [apply rot_inv_alg; assumption|].
  replace (1 * sin t) with (-1 * (- sin t)) by ring.
  replace (-1 * sin t) with (1 * (- sin t)) by ring.
  apply rot_inv_alg; [assumption|]. lra.
Qed.

(** linear part of a rotation matrix preserves distances *)
Lemma rot_dist u c s p q :
  vx u * vx u + vy u * vy u + vz u * vz u = 1 -> s * s + c * c = 1 -> vw p = vw q ->
  dist (mulMV (mkmat (rot_rows u c s) false) p) (mulMV (mkmat (rot_rows u c s) false) q) = dist p q.
Proof.
  destruct u as [x y z w], p as [px py pz pw], q as [qx qy qz qw]; simpl. intros Hu Hcs ->.
  unfold dist, mag, sub, mulMV, rot_rows, getrow, dot4, rget, mm, trans, row0, row1, row2, row3, vx, vy, vz, vw.
  f_equal.
  set (dx := px - qx). set (dy := py - qy). set (dz := pz - qz).
  replace px with (qx + dx) by (unfold dx; ring).
  replace py with (qy + dy) by (unfold dy; ring).
  replace pz with (qz + dz) by (unfold dz; ring).
  clearbody dx dy dz. clear px py pz.
  assert (Hz : z * z = 1 - x * x - y * y) by lra.
  assert (Hs : s * s = 1 - c * c) by lra.
  match goal with |- ?l = ?r => ring_simplify l; ring_simplify r end.
  repeat match goal with
  | |- context [z ^ 4] => replace (z ^ 4) with ((1 - x * x - y * y) * (1 - x*x - y*y)) by (rewrite <- Hz; ring)
  | |- context [z ^ 3] => replace (z ^ 3) with ((1 - x * x - y * y) * z) by (rewrite <- Hz; ring)
  | |- context [z ^ 2] => replace (z ^ 2) with (1 - x * x - y * y) by (rewrite <- Hz; ring)
  | |- context [s ^ 2] => replace (s ^ 2) with (1 - c * c) by (rewrite <- Hs; ring)
  end. ring.
Qed.

Lemma rotation_isometry u a b r p q :
  mag u = 1 -> Rotation u a b = Ok r -> vw p = vw q ->
  dist (mulMV r p) (mulMV r q) = dist p q.
Proof.
  intros Hu H Hw. apply mag_one_sq in Hu. apply rotation_form in H. subst.
  set (t := a * pi2 / 360).
  assert (Hcs : sin t * sin t + cos t * cos t = 1) by (pose proof (sin2_cos2 t) as H; unfold Rsqr in H; lra).
  apply rot_dist; auto. destruct b; nra.
Qed.

Lemma rotation_nonunit_raises u a b :
  epsilon <= mag u -> epsilon <= Rabs (mag u - 1) -> Rotation u a b = AttributeError.
Proof.
  intros H1 H2. unfold Rotation, close.
  apply Rltb_false in H1. rewrite H1. apply Rltb_false in H2. rewrite H2. reflexivity.
Qed.

Lemma mag_axis_z k : 0 <= k -> mag (mkv 0 0 k 1) = k.
Proof.
  intros Hk. unfold mag; simpl. replace (0 * 0 + 0 * 0 + k * k) with (k * k) by ring.
  apply sqrt_square; assumption.
Qed.
Lemma mag_axis_x k : 0 <= k -> mag (mkv k 0 0 1) = k.
Proof.
  intros Hk. unfold mag; simpl. replace (k * k + 0 * 0 + 0 * 0) with (k * k) by ring.
  apply sqrt_square; assumption.
Qed.
Lemma rotation_nonunit_refuted :
  exists axis a, mag axis <> 0 /\ Rotation axis a false = AttributeError.
Proof.
  exists (mkv 0 0 2 1), 90. rewrite mag_axis_z by lra. split; [lra|].
  apply rotation_nonunit_raises; rewrite mag_axis_z by lra; unfold epsilon.
  - lra.
  - replace (2 - 1) with 1 by ring. rewrite Rabs_R1. lra.
Qed.

(** quarter turn about z: x axis goes to y axis (right-handed) *)
Lemma rotation_z_quarter r :
  Rotation (mkv 0 0 1 1) 90 false = Ok r -> mulMV r (point 1 0 0) = point 0 1 0.
Proof.
  intros H. apply rotation_form in H. subst.
  replace (90 * pi2 / 360) with (PI / 2) by (unfold pi2; field).
  rewrite cos_PI2, sin_PI2. unfold mulMV, rot_rows, getrow, dot4, point; simpl.
  f_equal; ring.
Qed.

(** ** rotate about a centre *)
Lemma sub_self_mag v : mag (sub v v) = 0.
Proof.
  unfold mag, sub; simpl. replace (_ + _) with 0 by ring. apply sqrt_0.
Qed.

Lemma close_true a b : close a b = true <-> Rabs (a - b) < epsilon.
Proof. unfold close. apply Rltb_true. Qed.

Lemma vclose_zero_small c : vclose c (point 0 0 0) = true ->
  dist c (point 0 0 0) < epsilon.
Proof.
  unfold vclose. rewrite close_true. unfold dist. rewrite Rminus_0_r.
  rewrite Rabs_right; [auto|]. apply Rle_ge. unfold mag. apply sqrt_pos.
Qed.

Lemma translation_apply_inv d v :
  mulMV (Translation d true) v = mkv (vx v - vx d * vw v) (vy v - vy d * vw v) (vz v - vz d * vw v) (vw v).
Proof. destruct v, d. unfold mulMV, Translation, getrow, dot4; simpl. f_equal; ring. Qed.

Lemma rot_w u c s v : vw (mulMV (mkmat (rot_rows u c s) false) v) = vw v.
Proof. destruct u, v. unfold mulMV, rot_rows, getrow, dot4; simpl. ring. Qed.

Lemma translation_dist d b p q : vw p = 1 -> vw q = 1 ->
  dist (mulMV (Translation d b) p) (mulMV (Translation d b) q) = dist p q.
Proof.
  intros Hp Hq. destruct b; rewrite ?translation_apply, ?translation_apply_inv;
  unfold dist, mag, sub; simpl; f_equal; rewrite Hp, Hq; ring.
Qed.

Lemma rotate_isometry p q ang cent axis p' q' :
  mag axis = 1 -> vw p = 1 -> vw q = 1 ->
  rotate_pt p ang cent axis = Ok p' -> rotate_pt q ang cent axis = Ok q' ->
  dist p' q' = dist p q.
Proof.
  intros Hu Hp Hq. unfold rotate_pt. destruct (close ang 0).
  { intros H1 H2; inversion H1; inversion H2; reflexivity. }
  destruct (rotation_ok axis ang false Hu) as [r Hr]. rewrite Hr.
  destruct (vclose cent (point 0 0 0)); intros H1 H2; inversion H1; inversion H2; subst; clear H1 H2.
  - eapply rotation_isometry; eauto; congruence.
  - rewrite !mulMV_mulMM.
    pose proof (rotation_form _ _ _ _ Hr) as Hf.
    rewrite translation_dist.
    + erewrite rotation_isometry; eauto.
      * apply translation_dist; assumption.
      * rewrite !translation_apply_inv; simpl; congruence.
    + rewrite Hf, rot_w, translation_apply_inv; simpl; assumption.
    + rewrite Hf, rot_w, translation_apply_inv; simpl; assumption.
Qed.

Lemma rotate_center_fixed ang cent axis :
  mag axis = 1 -> vw cent = 1 -> dist cent (point 0 0 0) >= epsilon ->
  rotate_pt cent ang cent axis = Ok cent.
Proof.
  intros Hu Hw Hc. unfold rotate_pt. destruct (close ang 0); [reflexivity|].
  destruct (rotation_ok axis ang false Hu) as [r Hr]. rewrite Hr.
  destruct (vclose cent (point 0 0 0)) eqn:E.
  { apply vclose_zero_small in E. lra. }
  f_equal. rewrite !mulMV_mulMM, translation_apply_inv, translation_apply.
  apply rotation_form in Hr. subst r.
  destruct cent as [x y z w]; simpl in *; subst w.
  unfold mulMV, rot_rows, getrow, dot4; simpl.
  f_equal; ring.
Qed.

(** when the centre is within epsilon of the origin the code rotates about the
    origin, so the centre moves by less than 2 epsilon *)
Lemma rot_rows_origin u c s : mulMV (mkmat (rot_rows u c s) false) (point 0 0 0) = point 0 0 0.
Proof. destruct u. unfold mulMV, rot_rows, getrow, dot4, point; simpl. f_equal; ring. Qed.

(** the axis itself is fixed *)
Lemma rotate_axis_fixed ang axis k :
  mag axis = 1 -> rotate_pt (scale3 axis k) ang (point 0 0 0) axis = Ok (scale3 axis k).
Proof.
  intros Hu. unfold rotate_pt. destruct (close ang 0); [reflexivity|].
  destruct (rotation_ok axis ang false Hu) as [r Hr]. rewrite Hr.
  assert (vclose (point 0 0 0) (point 0 0 0) = true) as ->.
  { unfold vclose. rewrite sub_self_mag. apply close_true. rewrite Rminus_eq_0, Rabs_R0. apply eps_pos. }
  f_equal. apply rotation_form in Hr. subst r. apply mag_one_sq in Hu.
  destruct axis as [x y z w]; simpl in *.
  assert (Hz : z * z = 1 - x * x - y * y) by lra.
  unfold mulMV, rot_rows, getrow, dot4, scale3; simpl.
  set (c := cos _). set (s := sin _). clearbody c s.
  f_equal; try ring;
  match goal with |- ?l = ?r => ring_simplify l; ring_simplify r end;
  repeat match goal with
  | |- context [z ^ 3] => replace (z ^ 3) with ((1 - x * x - y * y) * z) by (rewrite <- Hz; ring)
  | |- context [z ^ 2] => replace (z ^ 2) with (1 - x * x - y * y) by (rewrite <- Hz; ring)
  end; ring.
Qed.

(** ** scale about a centre *)
Lemma scale_pt_origin p s :
  vclose (point s s s) (point 1 1 1) = false ->
  scale_pt p s None None (point 0 0 0) = Ok (mkv (s * vx p) (s * vy p) (s * vz p) (vw p)).
Proof.
  intros H. unfold scale_pt, scale_matrix, scale_args, scale_as_point; simpl. rewrite H.
  assert (vclose (point 0 0 0) (point 0 0 0) = true) as ->.
  { unfold vclose. rewrite sub_self_mag. apply close_true. rewrite Rminus_eq_0, Rabs_R0. apply eps_pos. }
  f_equal. destruct p. unfold mulMV, getrow, dot4; simpl. f_equal; ring.
Qed.

(** what scale about a far centre really computes: s*(p+c) - c *)
Lemma scale_pt_center p s c :
  vclose (point s s s) (point 1 1 1) = false ->
  vclose c (point 0 0 0) = false -> vw p = 1 ->
  scale_pt p s None None c =
    Ok (mkv (s * (vx p + vx c) - vx c) (s * (vy p + vy c) - vy c) (s * (vz p + vz c) - vz c) 1).
Proof.
  intros H Hc Hw. unfold scale_pt, scale_matrix, scale_args, scale_as_point; simpl. rewrite H, Hc.
  f_equal. rewrite !mulMV_mulMM, translation_apply, translation_apply_inv.
  destruct p as [x y z w]; simpl in *; subst w. unfold mulMV, getrow, dot4; simpl. f_equal; ring.
Qed.

Lemma vclose_far_x a b : epsilon <= Rabs (a - b) -> forall y z,
  vclose (point a y z) (point b y z) = false.
Proof.
  intros H y z. unfold vclose, close. apply Rltb_false. rewrite Rminus_0_r.
  unfold mag, sub; simpl.
  replace ((a - b) * (a - b) + (y - y) * (y - y) + (z - z) * (z - z)) with (Rsqr (a - b)) by (unfold Rsqr; ring).
  rewrite sqrt_Rsqr_abs, Rabs_Rabsolu. assumption.
Qed.

Lemma vclose_222 : vclose (point 2 2 2) (point 1 1 1) = false.
Proof.
  unfold vclose, close. apply Rltb_false. rewrite Rminus_0_r.
  unfold mag, sub; simpl. rewrite Rabs_right by (apply Rle_ge, sqrt_pos).
  replace ((2 - 1) * (2 - 1) + (2 - 1) * (2 - 1) + (2 - 1) * (2 - 1)) with 3 by ring.
  apply Rle_trans with (sqrt 1).
  - rewrite sqrt_1. unfold epsilon. lra.
  - apply sqrt_le_1; lra.
Qed.

Lemma scale_center_not_fixed :
  exists c s, scale_pt c s None None c = Ok (mkv (3 * vx c) (3 * vy c) (3 * vz c) 1)
           /\ mkv (3 * vx c) (3 * vy c) (3 * vz c) 1 <> c /\ vw c = 1.
Proof.
  exists (point 1 0 0), 2. split; [|split; [|reflexivity]].
  - rewrite scale_pt_center.
    + simpl. f_equal. f_equal; ring.
    + apply vclose_222.
    + apply vclose_far_x. rewrite Rminus_0_r, Rabs_R1. unfold epsilon. lra.
    + reflexivity.
  - simpl. unfold point. intros H. inversion H. lra.
Qed.

(** non-uniform request with one factor missing: sy is ignored *)
Lemma scale_two_factors_ignored p sx sy :
  sy <> 0 -> vclose (point sx sy 0) (point 1 1 1) = false ->
  scale_pt p sx (Some sy) None (point 0 0 0) = Ok (mkv (sx * vx p) (sx * vy p) (sx * vz p) (vw p)).
Proof.
  intros H0 H. unfold scale_pt, scale_matrix, scale_args, scale_as_point; simpl.
  apply Reqb_false in H0. rewrite H0. simpl. rewrite H.
  assert (vclose (point 0 0 0) (point 0 0 0) = true) as ->.
  { unfold vclose. rewrite sub_self_mag. apply close_true. rewrite Rminus_eq_0, Rabs_R0. apply eps_pos. }
  f_equal. destruct p. unfold mulMV, getrow, dot4; simpl. f_equal; ring.
Qed.

(** ** mirror *)
Lemma mirror_involutive x p : mirror_pt (mirror_pt x p) p = x.
Proof. destruct x, p; unfold mirror_pt, mul4; simpl; f_equal; ring. Qed.
Lemma mirror_isometry x y p : dist (mirror_pt x p) (mirror_pt y p) = dist x y.
Proof. destruct x, y, p; unfold dist, mag, sub, mirror_pt, mul4; simpl; f_equal; ring. Qed.

(** ** translate *)
Lemma translate_isometry x y d : dist (translate_pt x d) (translate_pt y d) = dist x y.
Proof. unfold dist, mag, sub, translate_pt, add; simpl. f_equal. ring. Qed.
Lemma translate_matrix x d : vw x = 1 -> translate_pt x d = mulMV (Translation d false) x.
Proof. intros H. rewrite translation_apply. unfold translate_pt, add. rewrite H. f_equal; ring. Qed.
Lemma translate_back x d : vw x = 1 -> translate_pt (translate_pt x d) (scale3 d (-1)) = x.
Proof.
  destruct x; simpl; intros ->. unfold translate_pt, add, scale3; simpl. f_equal; ring.
Qed.

(** ** Norm inequalities *)
Definition sq (a b c : R) : R := a * a + b * b + c * c.
Lemma sq_nonneg a b c : 0 <= sq a b c.
Proof. unfold sq. nra. Qed.
Lemma cauchy3 a b c d e f :
  (a * d + b * e + c * f) * (a * d + b * e + c * f) <= sq a b c * sq d e f.
Proof.
  unfold sq.
  replace ((a * a + b * b + c * c) * (d * d + e * e + f * f)) with
    ((a * d + b * e + c * f) * (a * d + b * e + c * f)
     + ((a * e - b * d) * (a * e - b * d) + (a * f - c * d) * (a * f - c * d) + (b * f - c * e) * (b * f - c * e))) by ring.
  pose proof (Rle_0_sqr (a * e - b * d)). pose proof (Rle_0_sqr (a * f - c * d)). pose proof (Rle_0_sqr (b * f - c * e)).
  unfold Rsqr in *. lra.
Qed.
Lemma minkowski3 a b c d e f :
  sqrt (sq (a + d) (b + e) (c + f)) <= sqrt (sq a b c) + sqrt (sq d e f).
Proof.
  apply Rsqr_incr_0_var.
  2: { pose proof (sqrt_pos (sq a b c)). pose proof (sqrt_pos (sq d e f)). lra. }
  rewrite Rsqr_sqrt by apply sq_nonneg. unfold Rsqr.
  set (m := sqrt (sq a b c)). set (n := sqrt (sq d e f)).
  assert (Hm : m * m = sq a b c) by (apply sqrt_sqrt, sq_nonneg).
  assert (Hn : n * n = sq d e f) by (apply sqrt_sqrt, sq_nonneg).
  assert (Hm0 : 0 <= m) by apply sqrt_pos. assert (Hn0 : 0 <= n) by apply sqrt_pos.
  assert (K : a * d + b * e + c * f <= m * n).
  { destruct (Rle_dec (a * d + b * e + c * f) 0) as [Hle|Hgt].
    - assert (0 <= m * n) by (apply Rmult_le_pos; assumption). lra.
    - apply Rsqr_incr_0_var; [|apply Rmult_le_pos; assumption]. unfold Rsqr.
      replace (m * n * (m * n)) with (m * m * (n * n)) by ring. rewrite Hm, Hn. apply cauchy3. }
  replace ((m + n) * (m + n)) with (m * m + n * n + 2 * (m * n)) by ring.
  rewrite Hm, Hn. unfold sq in *. lra.
Qed.
Lemma mag_sq v : mag v = sqrt (sq (vx v) (vy v) (vz v)).
Proof. reflexivity. Qed.
Lemma dist_sq a b : dist a b = sqrt (sq (vx a - vx b) (vy a - vy b) (vz a - vz b)).
Proof. reflexivity. Qed.
Lemma dist_nonneg a b : 0 <= dist a b.
Proof. rewrite dist_sq. apply sqrt_pos. Qed.
Lemma dist_sym a b : dist a b = dist b a.
Proof. rewrite !dist_sq. f_equal. unfold sq. ring. Qed.
Lemma dist_refl a : dist a a = 0.
Proof. unfold dist. apply sub_self_mag. Qed.
Lemma dist_triangle a b c : dist a c <= dist a b + dist b c.
Proof.
  rewrite !dist_sq.
  replace (vx a - vx c) with ((vx a - vx b) + (vx b - vx c)) by ring.
  replace (vy a - vy c) with ((vy a - vy b) + (vy b - vy c)) by ring.
  replace (vz a - vz c) with ((vz a - vz b) + (vz b - vz c)) by ring.
  apply minkowski3.
Qed.
Lemma dist_zero_iff a b : dist a b = 0 <-> vx a = vx b /\ vy a = vy b /\ vz a = vz b.
Proof.
  rewrite dist_sq. split.
  - intros H. apply sqrt_eq_0 in H; [|apply sq_nonneg]. unfold sq in H.
    pose proof (Rle_0_sqr (vx a - vx b)). pose proof (Rle_0_sqr (vy a - vy b)). pose proof (Rle_0_sqr (vz a - vz b)).
    unfold Rsqr in *.
    assert (vx a - vx b = 0) by (apply Rsqr_0_uniq; unfold Rsqr; lra).
    assert (vy a - vy b = 0) by (apply Rsqr_0_uniq; unfold Rsqr; lra).
    assert (vz a - vz b = 0) by (apply Rsqr_0_uniq; unfold Rsqr; lra). lra.
  - intros (-> & -> & ->). unfold sq. rewrite <- sqrt_0. f_equal. ring.
Qed.

Lemma rotate_center_near ang cent axis c' :
  mag axis = 1 -> vw cent = 1 ->
  rotate_pt cent ang cent axis = Ok c' -> dist c' cent < 2 * epsilon.
Proof.
  intros Hu Hw H. pose proof eps_pos as He.
  destruct (Rge_dec (dist cent (point 0 0 0)) epsilon) as [Hf|Hn].
  - rewrite (rotate_center_fixed ang cent axis Hu Hw Hf) in H. inversion H. rewrite dist_refl. lra.
  - unfold rotate_pt in H. destruct (close ang 0).
    { inversion H. rewrite dist_refl. lra. }
    destruct (rotation_ok axis ang false Hu) as [r Hr]. rewrite Hr in H.
    assert (vclose cent (point 0 0 0) = true) as E.
    { unfold vclose. apply close_true. rewrite Rminus_0_r. fold (dist cent (point 0 0 0)).
      rewrite Rabs_right by (apply Rle_ge, dist_nonneg). lra. }
    rewrite E in H. inversion H; subst c'; clear H.
    pose proof (rotation_form _ _ _ _ Hr) as Hf.
    pose proof (rotation_isometry axis ang false r cent (point 0 0 0) Hu Hr Hw) as Hi.
    rewrite Hf in Hi at 2. rewrite rot_rows_origin in Hi.
    pose proof (dist_triangle (mulMV r cent) (point 0 0 0) cent) as Ht.
    rewrite (dist_sym (point 0 0 0) cent) in Ht. lra.
Qed.

(** mirroring fixes exactly the points of its plane *)
Lemma mirror_fixed x p : mirror_pt x p = x <-> (match p with XZ => vy x | YZ => vx x | XY => vz x end) = 0.
Proof.
  destruct x as [a b c w], p; unfold mirror_pt, mul4; simpl; split; intros E;
  try (injection E; intros; lra); subst; f_equal; ring.
Qed.
(** the cross product: orthogonal, anticommutative, right-handed, of the area's size *)
Lemma cross_orthogonal a b : dot (cross a b) a = 0 /\ dot (cross a b) b = 0.
Proof. destruct a, b; unfold dot, cross; simpl. split; ring. Qed.
Lemma cross_size a b : dot (cross a b) (cross a b) = dot a a * dot b b - dot a b * dot a b.
Proof. destruct a, b; unfold dot, cross; simpl. ring. Qed.
Lemma cross_right : cross (point 1 0 0) (point 0 1 0) = point 0 0 1 /\ cross (point 0 1 0) (point 0 0 1) = point 1 0 0 /\
  cross (point 0 0 1) (point 1 0 0) = point 0 1 0.
Proof. unfold cross, point; simpl. repeat apply conj; f_equal; ring. Qed.
(** positive angles turn x towards y about z *)
Lemma rotate_sense ang : close ang 0 = false ->
  rotate_pt (point 1 0 0) ang (point 0 0 0) (point 0 0 1) = Ok (point (cos (ang * pi2 / 360)) (sin (ang * pi2 / 360)) 0).
Proof.
  intros N. assert (Hu : mag (point 0 0 1) = 1).
  { unfold mag, point; simpl. replace (0 * 0 + 0 * 0 + 1 * 1) with 1 by ring. apply sqrt_1. }
  unfold rotate_pt. rewrite N.
  destruct (rotation_ok (point 0 0 1) ang false Hu) as [r Hr]. rewrite Hr.
  assert (vclose (point 0 0 0) (point 0 0 0) = true) as ->.
  { unfold vclose. rewrite sub_self_mag. apply close_true. rewrite Rminus_eq_0, Rabs_R0. apply eps_pos. }
  f_equal. apply rotation_form in Hr. subst r. unfold mulMV, rot_rows, getrow, dot4, point; simpl.
  f_equal; ring.
Qed.
