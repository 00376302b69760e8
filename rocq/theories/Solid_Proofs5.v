(** Normals stay unit and keep agreeing with the faces. *)
From Coq Require Import Reals List Bool ZArith Permutation Lra Lia.
From Verif Require Import Dict Xform_Model Xform_Proofs Solid_Model Solid_Spec Solid_Proofs Solid_Proofs2 Solid_Proofs3 Solid_Proofs4.
Import ListNotations.
Open Scope R_scope.

Lemma flat_shaded_carry f g s s' :
  verts s' = map f (verts s) -> norms s' = map g (norms s) -> faces s' = faces s ->
  (forall n p q r, In n (norms s) -> In p (verts s) -> In q (verts s) -> In r (verts s) ->
     flat_normal n p q r -> flat_normal (g n) (f p) (f q) (f r)) ->
  flat_shaded s -> flat_shaded s'.
Proof.
  intros E1 E2 E3 H HF fc t i n Hin Hc Hi Hn. rewrite E3 in Hin. rewrite E2 in Hn.
  apply at_index_map in Hn as (n0 & Hn0 & ->).
  destruct (face_carry_inv _ _ _ _ _ E1 Hc) as (t0 & Hc0 & ->).
  specialize (HF fc t0 i n0 Hin Hc0 Hi Hn0). destruct t0 as [[p q] r]. unfold tmap. destruct fc as [[a b] c].
  destruct Hc0 as (Ha & Hb & Hcc). apply H; eauto using at_index_in.
Qed.
Lemma flat_shaded_flip f g s s' :
  verts s' = map f (verts s) -> norms s' = map g (norms s) -> faces s' = map swap_face (faces s) ->
  (forall n p q r, In n (norms s) -> In p (verts s) -> In q (verts s) -> In r (verts s) ->
     flat_normal n p q r -> flat_normal (g n) (f p) (f r) (f q)) ->
  flat_shaded s -> flat_shaded s'.
Proof.
  intros E1 E2 E3 H HF fc t i n Hin Hc Hi Hn. rewrite E3 in Hin. rewrite E2 in Hn.
  apply in_map_iff in Hin as (fc0 & <- & Hin).
  apply at_index_map in Hn as (n0 & Hn0 & ->).
  destruct (face_carry_inv _ _ _ _ _ E1 Hc) as (t0 & Hc0 & ->).
  destruct fc0 as [[a b] c], t0 as [[p r] q]. simpl in Hc0, Hi. destruct Hc0 as (Ha & Hb & Hcc).
  assert (Hc1 : face_corners s (a, b, c) (p, q, r)) by (split; [|split]; auto).
  assert (Hi1 : i = a \/ i = b \/ i = c) by tauto.
  specialize (HF (a, b, c) (p, q, r) i n0 Hin Hc1 Hi1 Hn0). simpl in HF. simpl. apply H; eauto using at_index_in.
Qed.
Lemma translate_shaded s d : well_shaded s -> well_shaded (translatesurface s d).
Proof.
  intros [HF HU]. unfold translatesurface. destruct (vclose _ _); [split; auto|]. split; [|exact HU].
  eapply (flat_shaded_carry (fun p => add p d) (fun n => n) s); simpl; eauto; [rewrite map_id; reflexivity|].
  intros n p q r _ _ _ _ (k & Hk & H1 & H2 & H3). exists k. split; [auto|]. simpl.
  rewrite H1, H2, H3. split; [|split]; ring.
Qed.
Lemma reverse_shaded s : well_shaded s -> well_shaded (reversesurface s).
Proof.
  intros [HF HU]. split.
  - eapply (flat_shaded_flip (fun p => p) (fun n => scale4 n (-1)) s); simpl; eauto; [rewrite map_id; reflexivity|].
    intros n p q r _ _ _ _ (k & Hk & H1 & H2 & H3). exists k. split; [auto|]. simpl.
    rewrite H1, H2, H3. split; [|split]; ring.
  - intros n Hn. simpl in Hn. apply in_map_iff in Hn as (n0 & <- & Hn). destruct (HU n0 Hn) as [H1 H2].
    simpl. rewrite H1. split; [ring|]. lra.
Qed.
Lemma mirror_shaded s pl : well_shaded s -> well_shaded (mirrorsurface s pl).
Proof.
  intros [HF HU]. split.
  - eapply (flat_shaded_flip (fun p => mul4 p (flip pl)) (fun n => mul4 n (flip pl)) s); simpl; eauto.
    intros n p q r _ _ _ _ (k & Hk & H1 & H2 & H3). exists k. split; [auto|].
    unfold mul4; destruct pl; simpl; rewrite H1, H2, H3; (split; [|split]; ring).
  - intros n Hn. simpl in Hn. apply in_map_iff in Hn as (n0 & <- & Hn). destruct (HU n0 Hn) as [H1 H2].
    unfold mul4; destruct pl; simpl; rewrite H1; (split; [ring|lra]).
Qed.
Lemma rotate_shaded s ang cent axis s' : mag axis = 1 -> w_one s -> well_shaded s ->
  rotatesurface s ang cent axis = Val s' -> well_shaded s'.
Proof.
  intros Hu HW [HF HU] HR. unfold rotatesurface in HR. destruct (close ang 0).
  { assert (s' = s) by congruence. subst. split; auto. }
  apply obind_val in HR as (m & Hm & HR). assert (E : s' = _) by (injection HR as HR; symmetry; exact HR). subst s'.
  destruct (rotation_matrix_act ang cent axis m Hu Hm) as (c & s0 & cc & Hcs & HA & HN). apply mag_one_sq in Hu.
  set (A := Arot axis c s0 (mkv 0 0 0 1)).
  assert (HG : forall n, vw n = 0 -> mulMV m n = direction (lin A n)).
  { intros n Hn. rewrite HN, Hn. unfold direction, lin, A, Arot; simpl. apply mkv_eq; ring. }
  split.
  - eapply (flat_shaded_carry (mulMV m) (mulMV m) s); simpl; eauto.
    intros n p q r Hn Hp Hq Hr (k & Hk & H1 & H2 & H3). destruct (HU n Hn) as [Hw _].
    exists k. split; [auto|]. rewrite (HG n Hw), !HA by (apply HW; auto).
    pose proof (rot_cross axis c s0 (sub q p) (sub r p) Hu Hcs) as HX. cbv zeta in HX. fold A in HX.
    destruct (lin_sub (Arot axis c s0 cc) q p _ eq_refl) as (Q1 & Q2 & Q3).
    destruct (lin_sub (Arot axis c s0 cc) r p _ eq_refl) as (R1 & R2 & R3).
    rewrite (lin_arot axis c s0 cc) in Q1, Q2, Q3, R1, R2, R3. fold A in Q1, Q2, Q3, R1, R2, R3.
    unfold sub at 1 in Q1. unfold sub at 1 in Q2. unfold sub at 1 in Q3.
    unfold sub at 1 in R1. unfold sub at 1 in R2. unfold sub at 1 in R3. cbn [vx vy vz] in Q1, Q2, Q3, R1, R2, R3.
    rewrite Q1, Q2, Q3, R1, R2, R3.
    assert (N : forall i : vec, dot i n = k * dot i (cross (sub q p) (sub r p))).
    { intros i. unfold dot. rewrite H1, H2, H3. unfold cross, sub; simpl. ring. }
    assert (X1 : vx (lin A n) = k * vx (lin A (cross (sub q p) (sub r p)))) by exact (N _).
    assert (X2 : vy (lin A n) = k * vy (lin A (cross (sub q p) (sub r p)))) by exact (N _).
    assert (X3 : vz (lin A n) = k * vz (lin A (cross (sub q p) (sub r p)))) by exact (N _).
    unfold direction; cbn [vx vy vz]. rewrite <- HX in X1, X2, X3. auto.
  - intros n Hn. simpl in Hn. apply in_map_iff in Hn as (n0 & <- & Hn). destruct (HU n0 Hn) as [H1 H2].
    rewrite (HG n0 H1). split; [reflexivity|]. change (dot (lin A n0) (lin A n0) = 1). unfold A.
    rewrite (rot_dot axis c s0 n0 n0 Hu Hcs). exact H2.
Qed.
Lemma scale_uniform_shaded s k cent s' : k <> 0 -> well_shaded s -> w_one s ->
  scalesurface s k None None cent = Val s' -> well_shaded s'.
Proof.
  intros Hk [HF HU] HW HS. rewrite scale_none in HS.
  destruct (vclose (point k k k) (point 1 1 1)) eqn:HV.
  { unfold scalesurface in HS. cbn [scale_as_point] in HS. rewrite HV in HS. assert (s' = s) by congruence. subst. split; auto. }
  destruct (scalesurface_inv _ _ _ _ _ _ HV HS) as (E1 & E2 & _ & _ & EN).
  assert (EN' : norms s' = norms s).
  { destruct EN as [(_ & _ & EN)|(_ & EC & EN)]; [exact EN|exfalso].
    assert (close k k = true) as C by (apply close_true; rewrite Rminus_eq_0, Rabs_R0; apply eps_pos).
    specialize (EC C). congruence. }
  split; [|intros n Hn; apply HU; congruence].
  destruct (scmat_act k k k cent) as [cc HA].
  eapply (flat_shaded_carry (mulMV (scmat k k k cent)) (fun n => n) s); eauto; [rewrite map_id; auto|].
  intros n p q r _ Hp Hq Hr (j & Hj & H1 & H2 & H3). rewrite !HA by auto.
  exists (j / (k * k)). split; [apply Rdiv_lt_0_compat; nra|].
  rewrite H1, H2, H3. unfold act, lin, Sc, Adiag, add, dot; simpl. split; [|split]; field; auto.
Qed.
Lemma mag_scaled n a b c : vx n * vx n + vy n * vy n + vz n * vz n = 1 ->
  0 < a <= 1000000000 -> 0 < b <= 1000000000 -> 0 < c <= 1000000000 ->
  1 / 10000000000 < mag (mkv (vx n * (1 / a)) (vy n * (1 / b)) (vz n * (1 / c)) 1).
Proof.
  intros Hn Ha Hb Hc. unfold mag; simpl.
  assert (L : forall x, 0 < x <= 1000000000 -> 1 / 1000000000 <= 1 / x).
  { intros x [H1 H2]. unfold Rdiv. rewrite !Rmult_1_l. apply Rinv_le_contravar; auto. }
  apply L in Ha, Hb, Hc. set (A := 1 / a) in *. set (B := 1 / b) in *. set (C := 1 / c) in *. clearbody A B C.
  apply Rlt_le_trans with (1 / 1000000000); [lra|].
  rewrite <- (sqrt_square (1 / 1000000000)) by lra. apply sqrt_le_1_alt.
  set (e := 1 / 1000000000) in *. assert (0 < e) by (unfold e; lra). clearbody e.
  assert (HA : e * e <= A * A) by nra. assert (HB : e * e <= B * B) by nra. assert (HC : e * e <= C * C) by nra.
  replace (e * e) with (e * e * (vx n * vx n + vy n * vy n + vz n * vz n)) by (rewrite Hn; ring).
  assert (G : forall x y, e * e <= y * y -> e * e * (x * x) <= x * y * (x * y)).
  { intros x y H0. replace (x * y * (x * y)) with (y * y * (x * x)) by ring. apply Rmult_le_compat_r; [nra|auto]. }
  pose proof (G (vx n) A HA). pose proof (G (vy n) B HB). pose proof (G (vz n) C HC). lra.
Qed.
Lemma mag_sqr v : mag v * mag v = vx v * vx v + vy v * vy v + vz v * vz v.
Proof. unfold mag. apply sqrt_sqrt. nra. Qed.
Lemma scale_shaded s a b c cent s' :
  0 < a <= 1000000000 -> 0 < b <= 1000000000 -> 0 < c <= 1000000000 ->
  (close a b = true -> close b c = true -> a = b /\ b = c) ->
  well_shaded s -> w_one s -> scalesurface s a (Some b) (Some c) cent = Val s' -> well_shaded s'.
Proof.
  intros Ha Hb Hc HE [HF HU] HW HS.
  destruct (vclose (point a b c) (point 1 1 1)) eqn:HV.
  { unfold scalesurface in HS. cbn [scale_as_point] in HS. rewrite HV in HS. assert (s' = s) by congruence. subst. split; auto. }
  destruct (scalesurface_inv _ _ _ _ _ _ HV HS) as (E1 & E2 & _ & _ & EN).
  destruct EN as [(C1 & C2 & EN)|(_ & _ & EN)].
  { destruct (HE C1 C2) as [-> ->]. apply (scale_uniform_shaded s c cent s'); auto; [lra|split; auto]. }
  destruct (scmat_act a b c cent) as [cc HA].
  assert (HN : forall n, In n (norms s) -> exists l, 0 < l /\ l * l = (vx n / a) * (vx n / a) + (vy n / b) * (vy n / b) + (vz n / c) * (vz n / c) /\
     scale_normal a b c n = mkv (vx n / a / l) (vy n / b / l) (vz n / c / l) 0).
  { intros n Hn. destruct (HU n Hn) as [_ H1]. pose proof (mag_scaled n a b c H1 Ha Hb Hc) as HL.
    unfold scale_normal. set (m := mkv _ _ _ _) in *. exists (mag m).
    assert (HL2 := HL). apply Rltb_true in HL2. rewrite HL2. split; [lra|]. rewrite mag_sqr. unfold m; simpl.
    split; [field; lra|]. apply mkv_eq; try reflexivity; f_equal; field; lra. }
  split.
  - eapply (flat_shaded_carry (mulMV (scmat a b c cent)) (scale_normal a b c) s); eauto.
    intros n p q r Hn Hp Hq Hr (j & Hj & H1 & H2 & H3). rewrite !HA by auto.
    destruct (HN n Hn) as (l & Hl & _ & ->).
    assert (0 < a * b * c) by (apply Rmult_lt_0_compat; [apply Rmult_lt_0_compat|]; lra).
    exists (j / (a * b * c) / l). split; [apply Rdiv_lt_0_compat; [apply Rdiv_lt_0_compat|]; lra|].
    cbn [vx vy vz]. rewrite H1, H2, H3. unfold act, lin, Sc, Adiag, add, dot; simpl.
    split; [|split]; field; repeat split; lra.
  - intros n Hn. rewrite EN in Hn. apply in_map_iff in Hn as (n0 & <- & Hn).
    destruct (HN n0 Hn) as (l & Hl & HL & ->). cbn [vx vy vz vw]. split; [reflexivity|].
    transitivity ((l * l) / (l * l)); [rewrite HL at 1; field; repeat split; lra|field; lra].
Qed.

