From Coq Require Import Reals List Bool Lra Lia Psatz.
From Verif Require Import Xform_Model Xform_Proofs Fig_Model Fig_Proofs Fig_Proofs2 Fig_Proofs3 Isect_Model Isect_Spec Isect_Proofs Isect_Proofs2 Isect_Proofs3.
From Verif Require Kin_Model.
Import ListNotations.
Open Scope R_scope.

Lemma dist2 p q : dist p q * dist p q = (vx p - vx q) * (vx p - vx q) + (vy p - vy q) * (vy p - vy q) + (vz p - vz q) * (vz p - vz q).
Proof.
  rewrite dist_sq. apply sqrt_sqrt. unfold sq.
  pose proof (Rle_0_sqr (vx p - vx q)). pose proof (Rle_0_sqr (vy p - vy q)). pose proof (Rle_0_sqr (vz p - vz q)). unfold Rsqr in *. lra.
Qed.
Lemma sq_le a b : 0 <= b -> a * a <= b * b -> a <= b.
Proof. intros H E. destruct (Rle_dec a b); [assumption|]. nra. Qed.
Lemma rabs_inv a b : Rabs a <= b -> - b <= a <= b.
Proof. unfold Rabs. destruct (Rcase_abs a); lra. Qed.
Lemma sq_eq a b : 0 <= a -> 0 <= b -> a * a = b * b -> a = b.
Proof. intros. apply Rsqr_inj; assumption. Qed.

(** ** two circles *)
Section ArcArc.
Variables (c1 c2 : arc) (z : R).
Hypothesis Z1 : vz (a_c c1) = z.
Hypothesis Z2 : vz (a_c c2) = z.
Hypothesis R1 : 0 <= a_r c1.
Hypothesis R2 : 0 <= a_r c2.
Let d := dist (a_c c1) (a_c c2).
Hypothesis FAR : epsilon <= d.
Let r1 := a_r c1.
Let r2 := a_r c2.
Let i := (r1 * r1 - r2 * r2 + d * d) / (2 * d).
Let ux := (vx (a_c c2) - vx (a_c c1)) / d.
Let uy := (vy (a_c c2) - vy (a_c c1)) / d.
Let l := aa_line c1 c2.
Lemma d_pos : 0 < d. Proof. unfold epsilon in FAR. lra. Qed.
Lemma u1 : ux * ux + uy * uy = 1.
Proof.
  pose proof d_pos. assert (E : d * d = (vx (a_c c1) - vx (a_c c2)) * (vx (a_c c1) - vx (a_c c2)) + (vy (a_c c1) - vy (a_c c2)) * (vy (a_c c1) - vy (a_c c2))).
  { unfold d. rewrite dist2, Z1, Z2. ring. }
  unfold ux, uy. apply (Rmult_eq_reg_r (d * d)); [|nra].
  transitivity ((vx (a_c c1) - vx (a_c c2)) * (vx (a_c c1) - vx (a_c c2)) + (vy (a_c c1) - vy (a_c c2)) * (vy (a_c c1) - vy (a_c c2))); [field; lra|lra].
Qed.
Lemma ux_d : vx (a_c c2) = vx (a_c c1) + d * ux /\ vy (a_c c2) = vy (a_c c1) + d * uy.
Proof. pose proof d_pos. unfold ux, uy. split; field; lra. Qed.
Lemma l_at t : sampleline l t = mkv (vx (a_c c1) + i * ux + t * uy) (vy (a_c c1) + i * uy - t * ux) z 1.
Proof.
  pose proof d_pos. unfold l, aa_line, sampleline, add, scale3, orthoXY, sub. cbn [fst snd vx vy vz]. fold d r1 r2. fold i.
  rewrite Z1, Z2. unfold ux, uy. apply mkv_eq; try (field; lra); ring.
Qed.
Lemma l_level : level z l c1.
Proof.
  assert (H0 : vz (sampleline l 0) = z) by (rewrite l_at; reflexivity).
  assert (F : fst l = sampleline l 0).
  { rewrite l_at. pose proof d_pos. unfold l, aa_line, add, scale3, sub. cbn [fst snd vx vy vz]. fold d r1 r2. fold i. rewrite Z1, Z2. unfold ux, uy. apply mkv_eq; try (field; lra); ring. }
  assert (S : snd l = sampleline l 1).
  { rewrite l_at. pose proof d_pos. unfold l, aa_line, add, scale3, sub, orthoXY. cbn [fst snd vx vy vz]. fold d r1 r2. fold i. rewrite Z1, Z2. unfold ux, uy. apply mkv_eq; try (field; lra); ring. }
  unfold level. rewrite F, S. split; [exact H0|]. split; [rewrite l_at; reflexivity|]. split; [exact Z1|].
  split; [|split; [exact R1|rewrite l_at; reflexivity]].
  assert (Len : linelength l = 1).
  { unfold linelength. rewrite F, S, !l_at. apply sq_eq; [apply dist_nonneg|lra|]. rewrite dist2. cbn [vx vy vz]. pose proof u1. nra. }
  rewrite Len. unfold epsilon. lra.
Qed.
Lemma l_len : linelength l = 1.
Proof.
  pose proof l_level as (_ & _ & _ & _ & _ & W). apply sq_eq; [apply dist_nonneg|lra|].
  pose proof (sampleline_dist l 0 1) as K. rewrite Rabs_minus_sym, Rminus_0_r, Rabs_R1, Rmult_1_l in K. rewrite <- K, dist2, !l_at. cbn [vx vy vz]. pose proof u1. nra.
Qed.
Lemma l_end : snd l = sampleline l 1.
Proof. symmetry. exact (end_at l c1 z l_level). Qed.
(** squared distances of the points of the chord line *)
Lemma d1_at t : dist (sampleline l t) (a_c c1) * dist (sampleline l t) (a_c c1) = i * i + t * t.
Proof. rewrite dist2, l_at, Z1. cbn [vx vy vz]. pose proof u1. transitivity ((i * i + t * t) * (ux * ux + uy * uy)); [ring|rewrite H; ring]. Qed.
Lemma d2_at t : dist (sampleline l t) (a_c c2) * dist (sampleline l t) (a_c c2) = (i - d) * (i - d) + t * t.
Proof.
  rewrite dist2, l_at, Z2. destruct ux_d as [-> ->]. cbn [vx vy vz]. pose proof u1.
  transitivity (((i - d) * (i - d) + t * t) * (ux * ux + uy * uy)); [ring|rewrite H; ring].
Qed.
Lemma i_eq : i * i - (i - d) * (i - d) = r1 * r1 - r2 * r2.
Proof. pose proof d_pos. unfold i. field. lra. Qed.
Lemma l_h : line_distance_is l (a_c c1) (Rabs i).
Proof.
  assert (A : forall t, dist (a_c c1) (sampleline l t) * dist (a_c c1) (sampleline l t) = i * i + t * t) by (intros; rewrite dist_comm; apply d1_at).
  assert (S : Rabs i * Rabs i = i * i) by (rewrite <- Rabs_mult; apply Rabs_right; nra).
  split.
  - intros t. apply sq_le; [apply dist_nonneg|]. rewrite A, S. nra.
  - exists 0. apply sq_eq; [apply Rabs_pos|apply dist_nonneg|]. rewrite A, S. ring.
Qed.
(** common points lie on the chord line *)
Lemma common_on p : on_circle c1 p -> on_circle c2 p -> vw p = 1 ->
  exists t, p = sampleline l t /\ i * i + t * t = r1 * r1.
Proof.
  intros [C1 K1] [C2 K2] W. fold r1 in C1. fold r2 in C2.
  pose proof (dist2 p (a_c c1)) as D1. pose proof (dist2 p (a_c c2)) as D2. rewrite C1, K1, Rminus_eq_0 in D1. rewrite C2, K2, Rminus_eq_0 in D2.
  destruct ux_d as [Ex Ey]. rewrite Ex, Ey in D2. pose proof u1 as U. pose proof d_pos as DP.
  set (X := vx p - vx (a_c c1)) in *. set (Y := vy p - vy (a_c c1)) in *.
  replace (vx p - (vx (a_c c1) + d * ux)) with (X - d * ux) in D2 by (unfold X; ring).
  replace (vy p - (vy (a_c c1) + d * uy)) with (Y - d * uy) in D2 by (unfold Y; ring).
  assert (I : X * ux + Y * uy = i).
  { unfold i. apply (Rmult_eq_reg_r (2 * d)); [|lra]. replace ((r1 * r1 - r2 * r2 + d * d) / (2 * d) * (2 * d)) with (r1 * r1 - r2 * r2 + d * d) by (field; lra).
    rewrite D1, D2. assert (V : d * d * (ux * ux + uy * uy) = d * d) by (rewrite U; ring). lra. }
  exists (X * uy - Y * ux). split.
  - rewrite l_at. apply vext; cbn [vx vy vz vw].
    + rewrite <- I. transitivity (vx (a_c c1) + X * (ux * ux + uy * uy)); [rewrite U; unfold X; ring|ring].
    + rewrite <- I. transitivity (vy (a_c c1) + Y * (ux * ux + uy * uy)); [rewrite U; unfold Y; ring|ring].
    + rewrite K1. exact Z1.
    + exact W.
  - rewrite <- I, D1. transitivity ((X * X + Y * Y) * (ux * ux + uy * uy)); [ring|rewrite U; ring].
Qed.
Lemma apart_iff : aa_apart c1 c2 = false <-> d <= r1 + r2 /\ r1 - r2 <= d /\ r2 - r1 <= d.
Proof.
  unfold aa_apart. fold d r1 r2. pose proof d_pos. rewrite (proj2 (Rltb_false d epsilon)) by exact FAR. rewrite orb_false_r.
  bools; cbn [andb orb]; split; intros Q; try discriminate; try reflexivity; try (destruct Q as (? & ? & ?)); repeat split; try (exfalso; lra); lra.
Qed.
Lemma i_bound : aa_apart c1 c2 = false -> Rabs i <= r1.
Proof.
  intros H. apply apart_iff in H as (A & B & C). pose proof d_pos. unfold r1, r2 in *.
  assert (E : i * (2 * d) = a_r c1 * a_r c1 - a_r c2 * a_r c2 + d * d) by (unfold i, r1, r2; field; lra).
  apply Rabs_le. split; apply (Rmult_le_reg_r (2 * d)); try lra; rewrite E.
  - assert (0 <= (d + a_r c1 - a_r c2) * (d + a_r c1 + a_r c2)) by (apply Rmult_le_pos; lra). lra.
  - assert (0 <= (a_r c2 - (d - a_r c1)) * (a_r c2 + (d - a_r c1))) by (apply Rmult_le_pos; lra). lra.
Qed.
Lemma common_not_apart p : on_circle c1 p -> on_circle c2 p -> vw p = 1 -> aa_apart c1 c2 = false.
Proof.
  intros H1 H2 W. destruct (common_on p H1 H2 W) as (t & -> & T). pose proof i_eq as I. pose proof d_pos as DP.
  assert (QA : i * i <= r1 * r1) by (pose proof (Rle_0_sqr t); unfold Rsqr in *; lra).
  assert (QB : (i - d) * (i - d) <= r2 * r2) by lra.
  apply apart_iff. clearbody i d. unfold r1, r2 in *. clear H1 H2 W l.
  assert (A : Rabs i <= a_r c1) by (apply sq_le; [exact R1|]; rewrite <- Rabs_mult, Rabs_right by (apply Rle_ge, Rle_0_sqr); exact QA).
  assert (B : Rabs (i - d) <= a_r c2) by (apply sq_le; [exact R2|]; rewrite <- Rabs_mult, Rabs_right by (apply Rle_ge, Rle_0_sqr); exact QB).
  apply rabs_inv in A. apply rabs_inv in B. split; [lra|]. split.
  - apply Rnot_lt_le. intros N. assert ((d + a_r c2) * (d + a_r c2) < a_r c1 * a_r c1) by nra. nra.
  - apply Rnot_lt_le. intros N. assert ((d + a_r c1) * (d + a_r c1) < a_r c2 * a_r c2) by nra. nra.
Qed.
(** outcomes: one near-tangent point of the chord line, or the two common points *)
Lemma aa_cases : aa_apart c1 c2 = false ->
  (Rabs (r1 * r1 - i * i) * 2 < epsilon /\ aa_points c1 c2 = Ok (Some [sampleline l 0])) \/
  (epsilon <= (r1 * r1 - i * i) * 2 /\ exists t, 0 < t /\ i * i + t * t = r1 * r1 /\
    aa_points c1 c2 = Ok (Some (if Reqb t 1 then [sampleline l (- t)] else [sampleline l (- t); sampleline l t]))).
Proof.
  intros NA. pose proof (i_bound NA) as IB. pose proof l_level as LV. pose proof l_h as LH.
  assert (EP : 0 < epsilon) by (unfold epsilon; lra). assert (SI : Rabs i * Rabs i = i * i) by (rewrite <- Rabs_mult; apply Rabs_right; nra).
  assert (RAW : lineArc_raw l c1 false = lineArcIntersectXY l c1 false) by (unfold lineArcIntersectXY; rewrite (level_planar z l c1 LV); reflexivity).
  unfold aa_points. rewrite NA. fold l.
  destruct (roots_ok l c1 z LV false) as (D & H1 & H2 & _ & H4).
  assert (RR : forall o, la_roots l c1 false = Ok (Some (map (fun p => sub p (a_c c1)) o)) -> o <> [] -> Forall (fun p => vw p = 1) o -> lineArc_raw l c1 false = Ok (Some o)).
  { intros o E N W. rewrite (raw_answer l c1 false o E N W). cbn. assert (X : filter (kept c1 false) o = o).
    { clear. induction o as [|p o IH]; [reflexivity|]. cbn [filter]. change (kept c1 false p) with true. cbv iota. f_equal. exact IH. }
    rewrite X. destruct o; [congruence|reflexivity]. }
  set (t0 := 1 - _) in H1, H2, H4. set (h := dist (a_c c1) (sampleline l t0)) in H1, H2.
  assert (HI : line_distance_is l (a_c c1) h) by exact (h_is l c1 z LV).
  pose proof (line_distance_unique _ _ _ _ HI LH) as HE. specialize (H2 eq_refl).
  assert (W1 : forall t, vw (sampleline l t) = 1) by reflexivity.
  remember (la_roots l c1 false) as ro eqn:ER. destruct H4 as [F | F T | F T | ta tb F T O A B U].
  - exfalso. change (a_r c1) with r1 in F. rewrite H2, HE in F. lra.
  - change (Rabs (r1 * r1 - h * h) * (2 * linelength l) < epsilon) in T. rewrite l_len, HE, SI in T. left. split; [lra|]. assert (T0 : t0 = 0).
    { assert (K : h * h = i * i + t0 * t0) by (unfold h; rewrite dist_comm; apply d1_at). rewrite HE, SI in K. assert (t0 * t0 = 0) by lra. nra. }
    rewrite (RR [sampleline l t0]); [rewrite T0; reflexivity| |discriminate|repeat constructor]. reflexivity.
  - exfalso. change (epsilon <= (h * h - r1 * r1) * (2 * linelength l)) in T. rewrite l_len, HE in T. pose proof (Rabs_pos i). assert (Rabs i * Rabs i <= r1 * r1) by (apply Rmult_le_compat; assumption). lra.
  - change (epsilon <= (r1 * r1 - h * h) * (2 * linelength l)) in T. rewrite l_len, HE, SI in T. right. split; [lra|].
    assert (K : forall t, dist (a_c c1) (sampleline l t) = r1 <-> i * i + t * t = r1 * r1).
    { intros t. rewrite dist_comm, <- d1_at. split; [intros ->; reflexivity|]. apply sq_eq; [apply dist_nonneg|exact R1]. }
    apply K in A. apply K in B. assert (TT : tb = - ta).
    { destruct (U (- ta)) as [Q|Q]; [apply K; lra| |lra]. assert (ta = 0) by lra. subst ta. assert (tb * tb = 0) by lra. nra. }
    exists tb. split; [lra|]. split; [exact B|]. replace (- tb) with ta by lra.
    destruct (Reqb tb 1).
    + rewrite (RR [sampleline l ta]); [reflexivity| |discriminate|repeat constructor]. reflexivity.
    + rewrite (RR [sampleline l ta; sampleline l tb]); [reflexivity| |discriminate|repeat constructor]. reflexivity.
Qed.
(** signed height of a point above the line of centres (positive to the left) *)
Lemma height_at t : (vx (a_c c2) - vx (a_c c1)) * (vy (sampleline l t) - vy (a_c c1)) - (vy (a_c c2) - vy (a_c c1)) * (vx (sampleline l t) - vx (a_c c1)) = - t * d.
Proof.
  rewrite l_at. destruct ux_d as [-> ->]. cbn [vx vy]. pose proof u1.
  transitivity (- t * d * (ux * ux + uy * uy)); [ring|rewrite H; ring].
Qed.
Lemma aa_complete p : on_circle c1 p -> on_circle c2 p -> vw p = 1 ->
  let k := (vx (a_c c2) - vx (a_c c1)) * (vy p - vy (a_c c1)) - (vy (a_c c2) - vy (a_c c1)) * (vx p - vx (a_c c1)) in
  epsilon * (d * d) <= 2 * (k * k) -> k <> - d -> exists ps, aa_points c1 c2 = Ok (Some ps) /\ In p ps.
Proof.
  intros H1 H2 W k HK NK. pose proof (common_not_apart p H1 H2 W) as NA. pose proof d_pos as DP.
  destruct (common_on p H1 H2 W) as (t & E & T). subst p. unfold k in *. rewrite height_at in HK, NK. clear k.
  assert (TE : epsilon <= t * t * 2).
  { apply (Rmult_le_reg_r (d * d)); [nra|]. lra. }
  assert (N1 : t <> 1) by (intros ->; apply NK; ring).
  assert (ND : - t * d <> - d) by exact NK.
  destruct (aa_cases NA) as [[Q _]|(Q & t' & P & T' & ->)].
  - exfalso. replace (r1 * r1 - i * i) with (t * t) in Q by lra. rewrite Rabs_right in Q by nra. lra.
  - assert (S : t = t' \/ t = - t').
    { assert (M : (t - t') * (t + t') = 0) by (transitivity (t * t - t' * t'); [ring|lra]). apply Rmult_integral in M as [M|M]; [left|right]; lra. }
    destruct (Reqb t' 1) eqn:Q1; [apply Reqb_true in Q1|].
    + exists [sampleline l (- t')]. split; [reflexivity|]. destruct S as [-> | ->]; [contradiction|]. left. reflexivity.
    + eexists. split; [reflexivity|]. destruct S as [-> | ->]; [right; left|left]; reflexivity.
Qed.
Lemma aa_sound ps p : aa_points c1 c2 = Ok (Some ps) -> In p ps ->
  vw p = 1 /\ ((on_circle c1 p /\ on_circle c2 p) \/
   (ps = [p] /\ vz p = z /\ 2 * Rabs (a_r c1 * a_r c1 - dist p (a_c c1) * dist p (a_c c1)) < epsilon /\
      2 * Rabs (a_r c2 * a_r c2 - dist p (a_c c2) * dist p (a_c c2)) < epsilon)).
Proof.
  intros E I. assert (NA : aa_apart c1 c2 = false) by (unfold aa_points in E; destruct (aa_apart c1 c2); [discriminate|reflexivity]).
  assert (ON : forall t, i * i + t * t = r1 * r1 -> on_circle c1 (sampleline l t) /\ on_circle c2 (sampleline l t)).
  { intros t T. unfold on_circle. split; (split; [|rewrite l_at; cbn [vz]; symmetry; assumption]); apply sq_eq; try apply dist_nonneg; try assumption.
    - rewrite d1_at. exact T.
    - rewrite d2_at. pose proof i_eq. unfold r1, r2 in *. lra. }
  destruct (aa_cases NA) as [[Q K]|(Q & t & P & T & K)]; rewrite K in E; apply ok_inj in E; injection E as <-.
  - destruct I as [<-|[]]. split; [reflexivity|]. right. split; [reflexivity|]. split; [rewrite l_at; reflexivity|]. rewrite d1_at, d2_at.
    fold r1 r2. replace (i * i + 0 * 0) with (i * i) by ring. replace (r2 * r2 - ((i - d) * (i - d) + 0 * 0)) with (r1 * r1 - i * i) by (pose proof i_eq; lra). lra.
  - assert (ON2 : on_circle c1 (sampleline l (- t)) /\ on_circle c2 (sampleline l (- t))) by (apply ON; rewrite <- T; ring).
    destruct (Reqb t 1).
    + destruct I as [<-|[]]. split; [reflexivity|]. left. exact ON2.
    + destruct I as [<-|[<-|[]]]; (split; [reflexivity|left]); [exact ON2|apply ON; exact T].
Qed.
Lemma aa_total : aa_apart c1 c2 = false -> exists ps, aa_points c1 c2 = Ok (Some ps) /\ (1 <= length ps <= 2)%nat.
Proof.
  intros NA. destruct (aa_cases NA) as [[_ K]|(_ & t & _ & _ & K)]; rewrite K; [|destruct (Reqb t 1)]; (eexists; split; [reflexivity|cbn; lia]).
Qed.
End ArcArc.
