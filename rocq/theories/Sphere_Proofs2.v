(** Geometry of one subdivision step. *)
From Coq Require Import Reals List Bool ZArith Lra Lia.
From Verif Require Import Xform_Model Xform_Proofs Fig_Model Fig_Proofs Fig_Proofs2 Solid_Model Solid_Spec Prim_Model Sphere_Model Sphere_Spec Sphere_Proofs.
Import ListNotations.
Open Scope R_scope.

Definition len2 (a : vec) : R := dot a a.
Lemma len2_nonneg a : 0 <= len2 a.
Proof. unfold len2, dot. nra. Qed.
Lemma mag_len2 a : mag a = sqrt (len2 a).
Proof. reflexivity. Qed.
Lemma dot_comm a b : dot a b = dot b a.
Proof. unfold dot. ring. Qed.
Lemma dot_add_l a b c : dot (add a b) c = dot a c + dot b c.
Proof. unfold dot, add. cbn [vx vy vz]. ring. Qed.
Lemma dot_scale_l a k c : dot (scale3 a k) c = k * dot a c.
Proof. unfold dot, scale3. cbn [vx vy vz]. ring. Qed.
Lemma dot_scale_r a k c : dot a (scale3 c k) = k * dot a c.
Proof. unfold dot, scale3. cbn [vx vy vz]. ring. Qed.
Lemma dot_add_r a b c : dot a (add b c) = dot a b + dot a c.
Proof. unfold dot, add. cbn [vx vy vz]. ring. Qed.

Lemma dot_lower u w d r : 0 <= d -> 0 < r -> len2 u <= d * d -> len2 w <= r * r -> - (d * r) <= dot u w.
Proof.
  intros Hd Hr Hu Hw. 
  assert (P : 0 <= len2 (add (scale3 w d) (scale3 u r))) by apply len2_nonneg.
  unfold len2 in *. rewrite dot_add_l, !dot_add_r, !dot_scale_l, !dot_scale_r in P. rewrite (dot_comm w u) in P.
  set (x := dot u w) in *. set (a := dot u u) in *. set (b := dot w w) in *.
  destruct (Req_dec d 0) as [->|Hd0].
  - assert (A0 : a = 0) by (assert (0 <= a) by (unfold a; apply (len2_nonneg u)); lra).
    assert (x = 0). { unfold x, a, dot in *. assert (vx u = 0 /\ vy u = 0 /\ vz u = 0) as (-> & -> & ->) by (repeat split; nra). ring. }
    rewrite H. lra.
  - assert (0 < d) by lra. assert (E1 : d * (d * b) <= d * d * (r * r)) by nra. assert (E2 : r * (r * a) <= r * r * (d * d)) by nra.
    assert (0 <= 2 * (d * r) * (x + d * r)) by nra. assert (0 < d * r) by (apply Rmult_lt_0_compat; auto). nra.
Qed.
Lemma dot_upper u w r : 0 < r -> len2 u <= r * r -> len2 w <= r * r -> dot u w <= r * r.
Proof.
  intros Hr Hu Hw. assert (P : 0 <= len2 (sub u w)) by apply len2_nonneg. unfold len2, dot, sub in *. cbn [vx vy vz] in P. nra.
Qed.
Definition crs (a b : vec) : vec := mkv (vy a * vz b - vz a * vy b) (vz a * vx b - vx a * vz b) (vx a * vy b - vy a * vx b) 1.
Lemma det_dot a b c : det3 a b c = dot a (crs b c).
Proof. unfold det3, dot, crs. cbn [vx vy vz]. ring. Qed.
Lemma crs_len a b r : 0 < r -> len2 a <= r * r -> len2 b <= r * r -> len2 (crs a b) <= (r * r) * (r * r).
Proof.
  intros Hr Ha Hb. assert (E : len2 (crs a b) = len2 a * len2 b - dot a b * dot a b) by (unfold len2, dot, crs; cbn [vx vy vz]; ring).
  pose proof (len2_nonneg a). pose proof (len2_nonneg b). rewrite E. assert (len2 a * len2 b <= r * r * (r * r)) by (apply Rmult_le_compat; auto). nra.
Qed.
Lemma det_lower u v w d r : 0 <= d -> 0 < r -> len2 u <= d * d -> len2 v <= r * r -> len2 w <= r * r -> - (d * (r * r)) <= det3 u v w.
Proof. intros Hd Hr Hu Hv Hw. rewrite det_dot. apply dot_lower; auto; [nra|apply crs_len; auto]. Qed.
Lemma det_cyc a b c : det3 a b c = det3 b c a.
Proof. unfold det3. ring. Qed.

Lemma dot_pert p q p' q' r e D : 0 <= e -> 0 < r -> len2 p <= r * r -> len2 q' <= r * r ->
  len2 (sub p' p) <= e * e -> len2 (sub q' q) <= e * e -> D <= dot p q -> D - 2 * (e * r) <= dot p' q'.
Proof.
  intros He Hr Hp Hq Dp Dq H. pose proof (dot_lower _ _ e r He Hr Dp Hq) as A. pose proof (dot_lower _ _ e r He Hr Dq Hp) as B.
  replace (dot p' q') with (dot p q + dot (sub p' p) q' + dot (sub q' q) p) by (unfold dot, sub; cbn [vx vy vz]; ring). lra.
Qed.
Lemma det_pert p q s p' q' s' r e D : 0 <= e -> 0 < r ->
  len2 p <= r * r -> len2 q <= r * r -> len2 q' <= r * r -> len2 s' <= r * r ->
  len2 (sub p' p) <= e * e -> len2 (sub q' q) <= e * e -> len2 (sub s' s) <= e * e -> D <= det3 p q s ->
  D - 3 * (e * (r * r)) <= det3 p' q' s'.
Proof.
  intros He Hr Hp Hq Hq' Hs' Dp Dq Ds H.
  pose proof (det_lower _ _ _ e r He Hr Dp Hq' Hs') as A. pose proof (det_lower _ _ _ e r He Hr Dq Hs' Hp) as B.
  pose proof (det_lower _ _ _ e r He Hr Ds Hp Hq) as C.
  replace (det3 p' q' s') with (det3 p q s + det3 (sub p' p) q' s' + det3 (sub q' q) s' p + det3 (sub s' s) p q)
    by (unfold det3, sub; cbn [vx vy vz]; ring). lra.
Qed.

Definition ball (r : R) (v : vec) : Prop := vw v = 1 /\ len2 v = r * r.
Definition mid (r : R) (a b : vec) : vec := scale3 (add a b) (r / mag (add a b)).
Lemma mid_comm r a b : mid r a b = mid r b a.
Proof. unfold mid. replace (add b a) with (add a b); [reflexivity|]. unfold add. f_equal; ring. Qed.
Lemma mid_facts r a b : 0 < r -> ball r a -> ball r b -> 0 <= dot a b ->
  exists k, mid r a b = scale3 (add a b) k /\ 1 / 2 <= k /\ mag (add a b) <> 0 /\ ball r (mid r a b) /\ 0 < mag (add a b).
Proof.
  intros Hr [Wa Ha] [Wb Hb] Hd. set (s := add a b).
  assert (L : len2 s = 2 * (r * r) + 2 * dot a b) by (unfold s, len2 in *; rewrite dot_add_l, !dot_add_r, (dot_comm b a); lra).
  assert (U : dot a b <= r * r) by (apply dot_upper; lra).
  assert (P : 0 < len2 s) by nra. assert (M : 0 < mag s) by (rewrite mag_len2; apply sqrt_lt_R0; exact P).
  assert (Q : mag s * mag s = len2 s) by (rewrite mag_len2; apply sqrt_sqrt; lra).
  assert (M2 : mag s <= 2 * r) by nra.
  exists (r / mag s). split; [reflexivity|]. split; [|split; [lra|split; [|exact M]]].
  - apply Rmult_le_reg_r with (mag s); [exact M|]. replace (r / mag s * mag s) with r by (field; lra). lra.
  - split; [reflexivity|]. unfold mid, len2. fold s. rewrite dot_scale_l, dot_scale_r. fold (len2 s). rewrite <- Q. field. lra.
Qed.
Definition near2 (e : R) (p' p : vec) : Prop := len2 (sub p' p) <= e * e.
Lemma near2_refl e p : near2 e p p.
Proof. unfold near2, len2, dot, sub. cbn [vx vy vz]. nra. Qed.

Lemma split_geometry r e C v1 v2 v3 va vb vc : 0 < r -> 0 <= e -> 8 * e <= r ->
  ball r v1 -> ball r v2 -> ball r v3 -> 0 <= dot v1 v2 -> 0 <= dot v2 v3 -> 0 <= dot v3 v1 ->
  ball r va -> ball r vb -> ball r vc ->
  near2 e va (mid r v1 v2) -> near2 e vb (mid r v2 v3) -> near2 e vc (mid r v3 v1) ->
  (0 <= C -> C * (r * r * r) <= det3 v1 v2 v3) ->
  let ok p q s := 0 <= dot p q /\ 0 <= dot q s /\ 0 <= dot s p /\ (0 <= C / 4 - 3 * (e / r) -> (C / 4 - 3 * (e / r)) * (r * r * r) <= det3 p q s) in
  ok v1 va vc /\ ok va v2 vb /\ ok vb v3 vc /\ ok va vb vc.
Proof.
  intros Hr He Her B1 B2 B3 D12 D23 D31 Ba Bb Bc Na Nb Nc HC.
  destruct (mid_facts r v1 v2 Hr B1 B2 D12) as (ka & Ea & Ka & _ & Ia & _).
  destruct (mid_facts r v2 v3 Hr B2 B3 D23) as (kb & Eb & Kb & _ & Ib & _).
  destruct (mid_facts r v3 v1 Hr B3 B1 D31) as (kc & Ec & Kc & _ & Ic & _).
  assert (Ln : forall v, ball r v -> len2 v <= r * r) by (intros v [_ ->]; lra).
  assert (Eq : forall v, ball r v -> dot v v = r * r) by (intros v [_ Hv]; exact Hv).
  assert (R2 : 0 < r * r) by nra.
  set (ma := mid r v1 v2) in *. set (mb := mid r v2 v3) in *. set (mc := mid r v3 v1) in *.
  (* ideal dots *)
  assert (H1a : r * r / 4 <= dot v1 ma) by (rewrite Ea, dot_scale_r, dot_add_r, (Eq v1 B1); nra).
  assert (H1c : r * r / 4 <= dot mc v1) by (rewrite Ec, dot_scale_l, dot_add_l, (Eq v1 B1); nra).
  assert (H2a : r * r / 4 <= dot ma v2) by (rewrite Ea, dot_scale_l, dot_add_l, (Eq v2 B2); nra).
  assert (H2b : r * r / 4 <= dot v2 mb) by (rewrite Eb, dot_scale_r, dot_add_r, (Eq v2 B2); nra).
  assert (H3b : r * r / 4 <= dot mb v3) by (rewrite Eb, dot_scale_l, dot_add_l, (Eq v3 B3); nra).
  assert (H3c : r * r / 4 <= dot v3 mc) by (rewrite Ec, dot_scale_r, dot_add_r, (Eq v3 B3); nra).
  assert (PP : forall x y z, 1/2 <= x -> 1/2 <= y -> r * r <= z -> r * r / 4 <= x * (y * z)).
  { intros x y z Hx Hy Hz. assert (1/2 * (r*r) <= y * z) by nra. nra. }
  assert (Hab : r * r / 4 <= dot ma mb).
  { rewrite Ea, Eb, dot_scale_l, dot_scale_r. apply PP; auto. rewrite dot_add_l, !dot_add_r, (Eq v2 B2), (dot_comm v1 v3). lra. }
  assert (Hbc : r * r / 4 <= dot mb mc).
  { rewrite Eb, Ec, dot_scale_l, dot_scale_r. apply PP; auto. rewrite dot_add_l, !dot_add_r, (Eq v3 B3), (dot_comm v2 v1). lra. }
  assert (Hca : r * r / 4 <= dot mc ma).
  { rewrite Ec, Ea, dot_scale_l, dot_scale_r. apply PP; auto. rewrite dot_add_l, !dot_add_r, (Eq v1 B1), (dot_comm v3 v2). lra. }
  assert (Hac : r * r / 4 <= dot ma mc) by (rewrite dot_comm; exact Hca).
  assert (DP : forall p q p' q', ball r p -> ball r q' -> near2 e p' p -> near2 e q' q -> r * r / 4 <= dot p q -> 0 <= dot p' q').
  { intros p q p' q' Bp Bq' Np Nq H. pose proof (dot_pert p q p' q' r e _ He Hr (Ln _ Bp) (Ln _ Bq') Np Nq H) as Q. nra. }
  (* ideal determinants *)
  set (D := det3 v1 v2 v3) in *.
  assert (D2 : forall x y, 1/2 <= x -> 1/2 <= y -> 0 <= C -> C / 4 * (r * r * r) <= x * y * D).
  { intros x y Hx Hy HC0. specialize (HC HC0). assert (R3 : 0 < r * r * r) by nra. assert (0 <= C * (r * r * r)) by nra.
    assert (1 / 4 <= x * y) by nra. nra. }
  assert (K1 : det3 v1 ma mc = ka * kc * D) by (rewrite Ea, Ec; unfold D, det3, scale3, add; cbn [vx vy vz]; ring).
  assert (K2 : det3 ma v2 mb = ka * kb * D) by (rewrite Ea, Eb; unfold D, det3, scale3, add; cbn [vx vy vz]; ring).
  assert (K3 : det3 mb v3 mc = kb * kc * D) by (rewrite Eb, Ec; unfold D, det3, scale3, add; cbn [vx vy vz]; ring).
  assert (K4 : det3 ma mb mc = (ka * kb) * (2 * kc) * D) by (rewrite Ea, Eb, Ec; unfold D, det3, scale3, add; cbn [vx vy vz]; ring).
  assert (C0 : 0 <= C / 4 - 3 * (e / r) -> 0 <= C) by (intros H; assert (0 <= e / r) by (apply Rmult_le_pos; [lra|left; apply Rinv_0_lt_compat; lra]); lra).
  assert (K4' : 0 <= C -> C / 4 * (r * r * r) <= det3 ma mb mc).
  { intros H. rewrite K4. specialize (HC H). assert (R3 : 0 < r * r * r) by nra. assert (0 <= C * (r * r * r)) by nra.
    assert (1/4 <= ka * kb) by nra. assert (1 / 4 <= (ka * kb) * (2 * kc)) by nra. nra. }
  assert (TP : forall p q s p' q' s', ball r p -> ball r q -> ball r q' -> ball r s' -> near2 e p' p -> near2 e q' q -> near2 e s' s ->
     (0 <= C -> C / 4 * (r * r * r) <= det3 p q s) -> 0 <= C / 4 - 3 * (e / r) -> (C / 4 - 3 * (e / r)) * (r * r * r) <= det3 p' q' s').
  { intros p q s p' q' s' Bp Bq Bq' Bs' Np Nq Ns H H0. 
    pose proof (det_pert p q s p' q' s' r e _ He Hr (Ln _ Bp) (Ln _ Bq) (Ln _ Bq') (Ln _ Bs') Np Nq Ns (H (C0 H0))) as Q.
    replace ((C / 4 - 3 * (e / r)) * (r * r * r)) with (C / 4 * (r * r * r) - 3 * (e * (r * r))) by (field; lra). exact Q. }
  pose proof (near2_refl e v1) as N1. pose proof (near2_refl e v2) as N2. pose proof (near2_refl e v3) as N3.
  intros ok. unfold ok. repeat split.
  all: try (intros HH; revert HH).
  - apply (DP v1 ma); auto.
  - apply (DP ma mc); auto.
  - apply (DP mc v1); auto.
  - apply (TP v1 ma mc); auto. intros; rewrite K1; auto.
  - apply (DP ma v2); auto.
  - apply (DP v2 mb); auto.
  - apply (DP mb ma); auto. rewrite dot_comm. auto.
  - apply (TP ma v2 mb); auto. intros; rewrite K2; auto.
  - apply (DP mb v3); auto.
  - apply (DP v3 mc); auto.
  - apply (DP mc mb); auto. rewrite dot_comm. auto.
  - apply (TP mb v3 mc); auto. intros; rewrite K3; auto.
  - apply (DP ma mb); auto.
  - apply (DP mb mc); auto.
  - apply (DP mc ma); auto.
  - apply (TP ma mb mc); auto.
Qed.

(** normals *)
Definition unitn (r : R) (v : vec) : vec := mkv (vx v / r) (vy v / r) (vz v / r) 0.
Lemma mid_vertex_val r a b : mag (add a b) <> 0 -> mid_vertex r a b = Val (mid r a b).
Proof. intros H. unfold mid_vertex, odiv. unfold Reqb. destruct (Req_EM_T _ _); [contradiction|]. reflexivity. Qed.
Lemma mid_normal_val r a b : 0 < r -> 0 < mag (add a b) -> mid_normal (unitn r a) (unitn r b) = Val (unitn r (mid r a b)).
Proof.
  intros Hr H. unfold mid_normal, odiv.
  assert (E : mag (add4 (unitn r a) (unitn r b)) = mag (add a b) / r).
  { unfold mag. transitivity (sqrt ((vx (add a b) * vx (add a b) + vy (add a b) * vy (add a b) + vz (add a b) * vz (add a b)) / (r * r))).
    - f_equal. unfold add4, unitn, add. cbn [vx vy vz]. field. lra.
    - rewrite sqrt_div_alt by nra. rewrite sqrt_square by lra. reflexivity. }
  rewrite E. assert (P : 0 < mag (add a b) / r) by (apply Rdiv_lt_0_compat; auto).
  unfold Reqb. destruct (Req_EM_T _ _); [lra|]. cbn [obind]. f_equal. unfold unitn, mid, scale4, add4, scale3. cbn [vx vy vz vw add].
  change (mag (mkv (vx a + vx b) (vy a + vy b) (vz a + vz b) 1)) with (mag (add a b)).
  f_equal; field; lra.
Qed.
Lemma vclose_near2 p q : vclose p q = true -> near2 epsilon q p.
Proof.
  unfold vclose, close, Rltb. destruct (Rlt_dec _ _) as [H|]; [|discriminate]. intros _. rewrite Rminus_0_r, mag_len2 in H.
  rewrite Rabs_pos_eq in H by apply sqrt_pos. unfold near2.
  replace (len2 (sub q p)) with (len2 (sub p q)) by (unfold len2, dot, sub; cbn [vx vy vz]; ring).
  pose proof (sqrt_sqrt _ (len2_nonneg (sub p q))) as S. pose proof (sqrt_pos (len2 (sub p q))). rewrite <- S. unfold epsilon in *. nra.
Qed.
