(** The coordinate system of a triangle, and line-plane intersection. *)
From Coq Require Import Reals List Bool ZArith Lra Lia Nsatz.
From Verif Require Import Xform_Model Xform_Proofs Fig_Model Fig_Proofs Solid_Model Solid_Spec Solid_Proofs Solid_Proofs5.
Open Scope R_scope.

(** rows x, n x x, n of an orthonormal frame: columns are orthonormal too *)
Lemma frame_cols x1 x2 x3 n1 n2 n3 :
  x1*x1+x2*x2+x3*x3 = 1 -> n1*n1+n2*n2+n3*n3 = 1 -> x1*n1+x2*n2+x3*n3 = 0 ->
  let y1 := n2*x3 - n3*x2 in let y2 := n3*x1 - n1*x3 in let y3 := n1*x2 - n2*x1 in
  x1*x1 + y1*y1 + n1*n1 = 1 /\ x2*x2 + y2*y2 + n2*n2 = 1 /\ x3*x3 + y3*y3 + n3*n3 = 1 /\
  x1*x2 + y1*y2 + n1*n2 = 0 /\ x1*x3 + y1*y3 + n1*n3 = 0 /\ x2*x3 + y2*y3 + n2*n3 = 0 /\
  y1*y1+y2*y2+y3*y3 = 1 /\ x1*y1+x2*y2+x3*y3 = 0 /\ n1*y1+n2*y2+n3*y3 = 0.
Proof. intros H1 H2 H3. cbv zeta. repeat apply conj; nsatz. Qed.

Definition frame (x n : vec) : rows :=
  mkrows (direction x) (direction (scale3 (cross x n) (-1))) n (mkv 0 0 0 1).
Lemma mag_pos_sq v : mag v <> 0 -> 0 < mag v.
Proof. intros H. pose proof (sqrt_pos (vx v * vx v + vy v * vy v + vz v * vz v)). unfold mag in *. lra. Qed.
Lemma tri2p0n_inv t p0 n : tri2p0n t = Val (p0, n) ->
  let '(p1, p2, p3) := t in
  let c := cross (sub p2 p1) (sub p3 p1) in
  epsilon <= mag c /\ p0 = point ((vx p1 + vx p2 + vx p3) / 3) ((vy p1 + vy p2 + vy p3) / 3) ((vz p1 + vz p2 + vz p3) / 3) /\
  n = mkv (vx c / mag c) (vy c / mag c) (vz c / mag c) 0.
Proof.
  destruct t as [[p1 p2] p3]. unfold tri2p0n. cbv zeta.
  assert (E : cross (sub p2 p1) (sub p3 p2) = cross (sub p2 p1) (sub p3 p1)).
  { unfold cross, sub; simpl. apply mkv_eq; ring. }
  rewrite E. set (c := cross _ _). destruct (Rltb (mag c) epsilon) eqn:B; [discriminate|].
  apply Rltb_false in B. intros H. injection H as <- <-. split; [exact B|]. split.
  - unfold scale3, add, point; simpl. apply mkv_eq; field.
  - unfold direction, scale3; simpl. pose proof eps_pos. apply mkv_eq; field; lra.
Qed.
Lemma unit_div v m : 0 < m -> m * m = vx v * vx v + vy v * vy v + vz v * vz v ->
  vx v / m * (vx v / m) + vy v / m * (vy v / m) + vz v / m * (vz v / m) = 1.
Proof. intros H E. transitivity ((m * m) / (m * m)); [rewrite E at 1; field; lra|field; lra]. Qed.
Lemma tri2p0n_spec t p0 n : tri2p0n t = Val (p0, n) ->
  let '(p1, p2, p3) := t in
  vw n = 0 /\ dot n n = 1 /\ dot n (sub p2 p1) = 0 /\ dot n (sub p3 p1) = 0 /\ flat_normal n p1 p2 p3 /\
  signedPlaneDistance p1 p0 n = 0 /\ signedPlaneDistance p2 p0 n = 0 /\ signedPlaneDistance p3 p0 n = 0.
Proof.
  Ltac M0c := match goal with H0 : 0 < mag ?c |- _ => let m := fresh "m" in set (m := mag c) in *; clearbody m end; unfold cross, sub; simpl.
  intros H. apply tri2p0n_inv in H. destruct t as [[p1 p2] p3]. cbv zeta in H. destruct H as (Hm & -> & ->).
  set (c := cross (sub p2 p1) (sub p3 p1)) in *. pose proof eps_pos as He.
  assert (H0 : 0 < mag c) by lra. split; [reflexivity|]. split; [|split; [|split; [|split; [|split; [|split]]]]].
  - exact (unit_div c (mag c) H0 (mag_sqr c)).
  - unfold dot, c in *; M0c. field. lra.
  - unfold dot, c in *; M0c. field. lra.
  - exists (1 / mag c). split; [apply Rdiv_lt_0_compat; lra|]. unfold c in *; M0c. split; [|split]; field; lra.
  - unfold signedPlaneDistance, dot, point, c in *; M0c. field. lra.
  - unfold signedPlaneDistance, dot, point, c in *; M0c. field. lra.
  - unfold signedPlaneDistance, dot, point, c in *; M0c. field. lra.
Qed.
Lemma tri2p0n_raises t : tri2p0n t = Raise EValue <->
  let '(p1, p2, p3) := t in mag (cross (sub p2 p1) (sub p3 p1)) < epsilon.
Proof.
  destruct t as [[p1 p2] p3]. unfold tri2p0n.
  assert (E : cross (sub p2 p1) (sub p3 p2) = cross (sub p2 p1) (sub p3 p1)).
  { unfold cross, sub; simpl. apply mkv_eq; ring. }
  rewrite E. destruct (Rltb _ epsilon) eqn:B.
  - apply Rltb_true in B. tauto.
  - apply Rltb_false in B. split; [discriminate|]. intros; lra.
Qed.

(** In the local coordinates: x' = X.(p-p0), y' = Y.(p-p0), z' = n.(p-p0). *)
Definition local (p0 x n p : vec) : vec :=
  let d := sub p p0 in mkv (dot x d) (dot (scale3 (cross x n) (-1)) d) (dot n d) 1.
Lemma dot_scale v k w : dot (scale3 v k) w = k * dot v w.
Proof. unfold dot, scale3; simpl. ring. Qed.
Lemma dot_scale_r v k w : dot w (scale3 v k) = k * dot w v.
Proof. unfold dot, scale3; simpl. ring. Qed.
Lemma dot_comm v w : dot v w = dot w v.
Proof. unfold dot. ring. Qed.
Lemma basis_form t p0 n fwd inv : tri2p0n_basis t = Val (p0, n, fwd, inv) ->
  exists x, tri2p0n t = Val (p0, n) /\ dot x x = 1 /\ dot x n = 0 /\ dot n n = 1 /\ vw p0 = 1 /\
    (forall p, vw p = 1 -> mulMV fwd p = local p0 x n p) /\
    (forall p, vw p = 1 -> mulMV inv (local p0 x n p) = p) /\
    (forall q, vw q = 1 -> local p0 x n (mulMV inv q) = q /\ vw (mulMV inv q) = 1) /\
    (let '(p1, p2, p3) := t in exists k, 0 < k /\ forall v, dot x v = k * dot (sub p2 p1) v).
Proof.
  intros H. unfold tri2p0n_basis in H. apply obind_val in H as ([p0' n'] & H0 & H).
  destruct t as [[p1 p2] p3].
  assert (E1 : p0' = p0) by congruence. assert (E2 : n' = n) by congruence. subst p0' n'.
  pose proof (tri2p0n_inv _ _ _ H0) as HI. pose proof (tri2p0n_spec _ _ _ H0) as HS. cbv zeta in HI, HS.
  destruct HI as (Hm & Hp0 & _). destruct HS as (Hw & Hn & Hn1 & _).
  set (v1 := sub p2 p1) in *.
  assert (Hv : 0 < mag v1).
  { apply mag_pos_sq. intros Z. pose proof (mag_sqr v1) as Z2. rewrite Z in Z2.
    assert (vx v1 = 0 /\ vy v1 = 0 /\ vz v1 = 0) as (Z3 & Z4 & Z5).
    { pose proof (Rle_0_sqr (vx v1)). pose proof (Rle_0_sqr (vy v1)). pose proof (Rle_0_sqr (vz v1)). unfold Rsqr in *.
      split; [|split]; nra. }
    assert (Z6 : mag (cross v1 (sub p3 p1)) = 0).
    { unfold mag, cross. clearbody v1. simpl. rewrite Z3, Z4, Z5. match goal with |- sqrt ?e = 0 => replace e with 0 by ring end. apply sqrt_0. }
    pose proof eps_pos. lra. }
  set (x := scale3 v1 (1 / mag v1)) in *. exists x.
  assert (Hf : fwd = mulMM (mkmat (frame x n) false) (Translation (scale3 p0 (-1)) false)) by (unfold frame; congruence).
  assert (Hi : inv = mulMM (Translation p0 false) (mkmat (frame x n) true)) by (unfold frame; congruence).
  assert (Hx : dot x x = 1).
  { unfold x. rewrite dot_scale, dot_scale_r. rewrite <- (mag_sqr v1 : _ = dot v1 v1). field. lra. }
  assert (Hxn : dot x n = 0).
  { unfold x. rewrite dot_scale, dot_comm, Hn1. ring. }
  assert (Hk : forall v, dot x v = 1 / mag v1 * dot v1 v) by (intros v; unfold x; apply dot_scale).
  assert (Hw0 : vw p0 = 1) by (rewrite Hp0; reflexivity).
  clearbody x. clear H Hp0.
  split; [exact H0|]. clear H0. do 4 (split; [auto|]).
  assert (HF : forall p, vw p = 1 -> mulMV fwd p = local p0 x n p).
  { intros p Hp. rewrite Hf, mulMV_mulMM. unfold local, mulMV, getrow, rget, frame, Translation, dot4, direction, scale3, sub; simpl.
    unfold dot, cross; simpl. rewrite Hp, Hw. apply mkv_eq; ring. }
  split; [exact HF|].
  assert (HV : forall q, vw q = 1 -> mulMV inv q =
     mkv (vx p0 + vx x * vx q + (vy n * vz x - vz n * vy x) * vy q + vx n * vz q)
         (vy p0 + vy x * vx q + (vz n * vx x - vx n * vz x) * vy q + vy n * vz q)
         (vz p0 + vz x * vx q + (vx n * vy x - vy n * vx x) * vy q + vz n * vz q) 1).
  { intros q Hq. rewrite Hi, mulMV_mulMM. unfold mulMV, getrow, rget, rcol, frame, Translation, dot4, direction, scale3, cross; simpl.
    rewrite Hq, Hw. apply mkv_eq; ring. }
  destruct (frame_cols (vx x) (vy x) (vz x) (vx n) (vy n) (vz n) Hx Hn Hxn) as (C1 & C2 & C3 & C4 & C5 & C6 & C7 & C8 & C9).
  assert (G : forall u v w a b c : R, u = 1 -> v = 0 -> w = 0 -> a * u + b * v + c * w = a) by (intros; subst; ring).
  split; [|split].
  - intros p Hp. rewrite HV by reflexivity. unfold local; cbn [vx vy vz vw]. unfold dot, scale3, cross, sub; cbn [vx vy vz].
    destruct p as [px py pz pw]; cbn [vx vy vz vw] in *. subst pw.
    set (a := px - vx p0). set (b := py - vy p0). set (c := pz - vz p0).
    replace px with (vx p0 + a) by (unfold a; ring). replace py with (vy p0 + b) by (unfold b; ring). replace pz with (vz p0 + c) by (unfold c; ring).
    clearbody a b c.
    apply mkv_eq; [| | |reflexivity]; rewrite !Rplus_assoc; f_equal.
    + etransitivity; [|exact (G _ _ _ a b c C1 C4 C5)]. ring.
    + etransitivity; [|exact (G _ _ _ b a c C2 C4 C6)]. ring.
    + etransitivity; [|exact (G _ _ _ c a b C3 C5 C6)]. ring.
  - intros q Hq. rewrite HV by auto. split; [|reflexivity].
    unfold local; cbn [vx vy vz vw]. unfold dot, scale3, cross, sub; cbn [vx vy vz].
    unfold dot in Hx, Hn, Hxn.
    destruct q as [qx qy qz qw]; cbn [vx vy vz vw] in *. subst qw.
    apply mkv_eq; [| | |reflexivity].
    + etransitivity; [|exact (G _ _ _ qx qy qz Hx C8 Hxn)]. ring.
    + etransitivity; [|exact (G _ _ _ qy qx qz C7 C8 C9)]. ring.
    + etransitivity; [|exact (G _ _ _ qz qx qy Hn Hxn C9)]. ring.
  - exists (1 / mag v1). split; [apply Rdiv_lt_0_compat; lra|exact Hk].
Qed.

(** ** line and plane *)
Lemma sampleline_w l u : vw (sampleline l u) = 1.
Proof. reflexivity. Qed.
Lemma local_sample p0 x n l u : sampleline (local p0 x n (fst l), local p0 x n (snd l)) u = local p0 x n (sampleline l u).
Proof.
  unfold sampleline, local, add, scale3, sub; simpl. unfold dot, cross; simpl. apply mkv_eq; try reflexivity; ring.
Qed.
Lemma local_combo p0 x n p1 p2 p3 q m1 m2 m3 : m1 + m2 + m3 = 1 -> combo m1 m2 m3 p1 p2 p3 q ->
  combo m1 m2 m3 (local p0 x n p1) (local p0 x n p2) (local p0 x n p3) (local p0 x n q).
Proof.
  intros Hm (H1 & H2 & H3). assert (E : m3 = 1 - m1 - m2) by lra. subst m3.
  unfold combo, local; cbn [vx vy vz]. unfold dot, sub, scale3, cross; cbn [vx vy vz]. rewrite H1, H2, H3.
  split; [|split]; ring.
Qed.
Lemma lineCardinal_spec l i inside q : lineCardinal l i inside = Some q ->
  exists u, u * (vget (fst l) i - vget (snd l) i) = vget (fst l) i /\ q = sampleline l u /\ (inside = true -> 0 <= u <= 1).
Proof.
  unfold lineCardinal. destruct (close _ 0) eqn:C; [discriminate|].
  set (a := vget (fst l) i) in *. set (b := vget (snd l) i) in *.
  assert (Hab : a - b <> 0).
  { intros E. unfold close in C. apply Rltb_false in C. rewrite E, Rminus_0_r, Rabs_R0 in C. pose proof eps_pos. lra. }
  destruct (inside && _)%bool eqn:B; [discriminate|]. intros H. injection H as <-.
  exists (a / (a - b)). split; [field; auto|]. split; [reflexivity|]. intros ->. cbn [andb] in B.
  apply orb_false_iff in B as [B1 B2]. apply Rltb_false in B1, B2. lra.
Qed.
Lemma lineCardinal_complete l i inside u : epsilon <= Rabs (vget (fst l) i - vget (snd l) i) ->
  u * (vget (fst l) i - vget (snd l) i) = vget (fst l) i -> (inside = true -> 0 <= u <= 1) ->
  lineCardinal l i inside = Some (sampleline l u).
Proof.
  intros He Hu Hi. unfold lineCardinal. set (a := vget (fst l) i) in *. set (b := vget (snd l) i) in *.
  assert (C : close (a - b) 0 = false) by (unfold close; apply Rltb_false; rewrite Rminus_0_r; exact He).
  rewrite C. assert (Hab : a - b <> 0).
  { intros E. rewrite E, Rabs_R0 in He. pose proof eps_pos. lra. }
  assert (E : a / (a - b) = u).
  { apply (Rmult_eq_reg_r (a - b)); [|auto]. rewrite Hu. field. auto. }
  rewrite E.
  destruct inside; [|reflexivity]. destruct (Hi eq_refl) as [H1 H2]. cbn [andb].
  replace (Rltb u 0) with false by (symmetry; apply Rltb_false; lra).
  replace (Rltb 1 u) with false by (symmetry; apply Rltb_false; lra). reflexivity.
Qed.
Lemma local_bary p0 x n p1 p2 p3 : tri2p0n (p1, p2, p3) = Val (p0, n) -> dot x x = 1 -> dot x n = 0 ->
  epsilon <= Rabs (bary_denom (local p0 x n p1) (local p0 x n p2) (local p0 x n p3)).
Proof.
  intros H Hx Hxn. pose proof (tri2p0n_spec _ _ _ H) as HS. pose proof (tri2p0n_inv _ _ _ H) as HI. cbv zeta in HS, HI.
  destruct HS as (_ & Hn & _ & _ & _ & _). destruct HI as (Hm & _ & E).
  set (c := cross (sub p2 p1) (sub p3 p1)) in *.
  assert (D : bary_denom (local p0 x n p1) (local p0 x n p2) (local p0 x n p3) = mag c).
  { transitivity (dot n c).
    - unfold bary_denom, local, c; cbn [vx vy]. unfold dot, scale3, cross, sub in *; cbn [vx vy vz] in *.
      set (a1 := vx p2 - vx p1). set (a2 := vy p2 - vy p1). set (a3 := vz p2 - vz p1).
      set (b1 := vx p3 - vx p1). set (b2 := vy p3 - vy p1). set (b3 := vz p3 - vz p1).
      set (e1 := vx p1 - vx p0). set (e2 := vy p1 - vy p0). set (e3 := vz p1 - vz p0).
      replace (vx p2 - vx p0) with (a1 + e1) by (unfold a1, e1; ring).
      replace (vy p2 - vy p0) with (a2 + e2) by (unfold a2, e2; ring).
      replace (vz p2 - vz p0) with (a3 + e3) by (unfold a3, e3; ring).
      replace (vx p3 - vx p0) with (b1 + e1) by (unfold b1, e1; ring).
      replace (vy p3 - vy p0) with (b2 + e2) by (unfold b2, e2; ring).
      replace (vz p3 - vz p0) with (b3 + e3) by (unfold b3, e3; ring).
      clearbody a1 a2 a3 b1 b2 b3 e1 e2 e3. clear E c Hm H.
      (* (x . a)(y . b) - (y . a)(x . b) = (x x y) . (a x b), and x x (n x x) = n *)
      transitivity (
        (vy x * (vx n * vy x - vy n * vx x) - vz x * (vz n * vx x - vx n * vz x)) * (a2 * b3 - a3 * b2) +
        (vz x * (vy n * vz x - vz n * vy x) - vx x * (vx n * vy x - vy n * vx x)) * (a3 * b1 - a1 * b3) +
        (vx x * (vz n * vx x - vx n * vz x) - vy x * (vy n * vz x - vz n * vy x)) * (a1 * b2 - a2 * b1)); [ring|].
      f_equal; [f_equal|]; f_equal; nsatz.
    - rewrite E. unfold dot; cbn [vx vy vz]. pose proof (mag_sqr c) as M. pose proof eps_pos.
      transitivity ((vx c * vx c + vy c * vy c + vz c * vz c) / mag c); [field; lra|]. rewrite <- M. field. lra. }
  rewrite D. pose proof eps_pos. rewrite Rabs_right; lra.
Qed.
Lemma planar_zero a b c d : vz a = 0 -> vz b = 0 -> vz c = 0 -> vz d = 0 -> isXYPlanar (a :: b :: c :: d :: nil) = true.
Proof.
  intros Ha Hb Hc Hd. unfold isXYPlanar; cbn [forallb]. rewrite Ha, Hb, Hc, Hd.
  replace (Rltb epsilon (Rabs (0 - 0))) with false; [reflexivity|]. symmetry. apply Rltb_false.
  rewrite Rminus_0_r, Rabs_R0. pose proof eps_pos. lra.
Qed.
Lemma line_tri_inv l p1 p2 p3 inside b :
  vw p1 = 1 -> vw p2 = 1 -> vw p3 = 1 -> vw (fst l) = 1 -> vw (snd l) = 1 ->
  tri2p0n_basis (p1, p2, p3) = Val b ->
  exists x, let '(p0, n, fwd, inv) := b in
    dot n n = 1 /\ dot x x = 1 /\ dot x n = 0 /\ tri2p0n (p1, p2, p3) = Val (p0, n) /\
    (forall p, vw p = 1 -> mulMV inv (local p0 x n p) = p) /\
  linePlaneIntersect l (PTri (p1, p2, p3)) inside =
    match lineCardinal (local p0 x n (fst l), local p0 x n (snd l)) 2 inside with
    | None => Val None
    | Some p => obind (of_res (isInsideTriangleXY_raw p (local p0 x n p1) (local p0 x n p2) (local p0 x n p3)))
                   (fun b => if b then Val (Some (mulMV inv p)) else Val None)
    end.
Proof.
  intros W1 W2 W3 Wa Wb Hb. destruct b as [[[p0 n] fwd] inv].
  destruct (basis_form _ _ _ _ _ Hb) as (x & H0 & Hx & Hxn & Hn & Hw0 & HF & HI & _).
  exists x. split; [auto|]. split; [auto|]. split; [auto|]. split; [auto|]. split; [auto|].
  unfold linePlaneIntersect. rewrite Hb. cbn [obind]. rewrite !HF by auto.
  destruct (lineCardinal _ 2 inside) as [p|] eqn:E; [|reflexivity].
  pose proof (tri2p0n_spec _ _ _ H0) as HS. cbv zeta in HS. destruct HS as (_ & _ & _ & _ & _ & Z1 & Z2 & Z3).
  unfold signedPlaneDistance in Z1, Z2, Z3. rewrite dot_comm in Z1, Z2, Z3.
  apply lineCardinal_spec in E as (u & Hu & -> & _). rewrite planar_zero; [reflexivity| | | |]; auto.
  cbn [vget fst snd local vz] in Hu. unfold sampleline; cbn [fst snd add scale3 vz local]. lra.
Qed.

(** ** intersections with a triangle *)
Lemma basis_defined p1 p2 p3 : epsilon <= mag (cross (sub p2 p1) (sub p3 p1)) ->
  exists b, tri2p0n_basis (p1, p2, p3) = Val b.
Proof.
  intros He. unfold tri2p0n_basis, tri2p0n.
  assert (E : cross (sub p2 p1) (sub p3 p2) = cross (sub p2 p1) (sub p3 p1)).
  { unfold cross, sub; simpl. apply mkv_eq; ring. }
  rewrite E. replace (Rltb _ epsilon) with false by (symmetry; apply Rltb_false; auto).
  cbn [obind]. eexists. reflexivity.
Qed.
Lemma line_tri_sound l p1 p2 p3 inside q :
  vw p1 = 1 -> vw p2 = 1 -> vw p3 = 1 -> vw (fst l) = 1 -> vw (snd l) = 1 ->
  linePlaneIntersect l (PTri (p1, p2, p3)) inside = Val (Some q) ->
  in_triangle p1 p2 p3 q /\ exists u, q = sampleline l u /\ (inside = true -> 0 <= u <= 1).
Proof.
  intros W1 W2 W3 Wa Wb H. destruct (tri2p0n_basis (p1, p2, p3)) as [b|e] eqn:Hb.
  2:{ unfold linePlaneIntersect in H. rewrite Hb in H. discriminate. }
  destruct b as [[[p0 n] fwd] inv].
  destruct (line_tri_inv l p1 p2 p3 inside _ W1 W2 W3 Wa Wb Hb) as (x & Hn & Hx & Hxn & H0 & HI & E).
  rewrite E in H. clear E.
  destruct (lineCardinal _ 2 inside) as [p|] eqn:C; [|discriminate].
  apply lineCardinal_spec in C as (u & Hu & Ep & Hi).
  assert (L : p = local p0 x n (sampleline l u)) by (rewrite Ep; apply local_sample).
  pose proof (local_bary p0 x n p1 p2 p3 H0 Hx Hxn) as HB.
  destruct (isInsideTriangleXY_raw p (local p0 x n p1) (local p0 x n p2) (local p0 x n p3)) as [b| | | | |] eqn:T; try discriminate.
  cbn [of_res obind] in H. destruct b; [|discriminate].
  assert (Eq : q = mulMV inv p) by congruence. rewrite L, HI in Eq by reflexivity.
  split; [|exists u; split; [exact Eq|exact Hi]].
  apply (triangle_spec _ _ _ _ _ HB) in T. destruct T as [T _]. specialize (T eq_refl).
  destruct T as (m1 & m2 & m3 & M1 & M2 & M3 & MS & MX & MY).
  exists m1, m2, m3. do 4 (split; [auto|]). subst q.
  pose proof (tri2p0n_spec _ _ _ H0) as HS. cbv zeta in HS. destruct HS as (_ & _ & _ & _ & _ & Z1 & Z2 & Z3).
  unfold signedPlaneDistance in Z1, Z2, Z3. rewrite dot_comm in Z1, Z2, Z3.
  set (r := mkv (m1 * vx p1 + m2 * vx p2 + m3 * vx p3) (m1 * vy p1 + m2 * vy p2 + m3 * vy p3) (m1 * vz p1 + m2 * vz p2 + m3 * vz p3) 1).
  assert (HR : combo m1 m2 m3 p1 p2 p3 r) by (split; [|split]; reflexivity).
  assert (ER : local p0 x n (sampleline l u) = local p0 x n r).
  { pose proof (local_combo p0 x n _ _ _ _ _ _ _ MS HR) as (R1 & R2 & R3).
    rewrite <- L. 
    assert (PW : vw p = 1) by (rewrite Ep; reflexivity).
    assert (PZ : vz p = 0).
    { rewrite Ep. unfold sampleline, add, scale3, sub; cbn [fst snd vz local]. cbn [vget fst snd vz local] in Hu. lra. }
    destruct p as [px py pz pw]; cbn [vx vy vz vw] in *.
    destruct (local p0 x n r) as [rx ry rz rw] eqn:Er; cbn [vx vy vz vw] in *.
    assert (RW : rw = 1) by (change rw with (vw (mkv rx ry rz rw)); rewrite <- Er; reflexivity).
    apply mkv_eq; [congruence|congruence| |congruence].
    rewrite R3. unfold local; cbn [vz]. rewrite Z1, Z2, Z3. lra. }
  assert (E2 : sampleline l u = r) by (rewrite <- (HI (sampleline l u)) by reflexivity; rewrite ER; apply HI; reflexivity).
  rewrite E2. exact HR.
Qed.
Lemma line_tri_complete l p1 p2 p3 inside u :
  vw p1 = 1 -> vw p2 = 1 -> vw p3 = 1 -> vw (fst l) = 1 -> vw (snd l) = 1 ->
  epsilon <= mag (cross (sub p2 p1) (sub p3 p1)) ->
  epsilon * mag (cross (sub p2 p1) (sub p3 p1)) <= Rabs (dot (cross (sub p2 p1) (sub p3 p1)) (sub (fst l) (snd l))) ->
  in_triangle p1 p2 p3 (sampleline l u) -> (inside = true -> 0 <= u <= 1) ->
  linePlaneIntersect l (PTri (p1, p2, p3)) inside = Val (Some (sampleline l u)).
Proof.
  intros W1 W2 W3 Wa Wb Hd Hne (m1 & m2 & m3 & M1 & M2 & M3 & MS & HC) Hi.
  destruct (basis_defined p1 p2 p3 Hd) as [[[[p0 n] fwd] inv] Hb].
  destruct (line_tri_inv l p1 p2 p3 inside _ W1 W2 W3 Wa Wb Hb) as (x & Hn & Hx & Hxn & H0 & HI & E).
  rewrite E. clear E.
  pose proof (tri2p0n_inv _ _ _ H0) as HS0. cbv zeta in HS0. destruct HS0 as (_ & _ & En).
  pose proof (tri2p0n_spec _ _ _ H0) as HS. cbv zeta in HS. destruct HS as (_ & _ & _ & _ & _ & Z1 & Z2 & Z3).
  unfold signedPlaneDistance in Z1, Z2, Z3. rewrite dot_comm in Z1, Z2, Z3.
  pose proof (local_combo p0 x n _ _ _ _ _ _ _ MS HC) as LC.
  assert (LZ : vz (local p0 x n (sampleline l u)) = 0).
  { destruct LC as (_ & _ & LC). rewrite LC. unfold local; cbn [vz]. rewrite Z1, Z2, Z3. ring. }
  rewrite (lineCardinal_complete _ 2 inside u).
  - cbn [fst snd]. rewrite local_sample.
    destruct LC as (L1 & L2 & _).
    destruct (triangle_total (local p0 x n (sampleline l u)) (local p0 x n p1) (local p0 x n p2) (local p0 x n p3)
      (local_bary p0 x n p1 p2 p3 H0 Hx Hxn)) as [b T].
    rewrite T. pose proof (triangle_spec _ _ _ _ _ (local_bary p0 x n p1 p2 p3 H0 Hx Hxn) T) as [_ TS].
    rewrite TS by (exists m1, m2, m3; tauto). cbn [of_res obind]. rewrite HI by reflexivity. reflexivity.
  - cbn [vget fst snd]. set (c := cross _ _) in *.
    replace (vz (local p0 x n (fst l)) - vz (local p0 x n (snd l))) with (dot c (sub (fst l) (snd l)) / mag c).
    + pose proof eps_pos. unfold Rdiv. rewrite Rabs_mult. rewrite (Rabs_right (/ mag c)) by (apply Rle_ge, Rlt_le, Rinv_0_lt_compat; lra).
      apply (Rmult_le_reg_r (mag c)); [lra|]. rewrite Rmult_assoc, Rinv_l, Rmult_1_r by lra. exact Hne.
    + unfold local; cbn [vz]. rewrite En. pose proof eps_pos. clearbody c. unfold dot, sub; simpl. field. lra.
  - cbn [vget fst snd]. rewrite <- local_sample in LZ. unfold sampleline, add, scale3, sub in LZ; cbn [fst snd vz] in LZ. lra.
  - exact Hi.
Qed.
