(** conic as a whole. *)
From Coq Require Import Reals List Bool ZArith Lra Lia Permutation Arith.
From Verif Require Import Xform_Model Xform_Proofs Fig_Model Fig_Proofs Fig_Proofs2 Solid_Model Solid_Spec Solid_Proofs Solid_Proofs2
  Solid_Proofs3 Solid_Proofs4 Solid_Proofs5 Solid_Proofs6 Solid_Proofs7 Prim_Model Prim_Spec Prim_Lab Prim_Proofs Prim_Proofs2 Prim_Proofs3 Prim_Proofs4.
Import ListNotations.
Open Scope R_scope.

Lemma above_add c h : add c (point 0 0 h) = above c h.
Proof. unfold add, above, point; cbn [vx vy vz]. apply vec_ext; cbn [vx vy vz vw]; ring. Qed.
Lemma conic_frustum_val r0 r1 h c a n ce mc : sectors a n -> vw c = 1 -> epsilon <= r0 -> epsilon <= r1 -> epsilon <= h ->
  epsilon <= 2 * r0 * sin (2 * PI / INR n) * h ->
  exists ns, Forall2 (outward n) (seq 0 n) ns /\
    conic r0 r1 h c (Some a) ce mc = Val [disc_surf c r0 n false; mksurf (side_verts c r0 r1 h n) (ns ++ ns) (side_faces n) [] []; disc_surf (above c h) r1 n true].
Proof.
  intros Hs Hc H0 H1 Hh Hd. pose proof (sectors_range a n Hs). assert (0 < epsilon) by (unfold epsilon; lra).
  destruct (cylinder_side_val c r0 r1 h n ltac:(lia) ltac:(lra) ltac:(lra) Hd) as (ns & F & E). exists ns. split; [exact F|].
  unfold conic. cbn [obind]. rewrite !Rltb_f by lra. rewrite (circleSurface_val c r0 a n false Hs Hc). cbn [obind negb].
  rewrite (circleSurface_val (add c (point 0 0 h)) r1 a n true Hs eq_refl). cbn [obind disc_surf verts]. rewrite E. cbn [obind]. rewrite above_add. reflexivity.
Qed.
Lemma conic_cone_val r0 r1 h c a n ce mc : sectors a n -> vw c = 1 -> epsilon <= r0 -> 0 <= r1 < epsilon -> epsilon <= h ->
  epsilon <= 2 * r0 * sin (2 * PI / INR n) * h ->
  exists ns, Forall2 (outward n) (seq 0 n) ns /\
    conic r0 r1 h c (Some a) ce mc = Val [disc_surf c r0 n false;
      mksurf (cone_verts c r0 h n) (zhat :: ns) (map (fun i => (0, Z.of_nat (S i), Z.of_nat (S (S i mod n)))%Z) (seq 0 n)) [] []].
Proof.
  intros Hs Hc H0 H1 Hh Hd. pose proof (sectors_range a n Hs). assert (0 < epsilon) by (unfold epsilon; lra).
  destruct (cone_side_val c r0 h n ltac:(lia) ltac:(lra) ltac:(lra) Hd) as (ns & F & E). exists ns. split; [exact F|].
  unfold conic. cbn [obind]. rewrite (Rltb_f r0), (Rltb_f r1 0), (Rltb_f h), (Rltb_t r1) by lra. rewrite (circleSurface_val c r0 a n false Hs Hc). cbn [obind negb disc_surf verts].
  rewrite E. reflexivity.
Qed.
Lemma disc_issurface c r n z : (2 < n)%nat -> vw c = 1 -> issurface (disc_surf c r n z) = true.
Proof.
  intros Hn Hc. apply issurface_ok.
  - unfold disc_verts; cbn [length]. rewrite map_length, seq_length. lia.
  - rewrite map_length. reflexivity.
  - intros p. apply disc_w; auto.
  - intros m Hm. apply in_map_iff in Hm as (q & <- & _). reflexivity.
Qed.
Lemma outward_w n l ns m : Forall2 (outward n) l ns -> In m ns -> vw m = 0.
Proof. intros F Hm. induction F as [|i m' l' ns' H F IH]; [destruct Hm|]. destruct Hm as [->|Hm]; [apply H|auto]. Qed.
Lemma in_side_verts c r0 r1 h n p : In p (side_verts c r0 r1 h n) -> on_circle c r0 p \/ on_circle (above c h) r1 p.
Proof.
  unfold side_verts. rewrite above_add. intros H. apply in_app_or in H as [H|H]; apply in_map_iff in H as (i & <- & _); [left|right]; apply rim_circle.
Qed.
Lemma faces_out_rim c c' r n l ns : 0 < r -> vx c = vx c' -> vy c = vy c' -> Forall2 (outward n) l ns -> faces_out c (map (rim_point c' r n) l) ns.
Proof.
  intros Hr E1 E2 F. unfold faces_out. induction F as [|i m l ns (H1 & H2 & H3) F IH]; [constructor|]. cbn [map]. constructor; [|exact IH].
  split; [exact H1|]. split; [exact H2|]. rewrite rim_x, rim_y, E1, E2.
  replace ((vx c' + r * cos (part i n) - vx c') * vx m + (vy c' + r * sin (part i n) - vy c') * vy m) with (r * (vx m * cos (part i n) + vy m * sin (part i n))) by ring.
  apply Rmult_lt_0_compat; auto.
Qed.
Lemma conic_frustum r0 r1 h c a n ce mc : sectors a n -> vw c = 1 -> epsilon <= r0 -> epsilon <= r1 -> epsilon <= h ->
  epsilon <= 2 * r0 * sin (2 * PI / INR n) * h ->
  exists base side top ts, conic r0 r1 h c (Some a) ce mc = Val [base; side; top] /\ issolid [base; side; top] = true /\
    triangles [base; side; top] ts /\ oriented ts /\ signed_volume ts = frustum_volume n r0 r1 h /\
    (forall s p, In s [base; side; top] -> In p (verts s) -> p = c \/ p = above c h \/ on_circle c r0 p \/ on_circle (above c h) r1 p) /\
    (forall m, In m (norms base) -> m = mkv 0 0 (-1) 0) /\ (forall m, In m (norms top) -> m = mkv 0 0 1 0) /\
    faces_out c (verts side) (norms side) /\
    (2 * epsilon < h -> epsilon < r0 * sin (PI / INR n) -> epsilon < r1 * sin (PI / INR n) ->
       issolidclosed [base; side; top] = Val true /\ volumeof [base; side; top] = Val (frustum_volume n r0 r1 h)).
Proof.
  intros Hs Hc H0 H1 Hh Hd. pose proof (sectors_range a n Hs) as Hn. assert (He : 0 < epsilon) by (unfold epsilon; lra).
  destruct (conic_frustum_val r0 r1 h c a n ce mc Hs Hc H0 H1 Hh Hd) as (ns & F & E).
  eexists. eexists. eexists. exists (map (at_pos (fpos c r0 r1 h n)) (frustum n)). split; [exact E|].
  set (side := mksurf (side_verts c r0 r1 h n) (ns ++ ns) (side_faces n) [] []).
  assert (IS : issolid [disc_surf c r0 n false; side; disc_surf (above c h) r1 n true] = true).
  { unfold issolid. cbn [forallb]. rewrite !disc_issurface by (auto; lia). unfold side. rewrite issurface_ok; auto.
    - unfold side_verts. rewrite app_length, !map_length, seq_length. lia.
    - pose proof (Forall2_len _ _ _ F) as L. rewrite seq_length in L. unfold side_verts. rewrite !app_length, !map_length, seq_length. lia.
    - intros p Hp. unfold side_verts in Hp. apply in_app_or in Hp as [Hp|Hp]; apply in_map_iff in Hp as (i & <- & _); reflexivity.
    - intros m Hm. apply in_app_or in Hm as [Hm|Hm]; eapply outward_w; eauto. }
  split; [exact IS|].
  assert (T : triangles [disc_surf c r0 n false; side; disc_surf (above c h) r1 n true] (map (at_pos (fpos c r0 r1 h n)) (frustum n))).
  { exists [map (at_pos (fpos c r0 r1 h n)) (disc_down false n); map (at_pos (fpos c r0 r1 h n)) (wall n); map (at_pos (fpos c r0 r1 h n)) (disc_up true n)].
    split; [|unfold frustum; rewrite !map_app; cbn [concat]; rewrite app_nil_r; reflexivity].
    constructor; [|constructor; [|constructor; [|constructor]]].
    - apply (disc_tris (fpos c r0 r1 h n) false c r0 n); reflexivity.
    - apply wall_tris. lia.
    - rewrite <- above_add. apply (disc_tris (fpos c r0 r1 h n) true (add c (point 0 0 h)) r1 n); reflexivity. }
  split; [exact T|]. split; [apply orient_pos, frustum_lorient; lia|]. split; [apply frustum_signed; auto; lia|].
  split; [|split; [|split; [|split]]].
  - intros s p [<-|[<-|[<-|[]]]] Hp.
    + destruct Hp as [<-|Hp]; [auto|]. apply in_map_iff in Hp as (i & <- & _). right; right; left. apply rim_circle.
    + right; right. apply in_side_verts in Hp. exact Hp.
    + destruct Hp as [<-|Hp]; [auto|]. apply in_map_iff in Hp as (i & <- & _). right; right; right. apply rim_circle.
  - intros m Hm. apply in_map_iff in Hm as (q & <- & _). reflexivity.
  - intros m Hm. apply in_map_iff in Hm as (q & <- & _). reflexivity.
  - cbn [side verts norms]. unfold side_verts, faces_out. apply Forall2_app.
    + apply (faces_out_rim c c); auto; lra.
    + apply (faces_out_rim c); auto; [lra| |]; unfold add, point; cbn [vx vy]; ring.
  - intros G1 G2 G3.
    assert (S : forall x y, label (frustum n) x -> label (frustum n) y -> x = y \/ 2 * epsilon < dist (fpos c r0 r1 h n x) (fpos c r0 r1 h n y)).
    { intros x y Hx Hy. apply fpos_sep; auto using frustum_label; lia. }
    assert (CL : issolidclosed [disc_surf c r0 n false; side; disc_surf (above c h) r1 n true] = Val true).
    { apply (closed_iff _ _ IS T); [apply separated_pos; exact S|].
      apply tight_pos; [apply frustum_lorient; lia|apply frustum_nodup; lia|intros; apply frustum_noloop; lia|apply sep_inj; exact S]. }
    split; [exact CL|]. apply (volumeof_iff _ _ _ T). split; [exact IS|]. split; [exact CL|].
    rewrite frustum_signed by (auto; lia). symmetry. apply Rabs_right.
    unfold frustum_volume. pose proof (sin_full_pos n ltac:(lia)). pose proof (INR_pos n ltac:(lia)).
    assert (0 < r0 * r0) by (apply Rmult_lt_0_compat; lra). assert (0 < r0 * r1) by (apply Rmult_lt_0_compat; lra). assert (0 < r1 * r1) by (apply Rmult_lt_0_compat; lra).
    assert (0 < h / 3 * (INR n / 2 * sin (2 * PI / INR n)) * (r0 * r0 + r0 * r1 + r1 * r1)); [|lra].
    apply Rmult_lt_0_compat; [|lra]. apply Rmult_lt_0_compat; [lra|]. apply Rmult_lt_0_compat; lra.
Qed.
Lemma conic_cone r0 r1 h c a n ce mc : sectors a n -> vw c = 1 -> epsilon <= r0 -> 0 <= r1 < epsilon -> epsilon <= h ->
  epsilon <= 2 * r0 * sin (2 * PI / INR n) * h ->
  exists base side ts, conic r0 r1 h c (Some a) ce mc = Val [base; side] /\ issolid [base; side] = true /\
    triangles [base; side] ts /\ oriented ts /\ signed_volume ts = frustum_volume n r0 0 h /\
    (forall s p, In s [base; side] -> In p (verts s) -> p = c \/ p = above c h \/ on_circle c r0 p) /\
    (forall m, In m (norms base) -> m = mkv 0 0 (-1) 0) /\
    (exists vs ns, verts side = above c h :: vs /\ norms side = mkv 0 0 1 0 :: ns /\ faces_out c vs ns) /\
    (2 * epsilon < h -> epsilon < r0 * sin (PI / INR n) ->
       issolidclosed [base; side] = Val true /\ volumeof [base; side] = Val (frustum_volume n r0 0 h)).
Proof.
  intros Hs Hc H0 H1 Hh Hd. pose proof (sectors_range a n Hs) as Hn. assert (He : 0 < epsilon) by (unfold epsilon; lra).
  destruct (conic_cone_val r0 r1 h c a n ce mc Hs Hc H0 H1 Hh Hd) as (ns & F & E).
  eexists. eexists. exists (map (at_pos (fpos c r0 r0 h n)) (full_cone n)). split; [exact E|].
  set (side := mksurf (cone_verts c r0 h n) (zhat :: ns) (map (fun i => (0, Z.of_nat (S i), Z.of_nat (S (S i mod n)))%Z) (seq 0 n)) [] []).
  assert (IS : issolid [disc_surf c r0 n false; side] = true).
  { unfold issolid. cbn [forallb]. rewrite !disc_issurface by (auto; lia). unfold side. rewrite issurface_ok; auto.
    - unfold cone_verts; cbn [length]. rewrite map_length, seq_length. lia.
    - pose proof (Forall2_len _ _ _ F) as L. rewrite seq_length in L. unfold cone_verts; cbn [length]. rewrite map_length, seq_length. lia.
    - intros p [<-|Hp]; [reflexivity|]. apply in_map_iff in Hp as (i & <- & _); reflexivity.
    - intros m [<-|Hm]; [reflexivity|]. eapply outward_w; eauto. }
  split; [exact IS|].
  assert (T : triangles [disc_surf c r0 n false; side] (map (at_pos (fpos c r0 r0 h n)) (full_cone n))).
  { exists [map (at_pos (fpos c r0 r0 h n)) (disc_down false n); map (at_pos (fpos c r0 r0 h n)) (cone n)].
    split; [|unfold full_cone; rewrite !map_app; cbn [concat]; rewrite app_nil_r; reflexivity].
    constructor; [|constructor; [|constructor]].
    - apply (disc_tris (fpos c r0 r0 h n) false c r0 n); reflexivity.
    - apply cone_tris. lia. }
  split; [exact T|]. split; [apply orient_pos, full_cone_lorient; lia|]. split; [apply cone_signed; auto; lia|].
  split; [|split; [|split]].
  - intros s p [<-|[<-|[]]] Hp.
    + destruct Hp as [<-|Hp]; [auto|]. apply in_map_iff in Hp as (i & <- & _). right; right. apply rim_circle.
    + destruct Hp as [<-|Hp]; [rewrite above_add; auto|]. apply in_map_iff in Hp as (i & <- & _). right; right. apply rim_circle.
  - intros m Hm. apply in_map_iff in Hm as (q & <- & _). reflexivity.
  - exists (map (rim_point c r0 n) (seq 0 n)), ns. cbn [side verts norms]. unfold cone_verts. rewrite above_add. split; [reflexivity|]. split; [reflexivity|].
    apply (faces_out_rim c c); auto; lra.
  - intros G1 G2.
    assert (S : forall x y, label (full_cone n) x -> label (full_cone n) y -> x = y \/ 2 * epsilon < dist (fpos c r0 r0 h n x) (fpos c r0 r0 h n y)).
    { assert (GG : forall x, label (full_cone n) x -> good n x).
      { intros x Hx. apply full_cone_label in Hx. destruct x; cbn [good]; tauto. }
      intros x y Hx Hy. apply fpos_sep; auto; lia. }
    assert (CL : issolidclosed [disc_surf c r0 n false; side] = Val true).
    { apply (closed_iff _ _ IS T); [apply separated_pos; exact S|].
      apply tight_pos; [apply full_cone_lorient; lia|apply full_cone_nodup; lia|intros; apply full_cone_noloop; lia|apply sep_inj; exact S]. }
    split; [exact CL|]. apply (volumeof_iff _ _ _ T). split; [exact IS|]. split; [exact CL|].
    rewrite cone_signed by (auto; lia). symmetry. apply Rabs_right.
    unfold frustum_volume. pose proof (sin_full_pos n ltac:(lia)). pose proof (INR_pos n ltac:(lia)).
    assert (0 < r0 * r0) by (apply Rmult_lt_0_compat; lra).
    assert (0 < h / 3 * (INR n / 2 * sin (2 * PI / INR n)) * (r0 * r0 + r0 * 0 + 0 * 0)); [|lra].
    apply Rmult_lt_0_compat; [|lra]. apply Rmult_lt_0_compat; [lra|]. apply Rmult_lt_0_compat; lra.
Qed.

(** ** when the default resolution is used *)
Lemma ceil_spec x : x <= IZR (ceil x) < x + 1.
Proof. unfold ceil. rewrite opp_IZR. pose proof (base_Int_part (- x)). lra. Qed.
Lemma arc_segments_range r ce mc n : adaptive_arc_segments r ce mc = Val n -> (16 <= n <= 360)%Z.
Proof.
  unfold adaptive_arc_segments. assert (C : forall m, (16 <= clamp_segments m <= 360)%Z) by (intros; unfold clamp_segments; lia).
  destruct (Rleb r 0); [intros H; injection H as <-; lia|]. destruct ce as [e|].
  - destruct (Rleb e 0); [intros H; injection H as <-; lia|]. intros H. assert (n = clamp_segments (ceil (2 * PI / (2 * acos (1 - Rmin (e / r) (999999 / 1000000)))))) by congruence. subst n. apply C.
  - cbv zeta. match goal with |- context [Rleb 1 ?e] => destruct (Rleb 1 e) end; [intros H; injection H as <-; lia|].
    match goal with |- context [Rltb ?e (-1)] => destruct (Rltb e (-1)) end; [discriminate|].
    match goal with |- context [Reqb ?e 0] => destruct (Reqb e 0) end; [discriminate|]. intros H.
    match type of H with Val ?e = Val n => assert (n = e) by congruence end. subst n. apply C.
Qed.
Lemma angr_range r ce mc a : adaptive_angr_from_radius r ce mc = Val a -> 1 <= a <= 10.
Proof.
  unfold adaptive_angr_from_radius. intros H. apply obind_val in H as (n & Hn & H). apply arc_segments_range in Hn.
  assert (a = Rmax 1 (Rmin 10 (360 / IZR n))) by congruence. subst a.
  split; [apply Rmax_l|]. apply Rmax_lub; [lra|apply Rmin_l].
Qed.
Lemma Rleb_t a b : a <= b -> Rleb a b = true. Proof. intros. unfold Rleb. destruct (Rle_dec a b); auto; contradiction. Qed.
Lemma Rleb_f a b : b < a -> Rleb a b = false. Proof. intros. unfold Rleb. destruct (Rle_dec a b); auto; lra. Qed.
Lemma Reqb_f a b : a <> b -> Reqb a b = false. Proof. intros. unfold Reqb. destruct (Req_EM_T a b); auto; contradiction. Qed.
Lemma default_chord_pos r : 0 < r -> 0 < default_chord r.
Proof.
  intros Hr. unfold default_chord. destruct (Rleb 50 r); [lra|]. destruct (Rleb r (5 / 2)); [lra|].
  apply Rmult_lt_0_compat; [lra|]. unfold Rpower. apply exp_pos.
Qed.
Lemma asin_pos s : 0 < s < 1 -> 0 < asin s /\ asin s < PI / 2.
Proof.
  intros H. pose proof (asin_bound s). assert (S : sin (asin s) = s) by (apply sin_asin; lra).
  pose proof PI_RGT_0. split.
  - apply sin_increasing_0; try lra. rewrite sin_0, S. lra.
  - apply sin_increasing_0; try lra. rewrite sin_PI2, S. lra.
Qed.
(** chord length mode: each chord is no longer than asked, unless 360 segments are not enough *)
Lemma arc_segments_chord r c : 0 < r -> 0 < c ->
  exists n, adaptive_arc_segments r None (Some c) = Val n /\ (16 <= n <= 360)%Z /\
    (n = 360%Z \/ 2 * r * sin (PI / IZR n) <= c).
Proof.
  intros Hr Hc. unfold adaptive_arc_segments. rewrite Rleb_f by auto. cbv zeta.
  set (c' := Rmin c (2 * r * (95 / 100))). assert (C1 : 0 < c') by (unfold c'; apply Rmin_glb_lt; lra).
  assert (C2 : c' <= 2 * r * (95 / 100)) by apply Rmin_r. assert (C3 : c' <= c) by apply Rmin_l. clearbody c'.
  set (s := c' / (2 * r)). assert (S1 : 0 < s) by (apply Rdiv_lt_0_compat; lra).
  assert (S2 : s <= 95 / 100).
  { unfold s. apply Rmult_le_reg_r with (2 * r); [lra|]. replace (c' / (2 * r) * (2 * r)) with c' by (field; lra). lra. }
  rewrite Rleb_f, Rltb_f by lra. destruct (asin_pos s ltac:(lra)) as [A1 A2].
  rewrite Reqb_f by lra. eexists. split; [reflexivity|]. split; [unfold clamp_segments; lia|].
  set (k := ceil (PI / asin s)). pose proof (ceil_spec (PI / asin s)) as K. fold k in K. pose proof PI_RGT_0 as HP.
  assert (K0 : 0 < PI / asin s) by (apply Rdiv_lt_0_compat; auto).
  destruct (Z_le_gt_dec 360 k) as [G|G]; [left; unfold clamp_segments; lia|right].
  assert (M : IZR k <= IZR (clamp_segments k)) by (apply IZR_le; unfold clamp_segments; lia).
  set (m := IZR (clamp_segments k)) in *.
  assert (Q : PI / m <= asin s).
  { apply Rmult_le_reg_r with m; [lra|]. replace (PI / m * m) with PI by (field; lra).
    apply Rmult_le_reg_r with (/ asin s); [apply Rinv_0_lt_compat; auto|].
    replace (asin s * m * / asin s) with m by (field; lra). unfold Rdiv in *. lra. }
  assert (Q0 : 0 < PI / m) by (apply Rdiv_lt_0_compat; lra).
  assert (SS : sin (PI / m) <= s).
  { rewrite <- (sin_asin s) by lra. apply sin_incr_1; lra. }
  replace c' with (2 * r * s) in C3 by (unfold s; field; lra).
  apply Rle_trans with (2 * r * s); [|exact C3]. apply Rmult_le_compat_l; lra.
Qed.
Lemma arc_segments_default r : adaptive_arc_segments r None None = if Rleb r 0 then Val 36%Z else adaptive_arc_segments r None (Some (default_chord r)).
Proof. unfold adaptive_arc_segments. destruct (Rleb r 0); reflexivity. Qed.
