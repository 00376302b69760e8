From Coq Require Import Reals List Bool Lra Lia Psatz.
From Verif Require Import Xform_Model Xform_Proofs Fig_Model Fig_Proofs Fig_Proofs2 Fig_Proofs3 Isect_Model Isect_Spec Isect_Proofs.
Import ListNotations.
Open Scope R_scope.

Lemma vext p q : vx p = vx q -> vy p = vy q -> vz p = vz q -> vw p = vw q -> p = q.
Proof. destruct p as [a b c d], q as [a1 b1 c1 d1]. cbn [vx vy vz vw]. intros -> -> -> ->. reflexivity. Qed.
(** ** segments of arcs *)
Lemma pymod_eq x y k : 0 <= y < 360 -> x = y + 360 * IZR k -> pymod x 360 = y.
Proof.
  intros H E. unfold pymod. assert (I : Int_part (x / 360) = k).
  { unfold Int_part. assert (U : up (x / 360) = (k + 1)%Z); [|rewrite U; lia].
    symmetry. apply tech_up; rewrite plus_IZR; lra. }
  rewrite I. lra.
Qed.
Lemma pymod_dec x : exists k, x = pymod x 360 + 360 * IZR k.
Proof. exists (Int_part (x / 360)). unfold pymod. ring. Qed.
Lemma seg_range p r rv ga dl : 0 < dl < 360 ->
  arc_range (mkarc p r (pymod ga 360) (pymod (ga + dl) 360) rv) = (pymod ga 360, pymod ga 360 + dl).
Proof.
  intros H. pose proof (pymod_range ga 360 ltac:(lra)) as A. destruct (pymod_dec ga) as [k K].
  set (a := pymod ga 360) in *. unfold arc_range. cbn [a_start a_end].
  assert (B : (a + dl < 360 /\ pymod (ga + dl) 360 = a + dl) \/ (360 <= a + dl /\ pymod (ga + dl) 360 = a + dl - 360)).
  { destruct (Rlt_dec (a + dl) 360) as [Q|Q]; [left|right]; (split; [lra|]).
    - apply (pymod_eq _ _ k); lra.
    - apply (pymod_eq _ _ (k + 1)); [lra|]. rewrite plus_IZR. lra. }
  assert (E1 : Reqb (pymod (ga + dl) 360) 360 = false) by (apply Reqb_false; lra). rewrite E1. cbn [negb]. rewrite andb_true_r.
  destruct (Reqb a 0) eqn:Z; [apply Reqb_true in Z|apply Reqb_false in Z]; cbn [negb].
  - f_equal. lra.
  - rewrite (pymod_id a) by lra. rewrite (pymod_id (pymod (ga + dl) 360)) by lra.
    destruct (Rltb (pymod (ga + dl) 360) a) eqn:L; [apply Rltb_true in L|apply Rltb_false in L]; f_equal; lra.
Qed.
Lemma pymod_congr x y z : pymod x 360 = pymod y 360 -> pymod (z + x) 360 = pymod (z + y) 360.
Proof.
  intros H. destruct (pymod_dec x) as [k K], (pymod_dec y) as [m M], (pymod_dec (z + y)) as [n N].
  apply (pymod_eq _ _ (n + (k - m))); [apply pymod_range; lra|]. rewrite plus_IZR, minus_IZR. lra.
Qed.
Lemma segment_samples c u1 u2 t : ranged c -> u1 < u2 ->
  (snd (arc_range c) - fst (arc_range c)) * (u2 - u1) < 360 ->
  samplearc (segmentarc c u1 u2) t = samplearc c (u1 + t * (u2 - u1)).
Proof.
  intros [R1 R2] U S. rewrite !samplearc_spot. unfold segmentarc, arc_angle.
  destruct (arc_range c) as [s e] eqn:AR. cbn [fst snd] in *.
  assert (P : forall g, spot c g = spot c (pymod g 360)) by (intros; symmetry; apply spot_mod).
  destruct (a_rev c) eqn:RV; cbn [a_rev a_c a_r].
  - replace ((e - s) * (1 - u1) + s) with ((e - s) * (1 - u2) + s + (e - s) * (u2 - u1)) by ring.
    rewrite seg_range by nra. cbn [fst snd].
    set (ga := (e - s) * (1 - u2) + s). set (dl := (e - s) * (u2 - u1)) in *.
    transitivity (spot c ((pymod ga 360 + dl - pymod ga 360) * (1 - t) + pymod ga 360)); [reflexivity|].
    rewrite (P (_ * _ + pymod ga 360)), (P ((e - s) * _ + s)). f_equal.
    replace ((e - s) * (1 - (u1 + t * (u2 - u1))) + s) with (dl * (1 - t) + ga) by (unfold dl, ga; ring).
    replace ((pymod ga 360 + dl - pymod ga 360) * (1 - t)) with (dl * (1 - t)) by ring.
    apply pymod_congr. apply pymod_id, pymod_range. lra.
  - replace ((e - s) * u2 + s) with ((e - s) * u1 + s + (e - s) * (u2 - u1)) by ring.
    rewrite seg_range by nra. cbn [fst snd].
    set (ga := (e - s) * u1 + s). set (dl := (e - s) * (u2 - u1)) in *.
    transitivity (spot c ((pymod ga 360 + dl - pymod ga 360) * t + pymod ga 360)); [reflexivity|].
    rewrite (P (_ * _ + pymod ga 360)), (P ((e - s) * _ + s)). f_equal.
    replace ((e - s) * (u1 + t * (u2 - u1)) + s) with (dl * t + ga) by (unfold dl, ga; ring).
    replace ((pymod ga 360 + dl - pymod ga 360) * t) with (dl * t) by ring.
    apply pymod_congr. apply pymod_id, pymod_range. lra.
Qed.

(** ** a line and a circle *)
Section LineArc.
Variables (l : line) (c : arc) (z : R).
Hypothesis LV : level z l c.
Let L := linelength l.
Let x := a_c c.
Let r := a_r c.
Let at_ t := dist x (sampleline l t).
Let q t := sub (sampleline l t) x.

Lemma L_pos : 0 < L. Proof. destruct LV as (_ & _ & _ & H & _). unfold epsilon in H. unfold L. lra. Qed.
Let P := sub (snd l) x.
Let V := sub (sub (fst l) x) P.
Let a := vx V * vx V + vy V * vy V.
Let b := 2 * (vx V * vx P + vy V * vy P).
Let cc := vx P * vx P + vy P * vy P - r * r.
Let d := b * b - 4 * a * cc.
Lemma a_L : a = L * L.
Proof.
  destruct LV as (H1 & H2 & H3 & _). unfold L, linelength. rewrite dist_sq.
  rewrite sqrt_sqrt by (unfold sq; pose proof (Rle_0_sqr (vx (fst l) - vx (snd l))); pose proof (Rle_0_sqr (vy (fst l) - vy (snd l))); pose proof (Rle_0_sqr (vz (fst l) - vz (snd l))); unfold Rsqr in *; lra).
  unfold sq. rewrite H1, H2. unfold a, V, P, sub. cbn [vx vy]. ring.
Qed.
Lemma a_pos : 0 < a. Proof. rewrite a_L. pose proof L_pos. nra. Qed.
Lemma at_sq t : at_ t * at_ t = a * ((1 - t) * (1 - t)) + b * (1 - t) + (cc + r * r).
Proof.
  destruct LV as (H1 & H2 & H3 & _). unfold at_. rewrite dist_sq.
  rewrite sqrt_sqrt by (unfold sq; match goal with |- 0 <= ?u * ?u + ?v * ?v + ?w * ?w => pose proof (Rle_0_sqr u); pose proof (Rle_0_sqr v); pose proof (Rle_0_sqr w) end; unfold Rsqr in *; lra).
  unfold sq, sampleline, add, scale3. cbn [vx vy vz]. rewrite H1, H2. fold x in H3. rewrite H3.
  unfold a, b, cc, V, P, sub. cbn [vx vy]. ring.
Qed.
Lemma at_nn t : 0 <= at_ t. Proof. apply dist_nonneg. Qed.
Lemma r_nn : 0 <= r. Proof. destruct LV as (_ & _ & _ & _ & H & _). exact H. Qed.
Lemma q_at k : add (scale3 V k) P = q (1 - k).
Proof.
  destruct LV as (H1 & H2 & H3 & _). unfold q, V, P, sampleline, sub, add, scale3. cbn [vx vy vz]. apply mkv_eq; ring.
Qed.
(** the foot of the perpendicular *)
Let t0 := 1 - (- b / (2 * a)).
Let h := at_ t0.
Lemma h_sq : h * h = cc + r * r - b * b / (4 * a).
Proof. unfold h. rewrite at_sq. unfold t0. pose proof a_pos. field. lra. Qed.
Lemma d_h : d = 4 * a * (r * r - h * h).
Proof. rewrite h_sq. unfold d. pose proof a_pos. field. lra. Qed.
Lemma h_low t : h <= at_ t.
Proof.
  apply Rsqr_incr_0; [|apply at_nn|apply at_nn]. unfold Rsqr. rewrite h_sq, at_sq. pose proof a_pos as A.
  assert (0 <= a * ((1 - t + b / (2 * a)) * (1 - t + b / (2 * a)))) by (apply Rmult_le_pos; [lra|apply Rle_0_sqr]).
  assert (a * ((1 - t + b / (2 * a)) * (1 - t + b / (2 * a))) = a * ((1 - t) * (1 - t)) + b * (1 - t) + b * b / (4 * a)) by (field; lra).
  lra.
Qed.
Lemma h_is : line_distance_is l x h.
Proof. split; [exact h_low|]. exists t0. reflexivity. Qed.
Lemma h_unique h' : line_distance_is l x h' -> h' = h.
Proof. intros [H1 [t E]]. pose proof (h_low t). specialize (H1 t0). fold (at_ t) in *. unfold h in *. fold (at_ t0) in H1. unfold at_ in *. lra. Qed.
Lemma a_sqrt : sqrt a = L.
Proof. rewrite a_L. apply sqrt_square. pose proof L_pos. lra. Qed.
Lemma on_r t : at_ t = r <-> a * ((1 - t) * (1 - t)) + b * (1 - t) + cc = 0.
Proof.
  pose proof (at_sq t) as E. split; intros H.
  - rewrite H in E. lra.
  - apply Rsqr_inj; [apply at_nn|apply r_nn|]. unfold Rsqr. rewrite E. lra.
Qed.

Inductive roots_are (seg : bool) (D : R) : res (option (list vec)) -> Prop :=
| RNone : r + epsilon < D -> roots_are seg D (Ok None)
| RTangent : D <= r + epsilon -> Rabs (r * r - h * h) * (2 * L) < epsilon -> roots_are seg D (Ok (Some [q t0]))
| RError : D <= r + epsilon -> epsilon <= (h * h - r * r) * (2 * L) -> roots_are seg D ValueError
| RTwo ta tb : D <= r + epsilon -> epsilon <= (r * r - h * h) * (2 * L) -> ta < tb -> at_ ta = r -> at_ tb = r ->
    (forall t, at_ t = r -> t = ta \/ t = tb) ->
    roots_are seg D (Ok (Some (if Reqb tb 1 then [q ta] else [q ta; q tb]))).

Lemma dist_fact (seg : bool) : exists D, linePointXY l x seg true false = Ok (LPNum D) /\ h <= D /\ (seg = false -> D = h) /\
  forall t, 0 <= t <= 1 -> D <= at_ t.
Proof.
  pose proof LV as (H1 & H2 & H3 & H4 & _). unfold linelength in H4. unfold at_, x. destruct seg.
  - pose proof (seg_distance (fst l) (snd l) (a_c c) z H1 H2 H3 H4) as K. rewrite <- surjective_pairing in K. destruct K as (D & E & A & [t B]).
    exists D. split; [exact E|]. split; [|split; [discriminate|exact A]]. rewrite B. apply h_low.
  - pose proof (line_distance (fst l) (snd l) (a_c c) z H1 H2 H3 H4) as K. rewrite <- surjective_pairing in K. destruct K as (D & E & A & B).
    exists D. split; [exact E|]. assert (D = h) by (apply h_unique; split; assumption). subst D. split; [lra|]. split; [reflexivity|]. intros; apply A.
Qed.
Lemma roots_ok (seg : bool) : exists D, h <= D /\ (seg = false -> D = h) /\ (forall t, 0 <= t <= 1 -> D <= at_ t) /\
  roots_are seg D (la_roots l c seg).
Proof.
  destruct (dist_fact seg) as (D & E & H1 & H2 & H3). exists D. split; [exact H1|]. split; [exact H2|]. split; [exact H3|].
  pose proof L_pos as LP. pose proof a_pos as AP. pose proof r_nn as RN. pose proof (at_nn t0) as HN. fold h in HN.
  unfold la_roots. fold x r. rewrite E. cbn [bind too_far].
  destruct (Rltb (r + epsilon) D) eqn:F; [apply Rltb_true in F; constructor; exact F|apply Rltb_false in F].
  cbv zeta. fold P. fold V. fold a. fold b. fold cc. fold d.
  assert (EA : Rltb (Rabs a) (epsilon * epsilon) = false).
  { apply Rltb_false. rewrite Rabs_right by lra. rewrite a_L. destruct LV as (_ & _ & _ & Q & _). fold L in Q. unfold epsilon in *. nra. }
  rewrite EA. rewrite a_sqrt.
  assert (DH : d = 4 * (L * L) * (r * r - h * h)) by (rewrite d_h, a_L; reflexivity).
  destruct (Rltb (Rabs d) (L * 2 * epsilon)) eqn:T; [apply Rltb_true in T|apply Rltb_false in T].
  - rewrite q_at. fold t0. apply RTangent; [exact F|].
    rewrite DH, Rabs_mult, (Rabs_right (4 * (L * L))) in T by nra.
    apply (Rmult_lt_reg_l (2 * L)); [lra|]. lra.
  - destruct (Rltb d 0) eqn:N; [apply Rltb_true in N|apply Rltb_false in N].
    + apply RError; [exact F|]. rewrite Rabs_left in T by exact N. apply (Rmult_le_reg_l (2 * L)); [lra|]. lra.
    + rewrite Rabs_right in T by lra. cbv zeta. rewrite !q_at.
      set (ta := 1 - (- b + sqrt d) / (2 * a)). set (tb := 1 - (- b - sqrt d) / (2 * a)).
      assert (SD : sqrt d * sqrt d = d) by (apply sqrt_sqrt; exact N).
      assert (SP : 0 < sqrt d). { apply sqrt_lt_R0. unfold epsilon in T. nra. }
      assert (Q : Reqb ((- b - sqrt d) / (2 * a)) 0 = Reqb tb 1).
      { destruct (Reqb tb 1) eqn:Q; [apply Reqb_true in Q; apply Reqb_true|apply Reqb_false in Q; apply Reqb_false]; unfold tb in Q; lra. }
      rewrite Q. apply RTwo.
      * exact F.
      * apply (Rmult_le_reg_l (2 * L)); [lra|]. lra.
      * unfold ta, tb. assert ((- b + sqrt d) / (2 * a) - (- b - sqrt d) / (2 * a) = sqrt d / a) by (field; lra).
        assert (0 < sqrt d / a) by (apply Rdiv_lt_0_compat; lra). lra.
      * apply on_r. unfold ta. replace (1 - (1 - (- b + sqrt d) / (2 * a))) with ((- b + sqrt d) / (2 * a)) by ring.
        transitivity ((sqrt d * sqrt d - b * b + 4 * a * cc) / (4 * a)); [field; lra|]. rewrite SD. unfold d. field. lra.
      * apply on_r. unfold tb. replace (1 - (1 - (- b - sqrt d) / (2 * a))) with ((- b - sqrt d) / (2 * a)) by ring.
        transitivity ((sqrt d * sqrt d - b * b + 4 * a * cc) / (4 * a)); [field; lra|]. rewrite SD. unfold d. field. lra.
      * intros t Ht. apply on_r in Ht. unfold ta, tb.
        assert (Z : (2 * a * (1 - t) + b - sqrt d) * (2 * a * (1 - t) + b + sqrt d) = 0).
        { transitivity (4 * a * (a * ((1 - t) * (1 - t)) + b * (1 - t)) + b * b - sqrt d * sqrt d); [ring|].
          rewrite SD. unfold d. replace (a * ((1 - t) * (1 - t)) + b * (1 - t)) with (- cc) by lra. ring. }
        apply Rmult_integral in Z as [Z|Z]; [left|right].
        -- assert (1 - t = (- b + sqrt d) / (2 * a)); [|lra]. apply (Rmult_eq_reg_l (2 * a)); [|lra]. replace (2 * a * ((- b + sqrt d) / (2 * a))) with (- b + sqrt d) by (field; lra). lra.
        -- assert (1 - t = (- b - sqrt d) / (2 * a)); [|lra]. apply (Rmult_eq_reg_l (2 * a)); [|lra]. replace (2 * a * ((- b - sqrt d) / (2 * a))) with (- b - sqrt d) by (field; lra). lra.
Qed.
Lemma end_at : sampleline l 1 = snd l.
Proof.
  pose proof LV as (_ & _ & _ & _ & _ & H6). unfold sampleline, add, scale3. cbn [vx vy vz].
  apply vext; cbn [vx vy vz vw]; try ring. symmetry. exact H6.
Qed.
Lemma sample_inj t t' : sampleline l t = sampleline l t' -> t = t'.
Proof.
  intros E. pose proof (sampleline_dist l t t') as K. rewrite E, dist_sq in K. unfold sq in K. rewrite !Rminus_eq_0 in K.
  replace (0 * 0 + 0 * 0 + 0 * 0) with 0 in K by ring. rewrite sqrt_0 in K.
  pose proof L_pos as LP. unfold L in LP. symmetry in K. apply Rmult_integral in K as [K|K]; [|lra].
  destruct (Req_dec (t - t') 0) as [Q|Q]; [lra|]. apply Rabs_pos_lt in Q. lra.
Qed.
Lemma dist_comm p p' : dist p p' = dist p' p.
Proof. rewrite !dist_sq. unfold sq. f_equal. ring. Qed.
Lemma line_level t : vz (sampleline l t) = vz x.
Proof. pose proof LV as (H1 & H2 & H3 & _). unfold x. rewrite H3. unfold sampleline, add, scale3. cbn [vz]. rewrite H1, H2. ring. Qed.
Lemma circle_at t : on_circle c (sampleline l t) <-> at_ t = r.
Proof. unfold on_circle, at_. rewrite dist_comm. fold x r. split; [tauto|]. intros H. split; [exact H|apply line_level]. Qed.

(** the four possible outcomes, in terms of points *)
Lemma roots_spec (seg : bool) : exists h D,
  line_distance_is l (a_c c) h /\ h <= D /\ (seg = false -> D = h) /\ (forall p, on_segment l p -> D <= dist (a_c c) p) /\
  ((a_r c + epsilon < D /\ la_roots l c seg = Ok None) \/
   (D <= a_r c + epsilon /\ Rabs (a_r c * a_r c - h * h) * (2 * linelength l) < epsilon /\
      exists p, on_line l p /\ vw p = 1 /\ dist p (a_c c) = h /\ la_roots l c seg = Ok (Some [sub p (a_c c)])) \/
   (D <= a_r c + epsilon /\ epsilon <= (h * h - a_r c * a_r c) * (2 * linelength l) /\ la_roots l c seg = ValueError) \/
   (D <= a_r c + epsilon /\ epsilon <= (a_r c * a_r c - h * h) * (2 * linelength l) /\
      exists pa pb, pa <> pb /\ (on_line l pa /\ vw pa = 1 /\ on_circle c pa) /\ (on_line l pb /\ vw pb = 1 /\ on_circle c pb) /\
        (forall p, on_line l p -> on_circle c p -> p = pa \/ p = pb) /\
        ((pb = snd l /\ la_roots l c seg = Ok (Some [sub pa (a_c c)])) \/
         (la_roots l c seg = Ok (Some [sub pa (a_c c); sub pb (a_c c)]))))).
Proof.
  destruct (roots_ok seg) as (D & H1 & H2 & H3 & H4). exists h, D. split; [exact h_is|]. split; [exact H1|]. split; [exact H2|].
  split. { intros p (t & T & ->). exact (H3 t T). }
  fold x r L. destruct H4 as [F | F T | F T | ta tb F T O A B U].
  - left. split; [exact F|reflexivity].
  - right; left. split; [exact F|]. split; [exact T|]. exists (sampleline l t0). split; [exists t0; reflexivity|]. split; [reflexivity|].
    split; [rewrite dist_comm; reflexivity|reflexivity].
  - right; right; left. split; [exact F|]. split; [exact T|reflexivity].
  - right; right; right. split; [exact F|]. split; [exact T|]. exists (sampleline l ta), (sampleline l tb).
    split; [intros E; apply sample_inj in E; lra|].
    split; [split; [exists ta; reflexivity|split; [reflexivity|apply circle_at; exact A]]|].
    split; [split; [exists tb; reflexivity|split; [reflexivity|apply circle_at; exact B]]|].
    split. { intros p [t ->] C. apply circle_at in C. destruct (U t C) as [-> | ->]; auto. }
    destruct (Reqb tb 1) eqn:Q; [left|right; reflexivity]. apply Reqb_true in Q. split; [rewrite Q; apply end_at|reflexivity].
Qed.
End LineArc.
