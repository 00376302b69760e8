(** Small cones and cylinders; resolution from the sagitta; the default chord. *)
From Coq Require Import Reals List Bool ZArith Lra Lia Permutation Arith.
From Verif Require Import Xform_Model Xform_Proofs Fig_Model Fig_Proofs Fig_Proofs2 Solid_Model Solid_Spec Solid_Proofs Solid_Proofs2
  Solid_Proofs3 Solid_Proofs4 Solid_Proofs5 Solid_Proofs6 Solid_Proofs7 Prim_Model Prim_Spec Prim_Lab Prim_Proofs Prim_Proofs2 Prim_Proofs3 Prim_Proofs4 Prim_Proofs5.
Import ListNotations.
Open Scope R_scope.

Lemma mag_le_abs v : mag v <= Rabs (vx v) + Rabs (vy v) + Rabs (vz v).
Proof.
  unfold mag. pose proof (Rabs_pos (vx v)). pose proof (Rabs_pos (vy v)). pose proof (Rabs_pos (vz v)).
  set (s := Rabs (vx v) + Rabs (vy v) + Rabs (vz v)). rewrite <- (sqrt_square s) by (unfold s; lra). apply sqrt_le_1_alt.
  assert (E : forall a, a * a = Rabs a * Rabs a) by (intros a; unfold Rabs; destruct (Rcase_abs a); ring).
  rewrite (E (vx v)), (E (vy v)), (E (vz v)). unfold s. nra.
Qed.
Lemma prod_le a b c d : Rabs a <= c -> Rabs b <= d -> Rabs (a * b) <= c * d.
Proof. intros H1 H2. rewrite Rabs_mult. pose proof (Rabs_pos a). pose proof (Rabs_pos b). apply Rmult_le_compat; auto. Qed.
Lemma diff_le a b c d : Rabs a <= c -> Rabs b <= d -> Rabs (a - b) <= c + d.
Proof. intros H1 H2. unfold Rminus. eapply Rle_trans; [apply Rabs_triang|]. rewrite Rabs_Ropp. lra. Qed.
Lemma tiny_normal p q r u w h : (* p, q at the same height *)
  vz q = vz p -> Rabs (vx q - vx p) <= u -> Rabs (vy q - vy p) <= u -> Rabs (vx r - vx q) <= w -> Rabs (vy r - vy q) <= w -> Rabs (vz r - vz q) <= h ->
  2 * u * h + 2 * u * w < epsilon -> tri2p0n (p, q, r) = Raise EValue.
Proof.
  intros Hz H1 H2 H3 H4 H5 Hs. unfold tri2p0n. rewrite Rltb_t; [reflexivity|].
  eapply Rle_lt_trans; [apply mag_le_abs|]. unfold cross, sub; cbn [vx vy vz]. rewrite Hz in *.
  replace (vz p - vz p) with 0 by ring. rewrite ?Rmult_0_l, ?Rminus_0_r, ?Rminus_0_l, ?Rabs_Ropp.
  pose proof (prod_le _ _ _ _ H2 H5). pose proof (prod_le _ _ _ _ H1 H5).
  pose proof (diff_le _ _ _ _ (prod_le _ _ _ _ H1 H4) (prod_le _ _ _ _ H2 H3)).
  lra.
Qed.
Lemma rim_near c r n i j : 0 <= r -> Rabs (vx (rim_point c r n i) - vx (rim_point c r n j)) <= 2 * r /\ Rabs (vy (rim_point c r n i) - vy (rim_point c r n j)) <= 2 * r.
Proof.
  intros Hr. rewrite !rim_x, !rim_y.
  assert (B : forall x y, -1 <= x <= 1 -> -1 <= y <= 1 -> Rabs (r * x - r * y) <= 2 * r).
  { intros x y Hx Hy. apply Rabs_le. nra. }
  replace (vx c + r * cos (part i n) - (vx c + r * cos (part j n))) with (r * cos (part i n) - r * cos (part j n)) by ring.
  replace (vy c + r * sin (part i n) - (vy c + r * sin (part j n))) with (r * sin (part i n) - r * sin (part j n)) by ring.
  split; apply B; first [apply COS_bound | apply SIN_bound].
Qed.
Lemma conic_tiny_cylinder r h c a n ce mc : sectors a n -> vw c = 1 -> epsilon <= r -> epsilon <= h -> 4 * r * h + 8 * r * r < epsilon ->
  conic r r h c (Some a) ce mc = Raise EValue.
Proof.
  intros Hs Hc Hr Hh Hd. pose proof (sectors_range a n Hs) as Hn. assert (He : 0 < epsilon) by (unfold epsilon; lra).
  unfold conic. cbn [obind]. rewrite !Rltb_f by lra. rewrite (circleSurface_val c r a n false Hs Hc). cbn [obind negb].
  rewrite (circleSurface_val (add c (point 0 0 h)) r a n true Hs eq_refl). cbn [obind disc_surf verts].
  unfold cylinder_side, disc_verts; cbn [tl length]. rewrite map_length, seq_length. replace (S n - 1)%nat with n by lia.
  assert (OM : forall (f : nat -> out vec), f 0%nat = Raise EValue -> omap f (seq 0 n) = Raise EValue).
  { intros f Hf. destruct n as [|k]; [lia|]. cbn [seq omap]. rewrite Hf. reflexivity. }
  fold (side_verts c r r h n). rewrite OM; [reflexivity|]. clear OM. set (k := n) in *. unfold side_verts.
  rewrite (proj1 (at_rim _ _ k ((0 + k - 1) mod k) ltac:(apply Nat.mod_upper_bound; lia))).
  rewrite (proj1 (at_rim _ _ k (1 mod k) ltac:(apply Nat.mod_upper_bound; lia))), (proj2 (at_rim _ _ k 0 ltac:(lia))).
  rewrite (tiny_normal _ _ _ (2 * r) (2 * r) h); [reflexivity| | | | | | |].
  - rewrite !rim_z. reflexivity.
  - apply rim_near. lra.
  - apply rim_near. lra.
  - replace (vx (rim_point (add c (point 0 0 h)) r k 0)) with (vx (rim_point c r k 0)) by (rewrite !rim_x; unfold add, point; cbn [vx]; ring). apply rim_near. lra.
  - replace (vy (rim_point (add c (point 0 0 h)) r k 0)) with (vy (rim_point c r k 0)) by (rewrite !rim_y; unfold add, point; cbn [vy]; ring). apply rim_near. lra.
  - rewrite !rim_z. unfold add, point; cbn [vz]. rewrite Rabs_right; lra.
  - lra.
Qed.
Lemma tri2p0n_raise_cycle p q r : tri2p0n (p, q, r) = Raise EValue -> tri2p0n (r, p, q) = Raise EValue.
Proof.
  unfold tri2p0n. assert (E : cross (sub p r) (sub q p) = cross (sub q p) (sub r q)).
  { unfold cross, sub; cbn [vx vy vz]. apply vec_ext; cbn [vx vy vz vw]; ring. }
  rewrite E. destruct (Rltb _ _); [reflexivity|discriminate].
Qed.
Lemma conic_tiny_cone r h c a n ce mc : sectors a n -> vw c = 1 -> epsilon <= r -> epsilon <= h -> 4 * r * h + 4 * r * r < epsilon ->
  exists base side, conic r 0 h c (Some a) ce mc = Val [base; side] /\ base = disc_surf c r n false /\ faces side = [] /\ issurface side = true.
Proof.
  intros Hs Hc Hr Hh Hd. pose proof (sectors_range a n Hs) as Hn. assert (He : 0 < epsilon) by (unfold epsilon; lra).
  unfold conic. cbn [obind]. rewrite (Rltb_f r), (Rltb_f 0 0), (Rltb_f h), (Rltb_t 0) by lra. rewrite (circleSurface_val c r a n false Hs Hc). cbn [obind negb disc_surf verts].
  unfold cone_side, disc_verts; cbn [tl]. fold (cone_verts c r h n).
  assert (L : length (cone_verts c r h n) = S n) by (unfold cone_verts; cbn [length]; rewrite map_length, seq_length; reflexivity).
  rewrite L. replace (S n - 1)%nat with n by lia.
  assert (N : forall i, (i < n)%nat -> cone_normal (cone_verts c r h n) n (S i) = Raise EValue).
  { intros i Hi. rewrite cone_normal_eq by (auto; lia). rewrite (tri2p0n_raise_cycle (rim_point c r n ((i + n - 1) mod n)) (rim_point c r n (S i mod n)) (add c (point 0 0 h))); [reflexivity|].
    apply (tiny_normal _ _ _ (2 * r) r h).
    - rewrite !rim_z. reflexivity.
    - apply rim_near. lra.
    - apply rim_near. lra.
    - rewrite rim_x. unfold add, point; cbn [vx]. replace (vx c + 0 - (vx c + r * cos (part (S i mod n) n))) with (- (r * cos (part (S i mod n) n))) by ring.
      rewrite Rabs_Ropp. pose proof (COS_bound (part (S i mod n) n)). apply Rabs_le. nra.
    - rewrite rim_y. unfold add, point; cbn [vy]. replace (vy c + 0 - (vy c + r * sin (part (S i mod n) n))) with (- (r * sin (part (S i mod n) n))) by ring.
      rewrite Rabs_Ropp. pose proof (SIN_bound (part (S i mod n) n)). apply Rabs_le. nra.
    - rewrite !rim_z. unfold add, point; cbn [vz]. rewrite Rabs_right; lra.
    - lra. }
  assert (F : filter (fun i => match cone_normal (cone_verts c r h n) n i with Val _ => true | Raise _ => false end) (seq 1 n) = []).
  { rewrite <- seq_shift. assert (G : forall l, (forall i, In i l -> (i < n)%nat) -> filter (fun i => match cone_normal (cone_verts c r h n) n i with Val _ => true | Raise _ => false end) (map S l) = []).
    { induction l as [|i l IH]; intros Hl; [reflexivity|]. cbn [map filter]. rewrite (N i (Hl i (or_introl eq_refl))). apply IH. intros; apply Hl; right; auto. }
    apply G. intros i Hi. apply in_seq in Hi. lia. }
  rewrite F. cbn [map].
  set (ns := mkv 0 0 1 0 :: map (fun i => match cone_normal (cone_verts c r h n) n i with Val m => m | Raise _ => mkv 0 0 1 0 end) (seq 1 n)).
  assert (P2 : length (cone_verts c r h n) = length ns) by (rewrite L; unfold ns; cbn [length]; rewrite map_length, seq_length; reflexivity).
  assert (P3 : forall p, In p (cone_verts c r h n) -> vw p = 1).
  { intros p [<-|Hp]; [reflexivity|]. apply in_map_iff in Hp as (i & <- & _). reflexivity. }
  assert (P4 : forall m, In m ns -> vw m = 0).
  { intros m [<-|Hm]; [reflexivity|]. apply in_map_iff in Hm as (i & <- & Hi). apply in_seq in Hi. destruct i as [|i]; [lia|].
    rewrite N by lia. reflexivity. }
  rewrite mk_surface_ok; auto; [|rewrite L; lia]. cbn [obind].
  eexists. eexists. split; [reflexivity|]. split; [reflexivity|]. split; [reflexivity|]. apply issurface_ok; auto. rewrite L; lia.
Qed.
Lemma NoDup_app_l {A} (l m : list A) : NoDup (l ++ m) -> NoDup l.
Proof.
  induction l as [|a l IH]; intros H; [constructor|]. cbn [app] in H. apply NoDup_cons_iff in H as [H1 H2]. constructor; auto.
  intros X. apply H1. apply in_or_app. auto.
Qed.
(** a lone disc is not closed *)
Lemma counted_le_fun {A} (P : A -> Prop) l n m : counted P l n -> counted P l m -> n = m.
Proof. intros H. revert m. induction H; intros m K; inversion K; subst; auto; try contradiction. Qed.
Lemma disc_open c r n side : (2 < n)%nat -> vw c = 1 -> issurface side = true -> faces side = [] -> epsilon < r * sin (PI / INR n) -> (6 <= n)%nat ->
  volumeof [disc_surf c r n false; side] = Raise EValue.
Proof.
  intros Hn Hc Hs Hf Hr H6. assert (He : 0 < epsilon) by (unfold epsilon; lra).
  assert (IS : issolid [disc_surf c r n false; side] = true) by (unfold issolid; cbn [forallb]; rewrite disc_issurface, Hs by auto; reflexivity).
  set (pos := fpos c r r 1 n).
  assert (T : triangles [disc_surf c r n false; side] (map (at_pos pos) (disc_down false n))).
  { exists [map (at_pos pos) (disc_down false n); []]. split; [|cbn [concat]; rewrite !app_nil_r; reflexivity].
    constructor; [|constructor; [|constructor]].
    - apply (disc_tris pos false c r n); reflexivity.
    - rewrite Hf. constructor. }
  assert (G : forall a, label (disc_down false n) a -> good n a).
  { intros a [b H]. apply in_flat_map in H as (t & Ht & H). apply in_map_iff in Ht as (i & <- & Hi). apply in_rev, in_seq in Hi.
    assert (M : (S i mod n < n)%nat) by (apply mod_lt; lia).
    cbn [lsides In] in H. destruct H as [H|[H|[H|[]]]]; assert (a = _) by (injection H; intros _ X; symmetry; exact X); subst a; cbn [good]; auto; lia. }
  assert (S : forall x y, label (disc_down false n) x -> label (disc_down false n) y -> x = y \/ 2 * epsilon < dist (pos x) (pos y)).
  { intros x y Hx Hy. apply fpos_sep; auto. unfold epsilon; lra. }
  assert (I : forall a b, In (a, b) (lall (disc_down false n)) -> label (disc_down false n) a /\ label (disc_down false n) b).
  { intros a b H. split; [exists b; exact H|]. apply in_flat_map in H as ([[x y] z] & Ht & H). apply lab_sides. exists (x, y, z). split; [exact Ht|].
    cbn [lsides In] in H. destruct H as [H|[H|[H|[]]]]; injection H as <- <-; auto. }
  unfold volumeof. rewrite IS. cbn [negb].
  destruct (issolidclosed [disc_surf c r n false; side]) as [[|]|e] eqn:E; cbn [obind negb].
  2: reflexivity.
  2: { unfold issolidclosed in E. rewrite IS in E. cbn [negb] in E. apply solid_tris_spec in T. rewrite T in E. discriminate. }
  exfalso. apply (closed_iff _ _ IS T) in E; [|apply separated_pos; exact S].
  (* the rim side from point 1 to point 0 occurs once, and never the other way *)
  assert (W : forall a b, In (a, b) (lall (disc_down false n)) -> In (b, a) (lall (disc_down false n))).
  { intros a b Hab. specialize (E (pos a) (pos b)). rewrite sides_pos in E.
    assert (X : In (pos a, pos b) (map (side_pos pos) (lall (disc_down false n)))) by (apply in_map_iff; exists (a, b); auto).
    specialize (E X). clear X.
    assert (Q : forall l, incl l (lall (disc_down false n)) -> NoDup l -> ~ In (b, a) l -> forall k, counted (joins (pos a) (pos b)) (map (side_pos pos) l) k -> (k <= 1)%nat).
    { induction l as [|[x y] l IH]; intros Hl Nd Nb k K; [inversion K; lia|]. cbn [map] in K. apply NoDup_cons_iff in Nd as [N1 N2].
      assert (Hl' : incl l (lall (disc_down false n))) by (intros z Hz; apply Hl; right; exact Hz).
      assert (Nb' : ~ In (b, a) l) by (intros Z; apply Nb; right; exact Z).
      destruct (I a b Hab) as [La Lb]. destruct (I x y (Hl _ (or_introl eq_refl))) as [Lx Ly].
      inversion K as [|p l' k' P1 P2|p l' k' P1 P2]; subst; [|eauto].
      assert (x = a /\ y = b) as [-> ->].
      { unfold side_pos in P1; cbn [fst snd] in P1. destruct P1 as [P1|P1]; injection P1 as Q1 Q2;
          apply (sep_inj pos _ S) in Q1; auto; apply (sep_inj pos _ S) in Q2; auto; subst; auto.
        exfalso. apply Nb. left. reflexivity. }
      (* no further occurrence *)
      assert (Z : forall l, incl l (lall (disc_down false n)) -> ~ In (a, b) l -> ~ In (b, a) l -> forall k, counted (joins (pos a) (pos b)) (map (side_pos pos) l) k -> k = 0%nat).
      { clear - S I La Lb. induction l as [|[x y] l IH]; intros Hl Na Nb k K; [inversion K; auto|]. cbn [map] in K.
        destruct (I x y (Hl _ (or_introl eq_refl))) as [Lx Ly].
        inversion K as [|p l' k' P1 P2|p l' k' P1 P2]; subst; [|apply IH; auto; [intros z Hz; apply Hl; right; exact Hz|intros z; apply Na; right; exact z|intros z; apply Nb; right; exact z]].
        exfalso. unfold side_pos in P1; cbn [fst snd] in P1. destruct P1 as [P1|P1]; injection P1 as Q1 Q2;
          apply (sep_inj pos _ S) in Q1; auto; apply (sep_inj pos _ S) in Q2; auto; subst; [apply Na|apply Nb]; left; reflexivity. }
      apply (Z l Hl' N1 Nb') in P2. subst. lia. }
    destruct (in_dec labs_eq (b, a) (lall (disc_down false n))) as [Y|Y]; [exact Y|]. exfalso.
    assert (ND : NoDup (lall (disc_down false n))).
    { pose proof (full_cone_nodup n Hn) as H. unfold full_cone in H. rewrite lall_app in H.
      apply NoDup_app_l in H. exact H. }
    specialize (Q _ (incl_refl _) ND Y 2%nat E). lia. }
  assert (H10 : In (LR false 1, LR false 0) (lall (disc_down false n))).
  { apply in_flat_map. exists (LC false, LR false (1 mod n), LR false 0). split.
    - apply in_map_iff. exists 0%nat. split; [reflexivity|]. apply in_rev. rewrite rev_involutive. apply in_seq. lia.
    - rewrite Nat.mod_small by lia. right; left; reflexivity. }
  apply W in H10. apply in_flat_map in H10 as (t & Ht & H). apply in_map_iff in Ht as (i & <- & Hi). apply in_rev, in_seq in Hi.
  cbn [lsides In] in H. destruct H as [H|[H|[H|[]]]]; try discriminate. injection H as H1 H2. subst i.
  rewrite Nat.mod_small in H1 by lia. discriminate.
Qed.

(** the sagitta (legacy) mode *)
Lemma arc_segments_sagitta r e : 0 < r -> 0 < e ->
  exists n, adaptive_arc_segments r (Some e) None = Val n /\ (16 <= n <= 360)%Z /\ (n = 360%Z \/ r * (1 - cos (PI / IZR n)) <= e).
Proof.
  intros Hr He. unfold adaptive_arc_segments. rewrite !Rleb_f by auto. cbv zeta.
  set (q := Rmin (e / r) (999999 / 1000000)). assert (Q0 : 0 < q) by (unfold q; apply Rmin_glb_lt; [apply Rdiv_lt_0_compat; auto|lra]).
  assert (Q1 : q <= 999999 / 1000000) by apply Rmin_r. assert (Q2 : q <= e / r) by apply Rmin_l. clearbody q.
  eexists. split; [reflexivity|]. split; [unfold clamp_segments; lia|]. pose proof PI_RGT_0 as HP.
  pose proof (acos_bound (1 - q)) as AB. assert (AC : cos (acos (1 - q)) = 1 - q) by (apply cos_acos; lra).
  set (t := acos (1 - q)) in *. assert (T0 : 0 < t). { destruct (Req_dec t 0) as [Z|]; [|lra]. rewrite Z, cos_0 in AC. lra. }
  set (k := ceil (2 * PI / (2 * t))). pose proof (ceil_spec (2 * PI / (2 * t))) as K. fold k in K.
  destruct (Z_le_gt_dec 360 k) as [G|G]; [left; unfold clamp_segments; lia|right].
  assert (M : IZR k <= IZR (clamp_segments k)) by (apply IZR_le; unfold clamp_segments; lia).
  set (m := IZR (clamp_segments k)) in *. replace (2 * PI / (2 * t)) with (PI / t) in K by (field; lra).
  assert (K0 : 0 < PI / t) by (apply Rdiv_lt_0_compat; auto).
  assert (Q : PI / m <= t).
  { apply Rmult_le_reg_r with m; [lra|]. replace (PI / m * m) with PI by (field; lra).
    apply Rmult_le_reg_r with (/ t); [apply Rinv_0_lt_compat; auto|]. replace (t * m * / t) with m by (field; lra). unfold Rdiv in *. lra. }
  assert (P0 : 0 < PI / m) by (apply Rdiv_lt_0_compat; lra).
  assert (C : 1 - q <= cos (PI / m)).
  { rewrite <- AC. apply cos_decr_1; lra. }
  apply Rle_trans with (r * q); [apply Rmult_le_compat_l; lra|].
  apply Rmult_le_reg_r with (/ r); [apply Rinv_0_lt_compat; auto|]. replace (r * q * / r) with q by (field; lra). exact Q2.
Qed.
Lemma default_chord_range r : 0 < r -> 1 / 10 <= default_chord r <= 1.
Proof.
  intros Hr. unfold default_chord. destruct (Rleb 50 r) eqn:E1; [lra|]. destruct (Rleb r (5 / 2)) eqn:E2; [lra|].
  assert (L1 : r < 50). { unfold Rleb in E1. destruct (Rle_dec 50 r); [discriminate|lra]. }
  assert (L2 : 5 / 2 < r). { unfold Rleb in E2. destruct (Rle_dec r (5 / 2)); [discriminate|lra]. }
  cbv zeta. pose proof (ln_increasing (5 / 2) r ltac:(lra) L2) as N1. pose proof (ln_increasing r 50 ltac:(lra) L1) as N2.
  set (t := (ln r - ln (5 / 2)) / (ln 50 - ln (5 / 2))).
  assert (T0 : 0 <= t) by (left; apply Rdiv_lt_0_compat; lra).
  assert (T1 : t <= 1).
  { unfold t. apply Rmult_le_reg_r with (ln 50 - ln (5 / 2)); [lra|].
    replace ((ln r - ln (5 / 2)) / (ln 50 - ln (5 / 2)) * (ln 50 - ln (5 / 2))) with (ln r - ln (5 / 2)) by (field; lra). lra. }
  pose proof (Rle_Rpower 10 0 t ltac:(lra) T0) as P0. pose proof (Rle_Rpower 10 t 1 ltac:(lra) T1) as P1.
  rewrite Rpower_O in P0 by lra. rewrite Rpower_1 in P1 by lra. lra.
Qed.
