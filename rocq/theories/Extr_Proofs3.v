(** The direction of the loops. *)
From Coq Require Import Reals List Bool ZArith Lra Lia Permutation Arith.
From Verif Require Import Xform_Model Xform_Proofs Fig_Model Fig_Proofs Solid_Model Solid_Spec Solid_Proofs Solid_Proofs6 Prim_Model Prim_Lab Extr_Model Extr_Spec Extr_Proofs.
Import ListNotations.
Open Scope R_scope.

Lemma round_telescope {A} (h : A -> R) l : Rsum (fun e => h (fst e) - h (snd e)) (round l) = 0.
Proof.
  rewrite (Rsum_ext _ (fun e => h (fst e) + -1 * h (snd e))) by (intros; ring).
  rewrite Rsum_plus, Rsum_scal.
  rewrite <- (Rsum_map h fst), <- (Rsum_map h snd). rewrite round_fst, (Rsum_perm _ _ _ (round_snd l)). ring.
Qed.
Lemma area_rev n ps : area_along n (rev ps) = - area_along n ps.
Proof.
  unfold area_along. rewrite (Rsum_perm _ _ _ (round_rev ps)), Rsum_map.
  rewrite (Rsum_ext _ (fun e => -1 * dot3 n (edge_normal (fst e) (snd e)))).
  - rewrite Rsum_scal. field.
  - intros [a b] _. unfold dot3, edge_normal; cbn [fst snd vx vy vz]. ring.
Qed.
Lemma area_scale k n m ps : vx n = k * vx m -> vy n = k * vy m -> vz n = k * vz m -> area_along n ps = k * area_along m ps.
Proof.
  intros Hx Hy Hz. unfold area_along.
  rewrite (Rsum_ext _ (fun e => k * dot3 m (edge_normal (fst e) (snd e)))).
  - rewrite Rsum_scal. field.
  - intros e _. unfold dot3. rewrite Hx, Hy, Hz. ring.
Qed.
Lemma fold_shoelace proj es a : fold_left (shoelace proj) es a =
  a + Rsum (fun e => fst (proj (fst e)) * snd (proj (snd e)) - fst (proj (snd e)) * snd (proj (fst e))) es.
Proof.
  revert a. induction es as [|e es IH]; intros a; cbn [fold_left Rsum]; [ring|]. rewrite IH.
  unfold shoelace. destruct (proj (fst e)), (proj (snd e)). cbn [fst snd]. ring.
Qed.
Lemma frame_area x n u v : dot x x = 1 -> dot x n = 0 ->
  dot x u * dot (scale3 (cross x n) (-1)) v - dot x v * dot (scale3 (cross x n) (-1)) u = dot3 n (edge_normal u v).
Proof.
  intros H1 H2. unfold dot, dot3, edge_normal, scale3, cross in *. cbn [vx vy vz] in *.
  destruct x as [x1 x2 x3 x4], n as [n1 n2 n3 n4], u as [u1 u2 u3 u4], v as [v1 v2 v3 v4]; cbn [vx vy vz] in *.
  set (d := u2 * v3 - u3 * v2) in *. set (e := u3 * v1 - u1 * v3). set (f := u1 * v2 - u2 * v1).
  transitivity ((x1*x1 + x2*x2 + x3*x3) * (n1 * d + n2 * e + n3 * f) - (x1*n1 + x2*n2 + x3*n3) * (x1 * d + x2 * e + x3 * f)).
  - unfold d, e, f. ring.
  - rewrite H1, H2. ring.
Qed.
Lemma project_area s n : w_one s -> first_normal s n -> exists m k, 0 < k /\ vx n = k * vx m /\ vy n = k * vy m /\ vz n = k * vz m /\
  forall ps, (forall p, In p ps -> vw p = 1) ->
    fold_left (shoelace (extrude_project s)) (round ps) 0 / 2 = area_along m ps.
Proof.
  intros W (f & rest & p & q & r & Ef & Hc & (k & Hk & Kx & Ky & Kz) & Hm). apply corner_points_spec in Hc.
  assert (E : mag (edge_normal (sub q p) (sub r p)) = mag (cross (sub q p) (sub r p))) by reflexivity. rewrite E in Hm.
  destruct (basis_defined p q r Hm) as [[[[p0 m] fwd] inv] Hb]. exists m.
  destruct (basis_form _ _ _ _ _ Hb) as (x & H0 & Hxx & Hxn & Hnn & Hw & Hf & _ & _ & _).
  pose proof (tri2p0n_inv _ _ _ H0) as HI. cbv zeta in HI. destruct HI as (_ & _ & Em). set (c := cross (sub q p) (sub r p)) in *.
  pose proof eps_pos as He. assert (Hc0 : 0 < mag c) by lra.
  exists (k * mag c). split; [apply Rmult_lt_0_compat; auto|].
  assert (S : forall a, k * mag c * (a / mag c) = k * a) by (intros; field; lra).
  split; [rewrite Kx, Em; cbn [vx]; rewrite S; reflexivity|]. split; [rewrite Ky, Em; cbn [vy]; rewrite S; reflexivity|].
  split; [rewrite Kz, Em; cbn [vz]; rewrite S; reflexivity|].
  intros ps Hps. rewrite fold_shoelace. unfold extrude_project. rewrite Ef, Hc. cbn [obind]. rewrite Hb.
  unfold area_along. f_equal. rewrite Rplus_0_l.
  rewrite (Rsum_ext _ (fun e => dot3 m (edge_normal (fst e) (snd e)) + (dot3 m (edge_normal p0 (fst e)) - dot3 m (edge_normal p0 (snd e))))).
  - rewrite Rsum_plus. pose proof (round_telescope (fun a => dot3 m (edge_normal p0 a)) ps) as T. cbv beta in T. rewrite T. ring.
  - intros [a b] H. apply round_in in H as [Ha Hb']. cbn [fst snd]. rewrite (Hf a), (Hf b) by auto. unfold local; cbn [vx vy].
    rewrite (frame_area x m (sub a p0) (sub b p0) Hxx Hxn). unfold dot3, edge_normal, sub; cbn [vx vy vz]. ring.
Qed.

(** ** looking up vertices of the two copies *)
Definition pos (V : list vec) (k : Z) : vec := nth (Z.to_nat k) V origin.
Lemma pos_get V k : (0 <= k < Z.of_nat (length V))%Z -> pyget V k = Val (pos V k).
Proof.
  intros H. apply pyget_at. exists (Z.to_nat k). split; [|left; lia]. unfold pos. apply nth_error_nth'. lia.
Qed.
Lemma pos_at V k : (0 <= k < Z.of_nat (length V))%Z -> at_index V k (pos V k).
Proof. intros H. apply pyget_at, pos_get, H. Qed.
Lemma at_pos_eq V k p : (0 <= k < Z.of_nat (length V))%Z -> at_index V k p -> p = pos V k.
Proof. intros H A. eapply at_index_fun; [exact A|apply pos_at, H]. Qed.
Lemma pos_low V W k : (0 <= k < Z.of_nat (length V))%Z -> pos (V ++ W) k = pos V k.
Proof. intros H. unfold pos. apply app_nth1. lia. Qed.
Lemma pos_high V (f : vec -> vec) k : (0 <= k < Z.of_nat (length V))%Z -> pos (V ++ map f V) (k + Z.of_nat (length V)) = f (pos V k).
Proof.
  intros H. unfold pos. rewrite app_nth2 by lia. replace (Z.to_nat (k + Z.of_nat (length V)) - length V)%nat with (Z.to_nat k) by lia.
  rewrite (nth_indep _ _ (f origin)) by (rewrite map_length; lia). apply map_nth.
Qed.
Lemma located_pos s l ps : (forall i, In i l -> (0 <= i < Z.of_nat (length (verts s)))%Z) -> located s l ps -> ps = map (pos (verts s)) l.
Proof.
  unfold located. intros H F. induction F as [|i p l ps Hi F IH]; [reflexivity|]. cbn [map]. f_equal.
  - apply at_pos_eq; auto. apply H; left; reflexivity.
  - apply IH. intros j Hj. apply H; right; exact Hj.
Qed.
Lemma omap_pos V W l : (forall i, In i l -> (0 <= i < Z.of_nat (length V))%Z) -> omap (pyget (V ++ W)) l = Val (map (pos V) l).
Proof.
  intros H. apply omap_val. induction l as [|i l IH]; [constructor|]. cbn [map]. constructor; [|apply IH; intros; apply H; right; auto].
  assert (B := H i (or_introl eq_refl)). rewrite pos_get by (rewrite app_length; lia). rewrite pos_low by exact B. reflexivity.
Qed.
Lemma loop_area_val s W l : w_one s -> (3 <= length l)%nat -> (forall i, In i l -> (0 <= i < Z.of_nat (length (verts s)))%Z) ->
  loop_area (verts s ++ W) (extrude_project s) l = Val (fold_left (shoelace (extrude_project s)) (round (map (pos (verts s)) l)) 0 / 2).
Proof.
  intros Hw H3 H. unfold loop_area. replace (Nat.ltb (length l) 3) with false by (symmetry; apply Nat.ltb_ge; exact H3).
  rewrite omap_pos by exact H. reflexivity.
Qed.
Lemma pos_w s i : w_one s -> (0 <= i < Z.of_nat (length (verts s)))%Z -> vw (pos (verts s) i) = 1.
Proof. intros W H. apply W. eapply at_index_in. apply pos_at. exact H. Qed.

Lemma orient_val s n W outer hs : w_one s -> first_normal s n ->
  (forall l i, In l (outer :: hs) -> In i l -> (0 <= i < Z.of_nat (length (verts s)))%Z) ->
  (forall l, In l (outer :: hs) -> (3 <= length l)%nat) ->
  either_way (bnd s) outer -> Forall2 either_way (holes s) hs ->
  counterclockwise s n outer -> Forall (clockwise s n) hs ->
  orient_loops (verts s ++ W) (extrude_project s) (extrude_loops s) = Val (outer :: hs).
Proof.
  intros Hw Hn Hr H3 Eo Eh Co Ch. destruct (project_area s n Hw Hn) as (m & k & Hk & Kx & Ky & Kz & PA).
  assert (AR : forall l, In l (outer :: hs) -> forall st, either_way st l ->
     loop_area (verts s ++ W) (extrude_project s) st = Val (area_along m (map (pos (verts s)) st)) /\
     (st = rev l -> area_along m (map (pos (verts s)) st) = - area_along m (map (pos (verts s)) l))).
  { intros l Hl st E. assert (I : forall i, In i st -> In i l).
    { intros i Hi. destruct E as [->| ->]; [exact Hi|apply in_rev; exact Hi]. }
    split.
    - rewrite loop_area_val; auto.
      + rewrite PA; [reflexivity|]. intros p Hp. apply in_map_iff in Hp as (i & <- & Hi). apply pos_w; auto. eapply Hr; eauto.
      + replace (length st) with (length l); [auto|]. destruct E as [->| ->]; [|rewrite rev_length]; reflexivity.
      + intros i Hi. eapply Hr; eauto.
    - intros ->. rewrite map_rev, area_rev. reflexivity. }
  assert (LO : extrude_loops s = bnd s :: holes s).
  { assert (NE : forall st l, either_way st l -> (3 <= length l)%nat -> nonempty st = true).
    { intros st l E L. destruct st; [|reflexivity]. destruct E as [E|E]; [subst l; cbn in L; lia|].
      apply (f_equal (@length Z)) in E. rewrite rev_length in E. cbn in E. lia. }
    unfold extrude_loops. rewrite (NE (bnd s) outer Eo) by (apply H3; left; reflexivity). cbn [app]. f_equal.
    assert (H3' : forall l, In l hs -> (3 <= length l)%nat) by (intros; apply H3; right; auto).
    clear - Eh H3' NE. induction Eh as [|st l sts ls E F IH]; [reflexivity|]. cbn [filter].
    rewrite (NE st l E) by (apply H3'; left; reflexivity). f_equal. apply IH. intros; apply H3'; right; auto. }
  rewrite LO. unfold orient_loops.
  assert (SG : forall l ps, In l (outer :: hs) -> located s l ps -> area_along n ps = k * area_along m (map (pos (verts s)) l)).
  { intros l ps Hl Hp. rewrite (located_pos s l ps) by eauto. apply area_scale; auto. }
  destruct (AR outer (or_introl eq_refl) (bnd s) Eo) as [A1 A2]. rewrite A1. cbn [obind].
  assert (HH : omap (fun l => obind (loop_area (verts s ++ W) (extrude_project s) l) (fun b => Val (if Rltb 0 (b * 1) then rev l else l))) (holes s) = Val hs).
  { apply omap_val. assert (AR' : forall l, In l hs -> forall st, either_way st l ->
       loop_area (verts s ++ W) (extrude_project s) st = Val (area_along m (map (pos (verts s)) st)) /\
       (st = rev l -> area_along m (map (pos (verts s)) st) = - area_along m (map (pos (verts s)) l))) by (intros; apply AR; auto; right; auto).
    assert (SG' : forall l ps, In l hs -> located s l ps -> area_along n ps = k * area_along m (map (pos (verts s)) l)) by (intros; apply SG; auto; right; auto).
    clear - Eh Ch AR' SG' Hk. induction Eh as [|st l sts ls E F IH]; [constructor|]. inversion Ch as [|? ? C1 C2]; subst. constructor.
    - destruct (AR' l (or_introl eq_refl) st E) as [B1 B2]. rewrite B1. cbn [obind]. f_equal.
      destruct C1 as (ps & Hp & Hneg). rewrite (SG' l ps (or_introl eq_refl) Hp) in Hneg.
      assert (N : area_along m (map (pos (verts s)) l) < 0) by nra.
      destruct (Rltb 0 (area_along m (map (pos (verts s)) st) * 1)) eqn:R.
      + apply Rltb_true in R. destruct E as [->|E']; [lra|]. rewrite E'. apply rev_involutive.
      + apply Rltb_false in R. destruct E as [->|E']; [reflexivity|]. rewrite (B2 E') in R. lra.
    - apply IH; auto; intros; [apply AR'|apply SG']; auto; right; auto. }
  rewrite HH. cbn [obind]. do 2 f_equal. destruct Co as (ps & Hp & Hpos).
  rewrite (SG outer ps (or_introl eq_refl) Hp) in Hpos.
  assert (N : 0 < area_along m (map (pos (verts s)) outer)) by (apply (Rmult_lt_reg_l k); lra).
  destruct (Rltb (area_along m (map (pos (verts s)) (bnd s))) 0) eqn:R.
  - apply Rltb_true in R. destruct Eo as [E|E]; [rewrite E in R; lra|]. rewrite E. apply rev_involutive.
  - apply Rltb_false in R. destruct Eo as [E|E]; [exact E|]. rewrite (A2 E) in R. lra.
Qed.
