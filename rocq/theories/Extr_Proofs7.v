(** An extrusion without walls; lofts. *)
From Coq Require Import Reals List Bool ZArith Lra Lia Permutation Arith.
From Verif Require Import Xform_Model Xform_Proofs Fig_Model Fig_Proofs Solid_Model Solid_Spec Solid_Proofs Solid_Proofs2 Solid_Proofs3 Solid_Proofs5 Solid_Proofs6
  Prim_Model Prim_Lab Extr_Model Extr_Spec Extr_Proofs Extr_Proofs2 Extr_Proofs3 Extr_Proofs4 Extr_Proofs5 Extr_Proofs6.
Import ListNotations.
Open Scope R_scope.

(** ** a cube of side 1/1000 extruded from a square *)
Definition tiny : surf :=
  let n := mkv 0 0 1 0 in
  mksurf [mkv (-(1/2000)) (-(1/2000)) 0 1; mkv (1/2000) (-(1/2000)) 0 1; mkv (1/2000) (1/2000) 0 1; mkv (-(1/2000)) (1/2000) 0 1]
    [n; n; n; n] [(0, 1, 2); (2, 3, 0)]%Z [0; 1; 2; 3]%Z [].
Lemma tiny_plane : rectangularPlane (1/1000) (1/1000) (point 0 0 0) = Val tiny.
Proof.
  unfold rectangularPlane, mk_surface. cbn [length Nat.eqb andb].
  match goal with |- obind (if ?b then _ else _) _ = _ => replace b with true end.
  - cbn [obind]. unfold tiny, with_bnd, add, scale3, point; cbn [vx vy vz vw verts norms faces]. f_equal.
    assert (E : forall p0 p1 p2 p3 q0 q1 q2 q3 ns fs b h, p0 = q0 -> p1 = q1 -> p2 = q2 -> p3 = q3 ->
      mksurf [p0; p1; p2; p3] ns fs b h = mksurf [q0; q1; q2; q3] ns fs b h) by (intros; subst; reflexivity).
    apply E; apply mkv_eq; lra.
  - symmetry. apply issurface_parts. cbn [verts norms length]. split; [lia|]. split; [|split; [|reflexivity]].
    + repeat constructor; cbn; lra.
    + repeat constructor; cbn; apply close_true; rewrite Rminus_0_r, Rabs_R0; apply eps_pos.
Qed.
Lemma mag_small v x : 0 < x -> vx v * vx v + vy v * vy v + vz v * vz v < x * x -> mag v < x.
Proof. intros Hx H. unfold mag. rewrite <- (sqrt_square x) by lra. apply sqrt_lt_1_alt. split; [nra|exact H]. Qed.
Lemma wall_skip V off st j0 j1 j2 p0 p1 p2 : pyget V j0 = Val p0 -> pyget V j2 = Val p1 -> pyget V (j2 + off) = Val p2 ->
  mag (cross (sub p1 p0) (sub p2 p1)) < epsilon -> wall V off st (j0, j1, j2) = Val st.
Proof.
  intros H0 H1 H2 Hm. unfold wall. destruct st as [ns fs]. rewrite H0, H1, H2. cbn [obind]. unfold tri2p0n.
  replace (Rltb (mag (cross (sub p1 p0) (sub p2 p1))) epsilon) with true by (symmetry; apply Rltb_true; exact Hm). reflexivity.
Qed.
Lemma tiny_extrude : extrude tiny (1/1000) (mkv 0 0 1 0) =
  Val [reversesurface tiny; mksurf [] [] [] [] []; translatesurface tiny (scale4 (mkv 0 0 1 0) (1/1000))].
Proof.
  unfold extrude. cbv zeta. replace (Rleb (1/1000) epsilon) with false by (symmetry; apply Rleb_f; unfold epsilon; lra).
  assert (TS : translatesurface tiny (scale4 (mkv 0 0 1 0) (1/1000)) = shifted (scaled (1/1000) (mkv 0 0 1 0)) tiny).
  { apply translate_shifted. unfold mag, scaled; cbn [vx vy vz]. replace (1/1000*0*(1/1000*0) + 1/1000*0*(1/1000*0) + 1/1000*1*(1/1000*1)) with ((1/1000)*(1/1000)) by ring.
    rewrite sqrt_square by lra. unfold epsilon. lra. }
  rewrite TS. set (t := scaled (1/1000) (mkv 0 0 1 0)).
  assert (PJ : extrude_project tiny = fun p => (vx p, vy p)).
  { unfold extrude_project. cbn [tiny faces]. 
    replace (corner_points tiny (0, 1, 2)%Z) with (Val (mkv (-(1/2000)) (-(1/2000)) 0 1, mkv (1/2000) (-(1/2000)) 0 1, mkv (1/2000) (1/2000) 0 1)) by reflexivity.
    cbn [obind]. unfold tri2p0n_basis, tri2p0n.
    match goal with |- context [Rltb ?m epsilon] => replace (Rltb m epsilon) with true end; [reflexivity|].
    symmetry. apply Rltb_true. apply mag_small; [apply eps_pos|]. unfold cross, sub, epsilon; cbn [vx vy vz]. lra. }
  rewrite PJ. change (verts (reversesurface tiny)) with (verts tiny). change (verts (shifted t tiny)) with (map (moved t) (verts tiny)).
  change (length (verts tiny)) with 4%nat. change (Z.of_nat 4) with 4%Z.
  set (V := verts tiny ++ map (moved t) (verts tiny)). set (N := map _ V).
  assert (OL : orient_loops V (fun p => (vx p, vy p)) (extrude_loops tiny) = Val [[0; 1; 2; 3]%Z]).
  { unfold orient_loops. change (extrude_loops tiny) with [[0; 1; 2; 3]%Z].
    assert (LA : loop_area V (fun p => (vx p, vy p)) [0; 1; 2; 3]%Z = Val (fold_left (shoelace (fun p => (vx p, vy p))) (loop_pairs (verts tiny)) 0 / 2)) by reflexivity.
    cbv beta iota. rewrite LA. cbn [obind omap]. replace (Rltb _ 0) with false; [reflexivity|]. symmetry. apply Rltb_false.
    cbn [tiny verts loop_pairs app combine fold_left shoelace fst snd vx vy]. lra. }
  rewrite OL. cbn [obind]. 
  change (flat_map loop_triples (filter long_loop [[0; 1; 2; 3]%Z])) with [(3, 0, 1); (0, 1, 2); (1, 2, 3); (2, 3, 0)]%Z.
  assert (WK : forall x st, In x [(3, 0, 1); (0, 1, 2); (1, 2, 3); (2, 3, 0)]%Z -> wall V 4 st x = Val st).
  { intros x st H. assert (ME : forall a b : R, -(1/1000) <= a <= 1/1000 -> -(1/1000) <= b <= 1/1000 -> forall v, v = mkv (b * (1/1000)) (a * (1/1000)) 0 1 -> mag v < epsilon).
    { intros a b Ha Hb v ->. apply mag_small; [apply eps_pos|]. cbn [vx vy vz]. unfold epsilon. nra. }
    destruct H as [<-|[<-|[<-|[<-|[]]]]];
      (eapply wall_skip; [reflexivity|reflexivity|reflexivity|]).
    - apply (ME (-(1/1000)) (-(1/1000))); try lra. unfold cross, sub, moved, t, scaled; cbn [vx vy vz]. apply mkv_eq; lra.
    - apply (ME (-(1/1000)) (1/1000)); try lra. unfold cross, sub, moved, t, scaled; cbn [vx vy vz]. apply mkv_eq; lra.
    - apply (ME (1/1000) (1/1000)); try lra. unfold cross, sub, moved, t, scaled; cbn [vx vy vz]. apply mkv_eq; lra.
    - apply (ME (1/1000) (-(1/1000))); try lra. unfold cross, sub, moved, t, scaled; cbn [vx vy vz]. apply mkv_eq; lra. }
  cbn [walls]. rewrite WK by (left; reflexivity). cbn [obind]. rewrite WK by (right; left; reflexivity). cbn [obind].
  rewrite WK by (do 2 right; left; reflexivity). cbn [obind]. rewrite WK by (do 3 right; left; reflexivity). reflexivity.
Qed.

(** ** lofts *)
Lemma dedupe_id last l : (match last, l with Some c, p :: _ => epsilon < mag (sub p c) | _, _ => True end) -> gaps l -> dedupe last l = l.
Proof.
  revert last. induction l as [|p l IH]; intros last H G; [reflexivity|]. cbn [dedupe].
  assert (Ep : mkv (vx p) (vy p) (vz p) (vw p) = p) by (destruct p; reflexivity). rewrite Ep.
  assert (R : dedupe (Some p) l = l).
  { apply IH; [destruct l as [|q l]; [exact I|]; apply (G 0%nat p q); reflexivity|]. intros i a b Ha Hb. apply (G (S i) a b); auto. }
  destruct last as [c|]; [|rewrite R; reflexivity]. replace (Rltb epsilon (mag (sub p c))) with true by (symmetry; apply Rltb_true; exact H).
  rewrite R. reflexivity.
Qed.
Section Loft.
  Variables (lower upper : list vec).
  Hypothesis HLen : length lower = length upper.
  Let n := length lower.
  Let N := Z.of_nat n.
  Let V := lower ++ upper.
  Hypothesis H3 : (3 <= n)%nat.
  Hypothesis HG : ribbed lower upper.
  Definition step_side (i : nat) : Z * Z := (Z.of_nat i, Z.of_nat (S i mod n)).
  Definition lsides_ring : list (Z * Z) := map step_side (seq 0 n).
  Definition inv_face (b : bool) (f : face) : face := if b then rev_face f else f.
  Definition loft_faces (b : bool) : list face := map (inv_face b) (flat_map (wall_faces N) lsides_ring).

  Lemma nth_pos (l : list vec) i : (i < length l)%nat -> nth_error l i = Some (nth i l origin).
  Proof. apply nth_error_nth'. Qed.
  Lemma round_at (l : list vec) i : (i < length l)%nat -> nth_error (round l) i = Some (nth i l origin, nth (S i mod length l) l origin).
  Proof.
    intros Hi. destruct (nth_error (round l) i) as [[x y]|] eqn:E.
    - apply round_nth in E as (_ & A & B). rewrite (nth_pos l i Hi) in A. rewrite nth_pos in B by (apply Nat.mod_upper_bound; lia). congruence.
    - apply nth_error_None in E. rewrite round_length in E. lia.
  Qed.
  Lemma pos_lower i : (i < n)%nat -> pos V (Z.of_nat i) = nth i lower origin.
  Proof. intros H. unfold pos, V. rewrite Nat2Z.id. apply app_nth1. exact H. Qed.
  Lemma pos_upper i : (i < n)%nat -> pos V (Z.of_nat i + N) = nth i upper origin.
  Proof.
    intros H. unfold pos, V, N. rewrite app_nth2 by (fold n; lia). f_equal. fold n. lia.
  Qed.
  Lemma V_len : Z.of_nat (length V) = (N + N)%Z.
  Proof. unfold V, N, n. rewrite app_length, <- HLen. lia. Qed.
  Lemma loft_ok inv ns fs i : (i < n)%nat -> Forall (fun m => vw m = 0 /\ dot3 m m = 1) ns -> exists ns',
    loft_step V n inv (ns, fs) i = Val (ns', fs ++ map (inv_face inv) (wall_faces N (step_side i))) /\
    length ns' = length ns /\ Forall (fun m => vw m = 0 /\ dot3 m m = 1) ns'.
  Proof.
    intros Hi Fn. unfold loft_step. set (i' := (S i mod n)%nat). assert (Hi' : (i' < n)%nat) by (apply Nat.mod_upper_bound; lia).
    pose proof V_len as LV.
    replace (Z.of_nat (i' + n)) with (Z.of_nat i' + N)%Z by (unfold N; lia). replace (Z.of_nat (i + n)) with (Z.of_nat i + N)%Z by (unfold N; lia).
    set (p := nth i lower origin). set (q := nth i' lower origin). set (r := nth i' upper origin).
    assert (Hm : epsilon <= mag (cross (sub q p) (sub r q))).
    { change (mag (cross (sub q p) (sub r q))) with (mag (edge_normal (sub q p) (sub r q))). apply (HG i p q (nth i upper origin) r).
      - apply (round_at lower i Hi).
      - rewrite (round_at upper i) by (rewrite <- HLen; exact Hi). rewrite <- HLen. reflexivity. }
    assert (CP : corner_points (mksurf V [] [] [] []) (Z.of_nat i, Z.of_nat i', Z.of_nat i' + N)%Z = Val (p, q, r)).
    { unfold corner_points; cbn [verts]. rewrite !pos_get by lia. cbn [obind]. rewrite !pos_lower, pos_upper by auto. reflexivity. }
    assert (CR : corner_points (mksurf V [] [] [] []) (Z.of_nat i' + N, Z.of_nat i', Z.of_nat i)%Z = Val (r, q, p)).
    { unfold corner_points; cbn [verts]. rewrite !pos_get by lia. cbn [obind]. rewrite !pos_lower, pos_upper by auto. reflexivity. }
    assert (UN : forall c m, m = direction (scale3 c (1 / mag c)) -> 0 < mag c -> vw m = 0 /\ dot3 m m = 1).
    { intros c m -> Hc. split; [reflexivity|]. unfold direction, scale3, dot3; cbn [vx vy vz]. pose proof (mag_sqr c) as Q.
      replace (vx c * (1 / mag c) * (vx c * (1 / mag c)) + vy c * (1 / mag c) * (vy c * (1 / mag c)) + vz c * (1 / mag c) * (vz c * (1 / mag c)))
        with ((vx c * vx c + vy c * vy c + vz c * vz c) / (mag c * mag c)) by (field; lra).
      rewrite <- Q. field. lra. }
    pose proof eps_pos as He.
    assert (TN : exists c, 0 < mag c /\ exists p0, obind (corner_points (mksurf V [] [] [] []) (inv_face inv (Z.of_nat i, Z.of_nat i', Z.of_nat i' + N)%Z)) tri2p0n
        = Val (p0, direction (scale3 c (1 / mag c)))).
    { destruct inv; cbn [inv_face rev_face].
      - rewrite CR. cbn [obind]. exists (cross (sub q r) (sub p q)).
        assert (M : mag (cross (sub q r) (sub p q)) = mag (cross (sub q p) (sub r q))).
        { unfold mag, cross, sub; cbn [vx vy vz]. f_equal. ring. }
        split; [lra|]. eexists. unfold tri2p0n. cbv zeta. rewrite M. replace (Rltb (mag (cross (sub q p) (sub r q))) epsilon) with false by (symmetry; apply Rltb_false; exact Hm).
        rewrite <- M. reflexivity.
      - rewrite CP. cbn [obind]. exists (cross (sub q p) (sub r q)). split; [lra|]. eexists. unfold tri2p0n. cbv zeta.
        replace (Rltb (mag (cross (sub q p) (sub r q))) epsilon) with false by (symmetry; apply Rltb_false; exact Hm). reflexivity. }
    destruct TN as (c & Hc & p0 & TN).
    change (if inv then rev_face (Z.of_nat i, Z.of_nat i', (Z.of_nat i' + N)%Z) else (Z.of_nat i, Z.of_nat i', (Z.of_nat i' + N)%Z))
      with (inv_face inv (Z.of_nat i, Z.of_nat i', (Z.of_nat i' + N)%Z)). rewrite TN.
    eexists. split; [reflexivity|]. split; [rewrite !set_nth_length; reflexivity|].
    repeat (apply set_nth_forall; [eapply UN; [reflexivity|exact Hc]|]). exact Fn.
  Qed.
  Lemma loft_steps_ok inv is ns fs : (forall i, In i is -> (i < n)%nat) -> Forall (fun m => vw m = 0 /\ dot3 m m = 1) ns -> exists ns',
    loft_steps V n inv is (ns, fs) = Val (ns', fs ++ map (inv_face inv) (flat_map (wall_faces N) (map step_side is))) /\
    length ns' = length ns /\ Forall (fun m => vw m = 0 /\ dot3 m m = 1) ns'.
  Proof.
    revert ns fs. induction is as [|i is IH]; intros ns fs H Fn; [exists ns; cbn; rewrite app_nil_r; auto|].
    destruct (loft_ok inv ns fs i) as (ns1 & E & L1 & F1); [apply H; left; reflexivity|exact Fn|].
    destruct (IH ns1 (fs ++ map (inv_face inv) (wall_faces N (step_side i)))) as (ns2 & E2 & L2 & F2); [intros; apply H; right; auto|exact F1|].
    exists ns2. cbn [loft_steps]. rewrite E. cbn [obind]. rewrite E2. split; [|split; [congruence|exact F2]].
    do 2 f_equal. cbn [map flat_map]. rewrite map_app, app_assoc. reflexivity.
  Qed.
  Lemma nth_error_ext {A} (l m : list A) : (forall i, nth_error l i = nth_error m i) -> l = m.
  Proof.
    revert m. induction l as [|a l IH]; intros [|b m] H; [reflexivity|specialize (H 0%nat); discriminate|specialize (H 0%nat); discriminate|].
    pose proof (H 0%nat) as E. cbn in E. injection E as ->. f_equal. apply IH. intros i. exact (H (S i)).
  Qed.
  Lemma ring_at {B} (f : nat -> B) i : nth_error (map f (seq 0 n)) i = if Nat.ltb i n then Some (f i) else None.
  Proof.
    destruct (Nat.ltb_spec i n) as [H|H].
    - rewrite nth_error_map. rewrite (nth_error_nth' _ 0%nat) by (rewrite seq_length; exact H). rewrite seq_nth by exact H. reflexivity.
    - apply nth_error_None. rewrite map_length, seq_length. exact H.
  Qed.
  Lemma ring_lower : map (side_pos (pos V)) lsides_ring = round lower.
  Proof.
    unfold lsides_ring. rewrite map_map. apply nth_error_ext. intros i. rewrite ring_at. destruct (Nat.ltb_spec i n) as [H|H].
    - rewrite (round_at lower i H). unfold side_pos, step_side; cbn [fst snd]. fold n.
      rewrite !pos_lower; [reflexivity|apply Nat.mod_upper_bound; lia|exact H].
    - symmetry. apply nth_error_None. rewrite round_length. exact H.
  Qed.
  Lemma ring_upper : map (side_pos (pos V)) (map (up N) lsides_ring) = round upper.
  Proof.
    unfold lsides_ring. rewrite !map_map. apply nth_error_ext. intros i. rewrite ring_at. destruct (Nat.ltb_spec i n) as [H|H].
    - rewrite (round_at upper i) by (rewrite <- HLen; exact H). rewrite <- HLen. unfold side_pos, step_side, up; cbn [fst snd]. fold n.
      rewrite !pos_upper; [reflexivity|apply Nat.mod_upper_bound; lia|exact H].
    - symmetry. apply nth_error_None. rewrite round_length, <- HLen. exact H.
  Qed.
  Lemma ring_rises : Permutation (map (rise_b N) lsides_ring) (map (rise_a N) lsides_ring).
  Proof.
    unfold lsides_ring. rewrite !map_map. unfold rise_b, rise_a, step_side; cbn [fst snd].
    apply (cyc_map (fun i => (Z.of_nat i, (Z.of_nat i + N)%Z)) n). lia.
  Qed.
  Definition loft_inner : list (Z * Z) :=
    (map (rise_a N) lsides_ring ++ map lback (map (rise_a N) lsides_ring)) ++ (map (diag N) lsides_ring ++ map lback (map (diag N) lsides_ring)).
  Lemma loft_parts : Permutation (lall (flat_map (wall_faces N) lsides_ring)) ((lsides_ring ++ map lback (map (up N) lsides_ring)) ++ loft_inner).
  Proof. rewrite lall_walls, ring_rises. unfold loft_inner. rewrite <- !app_assoc. apply Permutation_refl. Qed.
  Lemma lall_rev (F : list face) : Permutation (lall (map rev_face F)) (map lback (lall F)).
  Proof.
    induction F as [|[[a b] c] F IH]; [apply Permutation_refl|].
    change (lall (map rev_face ((a, b, c) :: F))) with ([(c, b); (b, a); (a, c)] ++ lall (map rev_face F)).
    change (lall ((a, b, c) :: F)) with ([(a, b); (b, c); (c, a)] ++ lall F). rewrite map_app. apply Permutation_app; [|exact IH].
    cbn [map lback fst snd]. apply perm_swap.
  Qed.
  Lemma side_back e : side_pos (pos V) (lback e) = back (side_pos (pos V) e).
  Proof. reflexivity. Qed.
  Lemma map_side_back E : map (side_pos (pos V)) (map lback E) = map back (map (side_pos (pos V)) E).
  Proof. rewrite !map_map. apply map_ext. intros. apply side_back. Qed.
  Lemma inner_back : balanced loft_inner.
  Proof. apply balanced_app; apply balanced_pair. Qed.
  Lemma loft_rim inv : rim (map (at_pos (pos V)) (loft_faces inv)) (if inv then map back (round lower) ++ round upper else round lower ++ map back (round upper)).
  Proof.
    exists (map (side_pos (pos V)) loft_inner). split.
    - rewrite sides_pos. unfold loft_faces. destruct inv; cbn [inv_face].
      + rewrite (Permutation_map _ (lall_rev _)), (Permutation_map _ (Permutation_map lback loft_parts)). rewrite !map_app.
        apply Permutation_app; [|apply Permutation_map, Permutation_sym, inner_back].
        rewrite map_lback_inv. rewrite map_side_back, ring_lower, ring_upper. apply Permutation_refl.
      + rewrite map_id. rewrite (Permutation_map _ loft_parts), !map_app. rewrite map_side_back, ring_lower, ring_upper. apply Permutation_refl.
    - rewrite <- map_side_back. apply Permutation_map, inner_back.
  Qed.
  Lemma in_ring e : In e lsides_ring -> exists i, (i < n)%nat /\ e = step_side i.
  Proof. intros H. apply in_map_iff in H as (i & <- & H). exists i. apply in_seq in H. split; [lia|reflexivity]. Qed.
  Lemma loft_triangles inv ns : triangles [mksurf V ns (loft_faces inv) [] []] (map (at_pos (pos V)) (loft_faces inv)).
  Proof.
    exists [map (at_pos (pos V)) (loft_faces inv)]. split; [|cbn; rewrite app_nil_r; reflexivity]. constructor; [|constructor].
    cbn [faces]. apply Forall2_map_self. intros f H. unfold loft_faces in H. apply in_map_iff in H as (g & <- & H).
    apply in_flat_map in H as (e & He & H). apply in_ring in He as (i & Hi & ->). unfold step_side in H.
    pose proof V_len as LV. assert (Hi' : (S i mod n < n)%nat) by (apply Nat.mod_upper_bound; lia).
    assert (A : (Z.of_nat i < N)%Z) by (unfold N; lia). assert (B : (Z.of_nat (S i mod n) < N)%Z) by (unfold N; lia).
    destruct H as [<-|[<-|[]]]; destruct inv; cbn [inv_face rev_face at_pos face_corners verts]; repeat split; apply pos_at; lia.
  Qed.
  Lemma loft_val inv : gaps lower -> gaps upper -> (forall p, In p V -> vw p = 1) -> exists ns,
    loft_surface lower upper inv = Val (mksurf V ns (loft_faces inv) [] []) /\ issurface (mksurf V ns (loft_faces inv) [] []) = true /\
    Forall (fun m => vw m = 0 /\ dot3 m m = 1) ns.
  Proof.
    intros G1 G2 W. unfold loft_surface.
    assert (NE : forall l : list vec, (3 <= length l)%nat -> nonempty l = true) by (intros [|a l] H; [cbn in H; lia|reflexivity]).
    rewrite !NE by (fold n; lia). cbn [negb orb]. rewrite !dedupe_id by auto.
    rewrite HLen, Nat.eqb_refl. rewrite <- HLen. fold n. replace (Nat.ltb n 3) with false by (symmetry; apply Nat.ltb_ge; exact H3). cbn [negb orb]. fold V.
    destruct (loft_steps_ok inv (seq 0 n) (map (fun _ => mkv 0 0 1 0) V) []) as (ns & E & Ln & Fn).
    { intros i Hi. apply in_seq in Hi. lia. }
    { apply Forall_forall. intros m Hm. apply in_map_iff in Hm as (p & <- & _). unfold dot3; cbn. split; ring. }
    exists ns. rewrite E. cbn [obind app]. fold lsides_ring. fold (loft_faces inv).
    assert (IS : issurface (mksurf V ns (loft_faces inv) [] []) = true).
    { apply issurface_parts. cbn [verts norms]. rewrite map_length in Ln. split; [pose proof V_len; unfold N in *; lia|]. split; [|split; [|congruence]].
      - apply Forall_forall. intros p Hp. rewrite W by exact Hp. lra.
      - eapply Forall_impl; [|exact Fn]. intros m [-> _]. apply close_true. rewrite Rminus_0_r, Rabs_R0. apply eps_pos. }
    replace (nonempty (loft_faces inv)) with true.
    2:{ unfold loft_faces, lsides_ring. assert (Q : seq 0 n = 0%nat :: seq 1 (n - 1)) by (clear - H3; generalize dependent n; intros m Hm; destruct m; [lia|]; cbn; rewrite Nat.sub_0_r; reflexivity).
        rewrite Q. destruct inv; reflexivity. }
    unfold mk_surface. rewrite IS. rewrite map_length in Ln. rewrite Ln, Nat.eqb_refl. auto.
  Qed.

  (** ** not closed *)
  Lemma counted_pos (f : Z -> vec) (l : list (Z * Z)) a b k : a <> b ->
    (forall e, In e l -> forall c, c = fst e \/ c = snd e -> (f c = f a -> c = a) /\ (f c = f b -> c = b)) ->
    counted (joins (f a) (f b)) (map (side_pos f) l) k -> k = (count_occ zz_dec l (a, b) + count_occ zz_dec l (b, a))%nat.
  Proof.
    intros Hab. revert k. induction l as [|[c d] l IH]; intros k HI H; inversion H as [|? ? k' J C|? ? ? J C]; subst; [reflexivity| |].
    - rewrite !count_hit. rewrite (IH k') by (auto; intros; eapply HI; eauto; right; auto).
      destruct (HI (c, d) (or_introl eq_refl) c) as [Q1 Q2]; [auto|]. destruct (HI (c, d) (or_introl eq_refl) d) as [Q3 Q4]; [auto|].
      unfold joins, side_pos in J; cbn [fst snd] in J. unfold hit. destruct J as [J|J].
      + assert (c = a) by (apply Q1; congruence). assert (d = b) by (apply Q4; congruence). subst.
        destruct (zz_dec (a, b) (a, b)); [|congruence]. destruct (zz_dec (a, b) (b, a)); [congruence|]. lia.
      + assert (c = b) by (apply Q2; congruence). assert (d = a) by (apply Q3; congruence). subst.
        destruct (zz_dec (b, a) (b, a)); [|congruence]. destruct (zz_dec (b, a) (a, b)); [congruence|]. lia.
    - rewrite !count_hit. rewrite (IH k) by (auto; intros; eapply HI; eauto; right; auto).
      unfold joins, side_pos in J; cbn [fst snd] in J. unfold hit.
      destruct (zz_dec (c, d) (a, b)) as [E|_]; [exfalso; apply J; injection E as -> ->; auto|].
      destruct (zz_dec (c, d) (b, a)) as [E|_]; [exfalso; apply J; injection E as -> ->; auto|]. lia.
  Qed.
  Lemma count_none l e : ~ In e l -> count_occ zz_dec l e = 0%nat.
  Proof. intros H. apply count_occ_not_In. exact H. Qed.
  Lemma loft_open : (forall i j, (i < length V)%nat -> (j < length V)%nat -> nth i V origin = nth j V origin -> i = j) ->
    ~ watertight (map (at_pos (pos V)) (flat_map (wall_faces N) lsides_ring)).
  Proof.
    intros INJ W. pose proof V_len as LV.
    assert (S01 : step_side 0 = (0, 1)%Z) by (unfold step_side; rewrite Nat.mod_small by lia; reflexivity).
    assert (RNG : forall e, In e (lall (flat_map (wall_faces N) lsides_ring)) -> (0 <= fst e < N + N)%Z /\ (0 <= snd e < N + N)%Z).
    { intros e H. unfold lall in H. apply in_flat_map in H as (f & Hf & H). apply in_flat_map in Hf as (g & Hg & Hf).
      apply in_ring in Hg as (i & Hi & ->). unfold step_side in Hf.
      assert (Hi' : (S i mod n < n)%nat) by (apply Nat.mod_upper_bound; lia).
      assert (A : (Z.of_nat i < N)%Z) by (unfold N; lia). assert (B : (Z.of_nat (S i mod n) < N)%Z) by (unfold N; lia).
      destruct Hf as [<-|[<-|[]]]; cbn [lsides] in H; destruct H as [<-|[<-|[<-|[]]]]; cbn [fst snd]; lia. }
    assert (I0 : In (0, 1)%Z (lall (flat_map (wall_faces N) lsides_ring))).
    { apply (Permutation_in _ (Permutation_sym loft_parts)). apply in_or_app. left. apply in_or_app. left. rewrite <- S01.
      apply in_map. apply in_seq. lia. }
    specialize (W (pos V 0) (pos V 1)). rewrite sides_pos in W. specialize (W (in_map (side_pos (pos V)) _ _ I0)).
    apply counted_pos in W; [|lia|].
    2:{ intros e He c Hc. apply RNG in He. assert (Rc : (0 <= c < N + N)%Z) by (destruct Hc as [->| ->]; tauto).
        assert (N3 : (3 <= N)%Z) by (unfold N; lia).
        split; intros E; unfold pos in E; apply INJ in E; try lia; unfold n in *; lia. }
    rewrite !(count_perm zz_dec _ _ _ loft_parts) in W. rewrite !count_occ_app in W.
    assert (C1 : count_occ zz_dec lsides_ring (0, 1)%Z = 1%nat).
    { apply NoDup_count_occ'; [|rewrite <- S01; apply in_map, in_seq; lia].
      apply nodup_map_inj; [|apply seq_NoDup]. intros x y _ _ E. unfold step_side in E. injection E as E _. lia. }
    assert (C2 : count_occ zz_dec lsides_ring (1, 0)%Z = 0%nat).
    { apply count_none. intros H. apply in_ring in H as (i & Hi & E). unfold step_side in E. injection E as E1 E2.
      assert (i = 1)%nat by lia. subst i. rewrite Nat.mod_small in E2 by lia. lia. }
    assert (HI : forall e, In e (map lback (map (up N) lsides_ring) ++ loft_inner) -> (N <= fst e \/ N <= snd e)%Z).
    { assert (AUX : forall f : Z * Z -> Z * Z, (forall i, (i < n)%nat -> (N <= fst (f (step_side i)) \/ N <= snd (f (step_side i)))%Z) ->
         forall e, In e (map f lsides_ring) -> (N <= fst e \/ N <= snd e)%Z).
      { intros f Hf e He. apply in_map_iff in He as (g & <- & Hg). apply in_ring in Hg as (i & Hi & ->). auto. }
      intros e H. unfold loft_inner in H. rewrite !map_map in H. repeat (apply in_app_or in H; destruct H as [H|H]);
        (eapply AUX; [|exact H]); intros i Hi; unfold up, rise_a, diag, lback, step_side; cbn [fst snd]; lia. }
    assert (C3 : forall e, (fst e < N /\ snd e < N)%Z -> count_occ zz_dec (map lback (map (up N) lsides_ring) ++ loft_inner) e = 0%nat).
    { intros e He. apply count_none. intros H. apply HI in H. lia. }
    pose proof (C3 (0, 1)%Z) as D1. pose proof (C3 (1, 0)%Z) as D2. rewrite !count_occ_app in D1, D2. cbn [fst snd] in D1, D2.
    assert (N3 : (3 <= N)%Z) by (unfold N; lia). lia.
  Qed.
End Loft.
