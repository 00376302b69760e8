(** C185-C190: extrude, lofts, and the arguments of solid() and surface(). *)
From Coq Require Import Reals List Bool ZArith Lra Lia Permutation Arith.
From Verif Require Import Xform_Model Xform_Proofs Fig_Model Fig_Proofs Solid_Model Solid_Spec Solid_Proofs Solid_Proofs2 Solid_Proofs3 Solid_Proofs5 Solid_Proofs6 Solid_Proofs7
  Prim_Model Prim_Proofs Prim_Lab Extr_Model Extr_Spec Extr_Proofs Extr_Proofs2 Extr_Proofs3 Extr_Proofs4 Extr_Proofs5 Extr_Proofs6 Extr_Proofs7.
Import ListNotations.
Open Scope R_scope.

(** C185: extrude closes a surface over its outline. *)
Theorem c185_extrude s d dir n outer hs :
  issurface s = true -> w_one s -> epsilon < d -> epsilon <= mag (scaled d dir) -> first_normal s n ->
  proper_mesh s (outer :: hs) -> outline s (outer :: hs) ->
  either_way (bnd s) outer -> Forall2 either_way (holes s) hs ->
  counterclockwise s n outer -> Forall (clockwise s n) hs ->
  (forall l, In l (outer :: hs) -> broad s (scaled d dir) l) ->
  exists strip ts, extrude s d dir = Val [turned_over s; strip; shifted (scaled d dir) s] /\
    verts strip = verts s ++ map (moved (scaled d dir)) (verts s) /\
    (forall l i j k p r, In l (outer :: hs) -> consecutive l i j k -> at_index (verts s) i p -> at_index (verts s) k r ->
       exists m, wall_normal (scaled d dir) p r m /\ at_index (norms strip) j m /\ at_index (norms strip) (j + Z.of_nat (length (verts s))) m) /\
    issolid [turned_over s; strip; shifted (scaled d dir) s] = true /\
    triangles [turned_over s; strip; shifted (scaled d dir) s] ts /\ oriented ts /\
    (forall ts0, triangles [s] ts0 -> signed_volume ts = Rsum (swept (scaled d dir)) ts0) /\
    (far_apart (verts s ++ map (moved (scaled d dir)) (verts s)) ->
       issolidclosed [turned_over s; strip; shifted (scaled d dir) s] = Val true /\
       forall ts0, triangles [s] ts0 -> volumeof [turned_over s; strip; shifted (scaled d dir) s] = Val (Rabs (Rsum (swept (scaled d dir)) ts0))).
Proof. exact (extrude_main s d dir n outer hs). Qed.
Print Assumptions c185_extrude.
(** A flat surface extruded along its unit normal sweeps area times distance. *)
Theorem c185_swept s n d ts0 : flat s n -> dot3 n n = 1 -> triangles [s] ts0 -> Rsum (swept (scaled d n)) ts0 = d * area ts0.
Proof.
  intros F U (tss & H & ->). inversion H as [|? l ? ? Hl Hr]; subst. inversion Hr; subst. cbn [concat]. rewrite app_nil_r.
  assert (G : forall fs l, incl fs (faces s) -> Forall2 (face_corners s) fs l -> Rsum (swept (scaled d n)) l = d * Rsum tri_area l).
  { induction 2 as [|f [[p q] r] fs l' Hf Hs IH]; [cbn; ring|]. cbn [Rsum]. rewrite IH by (intros x Hx; apply H0; right; exact Hx).
    unfold swept. rewrite (F f p q r (H0 f (or_introl eq_refl)) Hf). unfold dot3, scaled in *; cbn [vx vy vz].
    replace (d * vx n * (2 * tri_area (p, q, r) * vx n) + d * vy n * (2 * tri_area (p, q, r) * vy n) + d * vz n * (2 * tri_area (p, q, r) * vz n))
      with (2 * d * tri_area (p, q, r) * (vx n * vx n + vy n * vy n + vz n * vz n)) by ring. rewrite U. field. }
  apply (G (faces s)); auto. intros x Hx; exact Hx.
Qed.
Print Assumptions c185_swept.
(** A distance within the tolerance is rejected. *)
Theorem c185_rejects s d dir : d <= epsilon -> extrude s d dir = Raise EValue.
Proof. intros H. unfold extrude. replace (Rleb d epsilon) with true by (symmetry; apply Rleb_true; exact H). reflexivity. Qed.
Print Assumptions c185_rejects.
(** The unit square, its boundary stored clockwise. *)
Definition square : surf :=
  let n := mkv 0 0 1 0 in
  mksurf [mkv 0 0 0 1; mkv 1 0 0 1; mkv 1 1 0 1; mkv 0 1 0 1] [n; n; n; n] [(0, 1, 2); (2, 3, 0)]%Z [3; 2; 1; 0]%Z [].
Lemma far_int (l : list (Z * Z * Z)) : NoDup l -> far_apart (map (fun x => let '(a, b, c) := x in mkv (IZR a) (IZR b) (IZR c) 1) l).
Proof.
  intros N i j p q Hi Hj. rewrite nth_error_map in Hi, Hj.
  destruct (nth_error l i) as [[[a b] c]|] eqn:Ei; [|discriminate]. destruct (nth_error l j) as [[[a' b'] c']|] eqn:Ej; [|discriminate].
  injection Hi as <-. injection Hj as <-. destruct (Nat.eq_dec i j) as [|D]; [left; assumption|right].
  assert (X : (a <> a' \/ b <> b' \/ c <> c')%Z).
  { destruct (Z.eq_dec a a'), (Z.eq_dec b b'), (Z.eq_dec c c'); auto. subst. exfalso. apply D.
    apply (proj1 (NoDup_nth_error l) N); [apply nth_error_Some; congruence|congruence]. }
  apply Rlt_le_trans with 1; [unfold epsilon; lra|]. unfold dist, mag, sub; cbn [vx vy vz]. rewrite <- sqrt_1. apply sqrt_le_1_alt.
  assert (SQ : forall u v, u <> v -> 1 <= (IZR u - IZR v) * (IZR u - IZR v)).
  { intros u v H. rewrite <- minus_IZR, <- mult_IZR. apply IZR_le. nia. }
  assert (P : forall u v, 0 <= (IZR u - IZR v) * (IZR u - IZR v)) by (intros; apply Rle_0_sqr).
  pose proof (P a a'). pose proof (P b b'). pose proof (P c c'). destruct X as [X|[X|X]]; pose proof (SQ _ _ X); lra.
Qed.
Example c185_nonvacuous : exists s d dir n outer,
  issurface s = true /\ w_one s /\ epsilon < d /\ epsilon <= mag (scaled d dir) /\ first_normal s n /\
  proper_mesh s [outer] /\ outline s [outer] /\ bnd s <> outer /\ either_way (bnd s) outer /\ Forall2 either_way (holes s) [] /\
  counterclockwise s n outer /\ (forall l, In l [outer] -> broad s (scaled d dir) l) /\
  far_apart (verts s ++ map (moved (scaled d dir)) (verts s)) /\ flat s n.
Proof.
  exists square, 2, (mkv 0 0 1 0), (mkv 0 0 1 0), [0; 1; 2; 3]%Z.
  split; [|split; [|split; [|split; [|split; [|split; [|split; [|split; [|split; [|split; [|split; [|split; [|split]]]]]]]]]]]].
  - apply issurface_parts. cbn [square verts norms length]. split; [lia|]. split; [|split; [|reflexivity]].
    + repeat constructor; cbn; lra.
    + repeat constructor; cbn; apply close_true; rewrite Rminus_0_r, Rabs_R0; apply eps_pos.
  - intros p H. cbn in H. destruct H as [<-|[<-|[<-|[<-|[]]]]]; reflexivity.
  - unfold epsilon; lra.
  - unfold mag, scaled; cbn [vx vy vz]. replace (2*0*(2*0)+2*0*(2*0)+2*1*(2*1)) with (2*2) by ring. rewrite sqrt_square by lra. unfold epsilon; lra.
  - exists (0, 1, 2)%Z, [(2, 3, 0)%Z], (mkv 0 0 0 1), (mkv 1 0 0 1), (mkv 1 1 0 1). split; [reflexivity|]. split; [|split].
    + repeat split; [exists 0%nat|exists 1%nat|exists 2%nat]; split; try reflexivity; left; reflexivity.
    + exists 1. cbn. repeat split; lra.
    + unfold mag, edge_normal, sub; cbn [vx vy vz]. match goal with |- _ <= sqrt ?x => replace x with (1*1) by ring end. rewrite sqrt_square by lra. unfold epsilon; lra.
  - split; [|split; [|split]].
    + intros i j H. cbn in H. repeat (destruct H as [H|H]; [injection H as <- <-; cbn; lia|]). destruct H.
    + unfold face_indices. cbn. repeat constructor; cbn; intros H; repeat (destruct H as [H|H]; [discriminate|]); exact H.
    + cbn. repeat constructor; cbn; intros H; repeat (destruct H as [H|H]; [discriminate|]); exact H.
    + intros l [<-|[]]. cbn. lia.
  - exists [(2, 0); (0, 2)]%Z. split; [|apply perm_swap]. unfold face_indices; cbn.
    apply (perm_count zz_dec). intros e. rewrite !count_hit. lia.
  - cbn. discriminate.
  - right. reflexivity.
  - constructor.
  - exists (verts square). split; [|unfold area_along; cbn; unfold dot3, edge_normal; cbn [vx vy vz fst snd]; lra].
    repeat constructor; cbn; [exists 0%nat|exists 1%nat|exists 2%nat|exists 3%nat]; split; try reflexivity; left; reflexivity.
  - intros l [<-|[]] i j k p r Hc Hp Hk. apply consecutive_triples in Hc. cbn in Hc.
    assert (E : forall v : vec, vz v = 0 -> vx v * vx v + vy v * vy v = 2 -> epsilon <= mag (edge_normal v (scaled 2 (mkv 0 0 1 0)))).
    { intros v Hz H2. unfold mag, edge_normal, scaled; cbn [vx vy vz]. rewrite Hz.
      match goal with |- _ <= sqrt ?x => replace x with (4 * (vx v * vx v + vy v * vy v)) by ring end. rewrite H2.
      apply Rle_trans with (sqrt (1*1)); [rewrite sqrt_square by lra; unfold epsilon; lra|apply sqrt_le_1_alt; lra]. }
    repeat (destruct Hc as [Hc|Hc]; [injection Hc as <- <- <-; apply pyget_at in Hp; apply pyget_at in Hk; cbn in Hp, Hk;
      injection Hp as <-; injection Hk as <-; apply E; unfold sub; cbn [vx vy vz]; ring|]). destruct Hc.
  - assert (Q : verts square ++ map (moved (scaled 2 (mkv 0 0 1 0))) (verts square) =
      map (fun x : Z * Z * Z => let '(a, b, c) := x in mkv (IZR a) (IZR b) (IZR c) 1)
        [(0, 0, 0); (1, 0, 0); (1, 1, 0); (0, 1, 0); (0, 0, 2); (1, 0, 2); (1, 1, 2); (0, 1, 2)]%Z).
    { cbn [square verts app map]. unfold moved, scaled; cbn [vx vy vz]. repeat (apply f_equal2; [try reflexivity; apply mkv_eq; ring|]). reflexivity. }
    rewrite Q. apply far_int. repeat constructor; cbn; intros H; repeat (destruct H as [H|H]; [discriminate|]); exact H.
  - intros f p q r Hf Hc. apply corner_points_spec in Hc.
    destruct Hf as [<-|[<-|[]]]; cbn in Hc; injection Hc as <- <- <-; rewrite <- triarea_spec; unfold triarea, mag;
      match goal with |- context [sqrt ?x] => replace x with (1 * 1) by (unfold cross, sub; cbn [vx vy vz]; ring) end; rewrite sqrt_square by lra;
      unfold edge_normal, sub, scaled; cbn [vx vy vz]; apply mkv_eq; lra.
Qed.

(** C186: a square of side 1/1000 extruded by 1/1000 has no walls. *)
Theorem c186_refuted :
  ~ (forall l d, epsilon < l -> epsilon < d -> forall s, rectangularPlane l l (point 0 0 0) = Val s ->
       exists x, extrude s d (mkv 0 0 1 0) = Val x /\ issolidclosed x = Val true).
Proof.
  intros H. destruct (H (1/1000) (1/1000) ltac:(unfold epsilon; lra) ltac:(unfold epsilon; lra) tiny tiny_plane) as (x & Ex & Ec).
  rewrite tiny_extrude in Ex. injection Ex as <-. unfold issolidclosed, issolid in Ec. cbn [forallb] in Ec.
  replace (issurface (mksurf [] [] [] [] [])) with false in Ec by reflexivity. rewrite andb_false_r in Ec. discriminate.
Qed.
Print Assumptions c186_refuted.
(** The volume of that solid cannot be computed, nor is the solid valid. *)
Theorem c186_witness : exists s x, rectangularPlane (1/1000) (1/1000) (point 0 0 0) = Val s /\ extrude s (1/1000) (mkv 0 0 1 0) = Val x /\
  issolid x = false /\ volumeof x = Raise EValue.
Proof.
  exists tiny. eexists. split; [exact tiny_plane|]. split; [exact tiny_extrude|].
  match goal with |- issolid ?x = false /\ _ => assert (E : issolid x = false) end.
  { unfold issolid. cbn [forallb]. rewrite (eq_refl : issurface (mksurf [] [] [] [] []) = false). apply andb_false_r. }
  split; [exact E|]. unfold volumeof. rewrite E. reflexivity.
Qed.
Print Assumptions c186_witness.

(** C187: _loft_surface joins two loops by a band that is open exactly along them. *)
Theorem c187_loft lower upper inv : length lower = length upper -> (3 <= length lower)%nat -> gaps lower -> gaps upper -> ribbed lower upper ->
  (forall p, In p (lower ++ upper) -> vw p = 1) ->
  exists s ts, loft_surface lower upper inv = Val s /\ issurface s = true /\ verts s = lower ++ upper /\ unit_normals s /\
    length ts = (2 * length lower)%nat /\ triangles [s] ts /\
    rim ts (if inv then map back (round lower) ++ round upper else round lower ++ map back (round upper)).
Proof.
  intros HL H3 G1 G2 HR W. destruct (loft_val lower upper HL H3 HR inv G1 G2 W) as (ns & E & IS & Fn).
  exists (mksurf (lower ++ upper) ns (loft_faces lower inv) [] []), (map (at_pos (pos (lower ++ upper))) (loft_faces lower inv)).
  split; [exact E|]. split; [exact IS|]. split; [reflexivity|]. split; [|split; [|split]].
  - intros m Hm. apply (proj1 (Forall_forall _ _) Fn m Hm).
  - rewrite map_length. unfold loft_faces. rewrite map_length.
    assert (Q : forall l : list (Z * Z), length (flat_map (wall_faces (Z.of_nat (length lower))) l) = (2 * length l)%nat).
    { induction l as [|[a b] l IH]; [reflexivity|]. cbn [flat_map]. rewrite app_length, IH. cbn. lia. }
    rewrite Q. unfold lsides_ring. rewrite map_length, seq_length. reflexivity.
  - apply loft_triangles; auto.
  - apply loft_rim; auto.
Qed.
Print Assumptions c187_loft.
(** Loops of different or too small size are rejected. *)
Theorem c187_rejects lower upper inv : gaps lower -> gaps upper -> length lower <> length upper \/ (length lower < 3)%nat ->
  loft_surface lower upper inv = Raise EValue.
Proof.
  intros G1 G2 H. unfold loft_surface. destruct (negb (nonempty lower) || negb (nonempty upper)); [reflexivity|]. cbv zeta. rewrite !dedupe_id by auto.
  replace (negb (Nat.eqb (length lower) (length upper)) || Nat.ltb (length lower) 3)%bool with true; [reflexivity|].
  symmetry. apply orb_true_iff. destruct H as [H|H]; [left; apply negb_true_iff, Nat.eqb_neq; exact H|right; apply Nat.ltb_lt; exact H].
Qed.
Print Assumptions c187_rejects.
(** A point given twice in a row makes no difference: it is
    dropped, so the band has no slivers. *)
Lemma dedupe_twice a p b : forall last, dedupe last (a ++ p :: p :: b) = dedupe last (a ++ p :: b).
Proof.
  induction a as [|q a IH]; intros last.
  - cbn [app dedupe]. assert (Z : Rltb epsilon (mag (sub p (mkv (vx p) (vy p) (vz p) (vw p)))) = false).
    { apply Rltb_false. unfold mag, sub. cbn. match goal with |- sqrt ?x <= _ => replace x with 0 by ring end. rewrite sqrt_0. unfold epsilon. lra. }
    destruct last as [c|]; [|now rewrite Z]. destruct (Rltb epsilon (mag (sub p c))) eqn:E; [now rewrite Z|reflexivity].
  - cbn [app dedupe]. destruct last as [c|]; [destruct (Rltb _ _)|]; now rewrite ?IH.
Qed.
Theorem c187_repeats : forall a p b c q d inv,
  loft_surface (a ++ p :: p :: b) (c ++ q :: q :: d) inv = loft_surface (a ++ p :: b) (c ++ q :: d) inv.
Proof.
  intros a p b c q d inv. unfold loft_surface.
  replace (nonempty (a ++ p :: p :: b)) with (nonempty (a ++ p :: b)) by (destruct a; reflexivity).
  replace (nonempty (c ++ q :: q :: d)) with (nonempty (c ++ q :: d)) by (destruct c; reflexivity).
  cbv zeta. now rewrite (dedupe_twice a p b), (dedupe_twice c q d).
Qed.
Print Assumptions c187_repeats.
Definition tri_loop (z : R) : list vec := [mkv 0 0 z 1; mkv 1 0 z 1; mkv 0 1 z 1].
Lemma mag_big v : 1 <= vx v * vx v + vy v * vy v + vz v * vz v -> epsilon <= mag v /\ epsilon < mag v.
Proof.
  intros H. assert (1 <= mag v) by (unfold mag; rewrite <- sqrt_1; apply sqrt_le_1_alt; exact H). unfold epsilon; lra.
Qed.
Lemma tri_loop_ok : gaps (tri_loop 0) /\ gaps (tri_loop 1) /\ ribbed (tri_loop 0) (tri_loop 1) /\ far_apart (tri_loop 0 ++ tri_loop 1).
Proof.
  assert (G : forall z, gaps (tri_loop z)).
  { intros z [|[|[|i]]] p q Hp Hq; cbn in Hp, Hq; try discriminate; try (destruct i; discriminate);
      injection Hp as <-; injection Hq as <-; apply mag_big; unfold sub; cbn [vx vy vz]; nra. }
  split; [apply G|]. split; [apply G|]. split.
  - intros [|[|[|i]]] p q u r Hp Hq; cbn in Hp, Hq; try discriminate; try (destruct i; discriminate);
      injection Hp as <- <-; injection Hq as <- <-; apply mag_big; unfold edge_normal, sub; cbn [vx vy vz]; nra.
  - assert (Q : tri_loop 0 ++ tri_loop 1 = map (fun x : Z * Z * Z => let '(a, b, c) := x in mkv (IZR a) (IZR b) (IZR c) 1)
      [(0, 0, 0); (1, 0, 0); (0, 1, 0); (0, 0, 1); (1, 0, 1); (0, 1, 1)]%Z) by reflexivity.
    rewrite Q. apply far_int. repeat constructor; cbn; intros H; repeat (destruct H as [H|H]; [discriminate|]); exact H.
Qed.
Example c187_nonvacuous : gaps (tri_loop 0) /\ gaps (tri_loop 1) /\ ribbed (tri_loop 0) (tri_loop 1).
Proof. destruct tri_loop_ok as (A & B & C & _). auto. Qed.

(** C188: a loft solid is never closed: it has no lids. *)
Theorem c188_refuted lower upper : length lower = length upper -> (3 <= length lower)%nat -> gaps lower -> gaps upper -> ribbed lower upper ->
  (forall p, In p (lower ++ upper) -> vw p = 1) -> far_apart (lower ++ upper) ->
  exists x, makeLoftSolid lower upper = Val x /\ issolid x = true /\ issolidclosed x = Val false /\ volumeof x = Raise EValue.
Proof.
  intros HL H3 G1 G2 HR W FA. destruct (loft_val lower upper HL H3 HR false G1 G2 W) as (ns & E & IS & Fn).
  unfold makeLoftSolid. rewrite E. cbn [obind]. eexists. split; [reflexivity|]. set (s := mksurf _ _ _ _ _) in *.
  assert (SO : issolid [s] = true) by (unfold issolid; cbn [forallb]; rewrite IS; reflexivity). split; [exact SO|].
  assert (TR := loft_triangles lower upper HL H3 false ns). fold s in TR.
  assert (EF : loft_faces lower false = flat_map (wall_faces (Z.of_nat (length lower))) (lsides_ring lower)) by (unfold loft_faces; cbn [inv_face]; apply map_id).
  assert (LV : length (lower ++ upper) = (length lower + length lower)%nat) by (rewrite app_length, <- HL; reflexivity).
  assert (NC : issolidclosed [s] <> Val true).
  { intros C. apply (closed_iff _ _ SO TR) in C.
    - rewrite EF in C. apply (loft_open lower upper HL H3) in C; [exact C|]. intros i j Hi Hj Q.
      destruct (FA i j _ _ (nth_error_nth' _ origin Hi) (nth_error_nth' _ origin Hj)) as [D|D]; [exact D|]. rewrite Q in D.
      rewrite dist_refl in D. pose proof eps_pos. lra.
    - intros p q Hp Hq.
      assert (K : forall p, corner (map (at_pos (pos (lower ++ upper))) (loft_faces lower false)) p -> exists i, nth_error (lower ++ upper) i = Some p).
      { intros x Hx. destruct Hx as [y Hx]. unfold all_sides in Hx. apply in_flat_map in Hx as (t & Ht & Hx).
        destruct TR as (tss & T1 & T2). inversion T1 as [|? l ? ? Tl Tr]; subst. inversion Tr; subst. cbn [concat] in T2. rewrite app_nil_r in T2. rewrite T2 in Ht.
        assert (Z : forall fs l, Forall2 (face_corners s) fs l -> In t l -> exists f, face_corners s f t).
        { induction 1 as [|f t' fs l' F1 F2 IH]; intros Hin; [destruct Hin|]. destruct Hin as [<-|Hin]; [exists f; exact F1|auto]. }
        destruct (Z _ _ Tl Ht) as [f Hf]. destruct f as [[a b] c], t as [[u v] w]. destruct Hf as (U & V & X).
        cbn [sides] in Hx. assert (x = u \/ x = v \/ x = w) as Hx' by (destruct Hx as [Hx|[Hx|[Hx|[]]]]; injection Hx as -> ->; auto).
        destruct Hx' as [->|[->| ->]]; [destruct U as (k & U' & _)|destruct V as (k & U' & _)|destruct X as (k & U' & _)]; exists k; exact U'. }
      destruct (K p Hp) as [i Hi]. destruct (K q Hq) as [j Hj]. destruct (FA i j p q Hi Hj) as [->|D]; [left; congruence|right; exact D]. }
  assert (CF : issolidclosed [s] = Val false).
  { unfold issolidclosed in *. rewrite SO in *. cbn [negb] in *. apply solid_tris_spec in TR. rewrite TR in *. cbn [obind] in *.
    destruct (forallb _ _); [congruence|reflexivity]. }
  split; [exact CF|]. unfold volumeof. rewrite SO, CF. reflexivity.
Qed.
Print Assumptions c188_refuted.
Example c188_nonvacuous : exists x, makeLoftSolid (tri_loop 0) (tri_loop 1) = Val x /\ issolidclosed x = Val false.
Proof.
  destruct tri_loop_ok as (A & B & C & D).
  destruct (c188_refuted (tri_loop 0) (tri_loop 1) eq_refl (le_n 3) A B C) as (x & E & _ & F & _); [|exact D|exists x; auto].
  intros p H. cbn in H. destruct H as [<-|[<-|[<-|[<-|[<-|[<-|[]]]]]]]; reflexivity.
Qed.

(** C189: non-empty extra arguments land in their own slots, wherever the
    metadata dictionary stands. *)
Theorem c189_solid {M D} (surfs : list surf) (m c : list M) (d : D) : m <> [] ->
  solid_ctor surfs [XList m] = Val (surfs, m, [], @None D) /\
  solid_ctor surfs [XList m; XList c] = Val (surfs, m, c, @None D) /\
  solid_ctor surfs [XList m; XList c; XDict d] = Val (surfs, m, c, Some d) /\
  solid_ctor surfs [XDict d; XList m; XList c] = Val (surfs, m, c, Some d) /\
  solid_ctor surfs [XList m; XDict d; XList c] = Val (surfs, m, c, Some d).
Proof. intros H. destruct m as [|a m]; [congruence|]. repeat split. Qed.
Print Assumptions c189_solid.
(** Two dictionaries, a third non-empty list or anything else is rejected. *)
Theorem c189_rejects {M D} (surfs : list surf) (xs : list (extra M D)) r : solid_ctor surfs xs = Val r ->
  (length xs <= 3)%nat /\ ~ In XOther xs /\ (forall d d', In (XDict d) xs -> In (XDict d') xs -> d = d') /\
  fst (fst (fst r)) = surfs /\ (forall d, In (XDict d) xs <-> snd r = Some d) /\
  (forall l, In (XList l) xs -> l <> [] -> snd (fst (fst r)) = l \/ snd (fst r) = l).
Proof.
  unfold solid_ctor. destruct (Nat.ltb_spec 3 (length xs)) as [|HL]; [discriminate|]. intros H. apply obind_val in H as ([[m c] md] & HP & H).
  injection H as <-. cbn [fst snd]. split; [exact HL|]. clear HL.
  assert (G : forall xs a b o, @pick M D xs a b o = Val (m, c, md) ->
     ~ In XOther xs /\ (forall d, In (XDict d) xs -> md = Some d) /\ (forall d, o = Some d -> md = Some d /\ forall d', ~ In (XDict d') xs) /\
     (o = None -> md = None \/ exists d, md = Some d /\ In (XDict d) xs) /\
     (a <> [] -> m = a) /\ (a <> [] -> b <> [] -> c = b) /\ (forall l, In (XList l) xs -> l <> [] -> m = l \/ c = l)).
  { clear. induction xs as [|x xs IH]; intros a b o H.
    - cbn in H. injection H as -> -> ->. repeat split; auto; try (intros; contradiction). 
    - destruct x as [l|d|]; cbn [pick] in H; [| |discriminate].
      + destruct a as [|a0 a]; cbn [nonempty negb] in H.
        * apply IH in H as (H1 & H2 & H3 & H4 & H5 & H6 & H7). split; [intros [E|E]; [discriminate|auto]|]. split; [intros d [E|E]; [discriminate|auto]|].
          split; [intros d E; destruct (H3 d E) as [X Y]; split; [exact X|]; intros d' [F|F]; [discriminate|exact (Y d' F)]|].
          split; [intros E; destruct (H4 E) as [X|(d & X & Y)]; [left; exact X|right; exists d; split; [exact X|right; exact Y]]|].
          split; [congruence|]. split; [congruence|]. intros l' [E|E] N; [injection E as ->; left; auto|auto].
        * destruct b as [|b0 b]; cbn [nonempty negb] in H; [|discriminate].
          apply IH in H as (H1 & H2 & H3 & H4 & H5 & H6 & H7). split; [intros [E|E]; [discriminate|auto]|]. split; [intros d [E|E]; [discriminate|auto]|].
          split; [intros d E; destruct (H3 d E) as [X Y]; split; [exact X|]; intros d' [F|F]; [discriminate|exact (Y d' F)]|].
          split; [intros E; destruct (H4 E) as [X|(d & X & Y)]; [left; exact X|right; exists d; split; [exact X|right; exact Y]]|].
          split; [auto|]. split; [congruence|]. intros l' [E|E] N; [injection E as ->; right; apply H6; [discriminate|exact N]|auto].
      + destruct o as [o|]; [discriminate|]. apply IH in H as (H1 & H2 & H3 & H4 & H5 & H6 & H7). destruct (H3 d eq_refl) as [X Y].
        split; [intros [E|E]; [discriminate|auto]|]. split; [intros d' [E|E]; [injection E as ->; exact X|auto]|].
        split; [discriminate|]. split; [intros _; right; exists d; split; [exact X|left; reflexivity]|]. split; [exact H5|]. split; [exact H6|].
        intros l [E|E] N; [discriminate|auto]. }
  destruct (G _ _ _ _ HP) as (H1 & H2 & H3 & H4 & H5 & H6 & H7). split; [exact H1|].
  split; [intros d d' A B; apply H2 in A; apply H2 in B; congruence|]. split; [reflexivity|]. split; [|exact H7].
  intros d. split; [apply H2|]. intros E. destruct (H4 eq_refl) as [F|(d' & F & I)]; [congruence|]. rewrite F in E. injection E as ->. exact I.
Qed.
Print Assumptions c189_rejects.
Example c189_nonvacuous : solid_ctor (D:=unit) [square] [XList [1%nat]; XList [2%nat]] = Val ([square], [1%nat], [2%nat], None).
Proof. reflexivity. Qed.

(** C190: solid(surfaces, [], construction), the call every primitive makes,
    stores the construction as the material; surface(..., [], holes) fails. *)
Theorem c190_refuted {M D} (surfs : list surf) (c : list M) : c <> [] ->
  solid_ctor surfs [XList []; XList c] = Val (surfs, c, [], @None D).
Proof. intros H. destruct c; [congruence|]. reflexivity. Qed.
Print Assumptions c190_refuted.
Theorem c190_surface {D} vs ns fs h : issurface (mksurf vs ns fs [] []) = true -> length vs = length ns ->
  surface_ctor vs ns fs [XList []; XList [BLoop h]] = @Raise (list bitem * list bitem * option D) EOther.
Proof. intros H L. unfold surface_ctor. cbn [length Nat.ltb Nat.leb pick nonempty negb obind]. rewrite L, Nat.eqb_refl, H. reflexivity. Qed.
Print Assumptions c190_surface.
Example c190_nonvacuous : exists (surfs : list surf) (c : list nat), c <> [] /\ solid_ctor (D:=unit) surfs [XList []; XList c] <> Val (surfs, [], c, None).
Proof. exists [square], [7%nat]. split; [discriminate|]. cbn. discriminate. Qed.
