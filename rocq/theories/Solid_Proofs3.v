(** What the transforms do to triangles, volume, area and normals. *)
From Coq Require Import Reals List Bool ZArith Permutation Lra Lia Nsatz.
From Verif Require Import Dict Xform_Model Xform_Proofs Solid_Model Solid_Spec Solid_Proofs Solid_Proofs2.
Import ListNotations.
Open Scope R_scope.

Definition carries (f : vec -> vec) (s s' : surf) : Prop := verts s' = map f (verts s) /\ faces s' = faces s.
Definition flips (f : vec -> vec) (s s' : surf) : Prop :=
  verts s' = map f (verts s) /\ faces s' = map swap_face (faces s).
Lemma face_carry f s s' fc t : verts s' = map f (verts s) -> face_corners s fc t -> face_corners s' fc (tmap f t).
Proof.
  intros E. destruct fc as [[i j] k], t as [[p q] r]. unfold face_corners, tmap. rewrite E, !at_index_map.
  intros (H1 & H2 & H3). split; [|split]; eauto.
Qed.
Lemma face_carry_inv f s s' fc t : verts s' = map f (verts s) -> face_corners s' fc t ->
  exists t0, face_corners s fc t0 /\ t = tmap f t0.
Proof.
  intros E. destruct fc as [[i j] k], t as [[p q] r]. unfold face_corners, tmap. rewrite E, !at_index_map.
  intros ((a & Ha & ->) & (b & Hb & ->) & (c & Hc & ->)). exists (a, b, c). auto.
Qed.
Lemma face_swap s fc t : face_corners s fc t <-> face_corners s (swap_face fc) (tswap t).
Proof. destruct fc as [[i j] k], t as [[p q] r]. unfold face_corners, swap_face, tswap. tauto. Qed.
Lemma concat_map_map {A B} (f : A -> B) l : map f (concat l) = concat (map (map f) l).
Proof. induction l; simpl; auto. rewrite map_app. congruence. Qed.
Lemma surface_carry f s s' l : carries f s s' -> Forall2 (face_corners s) (faces s) l ->
  Forall2 (face_corners s') (faces s') (map (tmap f) l).
Proof. intros [E1 E2] H. rewrite E2. clear E2. induction H; simpl; constructor; auto. eapply face_carry; eauto. Qed.
Lemma surface_flip f s s' l : flips f s s' -> Forall2 (face_corners s) (faces s) l ->
  Forall2 (face_corners s') (faces s') (map tswap (map (tmap f) l)).
Proof.
  intros [E1 E2] H. rewrite E2. clear E2. induction H; simpl; constructor; auto.
  apply -> (face_swap s'). eapply face_carry; eauto.
Qed.
Lemma triangles_carry f x x' ts : Forall2 (carries f) x x' -> triangles x ts -> triangles x' (map (tmap f) ts).
Proof.
  intros HC (tss & HT & ->). exists (map (map (tmap f)) tss). split; [|apply concat_map_map].
  revert tss HT. induction HC as [|s s' x x' Hs HC IH]; intros tss HT; inversion HT; subst; simpl; constructor; auto.
  eapply surface_carry; eauto.
Qed.
Lemma triangles_flip f x x' ts : Forall2 (flips f) x x' -> triangles x ts ->
  triangles x' (map tswap (map (tmap f) ts)).
Proof.
  intros HC (tss & HT & ->). exists (map (map tswap) (map (map (tmap f)) tss)). split; [|rewrite <- !concat_map_map; reflexivity].
  revert tss HT. induction HC as [|s s' x x' Hs HC IH]; intros tss HT; inversion HT; subst; simpl; constructor; auto.
  eapply surface_flip; eauto.
Qed.

Lemma volumeof_iff x ts v : triangles x ts ->
  (volumeof x = Val v <-> issolid x = true /\ issolidclosed x = Val true /\ v = Rabs (signed_volume ts)).
Proof.
  intros HT. apply solid_tris_spec in HT. unfold volumeof. destruct (issolid x) eqn:Hs; cbn [negb].
  2:{ split; [discriminate|intros (H & _); discriminate]. }
  destruct (issolidclosed x) as [c|e]; cbn [obind]; [|split; [discriminate|intros (_ & H & _); discriminate]].
  destruct c; cbn [negb]; [|split; [discriminate|intros (_ & H & _); discriminate]].
  destruct x as [|s x].
  - assert (ts = []) by (cbn in HT; congruence). subst. unfold signed_volume; simpl.
    replace (0 / 6) with 0 by field. rewrite Rabs_R0. split; [intros H; injection H; auto|]. intros (_ & _ & ->). reflexivity.
  - rewrite HT. cbn [obind]. rewrite sum_volume_spec. split; [intros H; injection H; auto|]. intros (_ & _ & ->). reflexivity.
Qed.
Lemma volumeof_tris x v : volumeof x = Val v -> exists ts, triangles x ts.
Proof.
  unfold volumeof, issolidclosed. destruct (issolid x); cbn [negb]; [|discriminate].
  destruct (solid_tris x) as [ts|e] eqn:E; cbn [obind]; [|discriminate].
  intros _. exists ts. apply solid_tris_spec. exact E.
Qed.
Lemma corner_vert x ts p : triangles x ts -> corner ts p -> exists s, In s x /\ In p (verts s).
Proof.
  intros (tss & HT & ->) (q & H). unfold all_sides in H. apply in_flat_map in H as (t & Ht & H).
  apply in_concat in Ht as (l & Hl & Ht).
  induction HT as [|s l' x tss Hs HT IH]; [destruct Hl|].
  destruct Hl as [->|Hl].
  - exists s. split; [left; auto|]. clear IH HT. revert Ht. induction Hs as [|f t' fs l Hf Hs IH]; intros Ht; [destruct Ht|].
    destruct Ht as [->|Ht]; [|auto]. destruct f as [[i j] k], t as [[a b] c]. destruct Hf as (H1 & H2 & H3).
    simpl in H. destruct H as [H|[H|[H|[]]]]; injection H as <- _; eapply at_index_in; eauto.
  - destruct (IH Hl) as (s' & H1 & H2). exists s'. split; [right; auto|auto].
Qed.
Lemma plain_corner x ts p : plain x -> triangles x ts -> corner ts p -> vw p = 1.
Proof. intros HP HT H. destruct (corner_vert x ts p HT H) as (s & H1 & H2). eapply HP; eauto. Qed.
Lemma map_tmap_ext f g ts : (forall p, corner ts p -> f p = g p) -> map (tmap f) ts = map (tmap g) ts.
Proof.
  intros H. apply map_ext_in. intros [[p q] r] Ht. unfold tmap.
  assert (C : forall a b, In (a, b) (sides (p, q, r)) -> corner ts a)
    by (intros a b Hab; exists b; apply in_flat_map; eauto).
  simpl in C. rewrite (H p), (H q), (H r); auto; eapply C; eauto.
Qed.

(** An affine map with unit determinant that keeps distances. *)
Lemma volume_carry f A x x' ts v :
  plain x -> triangles x ts -> separated ts -> oriented ts -> volumeof x = Val v ->
  Forall2 (carries f) x x' -> issolid x' = true ->
  (forall p, vw p = 1 -> f p = act A p) -> Rabs (adet A) = 1 ->
  (forall p q, vw p = 1 -> vw q = 1 -> dist (f p) (f q) = dist p q) ->
  volumeof x' = Val v.
Proof.
  intros HP HT HS HO HV HC Hs HA HD HI.
  apply (volumeof_iff x ts) in HV as (H1 & H2 & ->); auto.
  pose proof (triangles_carry _ _ _ _ HC HT) as HT'.
  assert (HS' : separated (map (tmap f) ts)).
  { apply separated_iso; auto. intros. apply HI; eapply plain_corner; eauto. }
  apply (volumeof_iff x' _ _ HT'). split; [auto|]. split.
  - apply (closed_iff x' _ Hs HT' HS'). apply watertight_iso; [|apply (closed_iff x ts); auto].
    intros p q Hp Hq E. destruct (HS p q Hp Hq) as [|HF]; [auto|exfalso].
    rewrite <- HI in HF by (eapply plain_corner; eauto). rewrite E, dist_refl in HF. pose proof eps_pos. lra.
  - rewrite (map_tmap_ext f (act A)) by (intros; apply HA; eapply plain_corner; eauto).
    rewrite signed_volume_act by auto. rewrite Rabs_mult, HD. ring.
Qed.
Lemma volume_flip f A x x' ts v :
  plain x -> triangles x ts -> separated ts -> oriented ts -> volumeof x = Val v ->
  Forall2 (flips f) x x' -> issolid x' = true ->
  (forall p, vw p = 1 -> f p = act A p) -> Rabs (adet A) = 1 ->
  (forall p q, vw p = 1 -> vw q = 1 -> dist (f p) (f q) = dist p q) ->
  volumeof x' = Val v.
Proof.
  intros HP HT HS HO HV HC Hs HA HD HI.
  apply (volumeof_iff x ts) in HV as (H1 & H2 & ->); auto.
  pose proof (triangles_flip _ _ _ _ HC HT) as HT'.
  assert (HS' : separated (map (tmap f) ts)).
  { apply separated_iso; auto. intros. apply HI; eapply plain_corner; eauto. }
  apply (volumeof_iff x' _ _ HT'). split; [auto|]. split.
  - apply (closed_iff x' _ Hs HT' (separated_swap _ HS')). apply watertight_swap. apply watertight_iso; [|apply (closed_iff x ts); auto].
    intros p q Hp Hq E. destruct (HS p q Hp Hq) as [|HF]; [auto|exfalso].
    rewrite <- HI in HF by (eapply plain_corner; eauto). rewrite E, dist_refl in HF. pose proof eps_pos. lra.
  - rewrite (map_tmap_ext f (act A)) by (intros; apply HA; eapply plain_corner; eauto).
    rewrite signed_volume_swap, signed_volume_act by auto. rewrite Rabs_Ropp, Rabs_mult, HD. ring.
Qed.
(** Any affine map, when both volumes exist. *)
Lemma volume_scaled f A x x' ts v v' :
  plain x -> triangles x ts -> oriented ts -> volumeof x = Val v ->
  Forall2 (carries f) x x' -> (forall p, vw p = 1 -> f p = act A p) ->
  volumeof x' = Val v' -> v' = Rabs (adet A) * v.
Proof.
  intros HP HT HO HV HC HA HV'.
  apply (volumeof_iff x ts) in HV as (H1 & H2 & ->); auto.
  pose proof (triangles_carry _ _ _ _ HC HT) as HT'.
  apply (volumeof_iff x' _ _ HT') in HV' as (_ & _ & ->).
  rewrite (map_tmap_ext f (act A)) by (intros; apply HA; eapply plain_corner; eauto).
  rewrite signed_volume_act by auto. apply Rabs_mult.
Qed.

(** ** the maps *)
Definition Aid : aff := mkaff (mkv 1 0 0 0) (mkv 0 1 0 0) (mkv 0 0 1 0) (mkv 0 0 0 1).
Definition Atrans (d : vec) : aff := mkaff (mkv 1 0 0 0) (mkv 0 1 0 0) (mkv 0 0 1 0) d.
Definition Adiag (a b c : R) (t : vec) : aff := mkaff (mkv a 0 0 0) (mkv 0 b 0 0) (mkv 0 0 c 0) t.
Lemma act_id p : vw p = 1 -> p = act Aid p.
Proof. intros H. destruct p. unfold act, lin, add, dot; simpl in *. apply vec_eq; simpl; try ring. auto. Qed.
Lemma act_trans d p : add p d = act (Atrans d) p.
Proof. unfold act, lin, add, dot; simpl. apply vec_eq; simpl; ring. Qed.
Lemma act_mirror pl p : vw p = 1 -> mul4 p (flip pl) = act (Adiag (vx (flip pl)) (vy (flip pl)) (vz (flip pl)) (mkv 0 0 0 1)) p.
Proof. intros H. unfold act, lin, add, dot, mul4; destruct pl; simpl; apply vec_eq; simpl; rewrite ?H; ring. Qed.
Lemma dist_add p q d : dist (add p d) (add q d) = dist p q.
Proof. unfold dist, sub, add, mag; simpl. f_equal. ring. Qed.
Lemma dist_flip p q pl : dist (mul4 p (flip pl)) (mul4 q (flip pl)) = dist p q.
Proof. unfold dist, sub, mul4, mag; destruct pl; simpl; f_equal; ring. Qed.
Lemma issurface_carry s s' :
  issurface s = true -> length (verts s') = length (verts s) -> length (norms s') = length (norms s) ->
  (forall p, In p (verts s') -> 0 < vw p) -> (forall n, In n (norms s') -> close (vw n) 0 = true) ->
  length (holes s') = length (holes s) -> issurface s' = true.
Proof.
  unfold issurface. intros H E1 E2 HW HN HH. rewrite E1, E2. rewrite !andb_true_iff in *.
  destruct H as ((((((H1 & H2) & H3) & H4) & H5) & H6) & H7).
  assert (HN' : forallb (fun d => close (vw d) 0) (norms s') = true) by (apply forallb_forall; auto).
  assert (HW' : forallb (fun p => Rltb 0 (vw p)) (verts s') = true)
    by (apply forallb_forall; intros p Hp; apply Rltb_true; auto).
  assert (H7' : forallb (filterInds (length (verts s))) (holes s') = true).
  { apply forallb_forall. intros h _. exact H6. }
  tauto.
Qed.
Lemma issurface_parts s : issurface s = true ->
  (forall p, In p (verts s) -> 0 < vw p) /\ (forall n, In n (norms s) -> close (vw n) 0 = true).
Proof.
  unfold issurface. rewrite !andb_true_iff. intros ((((((H1 & H2) & H3) & H4) & H5) & H6) & H7).
  rewrite forallb_forall in H2, H3. split; [|exact H3]. intros p Hp. apply Rltb_true. apply H2; auto.
Qed.
Lemma Forall2_map_r {A B} (P : A -> B -> Prop) (f : A -> B) l : (forall a, In a l -> P a (f a)) -> Forall2 P l (map f l).
Proof. induction l; simpl; constructor; auto. Qed.
Lemma issolid_map x f : issolid x = true -> (forall s, In s x -> issurface s = true -> issurface (f s) = true) ->
  issolid (map f x) = true.
Proof.
  unfold issolid. rewrite !forallb_forall. intros H Hf s Hs. apply in_map_iff in Hs as (s0 & <- & Hs). auto.
Qed.
Lemma volumeof_solid x v : volumeof x = Val v -> issolid x = true.
Proof. unfold volumeof. destruct (issolid x); auto. discriminate. Qed.

(** translation *)
Lemma translate_volume x ts d v :
  plain x -> triangles x ts -> separated ts -> oriented ts -> volumeof x = Val v ->
  volumeof (translatesolid x d) = Val v.
Proof.
  intros HP HT HS HO HV. unfold translatesolid, translatesurface.
  destruct (vclose d (point 0 0 0)).
  { rewrite map_id. exact HV. }
  pose proof (volumeof_solid x v HV) as Hs.
  eapply (volume_carry (fun p => add p d) (Atrans d) x); eauto.
  - apply Forall2_map_r. intros s _. split; reflexivity.
  - apply issolid_map; auto. intros s Hin H. destruct (issurface_parts s H) as [H1 H2].
    apply (issurface_carry s); simpl; rewrite ?map_length; auto.
    intros p Hp. apply in_map_iff in Hp as (p0 & <- & _). simpl. lra.
  - intros p _. apply act_trans.
  - unfold adet, det3; simpl. replace (_ - _ + _) with 1 by ring. apply Rabs_R1.
  - intros. apply dist_add.
Qed.
(** mirror *)
Lemma mirror_volume x ts pl v :
  plain x -> triangles x ts -> separated ts -> oriented ts -> volumeof x = Val v ->
  volumeof (mirrorsolid x pl) = Val v.
Proof.
  intros HP HT HS HO HV. unfold mirrorsolid, mirrorsurface.
  pose proof (volumeof_solid x v HV) as Hs.
  eapply (volume_flip (fun p => mul4 p (flip pl)) (Adiag (vx (flip pl)) (vy (flip pl)) (vz (flip pl)) (mkv 0 0 0 1)) x); eauto.
  - apply Forall2_map_r. intros s _. split; reflexivity.
  - apply issolid_map; auto. intros s Hin H. destruct (issurface_parts s H) as [H1 H2].
    apply (issurface_carry s); simpl; rewrite ?map_length; auto.
    + intros p Hp. apply in_map_iff in Hp as (p0 & <- & Hp). apply H1 in Hp. destruct pl; simpl; lra.
    + intros p Hp. apply in_map_iff in Hp as (p0 & <- & Hp). apply H2 in Hp.
      destruct pl; simpl; rewrite Rmult_1_r; exact Hp.
  - intros p Hw. apply act_mirror; auto.
  - unfold adet, det3; destruct pl; simpl; match goal with |- Rabs ?e = 1 => replace e with (-1) by ring end;
      rewrite Rabs_left; lra.
  - intros. apply dist_flip.
Qed.
(** rotation *)
Definition Arot (u : vec) (c s : R) (cent : vec) : aff :=
  let r := rot_rows u c s in
  let L p := mkv (dot (row0 r) p) (dot (row1 r) p) (dot (row2 r) p) 1 in
  mkaff (row0 r) (row1 r) (row2 r) (sub cent (L cent)).
Lemma rotation_matrix_act ang cent axis m : mag axis = 1 -> rotation_matrix ang cent axis = Val m ->
  exists c s cc, c * c + s * s = 1 /\ (forall p, vw p = 1 -> mulMV m p = act (Arot axis c s cc) p) /\
    (forall n, mulMV m n = mkv (dot (row0 (rot_rows axis c s)) n + vw n * vx (tr (Arot axis c s cc)))
                               (dot (row1 (rot_rows axis c s)) n + vw n * vy (tr (Arot axis c s cc)))
                               (dot (row2 (rot_rows axis c s)) n + vw n * vz (tr (Arot axis c s cc))) (vw n)).
Proof.
  intros Hu H. unfold rotation_matrix in H. apply obind_val in H as (r & Hr & H).
  assert (Hr' : Rotation axis ang false = Ok r).
  { destruct (Rotation axis ang false); simpl in Hr; try discriminate. congruence. }
  apply rotation_form in Hr'. set (t := ang * pi2 / 360) in *.
  exists (cos t), (1 * sin t).
  assert (Hcs : cos t * cos t + 1 * sin t * (1 * sin t) = 1)
    by (pose proof (sin2_cos2 t) as E; unfold Rsqr in E; lra).
  set (c := cos t) in *. set (s := 1 * sin t) in *. clearbody c s t.
  destruct (vclose cent (point 0 0 0)); assert (E : m = _) by (injection H as H; symmetry; exact H); clear H; subst m r.
  - exists (mkv 0 0 0 1). split; [exact Hcs|].
    assert (G : forall n, mulMV (mkmat (rot_rows axis c s) false) n =
      mkv (dot (row0 (rot_rows axis c s)) n + vw n * vx (tr (Arot axis c s (mkv 0 0 0 1))))
          (dot (row1 (rot_rows axis c s)) n + vw n * vy (tr (Arot axis c s (mkv 0 0 0 1))))
          (dot (row2 (rot_rows axis c s)) n + vw n * vz (tr (Arot axis c s (mkv 0 0 0 1)))) (vw n)).
    { intros n. unfold mulMV, getrow, rget, dot4, Arot, sub; simpl. unfold dot; simpl. apply mkv_eq; ring. }
    split; [|exact G]. intros p Hp. rewrite G. unfold act, lin, add. simpl. rewrite Hp. apply mkv_eq; unfold Arot; simpl; unfold dot; simpl; ring.
  - exists cent. split; [exact Hcs|].
    assert (G : forall n, mulMV (mulMM (mulMM (Translation cent false) (mkmat (rot_rows axis c s) false)) (Translation cent true)) n =
      mkv (dot (row0 (rot_rows axis c s)) n + vw n * vx (tr (Arot axis c s cent)))
          (dot (row1 (rot_rows axis c s)) n + vw n * vy (tr (Arot axis c s cent)))
          (dot (row2 (rot_rows axis c s)) n + vw n * vz (tr (Arot axis c s cent))) (vw n)).
    { intros n. rewrite !mulMV_mulMM.
      unfold mulMV, getrow, rget, dot4, Arot, sub, Translation, scale3; simpl. unfold dot; simpl. apply mkv_eq; ring. }
    split; [|exact G]. intros p Hp. rewrite G. unfold act, lin, add. simpl. rewrite Hp. apply mkv_eq; unfold Arot; simpl; unfold dot; simpl; ring.
Qed.
(** For a unit axis the linear part keeps dot products and cross products. *)
Lemma rot_dot u c s p q : vx u * vx u + vy u * vy u + vz u * vz u = 1 -> c * c + s * s = 1 ->
  let A := Arot u c s (mkv 0 0 0 1) in dot (lin A p) (lin A q) = dot p q.
Proof.
  destruct u as [x y z w], p as [px py pz pw], q as [qx qy qz qw]. simpl. intros Hu Hcs.
  unfold lin, Arot; simpl. unfold dot; simpl.
  assert (C : forall a b c' d e f g h i j k l, 
    a = 1 -> b = 0 -> c' = 0 -> d = 1 -> e = 0 -> f = 1 ->
    g * j * a + (g * k + h * j) * b + (g * l + i * j) * c' + h * k * d + (h * l + i * k) * e + i * l * f = g * j + h * k + i * l)
    by (intros; subst; ring).
  rewrite <- (C
    ((c + x*x*(1-c))*(c + x*x*(1-c)) + (y*x*(1-c) + z*s)*(y*x*(1-c) + z*s) + (z*x*(1-c) - y*s)*(z*x*(1-c) - y*s))
    ((c + x*x*(1-c))*(x*y*(1-c) - z*s) + (y*x*(1-c) + z*s)*(c + y*y*(1-c)) + (z*x*(1-c) - y*s)*(z*y*(1-c) + x*s))
    ((c + x*x*(1-c))*(x*z*(1-c) + y*s) + (y*x*(1-c) + z*s)*(y*z*(1-c) - x*s) + (z*x*(1-c) - y*s)*(c + z*z*(1-c)))
    ((x*y*(1-c) - z*s)*(x*y*(1-c) - z*s) + (c + y*y*(1-c))*(c + y*y*(1-c)) + (z*y*(1-c) + x*s)*(z*y*(1-c) + x*s))
    ((x*y*(1-c) - z*s)*(x*z*(1-c) + y*s) + (c + y*y*(1-c))*(y*z*(1-c) - x*s) + (z*y*(1-c) + x*s)*(c + z*z*(1-c)))
    ((x*z*(1-c) + y*s)*(x*z*(1-c) + y*s) + (y*z*(1-c) - x*s)*(y*z*(1-c) - x*s) + (c + z*z*(1-c))*(c + z*z*(1-c)))
    px py pz qx qy qz); [ring|nsatz..].
Qed.
Lemma rot_cross u c s p q : vx u * vx u + vy u * vy u + vz u * vz u = 1 -> c * c + s * s = 1 ->
  let A := Arot u c s (mkv 0 0 0 1) in cross (lin A p) (lin A q) = lin A (cross p q).
Proof.
  destruct u as [x y z w], p as [px py pz pw], q as [qx qy qz qw]. simpl. intros Hu Hcs.
  unfold lin, Arot, cross; simpl. unfold dot; simpl.
  assert (K : forall r11 r12 r13 r21 r22 r23 r31 r32 r33,
    r21 * r32 - r22 * r31 = r13 -> r22 * r33 - r23 * r32 = r11 -> r23 * r31 - r21 * r33 = r12 ->
    (r21 * px + r22 * py + r23 * pz) * (r31 * qx + r32 * qy + r33 * qz) - (r31 * px + r32 * py + r33 * pz) * (r21 * qx + r22 * qy + r23 * qz)
    = r11 * (py * qz - pz * qy) + r12 * (pz * qx - px * qz) + r13 * (px * qy - py * qx)) by (intros; subst; ring).
  apply mkv_eq; [| | |reflexivity]; apply K; nsatz.
Qed.
Lemma rot_det u c s cc : vx u * vx u + vy u * vy u + vz u * vz u = 1 -> c * c + s * s = 1 ->
  adet (Arot u c s cc) = 1.
Proof. destruct u as [x y z w]; simpl. intros Hu Hcs. unfold adet, det3, Arot, rot_rows; simpl. nsatz. Qed.
