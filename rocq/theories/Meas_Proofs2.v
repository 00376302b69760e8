(** Centroids and motions; where the centroid lies; order and orientation; sums. *)
From Coq Require Import Reals ZArith List Bool Permutation Lra Lia.
From Verif Require Import Dict Xform_Model Xform_Proofs Fig_Model Solid_Model Solid_Spec Solid_Proofs Solid_Proofs2 Solid_Proofs3 Solid_Proofs4.
From Verif Require Import Meas_Model Meas_Spec Meas_Proofs.
Import ListNotations.
Open Scope R_scope.

(** ** affine maps *)
Lemma tet6_act A p q r : tet6 (act A o0) (act A p) (act A q) (act A r) = adet A * det3 p q r.
Proof.
  unfold tet6. rewrite <- det_lin. unfold act, add, lin, o0, dot, det3; cbn [vx vy vz]. ring.
Qed.
(** the coordinate of an image: a row times the point, plus the shift *)
Definition row_of (f : vec -> R) (A : aff) (k : vec) (s : R) : Prop :=
  forall p, f (act A p) = vx k * vx p + vy k * vy p + vz k * vz p + s.
Lemma row_x A : row_of vx A (ra A) (vx (tr A)). Proof. intros p. unfold act, add, lin, dot; cbn [vx]. ring. Qed.
Lemma row_y A : row_of vy A (rb A) (vy (tr A)). Proof. intros p. unfold act, add, lin, dot; cbn [vy]. ring. Qed.
Lemma row_z A : row_of vz A (rc A) (vz (tr A)). Proof. intros p. unfold act, add, lin, dot; cbn [vz]. ring. Qed.
Lemma moment_act f k s A ts : coord f -> row_of f A k s -> oriented ts ->
  moment f (map (tmap (act A)) ts) = adet A * (vx k * moment vx ts + vy k * moment vy ts + vz k * moment vz ts + 4 * s * sixv ts).
Proof.
  intros HF HR HO. rewrite <- (mu_sum f (act A o0)) by (auto; apply oriented_tmap; exact HO). rewrite Rsum_map.
  rewrite (Rsum_ext _ (fun t => adet A * (vx k * (det_t t * sum3 vx t) + vy k * (det_t t * sum3 vy t) + (vz k * (det_t t * sum3 vz t) + 4 * s * det_t t)))).
  - rewrite Rsum_scal, !Rsum_plus, !Rsum_scal. fold (moment vx ts) (moment vy ts) (moment vz ts) (sixv ts). ring.
  - intros [[p q] r] _. unfold tmap, mu_t, mu. rewrite tet6_act, !HR. unfold det_t, sum3, o0; cbn [vx vy vz]. ring.
Qed.
Lemma sixv_act A ts : oriented ts -> sixv (map (tmap (act A)) ts) = adet A * sixv ts.
Proof. intros HO. pose proof (signed_volume_act A ts HO) as H. rewrite !sixv_volume in H. lra. Qed.
Lemma mean_act f k s A ts c : coord f -> row_of f A k s -> oriented ts ->
  sixv ts * vx c = moment vx ts / 4 -> sixv ts * vy c = moment vy ts / 4 -> sixv ts * vz c = moment vz ts / 4 ->
  sixv (map (tmap (act A)) ts) * f (act A c) = moment f (map (tmap (act A)) ts) / 4.
Proof.
  intros HF HR HO X Y Z. rewrite sixv_act, (moment_act f k s) by auto. rewrite HR.
  replace (adet A * sixv ts * (vx k * vx c + vy k * vy c + vz k * vz c + s)) with
    (adet A * (vx k * (sixv ts * vx c) + vy k * (sixv ts * vy c) + vz k * (sixv ts * vz c) + s * sixv ts)) by ring.
  rewrite X, Y, Z. field.
Qed.
Lemma centre_act A ts o o' c : oriented ts -> centre_from o ts c -> centre_from o' (map (tmap (act A)) ts) (act A c).
Proof.
  intros HO H. apply centre_from_eq in H as (X & Y & Z); auto. apply centre_from_eq; [apply oriented_tmap; exact HO|].
  split; [|split].
  - apply (mean_act vx (ra A) (vx (tr A)) A ts c); auto using coord_x, row_x.
  - apply (mean_act vy (rb A) (vy (tr A)) A ts c); auto using coord_y, row_y.
  - apply (mean_act vz (rc A) (vz (tr A)) A ts c); auto using coord_z, row_z.
Qed.
(** ** reversal *)
Lemma det_swap t : det_t (tswap t) = - det_t t.
Proof. destruct t as [[p q] r]. unfold tswap, det_t, det3. ring. Qed.
Lemma sixv_swap ts : sixv (map tswap ts) = - sixv ts.
Proof.
  unfold sixv. rewrite Rsum_map, (Rsum_ext _ (fun t => -1 * det_t t)); [rewrite Rsum_scal; ring|]. intros t _. rewrite det_swap. ring.
Qed.
Lemma moment_swap f ts : moment f (map tswap ts) = - moment f ts.
Proof.
  unfold moment. rewrite Rsum_map, (Rsum_ext _ (fun t => -1 * (det_t t * sum3 f t))); [rewrite Rsum_scal; ring|].
  intros [[p q] r] _. rewrite det_swap. unfold tswap, sum3. ring.
Qed.
Lemma centre_swap ts o o' c : oriented ts -> centre_from o ts c -> centre_from o' (map tswap ts) c.
Proof.
  intros HO H. apply centre_from_eq in H as (X & Y & Z); auto. apply centre_from_eq; [apply oriented_swap; exact HO|].
  rewrite sixv_swap, !moment_swap. split; [|split]; lra.
Qed.
Lemma reverse_flips x : Forall2 (flips (fun p => p)) x (map reversesurface x).
Proof. apply Forall2_map_r. intros s _. split; [cbn; rewrite map_id; reflexivity|reflexivity]. Qed.
Lemma tmap_id ts : map (tmap (fun p => p)) ts = ts.
Proof. rewrite <- (map_id ts) at 2. apply map_ext. intros [[p q] r]. reflexivity. Qed.
Lemma centroid_perm x x' ts ts' : triangles x ts -> triangles x' ts' -> Permutation ts ts' -> x <> [] -> x' <> [] ->
  mesh_centroid x' = mesh_centroid x.
Proof.
  intros HT HT' HP N N'. rewrite (mesh_centroid_eq x ts), (mesh_centroid_eq x' ts') by auto. cbv zeta.
  unfold signed_volume, moment. rewrite !(Rsum_perm _ _ _ HP). reflexivity.
Qed.
Lemma centroid_reverse x ts : triangles x ts -> mesh_centroid (map reversesurface x) = mesh_centroid x.
Proof.
  intros HT. destruct x as [|s x]; [reflexivity|].
  pose proof (triangles_flip _ _ _ _ (reverse_flips (s :: x)) HT) as HT'. rewrite tmap_id in HT'.
  rewrite (mesh_centroid_eq (s :: x) ts), (mesh_centroid_eq (map reversesurface (s :: x)) (map tswap ts)) by (auto; discriminate). cbv zeta.
  rewrite signed_volume_swap, !moment_swap, Rabs_Ropp. destruct (Rltb (Rabs (signed_volume ts)) tiny) eqn:B; [reflexivity|].
  apply Rltb_false in B. assert (V : signed_volume ts <> 0) by (intros E; rewrite E, Rabs_R0 in B; pose proof tiny_pos; lra).
  assert (G : forall a, - a / 24 / - signed_volume ts = a / 24 / signed_volume ts) by (intros a; field; exact V).
  rewrite !G. reflexivity.
Qed.

(** ** the motions of solids *)
Lemma moved_centroid f A x x' ts c : Forall2 (carries f) x x' -> (forall p, vw p = 1 -> f p = act A p) -> plain x ->
  triangles x ts -> oriented ts -> mesh_centroid x = Val (Some c) -> tiny <= Rabs (adet A) * Rabs (signed_volume ts) ->
  mesh_centroid x' = Val (Some (mkv (vx (act A c)) (vy (act A c)) (vz (act A c)) 1)).
Proof.
  intros HC HA HP HT HO H HV. pose proof (triangles_carry _ _ _ _ HC HT) as HT'.
  rewrite (map_tmap_ext f (act A)) in HT' by (intros; apply HA; eapply plain_corner; eauto).
  apply (centre_centroid x' (map (tmap (act A)) ts) o0); auto.
  - apply oriented_tmap; exact HO.
  - rewrite signed_volume_act, Rabs_mult by auto. exact HV.
  - destruct (centroid_centre x ts c o0 HT HO H) as (HC' & _ & _). apply (centre_act A ts o0 o0) in HC'; auto.
Qed.
Lemma flipped_centroid f A x x' ts c : Forall2 (flips f) x x' -> (forall p, vw p = 1 -> f p = act A p) -> plain x ->
  triangles x ts -> oriented ts -> mesh_centroid x = Val (Some c) -> tiny <= Rabs (adet A) * Rabs (signed_volume ts) ->
  mesh_centroid x' = Val (Some (mkv (vx (act A c)) (vy (act A c)) (vz (act A c)) 1)).
Proof.
  intros HC HA HP HT HO H HV. pose proof (triangles_flip _ _ _ _ HC HT) as HT'.
  rewrite (map_tmap_ext f (act A)) in HT' by (intros; apply HA; eapply plain_corner; eauto).
  apply (centre_centroid x' (map tswap (map (tmap (act A)) ts)) o0); auto.
  - apply oriented_swap, oriented_tmap; exact HO.
  - rewrite signed_volume_swap, Rabs_Ropp, signed_volume_act, Rabs_mult by auto. exact HV.
  - apply (centre_swap _ o0 o0); [apply oriented_tmap; exact HO|].
    destruct (centroid_centre x ts c o0 HT HO H) as (HC' & _ & _). apply (centre_act A ts o0 o0) in HC'; auto.
Qed.
Lemma adet_trans d : adet (Atrans d) = 1.
Proof. unfold adet, det3, Atrans; cbn. ring. Qed.
Lemma translate_centroid x ts d c : plain x -> triangles x ts -> oriented ts -> mesh_centroid x = Val (Some c) ->
  epsilon <= dist d (point 0 0 0) ->
  mesh_centroid (translatesolid x d) = Val (Some (point (vx c + vx d) (vy c + vy d) (vz c + vz d))).
Proof.
  intros HP HT HO H HD. apply vclose_far in HD. destruct (proj1 (centroid_some x ts c HT) H) as [HV _].
  assert (HC : Forall2 (carries (fun p => add p d)) x (translatesolid x d)).
  { unfold translatesolid. apply Forall2_map_r. intros s _. unfold translatesurface. rewrite HD. split; reflexivity. }
  set (B := mkaff (mkv 1 0 0 0) (mkv 0 1 0 0) (mkv 0 0 1 0) (mkv (vx d) (vy d) (vz d) 1)).
  rewrite (moved_centroid (fun p => add p d) B x (translatesolid x d) ts c HC); auto.
  - do 2 f_equal. unfold B, act, add, lin, dot; cbn [vx vy vz tr ra rb rc]. unfold point. apply mkv_eq; ring.
  - intros p Hp. unfold B, act, add, lin, dot; cbn [vx vy vz tr ra rb rc]. apply mkv_eq; ring.
  - unfold B, adet, det3; cbn [ra rb rc vx vy vz]. match goal with |- _ <= Rabs ?e * _ => replace e with 1 by ring end. rewrite Rabs_R1. lra.
Qed.
Lemma mirror_centroid x ts pl c : plain x -> triangles x ts -> oriented ts -> mesh_centroid x = Val (Some c) ->
  mesh_centroid (mirrorsolid x pl) = Val (Some (mul4 c (flip pl))).
Proof.
  intros HP HT HO H. destruct (proj1 (centroid_some x ts c HT) H) as [HV _]. destruct (centroid_centre x ts c o0 HT HO H) as (_ & _ & HW).
  assert (HC : Forall2 (flips (fun p => mul4 p (flip pl))) x (mirrorsolid x pl)).
  { unfold mirrorsolid. apply Forall2_map_r. intros s _. split; reflexivity. }
  rewrite (flipped_centroid (fun p => mul4 p (flip pl)) (Adiag (vx (flip pl)) (vy (flip pl)) (vz (flip pl)) (mkv 0 0 0 1)) x _ ts c HC); auto.
  - rewrite <- act_mirror by exact HW. do 2 f_equal. destruct pl; unfold mul4, flip; cbn [vx vy vz vw]; rewrite HW; apply mkv_eq; ring.
  - intros p Hp. apply act_mirror; exact Hp.
  - unfold adet, det3; destruct pl; cbn; match goal with |- _ <= Rabs ?e * _ => replace e with (-1) by ring end;
      rewrite (Rabs_left (-1)) by lra; lra.
Qed.
(** the linear part is a rotation matrix *)
Lemma rotate_centroid x ts ang cent axis x' c : mag axis = 1 -> plain x -> triangles x ts -> oriented ts ->
  mesh_centroid x = Val (Some c) -> rotatesolid x ang cent axis = Val x' ->
  x' = x \/ exists m, rotation_matrix ang cent axis = Val m /\ Forall2 (fun s s' => verts s' = map (mulMV m) (verts s)) x x' /\
    mesh_centroid x' = Val (Some (mulMV m c)).
Proof.
  intros Hu HP HT HO H HR. apply rotatesolid_inv in HR as [->|[_ [[-> ->]|(m & Hm & ->)]]]; auto. right. exists m. split; [exact Hm|]. split; [apply Forall2_map_r; intros s0 _; reflexivity|].
  destruct (rotation_matrix_act ang cent axis m Hu Hm) as (c0 & s & cc & Hcs & HA & HN). apply mag_one_sq in Hu.
  destruct (proj1 (centroid_some x ts c HT) H) as [HV _]. destruct (centroid_centre x ts c o0 HT HO H) as (_ & _ & HW).
  set (x' := map _ x).
  assert (HC : Forall2 (carries (mulMV m)) x x') by (apply Forall2_map_r; intros s0 _; split; reflexivity).
  pose proof (triangles_carry _ _ _ _ HC HT) as HT'.
  rewrite (map_tmap_ext (mulMV m) (act (Arot axis c0 s cc))) in HT' by (intros; apply HA; eapply plain_corner; eauto).
  apply (centre_centroid x' (map (tmap (act (Arot axis c0 s cc))) ts) o0); auto.
  - apply oriented_tmap; exact HO.
  - rewrite signed_volume_act, Rabs_mult, rot_det, Rabs_R1 by auto. lra.
  - rewrite HA by exact HW. destruct (centroid_centre x ts c o0 HT HO H) as (HC' & _ & _). apply (centre_act (Arot axis c0 s cc) ts o0 o0) in HC'; auto.
  - rewrite HN. cbn [vw]. exact HW.
Qed.
Lemma scale_centroid x ts sx sy sz cent x' c : epsilon <= dist (point sx sy sz) (point 1 1 1) -> plain x -> triangles x ts -> oriented ts ->
  mesh_centroid x = Val (Some c) -> scalesolid x sx (Some sy) (Some sz) cent = Val x' ->
  tiny <= Rabs (sx * sy * sz) * Rabs (signed_volume ts) -> mesh_centroid x' = Val (Some (mulMV (scmat sx sy sz cent) c)).
Proof.
  intros HF HP HT HO H HS HV. apply vclose_far in HF. apply scalesolid_inv in HS; auto.
  destruct (scmat_act sx sy sz cent) as [cc HA]. destruct (centroid_centre x ts c o0 HT HO H) as (HC & _ & HW).
  pose proof (triangles_carry _ _ _ _ HS HT) as HT'.
  rewrite (map_tmap_ext _ (act (Sc sx sy sz cc))) in HT' by (intros; apply HA; eapply plain_corner; eauto).
  apply (centre_centroid x' (map (tmap (act (Sc sx sy sz cc))) ts) o0); auto.
  - apply oriented_tmap; exact HO.
  - rewrite signed_volume_act, Rabs_mult, sc_det by auto. exact HV.
  - rewrite HA by exact HW. apply (centre_act _ ts o0 o0); auto.
  - rewrite HA by exact HW. unfold act, add, Sc, Adiag. cbn [vw lin tr]. reflexivity.
Qed.
