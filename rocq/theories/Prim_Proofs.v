(** The rectangular prism. *)
From Coq Require Import Reals List Bool ZArith Lra Lia Permutation.
From Verif Require Import Xform_Model Xform_Proofs Fig_Model Fig_Proofs Fig_Proofs2 Solid_Model Solid_Spec Solid_Proofs Solid_Proofs2
  Solid_Proofs3 Solid_Proofs4 Solid_Proofs5 Solid_Proofs7 Prim_Model Prim_Spec Prim_Lab.
Import ListNotations.
Open Scope R_scope.

Lemma mag_sq1 v : vx v * vx v + vy v * vy v + vz v * vz v = 1 -> mag v = 1.
Proof. intros H. unfold mag. rewrite H. apply sqrt_1. Qed.
Lemma vclose_origin : vclose origin (point 0 0 0) = true.
Proof. apply vclose_near. apply near_self. Qed.
Lemma Rotation_unit u a : mag u = 1 -> 0 <= a < 360 ->
  Rotation u a false = Ok (mkmat (rot_rows u (cos (a * pi2 / 360)) (sin (a * pi2 / 360))) false).
Proof.
  intros Hu Ha. unfold Rotation. rewrite Hu. rewrite Rltb_f by (unfold epsilon; lra).
  assert (E : close 1 1 = true).
  { unfold close. apply Rltb_t. rewrite Rminus_diag_eq, Rabs_R0 by reflexivity. unfold epsilon; lra. }
  rewrite E. cbn [negb]. rewrite pymod_id by lra. reflexivity.
Qed.
Definition rot_surface (u : vec) (c s : R) (x : surf) : surf :=
  let m := mkmat (rot_rows u c s) false in
  mksurf (map (mulMV m) (verts x)) (map (mulMV m) (norms x)) (faces x) (bnd x) (holes x).
Lemma rotatesurface_unit x u a : mag u = 1 -> epsilon <= a < 360 ->
  rotatesurface x a origin u = Val (rot_surface u (cos (a * pi2 / 360)) (sin (a * pi2 / 360)) x).
Proof.
  intros Hu Ha. unfold rotatesurface.
  assert (E : close a 0 = false).
  { unfold close. apply Rltb_f. rewrite Rminus_0_r, Rabs_right; unfold epsilon in *; lra. }
  rewrite E. unfold rotation_matrix. rewrite Rotation_unit by (unfold epsilon in *; auto; lra). cbn [of_res obind].
  rewrite vclose_origin. reflexivity.
Qed.
Lemma turn180 : cos (180 * pi2 / 360) = -1 /\ sin (180 * pi2 / 360) = 0.
Proof. unfold pi2. replace (180 * (2 * PI) / 360) with PI by field. split; [apply cos_PI|apply sin_PI]. Qed.
Lemma turn90 : cos (90 * pi2 / 360) = 0 /\ sin (90 * pi2 / 360) = 1.
Proof. unfold pi2. replace (90 * (2 * PI) / 360) with (PI / 2) by field. split; [apply cos_PI2|apply sin_PI2]. Qed.
Lemma vec_ext p q : vx p = vx q -> vy p = vy q -> vz p = vz q -> vw p = vw q -> p = q.
Proof. destruct p, q. simpl. intros -> -> -> ->. reflexivity. Qed.

(** rectangularPlane never fails *)
Definition plane_verts (l w : R) (c : vec) : list vec :=
  [point (vx c - l / 2) (vy c - w / 2) (vz c); point (vx c + l / 2) (vy c - w / 2) (vz c);
   point (vx c + l / 2) (vy c + w / 2) (vz c); point (vx c - l / 2) (vy c + w / 2) (vz c)].
Definition zhat : vec := mkv 0 0 1 0.
Definition plane_surf (l w : R) (c : vec) : surf :=
  mksurf (plane_verts l w c) [zhat; zhat; zhat; zhat] [(0, 1, 2); (2, 3, 0)]%Z [0; 1; 2; 3]%Z [].
Lemma issurface_ok vs ns fs b : (2 < length vs)%nat -> length vs = length ns -> (forall p, In p vs -> vw p = 1) ->
  (forall n, In n ns -> vw n = 0) -> issurface (mksurf vs ns fs b []) = true.
Proof.
  intros H1 H2 H3 H4. unfold issurface; cbn [verts norms faces bnd holes forallb]. unfold filterInds.
  assert (E : Nat.ltb (length vs) 3 = false) by (apply Nat.ltb_ge; lia). rewrite E.
  rewrite (proj2 (Nat.ltb_lt _ _) H1), H2, Nat.eqb_refl. cbn [negb].
  rewrite (proj2 (forallb_forall _ _)), (proj2 (forallb_forall _ _)); auto.
  - intros n Hn. rewrite (H4 n Hn). unfold close. apply Rltb_t. rewrite Rminus_diag_eq, Rabs_R0 by reflexivity. unfold epsilon; lra.
  - intros p Hp. rewrite (H3 p Hp). apply Rltb_t. lra.
Qed.
Lemma mk_surface_ok vs ns fs : (2 < length vs)%nat -> length vs = length ns -> (forall p, In p vs -> vw p = 1) ->
  (forall n, In n ns -> vw n = 0) -> mk_surface vs ns fs = Val (mksurf vs ns fs [] []).
Proof.
  intros H1 H2 H3 H4. unfold mk_surface. rewrite issurface_ok by auto. rewrite H2, Nat.eqb_refl. reflexivity.
Qed.
Lemma rectangularPlane_val l w c : rectangularPlane l w c = Val (plane_surf l w c).
Proof.
  unfold rectangularPlane. rewrite mk_surface_ok.
  - cbn [obind with_bnd verts norms faces]. unfold with_bnd, plane_surf, plane_verts; cbn [verts norms faces]. do 2 f_equal.
    unfold add, scale3, point; cbn [vx vy vz vw].
    repeat (apply f_equal2; [apply vec_ext; cbn [vx vy vz vw]; try reflexivity; field|]). reflexivity.
  - simpl; lia.
  - reflexivity.
  - intros p Hp. repeat (destruct Hp as [<-|Hp]; [reflexivity|]). destruct Hp.
  - intros p Hp. repeat (destruct Hp as [<-|Hp]; [reflexivity|]). destruct Hp.
Qed.
Lemma plane_face l w c f t : In f [(0, 1, 2); (2, 3, 0)]%Z -> face_corners (plane_surf l w c) f t ->
  t = (nth 0 (plane_verts l w c) origin, nth 1 (plane_verts l w c) origin, nth 2 (plane_verts l w c) origin) \/
  t = (nth 2 (plane_verts l w c) origin, nth 3 (plane_verts l w c) origin, nth 0 (plane_verts l w c) origin).
Proof.
  intros Hf Ht. destruct Hf as [<-|[<-|[]]]; apply corner_points_spec in Ht; [left|right]; unfold corner_points, pyget in Ht;
    cbn [plane_surf plane_verts verts length Z.of_nat Pos.of_succ_nat Pos.succ Z.ltb Z.leb Z.compare Pos.compare Pos.compare_cont Z.to_nat Pos.to_nat Pos.iter_op Nat.add nth_error obind orb] in Ht;
    cbn [nth plane_verts]; symmetry; injection Ht; intros; subst; reflexivity.
Qed.
Lemma plane_shaded l w c : 0 < l -> 0 < w -> well_shaded (plane_surf l w c).
Proof.
  intros Hl Hw. assert (0 < l * w) by (apply Rmult_lt_0_compat; auto). split.
  - intros f t i n Hf Ht Hi Hn.
    assert (n = zhat) as ->.
    { apply at_index_in in Hn. cbn [plane_surf norms In] in Hn. intuition congruence. }
    pose proof (plane_face l w c f t Hf Ht) as Ht'.
    destruct Ht' as [->| ->]; cbn [nth plane_verts]; exists (/ (l * w)); (split; [apply Rinv_0_lt_compat; auto|]);
      unfold zhat, point; cbn [vx vy vz]; (split; [|split]); field; lra.
  - intros n Hn. cbn [plane_surf norms] in Hn. assert (n = zhat) as -> by (cbn [In] in Hn; intuition congruence).
    unfold zhat; cbn [vx vy vz vw]. split; [reflexivity|ring].
Qed.
Lemma plane_w l w c : w_one (plane_surf l w c).
Proof. intros p Hp. cbn [plane_surf verts plane_verts] in Hp. repeat (destruct Hp as [<-|Hp]; [reflexivity|]). destruct Hp. Qed.

(** the prism before it is moved *)
Definition sgn (b : bool) (x : R) : R := if b then x / 2 else - (x / 2).
Definition cpos (l w h : R) (c : vec) (k : bool * bool * bool) : vec :=
  let '(a, b, d) := k in point (vx c + sgn a l) (vy c + sgn b w) (vz c + sgn d h).
Local Definition o := false. Local Definition i := true.
Definition prism_labels : list (list (bool * bool * bool)) :=
  [ [(o,o,i); (i,o,i); (i,i,i); (o,i,i)];   (* top *)
    [(o,i,o); (i,i,o); (i,o,o); (o,o,o)];   (* bottom *)
    [(o,o,o); (i,o,o); (i,o,i); (o,o,i)];   (* front *)
    [(i,i,o); (o,i,o); (o,i,i); (i,i,i)];   (* back *)
    [(i,o,i); (i,o,o); (i,i,o); (i,i,i)];   (* right *)
    [(o,i,i); (o,i,o); (o,o,o); (o,o,i)] ]. (* left *)
Definition prism_norms : list vec :=
  [mkv 0 0 1 0; mkv 0 0 (-1) 0; mkv 0 (-1) 0 0; mkv 0 1 0 0; mkv 1 0 0 0; mkv (-1) 0 0 0].
Definition quad (l w h : R) (c : vec) (ks : list (bool * bool * bool)) (n : vec) : surf :=
  mksurf (map (cpos l w h c) ks) [n; n; n; n] [(0, 1, 2); (2, 3, 0)]%Z [0; 1; 2; 3]%Z [].
Definition prism_surfs (l w h : R) (c : vec) : solid :=
  map (fun kn => quad l w h c (fst kn) (snd kn)) (combine prism_labels prism_norms).
Definition prism_center (c : vec) : vec := if vclose c origin then origin else c.

Lemma rot_x180 p : mulMV (mkmat (rot_rows (point 1 0 0) (-1) 0) false) p = mkv (vx p) (- vy p) (- vz p) (vw p).
Proof. unfold mulMV, getrow, rget, dot4, rot_rows, point; cbn [vx vy vz vw row0 row1 row2 row3 mm trans]. apply vec_ext; cbn [vx vy vz vw]; ring. Qed.
Lemma rot_x90 p : mulMV (mkmat (rot_rows (point 1 0 0) 0 1) false) p = mkv (vx p) (- vz p) (vy p) (vw p).
Proof. unfold mulMV, getrow, rget, dot4, rot_rows, point; cbn [vx vy vz vw row0 row1 row2 row3 mm trans]. apply vec_ext; cbn [vx vy vz vw]; ring. Qed.
Lemma rot_y90 p : mulMV (mkmat (rot_rows (point 0 1 0) 0 1) false) p = mkv (vz p) (vy p) (- vx p) (vw p).
Proof. unfold mulMV, getrow, rget, dot4, rot_rows, point; cbn [vx vy vz vw row0 row1 row2 row3 mm trans]. apply vec_ext; cbn [vx vy vz vw]; ring. Qed.
Lemma rot_z180 p : mulMV (mkmat (rot_rows (point 0 0 1) (-1) 0) false) p = mkv (- vx p) (- vy p) (vz p) (vw p).
Proof. unfold mulMV, getrow, rget, dot4, rot_rows, point; cbn [vx vy vz vw row0 row1 row2 row3 mm trans]. apply vec_ext; cbn [vx vy vz vw]; ring. Qed.
Lemma surf_ext vs ns fs b hs vs' ns' : vs = vs' -> ns = ns' -> mksurf vs ns fs b hs = mksurf vs' ns' fs b hs.
Proof. intros -> ->. reflexivity. Qed.
Lemma prism_step l w h : 
  let top := plane_surf l w (point 0 0 (h / 2)) in
  let fr := rot_surface (point 1 0 0) 0 1 (plane_surf l h (point 0 0 (w / 2))) in
  let ri := rot_surface (point 0 1 0) 0 1 (plane_surf h w (point 0 0 (l / 2))) in
  [top; rot_surface (point 1 0 0) (-1) 0 top; fr; rot_surface (point 0 0 1) (-1) 0 fr; ri; rot_surface (point 0 0 1) (-1) 0 ri]
  = prism_surfs l w h origin.
Proof.
  cbv zeta. unfold prism_surfs, prism_labels, prism_norms. cbn [combine map fst snd].
  unfold rot_surface, plane_surf, quad, plane_verts; cbn [verts norms faces bnd holes map].
  rewrite ?rot_x180, ?rot_x90, ?rot_y90, ?rot_z180.
  unfold zhat, cpos, sgn, o, i, origin, point; cbn [vx vy vz vw].
  repeat match goal with |- _ :: _ = _ :: _ => apply f_equal2 end;
    try reflexivity; apply surf_ext; repeat match goal with |- _ :: _ = _ :: _ => apply f_equal2 end; try reflexivity; apply vec_ext; cbn [vx vy vz vw]; try reflexivity; lra.
Qed.
Lemma prism_val l w h c : prism l w h c = Val (prism_surfs l w h (prism_center c)).
Proof.
  unfold prism. rewrite !rectangularPlane_val. cbn [obind].
  assert (X : mag (point 1 0 0) = 1) by (apply mag_sq1; unfold point; cbn [vx vy vz]; ring).
  assert (Y : mag (point 0 1 0) = 1) by (apply mag_sq1; unfold point; cbn [vx vy vz]; ring).
  assert (Z : mag (point 0 0 1) = 1) by (apply mag_sq1; unfold point; cbn [vx vy vz]; ring).
  do 3 (rewrite rotatesurface_unit by (auto; unfold epsilon; lra); cbn [obind]).
  do 2 (rewrite rotatesurface_unit by (auto; unfold epsilon; lra); cbn [obind]).
  rewrite (proj1 turn180), (proj2 turn180), (proj1 turn90), (proj2 turn90).
  rewrite prism_step. unfold prism_center. destruct (vclose c origin) eqn:E; [reflexivity|].
  f_equal. unfold prism_surfs. rewrite map_map. apply map_ext. intros [ks n]. cbn [fst snd].
  unfold translatesurface. change (vclose c (point 0 0 0)) with (vclose c origin). rewrite E.
  unfold quad; cbn [verts norms faces bnd holes]. f_equal. rewrite map_map. apply map_ext. intros [[a b] d].
  unfold cpos, add, origin, point; cbn [vx vy vz vw]. apply vec_ext; cbn [vx vy vz vw]; ring.
Qed.

Lemma prism_triangles l w h c : triangles (prism_surfs l w h c)
  (map (at_pos (cpos l w h c)) (flat_map (fun ks => [(nth 0 ks (o,o,o), nth 1 ks (o,o,o), nth 2 ks (o,o,o)); (nth 2 ks (o,o,o), nth 3 ks (o,o,o), nth 0 ks (o,o,o))]) prism_labels)).
Proof.
  apply solid_tris_spec. unfold solid_tris, prism_surfs, prism_labels, prism_norms. cbn [combine map fst snd omap surface_tris quad faces].
  unfold surface_tris, quad, corner_points, pyget; cbn [verts faces map omap length Z.of_nat Pos.of_succ_nat Pos.succ Z.ltb Z.leb Z.compare Pos.compare Pos.compare_cont Z.to_nat Pos.to_nat Pos.iter_op Nat.add nth_error obind orb].
  cbn [concat app flat_map map at_pos nth]. reflexivity.
Qed.
Definition prism_ltris : list (ltri (bool * bool * bool)) :=
  flat_map (fun ks => [(nth 0 ks (o,o,o), nth 1 ks (o,o,o), nth 2 ks (o,o,o)); (nth 2 ks (o,o,o), nth 3 ks (o,o,o), nth 0 ks (o,o,o))]) prism_labels.
Lemma lab_dec (a b : bool * bool * bool) : {a = b} + {a <> b}.
Proof. repeat decide equality. Defined.
Lemma lside_dec (a b : (bool * bool * bool) * (bool * bool * bool)) : {a = b} + {a <> b}.
Proof. repeat decide equality. Defined.
Lemma prism_lorient : lorient prism_ltris.
Proof.
  apply (perm_count lside_dec). intros [[[[] []] []] [[[] []] []]]; vm_compute; reflexivity.
Qed.
Lemma prism_nodup : NoDup (lall prism_ltris).
Proof.
  apply (NoDup_count_occ lside_dec). intros [[[[] []] []] [[[] []] []]]; apply Nat.leb_le; vm_compute; reflexivity.
Qed.
Lemma prism_noloop a : ~ In (a, a) (lall prism_ltris).
Proof.
  intros H. apply (count_occ_In lside_dec) in H. revert H. destruct a as [[[] []] []]; vm_compute; lia.
Qed.
Lemma prism_oriented l w h c : oriented (map (at_pos (cpos l w h c)) prism_ltris).
Proof. apply orient_pos, prism_lorient. Qed.
Lemma prism_signed l w h c : signed_volume (map (at_pos (cpos l w h c)) prism_ltris) = l * w * h.
Proof.
  unfold signed_volume, prism_ltris, prism_labels. cbn [flat_map app nth map at_pos Rsum cpos]. unfold o, i, sgn, det3, point; cbn [vx vy vz]. field.
Qed.
Lemma dist_x p q d : d < Rabs (vx p - vx q) -> d < dist p q.
Proof.
  intros H. apply Rlt_le_trans with (1 := H). unfold dist, mag, sub; cbn [vx vy vz].
  rewrite <- sqrt_Rsqr_abs. apply sqrt_le_1_alt. unfold Rsqr. pose proof (Rle_0_sqr (vy p - vy q)). pose proof (Rle_0_sqr (vz p - vz q)). unfold Rsqr in *. lra.
Qed.
Lemma dist_y p q d : d < Rabs (vy p - vy q) -> d < dist p q.
Proof.
  intros H. apply Rlt_le_trans with (1 := H). unfold dist, mag, sub; cbn [vx vy vz].
  rewrite <- sqrt_Rsqr_abs. apply sqrt_le_1_alt. unfold Rsqr. pose proof (Rle_0_sqr (vx p - vx q)). pose proof (Rle_0_sqr (vz p - vz q)). unfold Rsqr in *. lra.
Qed.
Lemma dist_z p q d : d < Rabs (vz p - vz q) -> d < dist p q.
Proof.
  intros H. apply Rlt_le_trans with (1 := H). unfold dist, mag, sub; cbn [vx vy vz].
  rewrite <- sqrt_Rsqr_abs. apply sqrt_le_1_alt. unfold Rsqr. pose proof (Rle_0_sqr (vx p - vx q)). pose proof (Rle_0_sqr (vy p - vy q)). unfold Rsqr in *. lra.
Qed.
Lemma sgn_gap a b x : a <> b -> 0 <= x -> Rabs (sgn a x - sgn b x) = x.
Proof.
  intros H Hx. destruct a, b; try congruence; unfold sgn; [rewrite Rabs_right|rewrite Rabs_left1]; lra.
Qed.
Lemma cpos_sep l w h c : 2 * epsilon < l -> 2 * epsilon < w -> 2 * epsilon < h ->
  forall a b, a = b \/ 2 * epsilon < dist (cpos l w h c a) (cpos l w h c b).
Proof.
  intros Hl Hw Hh [[a1 a2] a3] [[b1 b2] b3].
  assert (0 < epsilon) by (unfold epsilon; lra).
  destruct (Bool.bool_dec a1 b1) as [->|N]; [destruct (Bool.bool_dec a2 b2) as [->|N]; [destruct (Bool.bool_dec a3 b3) as [->|N]|]|].
  - left; reflexivity.
  - right. apply dist_z. unfold cpos, point; cbn [vz].
    replace (vz c + sgn a3 h - (vz c + sgn b3 h)) with (sgn a3 h - sgn b3 h) by ring. rewrite sgn_gap; auto; lra.
  - right. apply dist_y. unfold cpos, point; cbn [vy].
    replace (vy c + sgn a2 w - (vy c + sgn b2 w)) with (sgn a2 w - sgn b2 w) by ring. rewrite sgn_gap; auto; lra.
  - right. apply dist_x. unfold cpos, point; cbn [vx].
    replace (vx c + sgn a1 l - (vx c + sgn b1 l)) with (sgn a1 l - sgn b1 l) by ring. rewrite sgn_gap; auto; lra.
Qed.
Lemma prism_closed l w h c : 2 * epsilon < l -> 2 * epsilon < w -> 2 * epsilon < h ->
  let ts := map (at_pos (cpos l w h c)) prism_ltris in separated ts /\ watertight ts.
Proof.
  intros Hl Hw Hh. pose proof (cpos_sep l w h c Hl Hw Hh) as S. split.
  - apply separated_pos. auto.
  - apply tight_pos; auto using prism_lorient, prism_nodup, prism_noloop.
    apply sep_inj. auto.
Qed.
Lemma quad_issurface l w h c ks n : length ks = 4%nat -> vw n = 0 -> issurface (quad l w h c ks n) = true.
Proof.
  intros Hk Hn. apply issurface_ok.
  - rewrite map_length, Hk. lia.
  - rewrite map_length, Hk. reflexivity.
  - intros p Hp. apply in_map_iff in Hp as ([[a b] d] & <- & _). reflexivity.
  - intros m Hm. cbn [In] in Hm. assert (m = n) by intuition congruence. congruence.
Qed.
Lemma prism_each l w h c s : In s (prism_surfs l w h c) -> exists ks n, In (ks, n) (combine prism_labels prism_norms) /\ s = quad l w h c ks n.
Proof. intros H. apply in_map_iff in H as ([ks n] & <- & H). eauto. Qed.
Lemma prism_issolid l w h c : issolid (prism_surfs l w h c) = true.
Proof.
  apply forallb_forall. intros s Hs. apply prism_each in Hs as (ks & n & H & ->). apply quad_issurface.
  - cbn [combine prism_labels prism_norms In] in H. intuition; match goal with E : _ = (ks, n) |- _ => injection E as <- <-; reflexivity end.
  - cbn [combine prism_labels prism_norms In] in H. intuition; match goal with E : _ = (ks, n) |- _ => injection E as <- <-; reflexivity end.
Qed.
Lemma prism_volume l w h c : 2 * epsilon < l -> 2 * epsilon < w -> 2 * epsilon < h ->
  volumeof (prism_surfs l w h c) = Val (l * w * h).
Proof.
  intros Hl Hw Hh. destruct (prism_closed l w h c Hl Hw Hh) as [S W]. cbv zeta in *.
  pose proof (prism_triangles l w h c) as T. fold prism_ltris in T.
  apply (volumeof_iff _ _ _ T). split; [apply prism_issolid|]. split.
  - apply (closed_iff _ _ (prism_issolid l w h c) T S). exact W.
  - rewrite prism_signed. assert (0 < epsilon) by (unfold epsilon; lra). symmetry. apply Rabs_right.
    assert (0 < l * w) by (apply Rmult_lt_0_compat; lra). assert (0 < l * w * h) by (apply Rmult_lt_0_compat; lra). lra.
Qed.
Lemma quad_faces l w h c ks n f t : length ks = 4%nat -> In f (faces (quad l w h c ks n)) -> face_corners (quad l w h c ks n) f t ->
  t = (cpos l w h c (nth 0 ks (o,o,o)), cpos l w h c (nth 1 ks (o,o,o)), cpos l w h c (nth 2 ks (o,o,o))) \/
  t = (cpos l w h c (nth 2 ks (o,o,o)), cpos l w h c (nth 3 ks (o,o,o)), cpos l w h c (nth 0 ks (o,o,o))).
Proof.
  intros Hk Hf Ht. destruct ks as [|k0 [|k1 [|k2 [|k3 [|k4 ks]]]]]; try discriminate Hk.
  destruct Hf as [<-|[<-|[]]]; apply corner_points_spec in Ht; [left|right]; unfold corner_points, pyget in Ht;
    cbn [quad map verts length Z.of_nat Pos.of_succ_nat Pos.succ Z.ltb Z.leb Z.compare Pos.compare Pos.compare_cont Z.to_nat Pos.to_nat Pos.iter_op Nat.add nth_error obind orb] in Ht;
    cbn [nth]; symmetry; injection Ht; intros; subst; reflexivity.
Qed.
Lemma quad_shaded l w h c ks n : length ks = 4%nat -> vw n = 0 -> vx n * vx n + vy n * vy n + vz n * vz n = 1 ->
  (let p k := cpos l w h c (nth k ks (o,o,o)) in
   flat_normal n (p 0%nat) (p 1%nat) (p 2%nat) /\ flat_normal n (p 2%nat) (p 3%nat) (p 0%nat)) ->
  well_shaded (quad l w h c ks n).
Proof.
  intros Hk Hw Hu H. cbv zeta in H. split.
  - intros f t j m Hf Ht Hj Hm. assert (m = n) as ->.
    { apply at_index_in in Hm. cbn [quad norms In] in Hm. intuition congruence. }
    destruct (quad_faces l w h c ks n f t Hk Hf Ht) as [->| ->]; apply H.
  - intros m Hm. cbn [quad norms In] in Hm. assert (m = n) as -> by intuition congruence. auto.
Qed.
Lemma prism_shaded l w h c s : 0 < l -> 0 < w -> 0 < h -> In s (prism_surfs l w h c) -> well_shaded s.
Proof.
  intros Hl Hw Hh Hs. apply prism_each in Hs as (ks & n & H & ->).
  assert (0 < l * w) by (apply Rmult_lt_0_compat; auto).
  assert (0 < l * h) by (apply Rmult_lt_0_compat; auto).
  assert (0 < w * h) by (apply Rmult_lt_0_compat; auto).
  cbn [combine prism_labels prism_norms In] in H.
  assert (F : forall k a p q r, k = / a -> 0 < a ->
    (vx n = k * ((vy q - vy p) * (vz r - vz p) - (vz q - vz p) * (vy r - vy p)) /\
    vy n = k * ((vz q - vz p) * (vx r - vx p) - (vx q - vx p) * (vz r - vz p)) /\
    vz n = k * ((vx q - vx p) * (vy r - vy p) - (vy q - vy p) * (vx r - vx p))) -> flat_normal n p q r).
  { intros k a p q r -> Ha E. exists (/ a). split; [apply Rinv_0_lt_compat; auto|exact E]. }
  destruct H as [H|[H|[H|[H|[H|[H|[]]]]]]]; injection H as <- <-; apply quad_shaded; try reflexivity;
    try (cbn [vx vy vz]; ring); cbv zeta; cbn [nth].
  1,2: split; apply (F (/ (l * w)) (l * w)); auto; unfold cpos, sgn, o, i, point; cbn [vx vy vz]; (split; [|split]); field; lra.
  1,2: split; apply (F (/ (l * h)) (l * h)); auto; unfold cpos, sgn, o, i, point; cbn [vx vy vz]; (split; [|split]); field; lra.
  1,2: split; apply (F (/ (w * h)) (w * h)); auto; unfold cpos, sgn, o, i, point; cbn [vx vy vz]; (split; [|split]); field; lra.
Qed.
Lemma prism_verts l w h c p : In p (flat_map verts (prism_surfs l w h c)) <-> exists k, p = cpos l w h c k.
Proof.
  split.
  - intros H. apply in_flat_map in H as (s & Hs & Hp). apply prism_each in Hs as (ks & n & _ & ->).
    cbn [quad verts] in Hp. apply in_map_iff in Hp as (k & <- & _). eauto.
  - intros [k ->]. apply in_flat_map.
    assert (exists kn, In kn (combine prism_labels prism_norms) /\ In k (fst kn)) as (kn & H1 & H2).
    { destruct k as [[[] []] []]; [exists (nth 0 (combine prism_labels prism_norms) ([], origin))|exists (nth 1 (combine prism_labels prism_norms) ([], origin))
        |exists (nth 0 (combine prism_labels prism_norms) ([], origin))|exists (nth 1 (combine prism_labels prism_norms) ([], origin))
        |exists (nth 0 (combine prism_labels prism_norms) ([], origin))|exists (nth 1 (combine prism_labels prism_norms) ([], origin))
        |exists (nth 0 (combine prism_labels prism_norms) ([], origin))|exists (nth 1 (combine prism_labels prism_norms) ([], origin))];
      (split; [apply nth_In; simpl; lia|]); unfold o, i; cbn [nth combine prism_labels prism_norms fst In]; unfold o, i; tauto. }
    exists (quad l w h c (fst kn) (snd kn)). split; [apply in_map_iff; exists kn; auto|].
    cbn [quad verts]. apply in_map. exact H2.
Qed.
Lemma prism_corner l w h c p : 0 <= l -> 0 <= w -> 0 <= h -> (exists k, p = cpos l w h c k) <-> box_corner l w h c p.
Proof.
  intros Hl Hw Hh.
  assert (A : forall b x, 0 <= x -> Rabs (sgn b x) = x / 2).
  { intros [] x Hx; unfold sgn; [rewrite Rabs_right|rewrite Rabs_left1]; lra. }
  split.
  - intros [[[a b] d] ->]. unfold box_corner, cpos, point; cbn [vx vy vz vw].
    replace (vx c + sgn a l - vx c) with (sgn a l) by ring. replace (vy c + sgn b w - vy c) with (sgn b w) by ring.
    replace (vz c + sgn d h - vz c) with (sgn d h) by ring. auto.
  - intros (H1 & H2 & H3 & H4).
    assert (B : forall u x, Rabs u = x / 2 -> exists b, u = sgn b x).
    { intros u x H. unfold Rabs in H. destruct (Rcase_abs u); [exists false|exists true]; unfold sgn; lra. }
    destruct (B _ _ H1) as [a Ha]. destruct (B _ _ H2) as [b Hb]. destruct (B _ _ H3) as [d Hd].
    exists (a, b, d). unfold cpos, point. apply vec_ext; cbn [vx vy vz vw]; lra.
Qed.
Lemma solidbbox_w x lo hi : solidbbox x = Val (Some (lo, hi)) -> vw lo = 1 /\ vw hi = 1.
Proof.
  assert (P : forall s bb, surfacebbox s = Some bb -> vw (fst bb) = 1 /\ vw (snd bb) = 1).
  { intros s bb. unfold surfacebbox, polybbox. destruct (verts s) as [|p [|q r]]; [discriminate| |];
      intros H; assert (bb = _) as -> by (injection H as H; symmetry; exact H); split; reflexivity. }
  unfold solidbbox.
  assert (G : forall y b, (forall bb, b = Some bb -> vw (fst bb) = 1 /\ vw (snd bb) = 1) ->
    forall bb, solidbbox_loop y b = Val (Some bb) -> vw (fst bb) = 1 /\ vw (snd bb) = 1).
  { induction y as [|s y IH]; intros b Hb bb H; cbn [solidbbox_loop] in H.
    - apply Hb. congruence.
    - destruct b as [[l1 h1]|].
      + destruct (surfacebbox s) as [[l2 h2]|]; [|discriminate]. apply (IH _) in H; [exact H|].
        intros bb' E. injection E as <-. split; reflexivity.
      + apply (IH _) in H; [exact H|]. intros bb' E. eapply P; eauto. }
  intros H. apply (G x None) in H; [exact H|discriminate].
Qed.
Lemma prism_bbox l w h c : 0 <= l -> 0 <= w -> 0 <= h -> solidbbox (prism_surfs l w h c) = Val (Some (box_around l w h c)).
Proof.
  intros Hl Hw Hh.
  assert (NE : prism_surfs l w h c <> []) by (intros E; discriminate E).
  destruct (solidbbox_spec _ NE) as ([lo hi] & E & HA & HS).
  { intros s Hs. apply prism_each in Hs as (ks & n & H & ->). cbn [quad verts]. rewrite map_length.
    cbn [combine prism_labels prism_norms In] in H. intuition; match goal with E : _ = (ks, n) |- _ => injection E as <- <-; simpl; lia end. }
  rewrite E. do 2 f_equal.
  assert (V : forall k, In (cpos l w h c k) (flat_map verts (prism_surfs l w h c))) by (intros k; apply prism_verts; eauto).
  assert (C : forall f x, reached f (flat_map verts (prism_surfs l w h c)) x -> exists k, f (cpos l w h c k) = x).
  { intros f x (p & Hp & <-). apply prism_verts in Hp as [k ->]. eauto. }
  destruct HS as (S1 & S2 & S3 & S4 & S5 & S6). cbn [fst snd] in *.
  apply C in S1 as [[[a1 a2] a3] S1], S2 as [[[b1 b2] b3] S2], S3 as [[[d1 d2] d3] S3], S4 as [[[e1 e2] e3] S4], S5 as [[[f1 f2] f3] S5], S6 as [[[g1 g2] g3] S6].
  pose proof (HA _ (V (o, o, o))) as H0. pose proof (HA _ (V (i, i, i))) as H1. cbn [fst snd] in *.
  assert (B : forall b x, 0 <= x -> - (x / 2) <= sgn b x <= x / 2) by (intros [] x Hx; unfold sgn; lra).
  pose proof (B a1 l Hl). pose proof (B b1 l Hl). pose proof (B d2 w Hw). pose proof (B e2 w Hw). pose proof (B f3 h Hh). pose proof (B g3 h Hh).
  unfold cpos, o, i, point in *; cbn [vx vy vz] in *. change (sgn false) with (fun x => - (x / 2)) in H0. change (sgn true) with (fun x => x / 2) in H1.
  cbv beta in H0, H1.
  pose proof (solidbbox_w _ _ _ E) as W. unfold box_around, point.
  f_equal; apply vec_ext; cbn [vx vy vz vw]; try (apply W).
  all: lra.
Qed.
