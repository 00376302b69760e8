(** C333-C342: the measurements of the native analysis back end. *)
From Coq Require Import Reals ZArith String List Bool Permutation Lra Lia.
From Verif Require Import Dict Json_Model Meta_Model Xform_Model Fig_Model Solid_Model Solid_Spec Solid_Demo.
From Verif Require Import Meas_Model Meas_Spec.
From Verif Require Xform_Proofs Solid_Proofs Solid_Proofs2 Solid_Proofs4 Coll_Model Meas_Proofs Meas_Proofs2 Meas_Proofs3 Meas_Proofs4.
Import ListNotations.
Open Scope R_scope.
Open Scope list_scope.

(** The number a report has under a key. *)
Definition reported (k : text) (m : metrics) (v : R) : Prop := dget teq k m = Some v.
Definition sum (vs : list R) : R := Rsum (fun v => v) vs.

(** C333: the centroid of a closed mesh is its centre of mass, whatever the apex. *)
Theorem c333_centre x ts c o : triangles x ts -> oriented ts -> mesh_centroid x = Val (Some c) ->
  centre_from o ts c /\ / 10000000000 <= Rabs (signed_volume ts) /\ vw c = 1.
Proof. exact (Meas_Proofs.centroid_centre x ts c o). Qed.
Print Assumptions c333_centre.
Theorem c333_only x ts c o : triangles x ts -> oriented ts -> / 10000000000 <= Rabs (signed_volume ts) -> centre_from o ts c -> vw c = 1 ->
  mesh_centroid x = Val (Some c).
Proof. intros. exact (Meas_Proofs.centre_centroid x ts o c H H0 H1 H2 H3). Qed.
Print Assumptions c333_only.
Theorem c333_defined x ts : triangles x ts ->
  ((exists c, mesh_centroid x = Val (Some c)) <-> / 10000000000 <= Rabs (signed_volume ts)).
Proof.
  intros HT. split; [|exact (Meas_Proofs.centroid_exists x ts HT)]. intros [c H]. exact (proj1 (proj1 (Meas_Proofs.centroid_some x ts c HT) H)).
Qed.
Print Assumptions c333_defined.
Theorem c333_one_centre ts o o' c c' : oriented ts -> signed_volume ts <> 0 -> centre_from o ts c -> centre_from o' ts c' ->
  vx c = vx c' /\ vy c = vy c' /\ vz c = vz c'.
Proof. exact (Meas_Proofs.centre_unique ts o o' c c'). Qed.
Print Assumptions c333_one_centre.
Example c333_nonvacuous : triangles [tet] (map rtri (ztris tet_ps tet_fs)) /\ oriented (map rtri (ztris tet_ps tet_fs)) /\
  mesh_centroid [tet] = Val (Some (point (1/4) (1/4) (1/4))).
Proof.
  assert (HT : triangles [tet] (map rtri (ztris tet_ps tet_fs))) by (apply ztriangles; reflexivity).
  assert (V : signed_volume (map rtri (ztris tet_ps tet_fs)) = 1 / 6) by (rewrite volume_real; reflexivity).
  split; [exact HT|]. split; [exact tet_oriented|]. apply (Meas_Proofs.centroid_some _ _ _ HT). rewrite V. split.
  - rewrite Rabs_right by lra. unfold tiny. lra.
  - change (map rtri (ztris tet_ps tet_fs)) with (tetrahedron (real (0, 0, 0)%Z) (real (1, 0, 0)%Z) (real (0, 1, 0)%Z) (real (0, 0, 1)%Z)).
    unfold Meas_Proofs.moment, Meas_Proofs.det_t, Meas_Proofs.sum3, tetrahedron, det3, real, point; cbn [Rsum vx vy vz].
    apply Xform_Proofs.mkv_eq; lra.
Qed.

(** C334: the centroid moves with the solid. *)
Theorem c334_translate x ts d c : plain x -> triangles x ts -> oriented ts -> mesh_centroid x = Val (Some c) ->
  epsilon <= dist d (point 0 0 0) ->
  mesh_centroid (translatesolid x d) = Val (Some (point (vx c + vx d) (vy c + vy d) (vz c + vz d))).
Proof. exact (Meas_Proofs2.translate_centroid x ts d c). Qed.
Print Assumptions c334_translate.
Theorem c334_mirror x ts c : plain x -> triangles x ts -> oriented ts -> mesh_centroid x = Val (Some c) ->
  mesh_centroid (mirrorsolid x XY) = Val (Some (point (vx c) (vy c) (- vz c))) /\
  mesh_centroid (mirrorsolid x YZ) = Val (Some (point (- vx c) (vy c) (vz c))) /\
  mesh_centroid (mirrorsolid x XZ) = Val (Some (point (vx c) (- vy c) (vz c))).
Proof.
  intros HP HT HO H. destruct (Meas_Proofs.centroid_centre x ts c (point 0 0 0) HT HO H) as (_ & _ & HW).
  rewrite !(Meas_Proofs2.mirror_centroid x ts _ c HP HT HO H). repeat split; do 2 f_equal; unfold mul4, flip, point; cbn; apply Xform_Proofs.mkv_eq; rewrite ?HW; ring.
Qed.
Print Assumptions c334_mirror.
Theorem c334_rotate x ts ang cent axis x' c : mag axis = 1 -> plain x -> triangles x ts -> oriented ts ->
  mesh_centroid x = Val (Some c) -> rotatesolid x ang cent axis = Val x' ->
  x' = x \/ exists m, rotation_matrix ang cent axis = Val m /\ Forall2 (fun s s' => verts s' = map (mulMV m) (verts s)) x x' /\
    mesh_centroid x' = Val (Some (mulMV m c)).
Proof. exact (Meas_Proofs2.rotate_centroid x ts ang cent axis x' c). Qed.
Print Assumptions c334_rotate.
Theorem c334_scale x ts sx sy sz x' c : epsilon <= dist (point sx sy sz) (point 1 1 1) -> plain x -> triangles x ts -> oriented ts ->
  mesh_centroid x = Val (Some c) -> scalesolid x sx (Some sy) (Some sz) (point 0 0 0) = Val x' ->
  / 10000000000 <= Rabs (sx * sy * sz) * Rabs (signed_volume ts) ->
  mesh_centroid x' = Val (Some (point (sx * vx c) (sy * vy c) (sz * vz c))).
Proof.
  intros HF HP HT HO H HS HV. rewrite (Meas_Proofs2.scale_centroid x ts sx sy sz (point 0 0 0) x' c HF HP HT HO H HS HV).
  destruct (Meas_Proofs.centroid_centre x ts c (point 0 0 0) HT HO H) as (_ & _ & HW). do 2 f_equal.
  assert (VC : vclose (point 0 0 0) (point 0 0 0) = true).
  { unfold vclose, close. apply Xform_Proofs.Rltb_true. fold (dist (point 0 0 0) (point 0 0 0)).
    rewrite Rminus_0_r, Xform_Proofs.dist_refl, Rabs_R0. exact Xform_Proofs.eps_pos. }
  unfold Solid_Proofs4.scmat. rewrite VC. unfold mulMV, getrow, rget, dot4, point; cbn. rewrite HW. apply Xform_Proofs.mkv_eq; ring.
Qed.
Print Assumptions c334_scale.
Example c334_nonvacuous : plain [tet] /\ epsilon <= dist (point 1 2 3) (point 0 0 0) /\
  mesh_centroid (translatesolid [tet] (point 1 2 3)) = Val (Some (point (1/4 + 1) (1/4 + 2) (1/4 + 3))).
Proof.
  assert (D : epsilon <= dist (point 1 2 3) (point 0 0 0)).
  { unfold dist, mag. apply Rle_trans with (sqrt 1); [rewrite sqrt_1; unfold epsilon; lra|]. apply sqrt_le_1_alt. unfold sub, dot, point; cbn. lra. }
  split; [apply zplain|]. split; [exact D|]. destruct c333_nonvacuous as (HT & HO & HC).
  rewrite (c334_translate [tet] _ (point 1 2 3) _ (zplain tet_ps tet_fs) HT HO HC D). reflexivity.
Qed.

(** C335: the centroid lies where the body is: in every half-space that contains it. *)
Theorem c335_inside x ts o c a b k d : triangles x ts -> oriented ts -> sees o ts -> mesh_centroid x = Val (Some c) ->
  in_half a b k d o -> (forall p, corner ts p -> in_half a b k d p) -> in_half a b k d c.
Proof.
  intros HT HO HS H Ho Hp. destruct (Meas_Proofs.centroid_centre x ts c o HT HO H) as (HC & HV & _).
  refine (Meas_Proofs3.half_space ts o c a b k d HO HS _ HC Ho Hp). intros E. rewrite E, Rabs_R0 in HV. pose proof Meas_Proofs.tiny_pos. unfold tiny in *. lra.
Qed.
Print Assumptions c335_inside.
Theorem c335_box x ts o c lo hi : triangles x ts -> oriented ts -> sees o ts -> mesh_centroid x = Val (Some c) ->
  (forall p, p = o \/ corner ts p -> vx lo <= vx p <= vx hi /\ vy lo <= vy p <= vy hi /\ vz lo <= vz p <= vz hi) ->
  vx lo <= vx c <= vx hi /\ vy lo <= vy c <= vy hi /\ vz lo <= vz c <= vz hi.
Proof.
  intros HT HO HS H HB.
  assert (G : forall a b k d, (forall p, p = o \/ corner ts p -> in_half a b k d p) -> in_half a b k d c).
  { intros a b k d Q. apply (c335_inside x ts o c a b k d HT HO HS H); auto. }
  pose proof (G 1 0 0 (vx hi)) as X1. pose proof (G (-1) 0 0 (- vx lo)) as X2. pose proof (G 0 1 0 (vy hi)) as Y1.
  pose proof (G 0 (-1) 0 (- vy lo)) as Y2. pose proof (G 0 0 1 (vz hi)) as Z1. pose proof (G 0 0 (-1) (- vz lo)) as Z2.
  unfold in_half in *.
  assert (Q1 : 1 * vx c + 0 * vy c + 0 * vz c <= vx hi) by (apply X1; intros p Hp; destruct (HB p Hp) as (A & B & C); lra).
  assert (Q2 : -1 * vx c + 0 * vy c + 0 * vz c <= - vx lo) by (apply X2; intros p Hp; destruct (HB p Hp) as (A & B & C); lra).
  assert (Q3 : 0 * vx c + 1 * vy c + 0 * vz c <= vy hi) by (apply Y1; intros p Hp; destruct (HB p Hp) as (A & B & C); lra).
  assert (Q4 : 0 * vx c + -1 * vy c + 0 * vz c <= - vy lo) by (apply Y2; intros p Hp; destruct (HB p Hp) as (A & B & C); lra).
  assert (Q5 : 0 * vx c + 0 * vy c + 1 * vz c <= vz hi) by (apply Z1; intros p Hp; destruct (HB p Hp) as (A & B & C); lra).
  assert (Q6 : 0 * vx c + 0 * vy c + -1 * vz c <= - vz lo) by (apply Z2; intros p Hp; destruct (HB p Hp) as (A & B & C); lra).
  lra.
Qed.
Print Assumptions c335_box.
Example c335_nonvacuous : sees (point 0 0 0) (map rtri (ztris tet_ps tet_fs)) /\ in_half 1 1 1 1 (point (1/4) (1/4) (1/4)).
Proof.
  split; [|unfold in_half, point; cbn; lra]. left. intros p q r H. cbn in H.
  repeat (destruct H as [H|H]; [injection H as <- <- <-; unfold tet6, det3, real, point; cbn; lra|]). destruct H.
Qed.

(** C336: the order of the triangles and the orientation do not matter. *)
Theorem c336_order x x' ts ts' : triangles x ts -> triangles x' ts' -> Permutation ts ts' -> x <> [] -> x' <> [] ->
  mesh_centroid x' = mesh_centroid x.
Proof. exact (Meas_Proofs2.centroid_perm x x' ts ts'). Qed.
Print Assumptions c336_order.
Theorem c336_reverse x ts : triangles x ts -> mesh_centroid (map reversesurface x) = mesh_centroid x.
Proof. exact (Meas_Proofs2.centroid_reverse x ts). Qed.
Print Assumptions c336_reverse.
Example c336_nonvacuous : mesh_centroid [reversesurface tet] = Val (Some (point (1/4) (1/4) (1/4))).
Proof. destruct c333_nonvacuous as (HT & HO & HC). rewrite <- HC. exact (c336_reverse [tet] _ HT). Qed.

(** C337: tetrahedra, and bodies put together. *)
Theorem c337_tetrahedron x p q r s : triangles x (tetrahedron p q r s) -> 6 / 10000000000 <= Rabs (tet6 p q r s) ->
  mesh_centroid x = Val (Some (point ((vx p + vx q + vx r + vx s) / 4) ((vy p + vy q + vy r + vy s) / 4) ((vz p + vz q + vz r + vz s) / 4))).
Proof.
  intros HT HV. apply (Meas_Proofs.centre_centroid x (tetrahedron p q r s) (point 0 0 0)); auto.
  - apply Meas_Proofs3.tetrahedron_oriented.
  - rewrite Meas_Proofs3.tetrahedron_volume. unfold Rdiv. rewrite Rabs_mult, (Rabs_right (/ 6)) by lra. unfold tiny. lra.
  - apply Meas_Proofs3.tetrahedron_centre.
Qed.
Print Assumptions c337_tetrahedron.
Theorem c337_together x y ts us c d e : triangles x ts -> triangles y us ->
  mesh_centroid x = Val (Some c) -> mesh_centroid y = Val (Some d) -> mesh_centroid (x ++ y) = Val (Some e) ->
  let v := signed_volume ts in let w := signed_volume us in
  (v + w) * vx e = v * vx c + w * vx d /\ (v + w) * vy e = v * vy c + w * vy d /\ (v + w) * vz e = v * vz c + w * vz d.
Proof. exact (Meas_Proofs3.together x y ts us c d e). Qed.
Print Assumptions c337_together.
Example c337_nonvacuous : triangles [tet] (tetrahedron (real (0, 0, 0)%Z) (real (1, 0, 0)%Z) (real (0, 1, 0)%Z) (real (0, 0, 1)%Z)) /\
  6 / 10000000000 <= Rabs (tet6 (real (0, 0, 0)%Z) (real (1, 0, 0)%Z) (real (0, 1, 0)%Z) (real (0, 0, 1)%Z)).
Proof.
  split; [apply (ztriangles tet_ps tet_fs); reflexivity|]. unfold tet6, det3, real, point; cbn [vx vy vz].
  match goal with |- _ <= Rabs ?e => replace e with 1 by ring end. rewrite Rabs_R1. lra.
Qed.

(** C338: reports of volumes and areas. *)
Theorem c338_volume u l m : check_volume u l = Val m -> exists vs,
  Forall2 (fun x v => volumeof x = Val v) l vs /\ reported (t "volume") m (sum vs) /\
  reported (t "volume_" ++ match u with Some u => u | None => t "mm3" end) m (sum vs) /\
  reported (t "part_count") m (INR (length l)) /\
  ((1 < length l)%nat -> forall i v, nth_error vs i = Some v -> reported (t "volume.part_" ++ t (Coll_Model.decimal i)) m v).
Proof. exact (Meas_Proofs4.volume_report u l m). Qed.
Print Assumptions c338_volume.
Theorem c338_volume_defined u l : (exists m, check_volume u l = Val m) <-> l <> [] /\ forall x, In x l -> exists v, volumeof x = Val v.
Proof. exact (Meas_Proofs4.volume_defined u l). Qed.
Print Assumptions c338_volume_defined.
Theorem c338_alone u x v m : volumeof x = Val v -> check_volume u [x] = Val m ->
  m = [(t "volume", v); (t "volume_" ++ match u with Some u => u | None => t "mm3" end, v); (t "part_count", 1)].
Proof. exact (Meas_Proofs4.volume_alone u x v m). Qed.
Print Assumptions c338_alone.
Theorem c338_area u l m : check_area u l = Val m -> exists vs,
  Forall2 (fun x a => exists ts, triangles x ts /\ a = area ts) l vs /\ reported (t "area") m (sum vs) /\
  reported (t "area_" ++ match u with Some u => u | None => t "mm2" end) m (sum vs) /\
  reported (t "part_count") m (INR (length l)) /\
  ((1 < length l)%nat -> forall i v, nth_error vs i = Some v -> reported (t "area.part_" ++ t (Coll_Model.decimal i)) m v).
Proof. exact (Meas_Proofs4.area_report u l m). Qed.
Print Assumptions c338_area.
Example c338_nonvacuous : exists m, check_volume None [[tet]; [tet]] = Val m /\ reported (t "volume.part_1") m (1 / 6) /\ reported (t "volume") m (1 / 3).
Proof.
  destruct (proj2 (c338_volume_defined None [[tet]; [tet]])) as [m H].
  { split; [discriminate|]. intros x [<-|[<-|[]]]; exists (1 / 6); exact tet_volume. }
  exists m. split; [exact H|]. destruct (c338_volume _ _ _ H) as (vs & HV & A & _ & _ & P).
  inversion HV as [|? a ? r Ha Hr]; subst. inversion Hr as [|? b ? r' Hb Hr']; subst. inversion Hr'; subst.
  rewrite tet_volume in Ha, Hb. assert (a = 1 / 6) by congruence. assert (b = 1 / 6) by congruence. subst a b. split.
  - apply (P ltac:(cbn; lia) 1%nat). reflexivity.
  - unfold reported in *. rewrite A. f_equal. unfold sum. cbn. lra.
Qed.

(** C339: the mass is the volume, taken in cubic millimetres, times the density per cubic metre. *)
Theorem c339_mass d l m : check_mass d l = Val m -> exists vs,
  Forall2 (fun x v => volumeof x = Val v) l vs /\
  let rho := match d with Some d => d | None => 2700 end in let v := sum vs in
  reported (t "volume_mm3") m v /\ reported (t "volume_m3") m (v / 1000000000) /\
  reported (t "mass_kg") m (v / 1000000000 * rho) /\ reported (t "mass_g") m (1000 * (v / 1000000000 * rho)) /\
  reported (t "density_kgm3") m rho /\ reported (t "part_count") m (INR (length l)) /\
  ((1 < length l)%nat -> forall i w, nth_error vs i = Some w -> reported (t "mass_kg.part_" ++ t (Coll_Model.decimal i)) m (w / 1000000000 * rho)).
Proof. exact (Meas_Proofs4.mass_report d l m). Qed.
Print Assumptions c339_mass.
Example c339_nonvacuous : exists m, check_mass (Some 7850) [[tet]] = Val m /\ reported (t "mass_kg") m (1 / 6 / 1000000000 * 7850).
Proof.
  assert (X : exists m, check_mass (Some 7850) [[tet]] = Val m).
  { unfold check_mass. cbn [omap]. rewrite tet_volume. cbn [obind]. eauto. }
  destruct X as [m H]. exists m. split; [exact H|]. destruct (c339_mass _ _ _ H) as (vs & HV & _ & _ & K & _).
  inversion HV as [|? a ? r Ha Hr]; subst. inversion Hr; subst. rewrite tet_volume in Ha. assert (a = 1 / 6) by congruence. subst a.
  unfold reported in *. rewrite K. f_equal. unfold sum. cbn [Rsum]. field.
Qed.

(** C340: the box of an assembly. *)
Theorem c340_box a u l : l <> [] -> (forall x, In x l -> x <> [] /\ forall s, In s x -> (2 <= length (verts s))%nat) ->
  exists m lo hi, check_bbox a u l = Val m /\
  let ps := flat_map (fun x => flat_map verts x) l in holds_all ps (lo, hi) /\ spans ps (lo, hi) /\
  reported (t "bbox.xmin") m (vx lo) /\ reported (t "bbox.xmax") m (vx hi) /\
  reported (t "bbox.ymin") m (vy lo) /\ reported (t "bbox.ymax") m (vy hi) /\
  reported (t "bbox.zmin") m (vz lo) /\ reported (t "bbox.zmax") m (vz hi) /\
  reported (t "bbox.width") m (vx hi - vx lo) /\ reported (t "bbox.depth") m (vy hi - vy lo) /\
  reported (t "bbox.height") m (vz hi - vz lo) /\
  reported (t "bbox.diagonal") m (dist lo hi) /\ reported (t "part_count") m (INR (length l)) /\
  let units := match u with Some u => u | None => t "mm" end in
  let asked (k : text) := a = None \/ a = Some (t "all") \/ a = Some k in
  (asked (t "x") -> reported (t "bbox.x_" ++ units) m (vx hi - vx lo)) /\
  (asked (t "y") -> reported (t "bbox.y_" ++ units) m (vy hi - vy lo)) /\
  (asked (t "z") -> reported (t "bbox.z_" ++ units) m (vz hi - vz lo)) /\
  (~ asked (t "x") -> forall v, ~ reported (t "bbox.x_" ++ units) m v) /\
  (~ asked (t "y") -> forall v, ~ reported (t "bbox.y_" ++ units) m v) /\
  (~ asked (t "z") -> forall v, ~ reported (t "bbox.z_" ++ units) m v).
Proof.
  intros NL H. destruct (Meas_Proofs4.bbox_report a u l NL H) as (m & lo & hi & E & X). exists m, lo, hi. split; [exact E|].
  cbv zeta in X |- *. unfold reported. destruct X as (H1 & H2 & K). split; [exact H1|]. split; [exact H2|].
  destruct K as (K1 & K2 & K3 & K4 & K5 & K6 & K7 & K8 & K9 & K10 & K11 & K12 & K13 & K14 & N1 & N2 & N3).
  repeat (split; [assumption|]). split; [|split]; intros N v Q.
  - rewrite (N1 N) in Q. discriminate.
  - rewrite (N2 N) in Q. discriminate.
  - rewrite (N3 N) in Q. discriminate.
Qed.
Print Assumptions c340_box.
Example c340_nonvacuous : forall x, In x [[tet]; [tet]] -> x <> [] /\ forall s, In s x -> (2 <= length (verts s))%nat.
Proof. intros x [<-|[<-|[]]]; (split; [discriminate|]); intros s [<-|[]]; cbn; lia. Qed.

(** C341: the centroid of an assembly is the mean of the parts' centroids, weighted with their volumes. *)
Theorem c341_assembly l m : check_centroid l = Val m -> exists cs,
  Forall2 (fun x cv => mesh_centroid x = Val (Some (fst cv)) /\ volumeof x = Val (snd cv)) l cs /\
  let v := Rsum (fun c => snd c) cs in / 10000000000 <= Rabs v /\
  reported (t "centroid.x") m (Rsum (fun c => snd c * vx (fst c)) cs / v) /\
  reported (t "centroid.y") m (Rsum (fun c => snd c * vy (fst c)) cs / v) /\
  reported (t "centroid.z") m (Rsum (fun c => snd c * vz (fst c)) cs / v) /\
  reported (t "part_count") m (INR (length l)) /\
  ((1 < length l)%nat -> forall i c w, nth_error cs i = Some (c, w) ->
     reported (t "centroid.part_" ++ t (Coll_Model.decimal i) ++ t ".x") m (vx c) /\
     reported (t "centroid.part_" ++ t (Coll_Model.decimal i) ++ t ".y") m (vy c) /\
     reported (t "centroid.part_" ++ t (Coll_Model.decimal i) ++ t ".z") m (vz c)).
Proof. exact (Meas_Proofs4.centroid_report l m). Qed.
Print Assumptions c341_assembly.
Example c341_nonvacuous : exists m, check_centroid [[tet]] = Val m /\ reported (t "centroid.x") m (1 / 4).
Proof.
  destruct c333_nonvacuous as (_ & _ & HC).
  assert (X : exists m, check_centroid [[tet]] = Val m).
  { unfold check_centroid. cbn [centroids]. rewrite HC. cbn [obind]. rewrite tet_volume. cbn [obind map snd total fold_left].
    rewrite (proj2 (Xform_Proofs.Rltb_false _ _)); [eauto|]. unfold total. cbn [fold_left]. rewrite Rabs_right by lra. unfold tiny. lra. }
  destruct X as [m H]. exists m. split; [exact H|]. destruct (c341_assembly _ _ H) as (cs & HV & _ & K & _).
  inversion HV as [|? [c v] ? r [Ha Hb] Hr]; subst. inversion Hr; subst. cbn [fst snd] in *. rewrite HC in Ha. rewrite tet_volume in Hb.
  assert (c = point (1/4) (1/4) (1/4)) by congruence. assert (v = 1 / 6) by congruence. subst c v.
  unfold reported in *. rewrite K. f_equal. cbn. lra.
Qed.

(** C342 (refuted): the units asked for and the entities asked for change nothing but the key. *)
Theorem c342_refuted : (forall u l m, check_volume (Some u) l = Val m -> exists m', check_volume None l = Val m' /\
     forall v, reported (t "volume_" ++ u) m v <-> reported (t "volume_mm3") m' v) /\
  (exists a b, a <> b /\ measured [t "lid"] false [(t "lid", Some a); (t "box", Some b)] = Val [a; b]).
Proof.
  split.
  - intros u l m H. destruct (proj2 (c338_volume_defined None l) (proj1 (c338_volume_defined (Some u) l) (ex_intro _ m H))) as [m' H'].
    exists m'. split; [exact H'|]. intros v. destruct (c338_volume _ _ _ H) as (vs & HV & _ & A & _).
    destruct (c338_volume _ _ _ H') as (vs' & HV' & _ & A' & _).
    assert (E : vs = vs').
    { clear - HV HV'. revert vs' HV'. induction HV as [|x v l vs E F IH]; intros vs' HV'; inversion HV' as [|? v' ? r E' F']; subst; [reflexivity|].
      rewrite E in E'. f_equal; [congruence|]. apply IH, F'. }
    subst vs'. unfold reported in *. change (t "volume_mm3") with (t "volume_" ++ t "mm3"). rewrite A, A'. reflexivity.
  - exists [tet], [tet; tet]. split; [discriminate|reflexivity].
Qed.
Print Assumptions c342_refuted.
