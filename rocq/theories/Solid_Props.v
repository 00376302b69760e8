(** C160-C176: volumes, areas, normals, boxes and incremental construction of
    triangulated surfaces and solids; line-plane intersection (geom3d.py). *)
From Coq Require Import Reals List Bool ZArith Lra Lia.
From Verif Require Import Dict Xform_Model Xform_Proofs Fig_Model Fig_Proofs Solid_Model Solid_Spec Solid_Proofs Solid_Proofs2
  Solid_Proofs3 Solid_Proofs4 Solid_Proofs5 Solid_Proofs6 Solid_Proofs7 Solid_Demo.
Import ListNotations.
Open Scope R_scope.

(** C160: volumeof answers exactly on closed solids and then gives |signed volume|. *)
Theorem c160_volume x ts v : triangles x ts ->
  (volumeof x = Val v <-> issolid x = true /\ issolidclosed x = Val true /\ v = Rabs (signed_volume ts)).
Proof. exact (volumeof_iff x ts v). Qed.
Print Assumptions c160_volume.
Theorem c160_closed x ts : issolid x = true -> triangles x ts -> separated ts ->
  (issolidclosed x = Val true <-> watertight ts).
Proof. exact (closed_iff x ts). Qed.
Print Assumptions c160_closed.
Theorem c160_open_rejected x ts : issolid x = true -> triangles x ts -> separated ts -> ~ watertight ts ->
  volumeof x = Raise EValue.
Proof.
  intros Hs Ht Hp Hw. unfold volumeof. rewrite Hs. cbn [negb].
  destruct (issolidclosed x) as [[|]|e] eqn:E; cbn [obind negb].
  - exfalso. apply Hw. apply (closed_iff x ts); auto.
  - reflexivity.
  - unfold issolidclosed in E. rewrite Hs in E. cbn [negb] in E. apply solid_tris_spec in Ht. rewrite Ht in E. discriminate.
Qed.
Print Assumptions c160_open_rejected.
(** A closed mesh in which no directed side occurs twice is consistently oriented. *)
Theorem c160_oriented ts : watertight ts -> NoDup (all_sides ts) -> oriented ts.
Proof. exact (watertight_oriented ts). Qed.
Print Assumptions c160_oriented.
Example c160_nonvacuous : exists ts, triangles [tet] ts /\ issolid [tet] = true /\ separated ts /\ watertight ts /\ oriented ts /\
  volumeof [tet] = Val (1 / 6).
Proof.
  exists (map rtri (ztris tet_ps tet_fs)).
  assert (HT : triangles [tet] (map rtri (ztris tet_ps tet_fs))) by (apply ztriangles; reflexivity).
  assert (HS : issolid [tet] = true) by (apply zissolid; simpl; lia).
  split; [exact HT|]. split; [exact HS|]. split; [apply separated_real|]. split; [|split; [apply tet_oriented|apply tet_volume]].
  apply (closed_iff [tet]); auto using separated_real. rewrite (closed_real _ _ HS HT). reflexivity.
Qed.

(** C161: motions keep the volume, scaling multiplies it. *)
Theorem c161_translate x ts d v : plain x -> triangles x ts -> separated ts -> oriented ts -> volumeof x = Val v ->
  volumeof (translatesolid x d) = Val v.
Proof. exact (translate_volume x ts d v). Qed.
Print Assumptions c161_translate.
Theorem c161_mirror x ts pl v : plain x -> triangles x ts -> separated ts -> oriented ts -> volumeof x = Val v ->
  volumeof (mirrorsolid x pl) = Val v.
Proof. exact (mirror_volume x ts pl v). Qed.
Print Assumptions c161_mirror.
Theorem c161_rotate x ts ang cent axis v : mag axis = 1 ->
  plain x -> triangles x ts -> separated ts -> oriented ts -> volumeof x = Val v ->
  exists x', rotatesolid x ang cent axis = Val x' /\ volumeof x' = Val v.
Proof.
  intros Hu Hp Ht Hs Ho Hv. destruct (rotatesolid_total x ang cent axis Hu) as [x' E]. exists x'. split; [exact E|].
  exact (rotate_volume x ts ang cent axis x' v Hu Hp Ht Hs Ho Hv E).
Qed.
Print Assumptions c161_rotate.
Theorem c161_scale x ts sx sy sz cent x' v v' : epsilon <= dist (point sx sy sz) (point 1 1 1) ->
  plain x -> triangles x ts -> oriented ts -> volumeof x = Val v ->
  scalesolid x sx (Some sy) (Some sz) cent = Val x' -> volumeof x' = Val v' ->
  v' = Rabs (sx * sy * sz) * v.
Proof. exact (scale_volume x ts sx sy sz cent x' v v'). Qed.
Print Assumptions c161_scale.
Example c161_nonvacuous : exists ts, plain [tet] /\ triangles [tet] ts /\ separated ts /\ oriented ts /\ volumeof [tet] = Val (1 / 6) /\
  mag (mkv 0 0 1 1) = 1 /\ epsilon <= dist (point 2 3 4) (point 1 1 1).
Proof.
  exists (map rtri (ztris tet_ps tet_fs)). split; [apply zplain|]. split; [apply ztriangles; reflexivity|].
  split; [apply separated_real|]. split; [apply tet_oriented|]. split; [apply tet_volume|]. split.
  - apply mag_axis_z. lra.
  - apply Rle_trans with (sqrt 1); [rewrite sqrt_1; unfold epsilon; lra|].
    unfold dist, mag, sub, point; cbn [vx vy vz]. apply sqrt_le_1_alt. lra.
Qed.

(** C162: surface area. *)
Theorem c162_area s ts : Forall2 (face_corners s) (faces s) ts -> surfacearea s = Val (area ts).
Proof. exact (surface_area_of s ts). Qed.
Print Assumptions c162_area.
Theorem c162_translate s d a : w_one s -> surfacearea s = Val a -> surfacearea (translatesurface s d) = Val a.
Proof. exact (translate_area s d a). Qed.
Print Assumptions c162_translate.
Theorem c162_mirror s pl a : w_one s -> surfacearea s = Val a -> surfacearea (mirrorsurface s pl) = Val a.
Proof. exact (mirror_area s pl a). Qed.
Print Assumptions c162_mirror.
Theorem c162_reverse s a : w_one s -> surfacearea s = Val a -> surfacearea (reversesurface s) = Val a.
Proof. exact (reverse_area s a). Qed.
Print Assumptions c162_reverse.
Theorem c162_rotate s ang cent axis a : mag axis = 1 -> w_one s -> surfacearea s = Val a ->
  exists s', rotatesurface s ang cent axis = Val s' /\ surfacearea s' = Val a.
Proof.
  intros Hu Hw Ha. destruct (rotatesurface_total s ang cent axis Hu) as [s' E]. exists s'. split; [exact E|].
  exact (rotate_area s ang cent axis s' a Hu Hw Ha E).
Qed.
Print Assumptions c162_rotate.
Theorem c162_scale s k cent s' a : epsilon <= dist (point k k k) (point 1 1 1) -> w_one s ->
  surfacearea s = Val a -> scalesurface s k None None cent = Val s' -> surfacearea s' = Val (k * k * a).
Proof. exact (scale_area s k cent s' a). Qed.
Print Assumptions c162_scale.
Definition flat_tri : surf := zsurf [(0, 0, 0); (2, 0, 0); (0, 2, 0)]%Z [(0, 1, 2)]%Z.
Example c162_nonvacuous : w_one flat_tri /\ surfacearea flat_tri = Val 2.
Proof.
  split; [intros p Hp; apply (zplain [(0, 0, 0); (2, 0, 0); (0, 2, 0)]%Z [(0, 1, 2)]%Z flat_tri); [left; reflexivity|exact Hp]|].
  destruct (ztriangles [(0, 0, 0); (2, 0, 0); (0, 2, 0)]%Z [(0, 1, 2)]%Z eq_refl) as (tss & HF & E).
  inversion HF as [|s l x y H1 H2]; subst. inversion H2; subst. simpl in E. rewrite app_nil_r in E. subst l.
  unfold flat_tri. rewrite (surface_area_of _ _ H1). f_equal. unfold area; cbn [Rsum map ztris rtri real zget].
  unfold zget; cbn [nth Z.to_nat Pos.to_nat Pos.iter_op Nat.add]. cbn [rtri real]. unfold tri_area, point; cbn [vx vy vz].
  match goal with |- sqrt ?e / 2 + 0 = _ => replace e with (4 * 4) by ring end. rewrite sqrt_square by lra. lra.
Qed.

(** C163: every operation leaves unit normals that agree with their faces. *)
Theorem c163_translate s d : well_shaded s -> well_shaded (translatesurface s d).
Proof. exact (translate_shaded s d). Qed.
Print Assumptions c163_translate.
Theorem c163_reverse s : well_shaded s -> well_shaded (reversesurface s).
Proof. exact (reverse_shaded s). Qed.
Print Assumptions c163_reverse.
Theorem c163_mirror s pl : well_shaded s -> well_shaded (mirrorsurface s pl).
Proof. exact (mirror_shaded s pl). Qed.
Print Assumptions c163_mirror.
Theorem c163_rotate s ang cent axis s' : mag axis = 1 -> w_one s -> well_shaded s ->
  rotatesurface s ang cent axis = Val s' -> well_shaded s'.
Proof. exact (rotate_shaded s ang cent axis s'). Qed.
Print Assumptions c163_rotate.
Theorem c163_scale_uniform s k cent s' : k <> 0 -> well_shaded s -> w_one s ->
  scalesurface s k None None cent = Val s' -> well_shaded s'.
Proof. exact (scale_uniform_shaded s k cent s'). Qed.
Print Assumptions c163_scale_uniform.
Theorem c163_scale s a b c cent s' :
  0 < a <= 1000000000 -> 0 < b <= 1000000000 -> 0 < c <= 1000000000 ->
  (close a b = true -> close b c = true -> a = b /\ b = c) ->
  well_shaded s -> w_one s -> scalesurface s a (Some b) (Some c) cent = Val s' -> well_shaded s'.
Proof. exact (scale_shaded s a b c cent s'). Qed.
Print Assumptions c163_scale.
Example c163_nonvacuous : well_shaded flat_tri /\ w_one flat_tri.
Proof.
  split; [|exact (proj1 c162_nonvacuous)]. split.
  - intros f t i n Hf Ht Hi Hn. destruct Hf as [<-|[]].
    assert (n = zn) as ->.
    { apply at_index_in in Hn. apply in_map_iff in Hn as (x & <- & _). reflexivity. }
    pose proof (ztriangles [(0, 0, 0); (2, 0, 0); (0, 2, 0)]%Z [(0, 1, 2)]%Z eq_refl) as (tss & HF & E).
    inversion HF as [|s l x y H1 H2]; subst. inversion H2; subst. simpl in E. rewrite app_nil_r in E. subst l.
    inversion H1 as [|f1 t1 fs1 ts1 H3 H4]; subst. fold flat_tri in H3.
    apply corner_points_spec in Ht. apply corner_points_spec in H3. rewrite H3 in Ht.
    assert (t = (real (0, 0, 0)%Z, real (2, 0, 0)%Z, real (0, 2, 0)%Z)) by (symmetry; injection Ht; auto). subst t.
    exists (1 / 4). split; [lra|]. unfold real, point, zn; cbn [vx vy vz]. split; [|split]; field.
  - intros n Hn. apply in_map_iff in Hn as (x & <- & _). unfold zn; cbn [vx vy vz vw]. split; [reflexivity|ring].
Qed.

(** C164: bounding boxes. *)
Theorem c164_surfacebbox s : (2 <= length (verts s))%nat ->
  exists bb, surfacebbox s = Some bb /\ holds_all (verts s) bb /\ spans (verts s) bb.
Proof. exact (surfacebbox_spec s). Qed.
Print Assumptions c164_surfacebbox.
Theorem c164_solidbbox x : x <> [] -> (forall s, In s x -> (2 <= length (verts s))%nat) ->
  exists bb, solidbbox x = Val (Some bb) /\ holds_all (flat_map verts x) bb /\ spans (flat_map verts x) bb.
Proof. exact (solidbbox_spec x). Qed.
Print Assumptions c164_solidbbox.
Example c164_nonvacuous : [tet; flat_tri] <> [] /\ forall s, In s [tet; flat_tri] -> (2 <= length (verts s))%nat.
Proof. split; [discriminate|]. intros s [<-|[<-|[]]]; simpl; lia. Qed.

(** C165: building a surface triangle by triangle. *)
Definition empty_surface : surf := mksurf [] [] [] [] [].
Theorem c165_build ts s' : addTris ts empty_surface = Val s' ->
  length (verts s') = length (norms s') /\ apart (verts s') /\
  Forall2 (face_near (verts s')) (faces s') ts /\
  unit_normals s' /\ (forall v, In v (verts s') -> exists t, In t ts /\ tri_corner t v).
Proof.
  intros H. assert (B : built empty_surface).
  { split; [reflexivity|]. intros i j p q Hp. destruct i; discriminate. }
  destruct (addTris_spec ts _ _ B H) as ((B1 & B2) & _ & (fs & F1 & F2) & _ & _ & N & V). cbn [empty_surface faces app] in F1. subst fs.
  split; [exact B1|]. split; [exact B2|]. split; [exact F2|]. split.
  - intros n Hn. destruct (N n Hn) as [[]|Hn']. exact Hn'.
  - intros v Hv. destruct (V v Hv) as [[]|Hv']. exact Hv'.
Qed.
Print Assumptions c165_build.
Theorem c165_defined t s : (exists s', addTri2Surface t s = Val s') <->
  (let '(p, q, r) := t in cross (sub q p) (sub r q) <> mkv 0 0 0 1).
Proof. symmetry. exact (addTri_total t s). Qed.
Print Assumptions c165_defined.
Example c165_nonvacuous : exists s', addTris (map rtri (ztris tet_ps tet_fs)) empty_surface = Val s'.
Proof.
  assert (G : forall ts s, (forall t, In t ts -> let '(p, q, r) := t in cross (sub q p) (sub r q) <> mkv 0 0 0 1) -> exists s', addTris ts s = Val s').
  { induction ts as [|t ts IH]; intros s H; cbn [addTris]; [eauto|].
    destruct (proj1 (addTri_total t s) (H t (or_introl eq_refl))) as [s1 E]. rewrite E. cbn [obind]. apply IH. intros; apply H; right; auto. }
  apply G. intros t Ht. cbn [map ztris tet_fs tet_ps] in Ht. unfold zget in Ht.
  cbn [nth Z.to_nat Pos.to_nat Pos.iter_op Nat.add rtri real] in Ht.
  repeat (destruct Ht as [<-|Ht]; [unfold cross, sub, point; cbn [vx vy vz]; intros E; injection E; intros; lra|]). destruct Ht.
Qed.

(** C166: surf2lines draws every edge of the mesh exactly once. *)
Theorem c166_lines s ls : surf2lines s = Val ls -> exists es, Forall2 (line_at s) es ls /\
  (forall e, In e es -> index_side s e) /\
  (forall e, index_side s e -> exists e', In e' es /\ same_edge e e') /\
  (forall i j e e', nth_error es i = Some e -> nth_error es j = Some e' -> same_edge e e' -> i = j).
Proof. exact (surf2lines_spec s ls). Qed.
Print Assumptions c166_lines.
Theorem c166_defined s : (forall f, In f (faces s) -> exists t, face_corners s f t) -> exists ls, surf2lines s = Val ls.
Proof. exact (surf2lines_total s). Qed.
Print Assumptions c166_defined.
Example c166_nonvacuous : forall f, In f (faces tet) -> exists t, face_corners tet f t.
Proof.
  intros f Hf. destruct (ztriangles tet_ps tet_fs eq_refl) as (tss & HF & E).
  inversion HF as [|s l x y H1 H2]; subst. fold tet in H1.
  clear -H1 Hf. induction H1 as [|f0 t0 fs ts H0 H1 IH]; [destruct Hf|]. destruct Hf as [<-|Hf]; eauto.
Qed.

(** C167: the plane of a triangle and the intersection of a line with it. *)
Theorem c167_plane p1 p2 p3 p0 n : tri2p0n (p1, p2, p3) = Val (p0, n) ->
  vw n = 0 /\ dot n n = 1 /\ flat_normal n p1 p2 p3 /\
  signedPlaneDistance p1 p0 n = 0 /\ signedPlaneDistance p2 p0 n = 0 /\ signedPlaneDistance p3 p0 n = 0.
Proof.
  intros H. destruct (tri2p0n_spec _ _ _ H) as (H1 & H2 & _ & _ & H3 & H4). split; [auto|]. split; [auto|]. split; [auto|exact H4].
Qed.
Print Assumptions c167_plane.
Theorem c167_degenerate p1 p2 p3 : tri2p0n (p1, p2, p3) = Raise EValue <-> mag (cross (sub p2 p1) (sub p3 p1)) < epsilon.
Proof. exact (tri2p0n_raises (p1, p2, p3)). Qed.
Print Assumptions c167_degenerate.
(** the two matrices are inverse rigid motions taking the triangle's plane to z = 0 *)
Theorem c167_basis p1 p2 p3 p0 n fwd inv : tri2p0n_basis (p1, p2, p3) = Val (p0, n, fwd, inv) ->
  (forall p, vw p = 1 -> mulMV inv (mulMV fwd p) = p) /\ (forall p, vw p = 1 -> mulMV fwd (mulMV inv p) = p) /\
  (forall p, vw p = 1 -> vz (mulMV fwd p) = signedPlaneDistance p p0 n).
Proof.
  intros H. destruct (basis_form _ _ _ _ _ H) as (x & _ & _ & _ & _ & _ & HF & HI & HI2 & _). split; [|split].
  - intros p Hp. rewrite HF by exact Hp. apply HI. exact Hp.
  - intros p Hp. destruct (HI2 p Hp) as [E W]. rewrite HF by exact W. exact E.
  - intros p Hp. rewrite HF by exact Hp. unfold local, signedPlaneDistance; cbn [vz]. apply dot_comm.
Qed.
Print Assumptions c167_basis.
Theorem c167_sound l p1 p2 p3 inside q :
  vw p1 = 1 -> vw p2 = 1 -> vw p3 = 1 -> vw (fst l) = 1 -> vw (snd l) = 1 ->
  linePlaneIntersect l (PTri (p1, p2, p3)) inside = Val (Some q) ->
  in_triangle p1 p2 p3 q /\ exists u, q = sampleline l u /\ (inside = true -> 0 <= u <= 1).
Proof. exact (line_tri_sound l p1 p2 p3 inside q). Qed.
Print Assumptions c167_sound.
Theorem c167_complete l p1 p2 p3 inside u :
  vw p1 = 1 -> vw p2 = 1 -> vw p3 = 1 -> vw (fst l) = 1 -> vw (snd l) = 1 ->
  epsilon <= mag (cross (sub p2 p1) (sub p3 p1)) ->
  epsilon * mag (cross (sub p2 p1) (sub p3 p1)) <= Rabs (dot (cross (sub p2 p1) (sub p3 p1)) (sub (fst l) (snd l))) ->
  in_triangle p1 p2 p3 (sampleline l u) -> (inside = true -> 0 <= u <= 1) ->
  linePlaneIntersect l (PTri (p1, p2, p3)) inside = Val (Some (sampleline l u)).
Proof. exact (line_tri_complete l p1 p2 p3 inside u). Qed.
Print Assumptions c167_complete.
Definition on_plane (pl : plane) (q : vec) : Prop := match pl with XY => vz q = 0 | YZ => vx q = 0 | XZ => vy q = 0 end.
Theorem c167_named_sound l pl inside q : linePlaneIntersect l (PNamed pl) inside = Val (Some q) ->
  on_plane pl q /\ exists u, q = sampleline l u /\ (inside = true -> 0 <= u <= 1).
Proof.
  intros H. cbn [linePlaneIntersect] in H.
  destruct (lineCardinal _ _ _) as [q'|] eqn:E; [|discriminate]. assert (q' = q) by congruence. subst q'.
  apply lineCardinal_spec in E as (u & Hu & -> & Hi). split; [|exists u; auto].
  destruct pl; cbn [vget] in Hu; unfold on_plane, sampleline, add, scale3, sub; cbn [vx vy vz]; lra.
Qed.
Print Assumptions c167_named_sound.
Definition along (pl : plane) (p : vec) : R := match pl with XY => vz p | YZ => vx p | XZ => vy p end.
Theorem c167_named_complete l pl inside u : epsilon <= Rabs (along pl (fst l) - along pl (snd l)) ->
  on_plane pl (sampleline l u) -> (inside = true -> 0 <= u <= 1) ->
  linePlaneIntersect l (PNamed pl) inside = Val (Some (sampleline l u)).
Proof.
  intros He Ho Hi. cbn [linePlaneIntersect]. f_equal. apply lineCardinal_complete; [| |exact Hi].
  - destruct pl; exact He.
  - destruct pl; cbn [vget]; unfold on_plane, sampleline, add, scale3, sub in Ho; cbn [vx vy vz] in Ho; lra.
Qed.
Print Assumptions c167_named_complete.
Example c167_nonvacuous : let l := (point 0 0 1, point 0 0 (-1)) in
  let p1 := point (-1) (-1) 0 in let p2 := point 2 (-1) 0 in let p3 := point (-1) 2 0 in
  epsilon <= mag (cross (sub p2 p1) (sub p3 p1)) /\
  epsilon * mag (cross (sub p2 p1) (sub p3 p1)) <= Rabs (dot (cross (sub p2 p1) (sub p3 p1)) (sub (fst l) (snd l))) /\
  in_triangle p1 p2 p3 (sampleline l (1 / 2)).
Proof.
  cbv zeta.
  assert (E : cross (sub (point 2 (-1) 0) (point (-1) (-1) 0)) (sub (point (-1) 2 0) (point (-1) (-1) 0)) = mkv 0 0 9 1).
  { unfold cross, sub, point; cbn [vx vy vz]. apply mkv_eq; ring. }
  rewrite E, mag_axis_z by lra. split; [unfold epsilon; lra|]. split.
  - unfold dot, sub, point; cbn [fst snd vx vy vz]. rewrite Rabs_right by lra. unfold epsilon. lra.
  - exists (1/3), (1/3), (1/3). split; [lra|]. split; [lra|]. split; [lra|]. split; [lra|].
    unfold combo, sampleline, add, scale3, sub, point; cbn [fst snd vx vy vz]. split; [|split]; field.
Qed.

(** C168 (refuted): the volume of an accepted solid does not depend on where it is.
    The tetrahedron with one face turned round is "closed". *)
Definition turned_fs : list face := [(0, 2, 1); (0, 1, 3); (0, 3, 2); (1, 3, 2)]%Z.
Definition turned : surf := zsurf tet_ps turned_fs.
Lemma translate_zsurf ps fs d : vclose (real d) (point 0 0 0) = false ->
  translatesurface (zsurf ps fs) (real d) =
  zsurf (map (fun p => let '(a, b, c) := p in let '(x, y, z) := d in (a + x, b + y, c + z)%Z) ps) fs.
Proof.
  intros H. unfold translatesurface. rewrite H. unfold zsurf; cbn [verts norms faces bnd holes]. f_equal.
  - rewrite !map_map. apply map_ext. intros [[a b] c]. destruct d as [[x y] z]. unfold real, add, point; cbn [vx vy vz].
    rewrite !plus_IZR. reflexivity.
  - rewrite map_map. reflexivity.
Qed.
Theorem c168_refuted : exists x d v v', volumeof x = Val v /\ volumeof (translatesolid x d) = Val v' /\ v <> v' /\
  issolid x = true /\ plain x.
Proof.
  exists [turned], (real (1, 0, 0)%Z), (1 / 6), (1 / 2).
  split; [|split; [|split; [lra|split; [apply zissolid; simpl; lia|apply zplain]]]].
  - unfold turned. rewrite zvolume; [|simpl; lia|reflexivity|reflexivity].
    change (zsum (ztris tet_ps turned_fs)) with (-1)%Z. f_equal. rewrite Rabs_left; lra.
  - unfold translatesolid; cbn [map]. unfold turned. rewrite translate_zsurf.
    + rewrite zvolume; [|simpl; lia|reflexivity|reflexivity].
      match goal with |- context [zsum ?e] => change (zsum e) with (-3)%Z end. f_equal. rewrite Rabs_left; lra.
    + apply vclose_far. apply Rle_trans with (sqrt 1); [rewrite sqrt_1; unfold epsilon; lra|].
      unfold dist, mag, sub, real, point; cbn [vx vy vz]. apply sqrt_le_1_alt. lra.
Qed.
Print Assumptions c168_refuted.

(** C169 (refuted): scaling about a centre leaves the centre where it is. *)
Theorem c169_refuted : exists s s', scalesurface s 2 None None (point 1 0 0) = Val s' /\
  nth_error (verts s) 1 = Some (point 1 0 0) /\ nth_error (verts s') 1 = Some (point 3 0 0).
Proof.
  assert (V1 : vclose (point 2 2 2) (point 1 1 1) = false) by apply vclose_222.
  assert (V2 : vclose (point 1 0 0) (point 0 0 0) = false).
  { apply vclose_far. apply Rle_trans with (sqrt 1); [rewrite sqrt_1; unfold epsilon; lra|].
    unfold dist, mag, sub, point; cbn [vx vy vz]. apply sqrt_le_1_alt. lra. }
  assert (C : close 2 2 = true) by (apply close_true; replace (2 - 2) with 0 by ring; rewrite Rabs_R0; apply eps_pos).
  exists tet. eexists. split.
  - unfold scalesurface. cbn [scale_as_point]. rewrite V1. cbn [Scale of_res obind]. rewrite V2. cbn [num]. rewrite C. reflexivity.
  - split; [reflexivity|]. cbn [verts]. rewrite nth_error_map. cbn [tet zsurf verts]. rewrite nth_error_map.
    cbn [tet_ps nth_error option_map]. f_equal. rewrite !mulMV_mulMM.
    unfold mulMV, getrow, rget, Translation, dot4, real, point; simpl. apply mkv_eq; ring.
Qed.
Print Assumptions c169_refuted.

(** C170 (refuted): a scaled solid keeps its faces pointing outwards. *)
Theorem c170_refuted : exists x x' ts ts', scalesolid x (-1) None None (point 0 0 0) = Val x' /\ triangles x ts /\ triangles x' ts' /\
  0 < signed_volume ts /\ signed_volume ts' < 0.
Proof.
  assert (HT : triangles [tet] (map rtri (ztris tet_ps tet_fs))) by (apply ztriangles; reflexivity).
  assert (D : epsilon <= dist (point (-1) (-1) (-1)) (point 1 1 1)).
  { apply Rle_trans with (sqrt 1); [rewrite sqrt_1; unfold epsilon; lra|].
    unfold dist, mag, sub, point; cbn [vx vy vz]. apply sqrt_le_1_alt. lra. }
  assert (HS : exists x', scalesolid [tet] (-1) (Some (-1)) (Some (-1)) (point 0 0 0) = Val x').
  { unfold scalesolid. cbn [scale_as_point]. rewrite (vclose_far _ _ D). cbn [omap].
    unfold scalesurface. cbn [scale_as_point]. rewrite (vclose_far _ _ D).
    cbn [Scale of_res obind num].
    assert (C : close (-1) (-1) = true) by (apply close_true; replace (-1 - -1) with 0 by ring; rewrite Rabs_R0; apply eps_pos).
    rewrite C. cbn [negb orb obind]. eauto. }
  destruct HS as [x' HS].
  assert (HT' : exists ts', triangles x' ts').
  { pose proof (scalesolid_inv _ _ _ _ _ _ (vclose_far _ _ D) HS) as HC. eexists. eapply triangles_carry; eauto. }
  destruct HT' as [ts' HT']. exists [tet], x', (map rtri (ztris tet_ps tet_fs)), ts'.
  split; [rewrite scalesolid_none; exact HS|]. split; [exact HT|]. split; [exact HT'|].
  rewrite (scale_signed [tet] _ (-1) (-1) (-1) (point 0 0 0) x' ts' D (zplain _ _) HT tet_oriented HS HT').
  rewrite volume_real. change (zsum (ztris tet_ps tet_fs)) with 1%Z. split; lra.
Qed.
Print Assumptions c170_refuted.

(** C171 (refuted): two scale factors may be given, as the signature allows. *)
Theorem c171_refuted : scalesurface tet 2 (Some 3) None (point 0 0 0) = Raise EZeroDivision.
Proof.
  assert (D : vclose (scale_as_point 2 (Some 3) None) (point 1 1 1) = false).
  { cbn [scale_as_point]. apply vclose_far. apply Rle_trans with (sqrt 1); [rewrite sqrt_1; unfold epsilon; lra|].
    unfold dist, mag, sub, point; cbn [vx vy vz]. apply sqrt_le_1_alt. lra. }
  unfold scalesurface. rewrite D. cbn [Scale of_res obind num].
  assert (C : close 2 3 = false).
  { unfold close. apply Rltb_false. rewrite Rabs_left by lra. unfold epsilon. lra. }
  rewrite C. cbn [negb orb]. assert (E : Reqb 0 0 = true) by (apply Reqb_true; reflexivity). rewrite E, !orb_true_r. reflexivity.
Qed.
Print Assumptions c171_refuted.

(** C172 (refuted): issurface(s, fast=False) accepts only faces whose indices exist. *)
Theorem c172_refuted : exists s, issurface s = true /\ surfacearea s = Raise EIndex.
Proof.
  exists (zsurf tet_ps [(0, 1, 7)]%Z). split; [|reflexivity].
  pose proof (zissolid tet_ps [(0, 1, 7)]%Z) as H. unfold issolid in H. cbn [forallb] in H. rewrite andb_true_r in H. apply H. simpl; lia.
Qed.
Print Assumptions c172_refuted.

(** C173 (refuted): linePlaneIntersect takes the planar basis that tri2p0n(basis=True) returns. *)
Theorem c173_refuted : forall l p0 n fwd inv inside, linePlaneIntersect l (PBasis p0 n fwd inv) inside = Raise EValue.
Proof. reflexivity. Qed.
Print Assumptions c173_refuted.

(** C174 (refuted): with inside=False the intersection with the triangle's whole plane is found. *)
Theorem c174_refuted : exists l p1 p2 p3 u, let q := sampleline l u in
  epsilon <= mag (cross (sub p2 p1) (sub p3 p1)) /\
  (exists m1 m2 m3, m1 + m2 + m3 = 1 /\ combo m1 m2 m3 p1 p2 p3 q) /\
  linePlaneIntersect l (PTri (p1, p2, p3)) false <> Val (Some q).
Proof.
  exists (point 5 5 1, point 5 5 (-1)), (point 0 0 0), (point 1 0 0), (point 0 1 0), (1 / 2). cbv zeta.
  assert (E : cross (sub (point 1 0 0) (point 0 0 0)) (sub (point 0 1 0) (point 0 0 0)) = mkv 0 0 1 1).
  { unfold cross, sub, point; cbn [vx vy vz]. apply mkv_eq; ring. }
  rewrite E, mag_axis_z by lra. split; [unfold epsilon; lra|]. split.
  - exists (-9), 5, 5. split; [lra|]. unfold combo, sampleline, add, scale3, sub, point; cbn [fst snd vx vy vz]. split; [|split]; field.
  - intros H. apply line_tri_sound in H; try reflexivity. destruct H as [(m1 & m2 & m3 & M1 & M2 & M3 & MS & C1 & C2 & C3) _].
    unfold sampleline, add, scale3, sub, point in C1, C2; cbn [fst snd vx vy vz] in C1, C2. lra.
Qed.
Print Assumptions c174_refuted.

(** C175 (refuted): a face added with addTri2Surface has three different corners. *)
Theorem c175_refuted : exists t s', addTri2Surface t empty_surface = Val s' /\ faces s' = [(0, 0, 0)]%Z /\ area [t] > 0.
Proof.
  exists (point 0 0 0, point (epsilon / 2) 0 0, point 0 (epsilon / 2) 0). eexists. pose proof eps_pos as He.
  assert (M : forall a b, 0 <= a -> a <= epsilon / 2 -> b = 0 -> mag (mkv a b 0 1) < epsilon /\ mag (mkv b a 0 1) < epsilon).
  { intros a b H1 H2 ->. unfold mag; cbn [vx vy vz].
    replace (a * a + 0 * 0 + 0 * 0) with (a * a) by ring. replace (0 * 0 + a * a + 0 * 0) with (a * a) by ring.
    rewrite sqrt_square by lra. lra. }
  assert (V1 : vclose (point (epsilon / 2) 0 0) (point 0 0 0) = true).
  { unfold vclose. apply close_true. rewrite Rminus_0_r. rewrite Rabs_right; [|apply Rle_ge; apply sqrt_pos].
    unfold sub, point; cbn [vx vy vz]. rewrite !Rminus_0_r. apply (M (epsilon / 2) 0); lra. }
  assert (V2 : vclose (point 0 (epsilon / 2) 0) (point 0 0 0) = true).
  { unfold vclose. apply close_true. rewrite Rminus_0_r. rewrite Rabs_right; [|apply Rle_ge; apply sqrt_pos].
    unfold sub, point; cbn [vx vy vz]. rewrite !Rminus_0_r. apply (M (epsilon / 2) 0); lra. }
  assert (D : Reqb (mag (cross (sub (point (epsilon / 2) 0 0) (point 0 0 0)) (sub (point 0 (epsilon / 2) 0) (point (epsilon / 2) 0 0)))) 0 = false).
  { apply Reqb_false. unfold mag, cross, sub, point; cbn [vx vy vz].
    match goal with |- sqrt ?e <> 0 => replace e with ((epsilon * epsilon / 4) * (epsilon * epsilon / 4)) by field end.
    rewrite sqrt_square by nra. nra. }
  split; [|split].
  - unfold addTri2Surface, normfunc. rewrite D. cbn [obind empty_surface verts norms].
    unfold addVert. cbn [find_close length app]. rewrite V1. cbn [find_close]. rewrite V2. reflexivity.
  - reflexivity.
  - unfold area; cbn [Rsum]. unfold tri_area, point; cbn [vx vy vz].
    match goal with |- sqrt ?e / 2 + 0 > 0 => replace e with ((epsilon * epsilon / 4) * (epsilon * epsilon / 4)) by field end.
    rewrite sqrt_square by nra. nra.
Qed.
Print Assumptions c175_refuted.

(** C176 (refuted): the stored normal of a corner belongs to every face using it. *)
Theorem c176_refuted : exists ts s', addTris ts empty_surface = Val s' /\ ~ flat_shaded s'.
Proof.
  set (t1 := (point 0 0 0, point 1 0 0, point 0 1 0)). set (t2 := (point 0 0 0, point 0 0 1, point 1 0 0)).
  assert (FAR : forall a b c d e f, 1 <= (a - d) * (a - d) + (b - e) * (b - e) + (c - f) * (c - f) -> vclose (point a b c) (point d e f) = false).
  { intros a b c d e f H. apply vclose_far. apply Rle_trans with (sqrt 1); [rewrite sqrt_1; unfold epsilon; lra|].
    unfold dist, mag, sub, point; cbn [vx vy vz]. apply sqrt_le_1_alt. lra. }
  assert (SAME : forall p, vclose p p = true) by (intros p; apply vclose_near, near_self).
  assert (C1 : cross (sub (point 1 0 0) (point 0 0 0)) (sub (point 0 1 0) (point 1 0 0)) = mkv 0 0 1 1).
  { unfold cross, sub, point; cbn [vx vy vz]. apply mkv_eq; ring. }
  assert (C2 : cross (sub (point 0 0 1) (point 0 0 0)) (sub (point 1 0 0) (point 0 0 1)) = mkv 0 1 0 1).
  { unfold cross, sub, point; cbn [vx vy vz]. apply mkv_eq; ring. }
  assert (M1 : mag (mkv 0 0 1 1) = 1) by (apply mag_axis_z; lra).
  assert (M2 : mag (mkv 0 1 0 1) = 1).
  { unfold mag; cbn [vx vy vz]. match goal with |- sqrt ?e = 1 => replace e with 1 by ring end. apply sqrt_1. }
  assert (Z : Reqb 1 0 = false) by (apply Reqb_false; lra).
  exists [t1; t2]. eexists. split.
  - cbn [addTris]. unfold addTri2Surface at 1. unfold t1, normfunc. rewrite C1, M1, Z. cbn [obind empty_surface verts norms].
    unfold addVert. cbn [find_close length app]. rewrite FAR by lra. cbn [find_close length app]. rewrite FAR by lra. rewrite FAR by lra.
    cbn [length app Z.of_nat faces]. unfold addTri2Surface, t2, normfunc. rewrite C2, M2, Z. cbn [obind verts norms].
    unfold addVert. cbn [find_close length app]. rewrite SAME. cbn [find_close]. rewrite !FAR by lra. cbn [find_close length app].
    rewrite FAR by lra. rewrite SAME. cbn [faces app bnd holes]. reflexivity.
  - intros H.
    set (s' := mksurf _ _ _ _ _) in H.
    specialize (H (0, 3, 1)%Z (point 0 0 0, point 0 0 1, point 1 0 0) 0%Z (mkv (vx (mkv 0 0 1 1) * (1 / 1)) (vy (mkv 0 0 1 1) * (1 / 1)) (vz (mkv 0 0 1 1) * (1 / 1)) 0)).
    destruct H as (k & Hk & K1 & K2 & K3).
    + right; left; reflexivity.
    + split; [exists 0%nat; split; [reflexivity|left; reflexivity]|]. split; [exists 3%nat; split; [reflexivity|left; reflexivity]|].
      exists 1%nat; split; [reflexivity|left; reflexivity].
    + left. reflexivity.
    + exists 0%nat. split; [reflexivity|left; reflexivity].
    + unfold point in K3; cbn [vx vy vz] in K3. lra.
Qed.
Print Assumptions c176_refuted.
