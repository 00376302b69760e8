From Coq Require Import Reals ZArith List Bool Lra Psatz.
From Verif Require Import Xform_Model Xform_Proofs Mesh_Model Mesh_Spec.
Import ListNotations.
Open Scope R_scope.
Open Scope list_scope.

Lemma Some_eq {A} (a b : A) : Some a = Some b -> a = b.
Proof. congruence. Qed.
Lemma cross_area v0 v1 v2 : mag (edges_cross v0 v1 v2) = twice_area v0 v1 v2.
Proof. unfold mag, twice_area, edges_cross, cross, sub. cbn. f_equal. ring. Qed.
Lemma normal_none v0 v1 v2 : triangle_normal v0 v1 v2 = None <-> twice_area v0 v1 v2 <= epsilon.
Proof. unfold triangle_normal. rewrite cross_area. destruct (Rleb (twice_area v0 v1 v2) epsilon) eqn:E; [apply Rleb_true in E|apply Rleb_false in E]; split; auto; try discriminate; lra. Qed.
Lemma normal_some v0 v1 v2 n : triangle_normal v0 v1 v2 = Some n -> outward n v0 v1 v2 /\ epsilon < twice_area v0 v1 v2.
Proof.
  unfold triangle_normal. rewrite cross_area. destruct (Rleb (twice_area v0 v1 v2) epsilon) eqn:E; [discriminate|]. apply Rleb_false in E. intros Hn. apply Some_eq in Hn. subst n. split; [|exact E].
  pose proof eps_pos as P. set (L := twice_area v0 v1 v2) in *. assert (L0 : 0 < L) by lra.
  assert (Sq : vx (edges_cross v0 v1 v2) * vx (edges_cross v0 v1 v2) + vy (edges_cross v0 v1 v2) * vy (edges_cross v0 v1 v2) + vz (edges_cross v0 v1 v2) * vz (edges_cross v0 v1 v2) = L * L).
  { unfold L. rewrite <- cross_area. unfold mag. rewrite sqrt_sqrt; [reflexivity|]. nra. }
  remember (edges_cross v0 v1 v2) as c eqn:Ec. clearbody L. unfold outward. split; [|split; [|split]].
  - unfold mag. cbn [vx vy vz]. replace (vx c / L * (vx c / L) + vy c / L * (vy c / L) + vz c / L * (vz c / L)) with ((vx c * vx c + vy c * vy c + vz c * vz c) / (L * L)) by (field; lra).
    rewrite Sq. replace (L * L / (L * L)) with 1 by (field; lra). apply sqrt_1.
  - unfold dot. cbn [vx vy vz]. replace (vx c / L * vx (sub v1 v0) + vy c / L * vy (sub v1 v0) + vz c / L * vz (sub v1 v0)) with (dot c (sub v1 v0) / L) by (unfold dot; field; lra).
    replace (dot c (sub v1 v0)) with 0; [field; lra|]. rewrite Ec; unfold edges_cross, dot, cross, sub. cbn. ring.
  - unfold dot. cbn [vx vy vz]. replace (vx c / L * vx (sub v2 v0) + vy c / L * vy (sub v2 v0) + vz c / L * vz (sub v2 v0)) with (dot c (sub v2 v0) / L) by (unfold dot; field; lra).
    replace (dot c (sub v2 v0)) with 0; [field; lra|]. rewrite Ec; unfold edges_cross, dot, cross, sub. cbn. ring.
  - replace (det3 (sub v1 v0) (sub v2 v0) _) with ((vx c * vx c + vy c * vy c + vz c * vz c) / L).
    + rewrite Sq. replace (L * L / L) with L by (field; lra). exact L0.
    + unfold det3. cbn [vx vy vz]. transitivity ((vx (sub v1 v0) * (vy (sub v2 v0) * vz c - vz (sub v2 v0) * vy c) - vy (sub v1 v0) * (vx (sub v2 v0) * vz c - vz (sub v2 v0) * vx c) + vz (sub v1 v0) * (vx (sub v2 v0) * vy c - vy (sub v2 v0) * vx c)) / L); [|field; lra].
      f_equal. rewrite Ec; unfold edges_cross, cross. cbn. ring.
Qed.
Lemma normal_swap v0 v1 v2 n : triangle_normal v0 v1 v2 = Some n -> triangle_normal v0 v2 v1 = Some (mkv (- vx n) (- vy n) (- vz n) 1).
Proof.
  unfold triangle_normal. assert (M : mag (edges_cross v0 v2 v1) = mag (edges_cross v0 v1 v2)) by (unfold mag, edges_cross, cross; cbn; f_equal; ring).
  rewrite M. destruct (Rleb (mag (edges_cross v0 v1 v2)) epsilon) eqn:E; [discriminate|]. apply Rleb_false in E. pose proof eps_pos. intros Hn. apply Some_eq in Hn. subst n. f_equal. set (L := mag (edges_cross v0 v1 v2)) in *.
  cbn [vx vy vz]. apply mkv_eq; auto; unfold edges_cross, cross, sub; cbn [vx vy vz]; field; lra.
Qed.
Lemma orient_ok v0 v1 v2 w a b c : orient_triangle v0 v1 v2 w = (a, b, c) ->
  a = v0 /\ ((b = v1 /\ c = v2) \/ (b = v2 /\ c = v1)) /\ (triangle_normal v0 v1 v2 <> None -> exists n, triangle_normal a b c = Some n /\ 0 <= dot n w).
Proof.
  unfold orient_triangle. destruct (triangle_normal v0 v1 v2) as [n|] eqn:N.
  - destruct (Rltb (dot n w) 0) eqn:D; [apply Rltb_true in D|apply Rltb_false in D]; intros [= <- <- <-]; split; auto; split; auto; intros _.
    + exists (mkv (- vx n) (- vy n) (- vz n) 1). split; [apply normal_swap, N|]. unfold dot in *. cbn [vx vy vz]. lra.
    + exists n. auto.
  - intros [= <- <- <-]. split; auto. split; auto. intros X. contradiction.
Qed.

Lemma face_view_ok verts f out : face_view verts f = Some out ->
  out = match corners verts f with
        | Some (p, q, r) => match triangle_normal (to_vec3 p) (to_vec3 q) (to_vec3 r) with Some n => [(n, to_vec3 p, to_vec3 q, to_vec3 r)] | None => [] end
        | None => [] end.
Proof.
  unfold face_view, corners. destruct f as [|a [|b [|c [|d f]]]]; cbn [map]; try (intros [= <-]; try destruct (index verts a); try destruct (index verts b); try destruct (index verts c); reflexivity).
  destruct (index verts a) as [p|]; [|discriminate]. destruct (index verts b) as [q|]; [|discriminate]. destruct (index verts c) as [r|]; [|discriminate]. cbn [bind]. intros [= <-]. reflexivity.
Qed.
Lemma face_view_total verts f : Forall (fun i => index verts i <> None) f -> exists out, face_view verts f = Some out.
Proof.
  intros H. unfold face_view. destruct f as [|a [|b [|c [|d f]]]]; eauto. inversion H as [|? ? Ha H1]; subst. inversion H1 as [|? ? Hb H2]; subst. inversion H2 as [|? ? Hc _]; subst.
  destruct (index verts a); [|contradiction]. destruct (index verts b); [|contradiction]. destruct (index verts c); [|contradiction]. cbn [bind]. eauto.
Qed.
(** what one face yields *)
Definition yield_of (verts : list vec) (f : list Z) : list (vec * vec * vec * vec) :=
  match corners verts f with
  | Some (p, q, r) => match triangle_normal (to_vec3 p) (to_vec3 q) (to_vec3 r) with Some n => [(n, to_vec3 p, to_vec3 q, to_vec3 r)] | None => [] end
  | None => []
  end.
Lemma faces_view_ok verts fs : forall out, faces_view verts fs = Some out -> out = flat_map (yield_of verts) fs.
Proof.
  induction fs as [|f fs IH]; cbn [faces_view flat_map]; intros out; [intros [= <-]; auto|].
  destruct (face_view verts f) as [a|] eqn:E; [|discriminate]. destruct (faces_view verts fs) as [b|]; [|discriminate]. cbn [bind]. intros [= <-]. rewrite (IH b eq_refl). f_equal. apply face_view_ok, E.
Qed.
Lemma mesh_view_ok ss : forall out, mesh_view ss = Some out -> out = flat_map (fun s => flat_map (yield_of (vertices s)) (faces s)) ss.
Proof.
  induction ss as [|s ss IH]; cbn [mesh_view flat_map]; intros out; [intros [= <-]; auto|].
  destruct (faces_view (vertices s) (faces s)) as [a|] eqn:E; [|discriminate]. destruct (mesh_view ss) as [b|]; [|discriminate]. cbn [bind]. intros [= <-]. rewrite (IH b eq_refl). f_equal. apply faces_view_ok, E.
Qed.
Lemma mesh_view_total ss : Forall well_indexed ss -> exists out, mesh_view ss = Some out.
Proof.
  assert (K : forall verts fs, Forall (Forall (fun i => index verts i <> None)) fs -> exists out, faces_view verts fs = Some out).
  { intros verts fs. induction 1 as [|f fs H _ (b & Eb)]; cbn [faces_view]; eauto. destruct (face_view_total _ _ H) as [a ->]. cbn [bind]. rewrite Eb. cbn. eauto. }
  induction 1 as [|s ss H _ (b & Eb)]; cbn [mesh_view]; eauto. destruct (K _ _ H) as [a ->]. cbn [bind]. rewrite Eb. cbn. eauto.
Qed.
Lemma twice_area_vec3 p q r : twice_area (to_vec3 p) (to_vec3 q) (to_vec3 r) = twice_area p q r.
Proof. reflexivity. Qed.
Definition shows (e : vec * vec * vec * vec) (t : vec * vec * vec) : Prop :=
  let '(n, a, b, c) := e in let '(p, q, r) := t in a = to_vec3 p /\ b = to_vec3 q /\ c = to_vec3 r /\ outward n p q r.
Lemma mesh_view_shows ss out : mesh_view ss = Some out -> Forall2 shows out (proper_triangles ss).
Proof.
  intros H. rewrite (mesh_view_ok _ _ H). unfold proper_triangles. clear H. induction ss as [|s ss IH]; cbn [flat_map]; [constructor|]. apply Forall2_app; [clear IH|exact IH].
  induction (faces s) as [|f fs IH]; cbn [flat_map]; [constructor|]. apply Forall2_app; [|exact IH]. unfold yield_of. destruct (corners (vertices s) f) as [[[p q] r]|]; [|constructor].
  destruct (triangle_normal (to_vec3 p) (to_vec3 q) (to_vec3 r)) as [n|] eqn:N.
  - apply normal_some in N as [O A]. rewrite twice_area_vec3 in A. apply Rltb_true in A. rewrite A. constructor; [|constructor]. repeat split; apply O.
  - apply normal_none in N. rewrite twice_area_vec3 in N. replace (Rltb epsilon (twice_area p q r)) with false by (symmetry; apply Rltb_false, N). constructor.
Qed.
