(** C181-C184: spheres, spheroids, dodecahedra (geom3d_util.py). *)
From Coq Require Import Reals List Bool ZArith Lra Lia.
From Verif Require Import Xform_Model Xform_Proofs Fig_Model Fig_Proofs Fig_Proofs2 Solid_Model Solid_Spec Solid_Proofs Solid_Proofs2 Solid_Proofs3 Solid_Proofs7
  Prim_Model Prim_Spec Prim_Lab Prim_Proofs Prim_Proofs2 Dict
  Sphere_Model Sphere_Spec Sphere_Proofs Sphere_Proofs2 Sphere_Proofs3 Sphere_Proofs4 Sphere_Proofs5 Sphere_Proofs6.
Import ListNotations.
Open Scope R_scope.

(** C181: whatever was built before, a sphere is a closed mesh on the sphere. *)
Theorem c181_sphere H d c n : hash_history H -> 16 * epsilon <= d ->
  exists s H' c' ts, sphere H d c n = Val ([s], H') /\ hash_history H' /\ placed c c' /\ issolid [s] = true /\
    length (faces s) = (20 * 4 ^ n)%nat /\ (forall p, In p (verts s) -> on_sphere c' (d / 2) p) /\
    Forall2 (sphere_normal c' (d / 2)) (verts s) (norms s) /\ triangles [s] ts /\ oriented ts /\
    (16 * epsilon * 4 ^ n <= d -> (forall t, In t ts -> outward c' t) /\ 0 < signed_volume ts).
Proof. exact (sphere_all H d c n). Qed.
Print Assumptions c181_sphere.
Theorem c181_spheroid H d f c n : hash_history H -> 0 < d -> f < 1 ->
  exists s H' ts, oblate_spheroid H d f c n = Val ([s], H') /\ hash_history H' /\ issolid [s] = true /\
    length (faces s) = (20 * 4 ^ n)%nat /\ (forall p, In p (verts s) -> on_spheroid c (d / 2) (d / 2 * (1 - f)) p) /\
    Forall2 (spheroid_normal c (d / 2) (d / 2 * (1 - f))) (verts s) (norms s) /\ triangles [s] ts /\ oriented ts /\
    (8 * epsilon * 4 ^ n <= 1 -> (forall t, In t ts -> outward c t) /\ 0 < signed_volume ts).
Proof. exact (oblate_all H d f c n). Qed.
Print Assumptions c181_spheroid.
(** Looking up a point gives the index of a stored vertex within the tolerance of it; later
    look-ups of the same point, whatever is added in between, give the same index. *)
Inductive additions : mesh -> vhash -> mesh -> vhash -> Prop :=
| add_none m H : additions m H m H
| add_one m H nv nn i m1 H1 m2 H2 : addVertex nv nn m H = (i, m1, H1) -> additions m1 H1 m2 H2 -> additions m H m2 H2.
Theorem c181_vertex H nv nn m i m1 H1 m2 H2 nn' j m3 H3 : hash_history H ->
  addVertex nv nn m H = (i, m1, H1) -> additions m1 H1 m2 H2 -> addVertex nv nn' m2 H2 = (j, m3, H3) ->
  j = i /\ m3 = m2 /\ exists v, nth_error (fst m1) i = Some v /\ near nv v.
Proof.
  intros HH E A E2. apply history_ok in HH. destruct m as [vs ns]. destruct (addVertex_spec _ _ _ _ _ _ _ _ HH E) as (OK1 & F1 & _ & _).
  assert (G : hash_ok H2 /\ filed (fst m2) H2 nv i).
  { clear E E2 HH. revert OK1 F1. induction A as [m H0|m H0 nv' nn2 k ma Ha mb Hb E A IH]; intros OK F; [auto|].
    destruct m as [vs1 ns1]. destruct (addVertex_spec _ _ _ _ _ _ _ _ OK E) as (OK' & _ & _ & S). apply IH; [exact OK'|]. apply S. exact F. }
  destruct G as [OK2 F2]. destruct m2 as [vs2 ns2]. cbn [fst] in F2.
  assert (R : j = i /\ m3 = (vs2, ns2)).
  { pose proof F2 as (l1 & l2 & G & M & Hi). unfold addVertex in E2. rewrite G in E2.
    pose proof (probe_spec nv vs2 (l1 ++ i :: l2) []) as PS. destruct (probe nv vs2 (l1 ++ i :: l2) []) as [b|x].
    - assert (b = j /\ m3 = (vs2, ns2)) as [-> ->] by (split; congruence). split; [|reflexivity].
      destruct PS as (k1 & k2 & Ek & M' & Hb). apply (filed_unique vs2 H2 nv); [exists k1, k2; rewrite <- Ek; auto|exact F2].
    - destruct PS as [_ A']. destruct Hi as (v & Ev & Cv). rewrite (A' i (in_elt i l1 l2) v Ev) in Cv. discriminate. }
  destruct R as [-> ->]. split; [reflexivity|]. split; [reflexivity|]. destruct F1 as (_ & _ & _ & _ & (v & Ev & Cv)).
  exists v. split; [exact Ev|]. apply vclose_near. exact Cv.
Qed.
Print Assumptions c181_vertex.
Example c181_nonvacuous : hash_history [] /\ 16 * epsilon <= 10 /\ 16 * epsilon * 4 ^ 2 <= 10 /\ 8 * epsilon * 4 ^ 3 <= 1.
Proof. split; [constructor|]. unfold epsilon. simpl. lra. Qed.

(** C182: refuted - a vertex within the tolerance of a stored one is added again. *)
Lemma key_of x k : epsilon <= x -> Rabs (IZR k - 100 * x) < 1 / 2 -> vkey (point x 0 0) = ((false, k), (false, 0%Z), (false, 0%Z)).
Proof.
  intros Hx Hk. assert (E0 : 0 < epsilon) by (unfold epsilon; lra). unfold vkey, point. cbn [vx vy vz].
  assert (A : Rltb (Rabs x) epsilon = false). { unfold Rltb. destruct (Rlt_dec _ _) as [h|]; [|reflexivity]. rewrite Rabs_pos_eq in h by lra. lra. }
  rewrite A. assert (B : Rltb (Rabs 0) epsilon = true) by (apply Rltb_t; rewrite Rabs_R0; exact E0). rewrite B. unfold fmt2.
  assert (C : Rltb x 0 = false) by (unfold Rltb; destruct (Rlt_dec _ _); [lra|reflexivity]).
  assert (D : Rltb 0 0 = false) by (unfold Rltb; destruct (Rlt_dec _ _); [lra|reflexivity]). rewrite C, D.
  rewrite (pyround_unique (100 * x) k) by (left; exact Hk). rewrite (pyround_unique (100 * 0) 0); [reflexivity|]. left. rewrite Rmult_0_r, Rminus_0_r, Rabs_R0. lra.
Qed.
Theorem c182_refuted : exists p q H H', near p q /\
  addVertex p p ([], []) [] = (0%nat, ([p], [p]), H) /\ addVertex q q ([p], [p]) H = (1%nat, ([p; q], [p; q]), H').
Proof.
  assert (K1 : vkey (point (4999 / 1000000) 0 0) = ((false, 0%Z), (false, 0%Z), (false, 0%Z))).
  { apply key_of; [unfold epsilon; lra|]. rewrite Rabs_left; lra. }
  assert (K2 : vkey (point (5001 / 1000000) 0 0) = ((false, 1%Z), (false, 0%Z), (false, 0%Z))).
  { apply key_of; [unfold epsilon; lra|]. rewrite Rabs_pos_eq; lra. }
  exists (point (4999 / 1000000) 0 0), (point (5001 / 1000000) 0 0). eexists. eexists. split; [|split].
  - unfold near, dist, mag, sub, point. cbn [vx vy vz]. replace (_ + _ + _) with ((2 / 1000000) * (2 / 1000000)) by field. rewrite sqrt_square by lra. unfold epsilon. lra.
  - unfold addVertex. cbn [dget app length]. rewrite K1. reflexivity.
  - unfold addVertex. rewrite K2. reflexivity.
Qed.
Print Assumptions c182_refuted.

(** C183: the dodecahedron is closed and has the volume of a regular one. *)
Definition edge_of (d : R) : R := d * (3 - sqrt 5) / 2.
Definition regular_volume (a : R) : R := (15 + 7 * sqrt 5) / 4 * (a * a * a).
Lemma edge_dedge d : dedge d = edge_of d.
Proof.
  unfold dedge, dscale, edge_of. destruct golden_facts as (G & B & I). assert (S : sqrt 5 = 2 * golden - 1) by (unfold golden; field). rewrite S.
  replace (2 * (golden - 1) * (d / (2 * golden))) with ((golden - 1) * (d * (1 / golden))) by (field; lra). rewrite I.
  replace ((golden - 1) * (d * (golden - 1))) with (d * (golden * golden - 2 * golden + 1)) by ring. rewrite G. field.
Qed.
Theorem c183_dodecahedron d c : 0 < d ->
  exists x ts, dodecahedron d c = Val x /\ issolid x = true /\ length x = 12%nat /\ triangles x ts /\ length ts = 36%nat /\ oriented ts /\
    signed_volume ts = regular_volume (edge_of d) /\
    (2 * epsilon < edge_of d -> issolidclosed x = Val true /\ volumeof x = Val (regular_volume (edge_of d))).
Proof.
  intros Hd. exists (dodeca_surfs d c), (map (at_pos (dpos d c)) dodeca_ltris). split; [apply dodecahedron_val|]. split; [apply dodeca_issolid|].
  split; [reflexivity|]. split; [apply dodeca_triangles|]. split; [rewrite map_length; reflexivity|]. split; [apply orient_pos, dodeca_lorient|].
  unfold regular_volume. rewrite <- edge_dedge. split; [apply dodeca_signed|]. intros He. apply dodeca_closed; auto.
Qed.
Print Assumptions c183_dodecahedron.
Example c183_nonvacuous : 0 < 20 /\ 2 * epsilon < edge_of 20.
Proof.
  assert (S5 : sqrt 5 * sqrt 5 = 5) by (apply sqrt_sqrt; lra). pose proof (sqrt_pos 5). assert (sqrt 5 < 2.25) by nra. unfold epsilon, edge_of. lra.
Qed.
(** C184: refuted - it does not fit the sphere of the given diameter and is not centred. *)
Theorem c184_refuted d c : 0 < d -> exists x, dodecahedron d c = Val x /\
  (exists s s' p q, In s x /\ In s' x /\ In p (verts s) /\ In q (verts s') /\ d < dist p q) /\
  (forall s p, In s x -> In p (verts s) -> vz c <= vz p).
Proof.
  intros Hd. exists (dodeca_surfs d c). split; [apply dodecahedron_val|]. split.
  - exists (dodeca_surf d c [0; 8; 10; 2; 16]%nat), (dodeca_surf d c [3; 13; 15; 7; 11]%nat), (dpos d c 0), (dpos d c 7).
    split; [apply in_map; cbn [In dodeca_faces]; tauto|]. split; [apply in_map; unfold dodeca_faces; do 7 right; left; reflexivity|].
    split; [cbn [dodeca_surf verts map In]; tauto|]. split; [cbn [dodeca_surf verts map In]; tauto|]. apply dodeca_wide. exact Hd.
  - intros s p. apply dodeca_above.
Qed.
Print Assumptions c184_refuted.
