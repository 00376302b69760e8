(** Integer meshes: concrete surfaces on which the functions of Solid_Model can be
    computed, used by the examples and counterexamples of Solid_Props. *)
From Coq Require Import Reals List Bool ZArith Lra Lia Permutation.
From Verif Require Import Dict Xform_Model Xform_Proofs Fig_Model Fig_Proofs Solid_Model Solid_Spec Solid_Proofs Solid_Proofs2 Solid_Proofs3.
Import ListNotations.
Open Scope R_scope.

Definition zp := (Z * Z * Z)%type.
Definition real (p : zp) : vec := let '(a, b, c) := p in point (IZR a) (IZR b) (IZR c).
Definition ztri := (zp * zp * zp)%type.
Definition rtri (t : ztri) : tri := let '(p, q, r) := t in (real p, real q, real r).
Definition zkey (p : zp) : key := let '(a, b, c) := p in (200000 * a, 200000 * b, 200000 * c)%Z.
Definition zsides (t : ztri) : list (zp * zp) := let '(p, q, r) := t in [(p, q); (q, r); (r, p)].
Definition zclosed (ts : list ztri) : bool :=
  forallb (fun e => Nat.eqb (snd e) 2)
    (fold_left count_edge (map (fun e => ukey (zkey (fst e)) (zkey (snd e))) (flat_map zsides ts)) []).
Definition zdet (t : ztri) : Z :=
  let '((a, b, c), (d, e, f), (g, h, i)) := t in (a * (e * i - f * h) - b * (d * i - f * g) + c * (d * h - e * g))%Z.
Definition zsum (ts : list ztri) : Z := fold_right (fun t s => (zdet t + s)%Z) 0%Z ts.

Lemma real_key p : point_to_key (real p) = zkey p.
Proof.
  destruct p as [[a b] c]. unfold point_to_key, real, zkey, point; cbn [vx vy vz].
  assert (E : forall n, pyround (IZR n / epsilon) = (200000 * n)%Z).
  { intros n. rewrite <- (pyround_IZR (200000 * n)). f_equal. rewrite mult_IZR. unfold epsilon. field. }
  rewrite !E. reflexivity.
Qed.
Lemma zsides_real ts : all_sides (map rtri ts) = map (fun e => (real (fst e), real (snd e))) (flat_map zsides ts).
Proof.
  unfold all_sides. induction ts as [|[[p q] r] ts IH]; [reflexivity|]. cbn [map flat_map zsides rtri sides app fst snd].
  rewrite IH. reflexivity.
Qed.
Lemma edge_counts_real ts : edge_counts (map rtri ts) =
  fold_left count_edge (map (fun e => ukey (zkey (fst e)) (zkey (snd e))) (flat_map zsides ts)) [].
Proof.
  unfold edge_counts. rewrite edge_keys_sides. f_equal.
  change (flat_map sides (map rtri ts)) with (all_sides (map rtri ts)).
  rewrite zsides_real, map_map. apply map_ext. intros [p q]. cbn [fst snd]. rewrite canonical_ukey, !real_key. reflexivity.
Qed.
Lemma closed_real x ts : issolid x = true -> triangles x (map rtri ts) -> issolidclosed x = Val (zclosed ts).
Proof.
  intros Hs Ht. unfold issolidclosed. rewrite Hs. cbn [negb].
  apply solid_tris_spec in Ht. rewrite Ht. cbn [obind]. rewrite edge_counts_real. reflexivity.
Qed.
Lemma volume_real ts : signed_volume (map rtri ts) = IZR (zsum ts) / 6.
Proof.
  unfold signed_volume. f_equal. induction ts as [|t ts IH]; [reflexivity|]. cbn [map Rsum zsum fold_right].
  rewrite plus_IZR. f_equal; [|exact IH]. destruct t as [[[[a b] c] [[d e] f]] [[g h] i]].
  cbn [rtri real]. unfold det3, point, zdet; cbn [vx vy vz].
  repeat first [rewrite plus_IZR | rewrite minus_IZR | rewrite mult_IZR]. reflexivity.
Qed.
Lemma real_inj p q : real p = real q -> p = q.
Proof. destruct p as [[a b] c], q as [[d e] f]. unfold real, point. intros H. injection H as H1 H2 H3. apply eq_IZR in H1, H2, H3. congruence. Qed.
Lemma separated_real ts : separated (map rtri ts).
Proof.
  assert (C : forall p, corner (map rtri ts) p -> exists z, p = real z).
  { intros p [q H]. rewrite zsides_real in H. apply in_map_iff in H as ([z w] & E & _). cbn [fst snd] in E. exists z. congruence. }
  intros p q Hp Hq. destruct (C p Hp) as [[[a b] c] ->]. destruct (C q Hq) as [[[d e] f] ->].
  destruct (Z.eq_dec a d) as [->|N1]; [destruct (Z.eq_dec b e) as [->|N2]; [destruct (Z.eq_dec c f) as [->|N3]; [left; reflexivity|]|]|].
  all: right; apply Rlt_le_trans with (sqrt 1); [rewrite sqrt_1; unfold epsilon; lra|].
  all: unfold dist, mag, sub, real, point; cbn [vx vy vz]; apply sqrt_le_1_alt.
  all: assert (G : forall m n : Z, 0 <= (IZR m - IZR n) * (IZR m - IZR n)) by (intros m n; apply Rle_0_sqr).
  all: assert (G1 : forall m n : Z, m <> n -> 1 <= (IZR m - IZR n) * (IZR m - IZR n)).
  all: try (intros m n N; rewrite <- minus_IZR, <- mult_IZR; apply (IZR_le 1); nia).
  - pose proof (G1 _ _ N3). pose proof (G e e). pose proof (G d d). lra.
  - pose proof (G1 _ _ N2). pose proof (G d d). pose proof (G c f). lra.
  - pose proof (G1 _ _ N1). pose proof (G b e). pose proof (G c f). lra.
Qed.
Lemma oriented_real ts : Permutation (flat_map zsides ts) (map (fun e => (snd e, fst e)) (flat_map zsides ts)) -> oriented (map rtri ts).
Proof.
  intros H. unfold oriented. rewrite zsides_real. apply (Permutation_map (fun e => (real (fst e), real (snd e)))) in H.
  rewrite map_map in *. cbn [fst snd] in *. exact H.
Qed.

(** A one-surface solid on integer points; all normals are (0,0,1). *)
Definition zn : vec := mkv 0 0 1 0.
Definition zsurf (ps : list zp) (fs : list face) : surf := mksurf (map real ps) (map (fun _ => zn) ps) fs [] [].
Definition zget (ps : list zp) (i : Z) : zp := nth (Z.to_nat i) ps (0, 0, 0)%Z.
Definition ztris (ps : list zp) (fs : list face) : list ztri := map (fun f => let '(a, b, c) := f in (zget ps a, zget ps b, zget ps c)) fs.
Definition zvalid (ps : list zp) (fs : list face) : bool :=
  forallb (fun f => let '(a, b, c) := f in let n := Z.of_nat (length ps) in
    ((0 <=? a) && (a <? n) && (0 <=? b) && (b <? n) && (0 <=? c) && (c <? n))%Z) fs.
Lemma zat ps i : (0 <= i < Z.of_nat (length ps))%Z -> at_index (map real ps) i (real (zget ps i)).
Proof.
  intros H. exists (Z.to_nat i). split; [|left; lia]. rewrite nth_error_map. unfold zget.
  rewrite (nth_error_nth' ps (0, 0, 0)%Z) by lia. reflexivity.
Qed.
Lemma ztriangles ps fs : zvalid ps fs = true -> triangles [zsurf ps fs] (map rtri (ztris ps fs)).
Proof.
  intros H. exists [map rtri (ztris ps fs)]. split; [|simpl; rewrite app_nil_r; reflexivity]. constructor; [|constructor].
  unfold ztris, zsurf, zvalid in *; cbn [faces]. induction fs as [|[[a b] c] fs IH]; cbn [map]; [constructor|].
  cbn [forallb] in H. apply andb_true_iff in H as [H1 H2]. constructor; [|exact (IH H2)].
  rewrite !andb_true_iff, !Z.leb_le, !Z.ltb_lt in H1. cbn [rtri face_corners verts]. split; [|split]; apply zat; lia.
Qed.
Lemma zissolid ps fs : (2 < length ps)%nat -> issolid [zsurf ps fs] = true.
Proof.
  intros H. unfold issolid; cbn [forallb]. rewrite andb_true_r. unfold issurface, zsurf, filterInds; cbn [verts norms faces bnd holes].
  rewrite !map_length, Nat.eqb_refl. cbn [forallb].
  destruct (Nat.ltb_spec 2 (length ps)); [|lia]. destruct (Nat.ltb_spec (length ps) 3); [lia|]. cbn [negb].
  assert (E1 : forallb (fun p => Rltb 0 (vw p)) (map real ps) = true).
  { apply forallb_forall. intros p Hp. apply in_map_iff in Hp as ([[a b] c] & <- & _). apply Rltb_true. simpl. lra. }
  assert (E2 : forallb (fun d => close (vw d) 0) (map (fun _ => zn) ps) = true).
  { apply forallb_forall. intros p Hp. apply in_map_iff in Hp as (x & <- & _). apply close_true. simpl.
    rewrite Rminus_0_r, Rabs_R0. apply eps_pos. }
  rewrite E1, E2. reflexivity.
Qed.
Lemma zplain ps fs : plain [zsurf ps fs].
Proof. intros s p [<-|[]] Hp. apply in_map_iff in Hp as ([[a b] c] & <- & _). reflexivity. Qed.
Lemma zvolume ps fs : (2 < length ps)%nat -> zvalid ps fs = true -> zclosed (ztris ps fs) = true ->
  volumeof [zsurf ps fs] = Val (Rabs (IZR (zsum (ztris ps fs)) / 6)).
Proof.
  intros H1 H2 H3. pose proof (ztriangles ps fs H2) as HT. apply (volumeof_iff _ _ _ HT).
  split; [apply zissolid; auto|]. split; [rewrite (closed_real _ _ (zissolid ps fs H1) HT), H3; auto|]. rewrite volume_real. reflexivity.
Qed.

(** the tetrahedron with corners 0, (1,0,0), (0,1,0), (0,0,1), faces outwards *)
Definition tet_ps : list zp := [(0, 0, 0); (1, 0, 0); (0, 1, 0); (0, 0, 1)]%Z.
Definition tet_fs : list face := [(0, 2, 1); (0, 1, 3); (0, 3, 2); (1, 2, 3)]%Z.
Definition tet : surf := zsurf tet_ps tet_fs.
Lemma tet_oriented : oriented (map rtri (ztris tet_ps tet_fs)).
Proof.
  apply oriented_real. apply NoDup_Permutation.
  - vm_compute. repeat (apply NoDup_cons; [intros H; repeat (destruct H as [H|H]; [discriminate H|]); destruct H|]). apply NoDup_nil.
  - vm_compute. repeat (apply NoDup_cons; [intros H; repeat (destruct H as [H|H]; [discriminate H|]); destruct H|]). apply NoDup_nil.
  - intros e. split; intros H; vm_compute in H |- *; repeat (destruct H as [<-|H]; [auto 20|]); destruct H.
Qed.
Lemma tet_volume : volumeof [tet] = Val (1 / 6).
Proof.
  unfold tet. rewrite (zvolume tet_ps tet_fs); [|simpl; lia|reflexivity|reflexivity].
  change (zsum (ztris tet_ps tet_fs)) with 1%Z. rewrite Rabs_right; [reflexivity|lra].
Qed.
