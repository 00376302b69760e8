(** Discs, cylinders and frusta. *)
From Coq Require Import Reals List Bool ZArith Lra Lia Permutation Arith.
From Verif Require Import Xform_Model Xform_Proofs Fig_Model Fig_Proofs Fig_Proofs2 Solid_Model Solid_Spec Solid_Proofs Solid_Proofs2
  Solid_Proofs3 Solid_Proofs4 Solid_Proofs5 Solid_Proofs6 Solid_Proofs7 Prim_Model Prim_Spec Prim_Lab Prim_Proofs.
Import ListNotations.
Open Scope R_scope.

(** ** resolution *)
Lemma Rabs_le_inv a b : Rabs a <= b -> - b <= a <= b.
Proof. intros H. unfold Rabs in H. destruct (Rcase_abs a); lra. Qed.
Lemma pyround_unique x n : (Rabs (IZR n - x) < 1 / 2 \/ Rabs (IZR n - x) = 1 / 2 /\ Z.Even n) -> pyround x = n.
Proof.
  intros H. unfold pyround. pose proof (base_Int_part x) as [B1 B2].
  set (f := Int_part x) in *.
  assert (HH : Rabs (IZR n - x) <= 1 / 2) by (destruct H as [H|[H _]]; lra).
  apply Rabs_le_inv in HH.
  assert (N : n = f \/ n = (f + 1)%Z).
  { assert (A1 : IZR n < IZR (f + 2)) by (rewrite plus_IZR; lra). assert (A2 : IZR (f - 1) < IZR n) by (rewrite minus_IZR; lra).
    apply lt_IZR in A1, A2. lia. }
  destruct N as [->| ->]; [|rewrite plus_IZR in *].
  - destruct (Rlt_dec (x - IZR f) (1 / 2)); [rewrite Rltb_t by auto; reflexivity|rewrite Rltb_f by lra].
    destruct H as [H|[H E]]; [apply Rabs_def2 in H; lra|].
    rewrite Rltb_f by lra. apply Z.even_spec in E. rewrite E. reflexivity.
  - rewrite Rltb_f by lra. destruct (Rlt_dec (1 / 2) (x - IZR f)); [rewrite Rltb_t by auto; reflexivity|rewrite Rltb_f by lra].
    destruct H as [H|[H E]]; [apply Rabs_def2 in H; lra|].
    apply Z.even_spec in E. rewrite Z.even_add in E. destruct (Z.even f); [discriminate|reflexivity].
Qed.
Lemma sectors_round a n : sectors a n -> Z.to_nat (pyround (360 / a)) = n.
Proof.
  intros [_ H]. rewrite (pyround_unique _ (Z.of_nat n)); [apply Nat2Z.id|].
  rewrite <- INR_IZR_INZ. destruct H as [H|[H E]]; [left; exact H|right]. split; [exact H|].
  destruct E as [k ->]. exists (Z.of_nat k). lia.
Qed.
Lemma sectors_range a n : sectors a n -> (8 <= n <= 360)%nat.
Proof.
  intros [Ha H]. assert (HH : Rabs (INR n - 360 / a) <= 1 / 2) by (destruct H as [H|[H _]]; lra).
  apply Rabs_le_inv in HH.
  assert (360 / 45 <= 360 / a). { apply Rmult_le_compat_l; [lra|]. apply Rinv_le_contravar; lra. }
  assert (360 / a <= 360 / 1). { apply Rmult_le_compat_l; [lra|]. apply Rinv_le_contravar; lra. }
  split.
  - apply Nat.lt_succ_r. apply INR_lt. rewrite (S_INR n). replace (INR 8) with 8 by (rewrite INR_IZR_INZ; reflexivity). lra.
  - apply Nat.lt_succ_r. apply INR_lt. replace (INR 361) with 361 by (rewrite INR_IZR_INZ; reflexivity). lra.
Qed.
Lemma sectors_exist a : 1 <= a <= 45 -> exists n, sectors a n.
Proof.
  intros Ha. exists (Z.to_nat (pyround (360 / a))). split; [exact Ha|].
  assert (P : 0 <= 360 / a) by (apply Rmult_le_pos; [lra|left; apply Rinv_0_lt_compat; lra]).
  pose proof (pyround_near (360 / a)) as N. apply Rabs_le_inv in N.
  assert (Z0 : (0 <= pyround (360 / a))%Z).
  { apply le_IZR. destruct (Z_le_gt_dec 0 (pyround (360 / a))) as [|G]; [apply IZR_le; auto|].
    exfalso. assert (pyround (360 / a) <= -1)%Z by lia. apply IZR_le in H. lra. }
  rewrite INR_IZR_INZ, Z2Nat.id by auto.
  unfold pyround in *. pose proof (base_Int_part (360 / a)) as [B1 B2]. set (f := Int_part (360 / a)) in *. set (x := 360 / a) in *.
  destruct (Rltb (x - IZR f) (1 / 2)) eqn:E1.
  { apply Rltb_true in E1. left. apply Rabs_def1; lra. }
  destruct (Rltb (1 / 2) (x - IZR f)) eqn:E2.
  { apply Rltb_true in E2. left. rewrite plus_IZR. apply Rabs_def1; lra. }
  apply Rltb_false in E1, E2. right. destruct (Z.even f) eqn:E3.
  - split; [rewrite Rabs_left1; lra|]. apply Z.even_spec in E3 as [k E3]. exists (Z.to_nat k). apply Nat2Z.inj. rewrite Nat2Z.inj_mul, !Z2Nat.id by lia. exact E3.
  - rewrite plus_IZR. split; [rewrite Rabs_right; lra|].
    assert (E4 : Z.even (f + 1) = true) by (rewrite Z.even_add, E3; reflexivity).
    apply Z.even_spec in E4 as [k E4]. exists (Z.to_nat k). apply Nat2Z.inj. rewrite Nat2Z.inj_mul, !Z2Nat.id by lia. exact E4.
Qed.
Lemma resolution_val r a n : sectors a n -> resolution r (Some a) None None = Val n.
Proof.
  intros H. unfold resolution. pose proof (proj1 H). rewrite !Rltb_f by lra. cbn [orb obind]. rewrite (sectors_round a n H). reflexivity.
Qed.

(** ** the rim *)
Lemma part_eq i n : (0 < n)%nat -> part i n = INR i * (2 * PI / INR n).
Proof. intros H. unfold part, pi2. apply lt_INR in H. simpl in H. field. lra. Qed.
Lemma part_cyc n i : (i < n)%nat -> cos (part (S i mod n) n) = cos (part (S i) n) /\ sin (part (S i mod n) n) = sin (part (S i) n).
Proof.
  intros H. destruct (Nat.eq_dec (S i) n) as [E|E].
  - rewrite E, Nat.mod_same by lia. rewrite !part_eq by lia. assert (0 < INR n) by (apply (lt_INR 0); lia).
    replace (INR n * (2 * PI / INR n)) with (2 * PI) by (field; lra). simpl (INR 0). rewrite Rmult_0_l, cos_0, sin_0, cos_2PI, sin_2PI. auto.
  - rewrite Nat.mod_small by lia. auto.
Qed.
Lemma part_step n i : (0 < n)%nat -> part (S i) n = part i n + 2 * PI / INR n.
Proof. intros H. rewrite !part_eq, S_INR by auto. ring. Qed.
Lemma nth_error_seq {B} (f : nat -> B) n j : (j < n)%nat -> nth_error (map f (seq 0 n)) j = Some (f j).
Proof.
  intros H. rewrite nth_error_map. rewrite (nth_error_nth' _ 0%nat) by (rewrite seq_length; auto). rewrite seq_nth by auto. reflexivity.
Qed.
Lemma at_index_nat {A} (l : list A) k a : nth_error l k = Some a -> at_index l (Z.of_nat k) a.
Proof. intros H. exists k. auto. Qed.
Definition disc_verts (c : vec) (r : R) (n : nat) : list vec := c :: map (rim_point c r n) (seq 0 n).
Definition disc_faces (n : nat) (zup : bool) : list face :=
  if zup then map (fun i => (0, Z.of_nat i, Z.of_nat (next n i))%Z) (seq 1 n)
  else map (fun i => (0, Z.of_nat (next n i), Z.of_nat i)%Z) (rev (seq 1 n)).
Definition disc_surf (c : vec) (r : R) (n : nat) (zup : bool) : surf :=
  mksurf (disc_verts c r n) (map (fun _ => mkv 0 0 (if zup then 1 else -1) 0) (disc_verts c r n)) (disc_faces n zup) (map Z.of_nat (seq 1 n)) [].
Lemma disc_w c r n p : vw c = 1 -> In p (disc_verts c r n) -> vw p = 1.
Proof. intros Hc [<-|H]; [exact Hc|]. apply in_map_iff in H as (i & <- & _). reflexivity. Qed.
Lemma circle_val c r n zup : (2 <= n)%nat -> vw c = 1 -> circle_surface c r n zup = Val (disc_surf c r n zup).
Proof.
  intros Hn Hc. unfold circle_surface. fold (disc_verts c r n). fold (disc_faces n zup). rewrite mk_surface_ok.
  - reflexivity.
  - unfold disc_verts. cbn [length]. rewrite map_length, seq_length. lia.
  - rewrite map_length. reflexivity.
  - intros p. apply disc_w; auto.
  - intros p Hp. apply in_map_iff in Hp as (q & <- & _). reflexivity.
Qed.
Lemma circleSurface_val c r a n zup : sectors a n -> vw c = 1 -> circleSurface c r (Some a) zup None None = Val (disc_surf c r n zup).
Proof.
  intros Hs Hc. unfold circleSurface. rewrite (resolution_val r a n Hs). cbn [obind].
  pose proof (sectors_range a n Hs). apply circle_val; auto. lia.
Qed.

(** triangles of a disc, over labels *)
Inductive lab := LC (top : bool) | LR (top : bool) (i : nat).
Definition lab_eq (a b : lab) : {a = b} + {a <> b}.
Proof. repeat decide equality. Defined.
Definition labs_eq (a b : lab * lab) : {a = b} + {a <> b}.
Proof. repeat decide equality. Defined.
Definition disc_up (t : bool) (n : nat) : list (ltri lab) := map (fun i => (LC t, LR t i, LR t (S i mod n))) (seq 0 n).
Definition disc_down (t : bool) (n : nat) : list (ltri lab) := map (fun i => (LC t, LR t (S i mod n), LR t i)) (rev (seq 0 n)).
Definition wall (n : nat) : list (ltri lab) :=
  flat_map (fun i => [(LR false i, LR false (S i mod n), LR true (S i mod n)); (LR false i, LR true (S i mod n), LR true i)]) (seq 0 n).
Lemma next_S n i : next n (S i) = S (S i mod n). Proof. reflexivity. Qed.
Lemma disc_faces_shift n zup : disc_faces n zup =
  if zup then map (fun i => (0, Z.of_nat (S i), Z.of_nat (S (S i mod n)))%Z) (seq 0 n)
  else map (fun i => (0, Z.of_nat (S (S i mod n)), Z.of_nat (S i))%Z) (rev (seq 0 n)).
Proof.
  unfold disc_faces. destruct zup.
  - rewrite <- seq_shift, map_map. reflexivity.
  - rewrite <- seq_shift, <- map_rev, map_map. reflexivity.
Qed.
Lemma mod_lt i n : (0 < n)%nat -> (S i mod n < n)%nat.
Proof. intros. apply Nat.mod_upper_bound. lia. Qed.
Lemma Forall2_map_map {A B C} (P : B -> C -> Prop) (f : A -> B) (g : A -> C) l :
  (forall a, In a l -> P (f a) (g a)) -> Forall2 P (map f l) (map g l).
Proof. induction l as [|a l IH]; intros H; constructor; [apply H; left; auto|apply IH; intros; apply H; right; auto]. Qed.
Lemma disc_tris pos t c r n : pos (LC t) = c -> (forall i, pos (LR t i) = rim_point c r n i) ->
  Forall2 (face_corners (disc_surf c r n true)) (faces (disc_surf c r n true)) (map (at_pos pos) (disc_up t n)) /\
  Forall2 (face_corners (disc_surf c r n false)) (faces (disc_surf c r n false)) (map (at_pos pos) (disc_down t n)).
Proof.
  intros Hc Hr. cbn [disc_surf faces]. rewrite !disc_faces_shift. unfold disc_up, disc_down. rewrite !map_map.
  assert (K : forall z j, (j < n)%nat -> at_index (verts (disc_surf c r n z)) (Z.of_nat (S j)) (pos (LR t j))).
  { intros z j Hj. apply at_index_nat. rewrite Hr. cbn [disc_surf verts disc_verts nth_error]. apply nth_error_seq. exact Hj. }
  assert (K0 : forall z, at_index (verts (disc_surf c r n z)) 0 (pos (LC t))).
  { intros z. apply (at_index_nat _ 0). rewrite Hc. reflexivity. }
  split; apply Forall2_map_map; intros i Hi.
  - apply in_seq in Hi. cbn [at_pos face_corners].
    split; [apply K0|]. split; apply K; [lia|apply mod_lt; lia].
  - apply in_rev, in_seq in Hi. cbn [at_pos face_corners]. split; [apply K0|]. split; apply K; [apply mod_lt; lia|lia].
Qed.

(** ** sides of the label meshes *)
Lemma cyc_val n i : (i < n)%nat -> (S i = n /\ S i mod n = 0 \/ S i < n /\ S i mod n = S i)%nat.
Proof.
  intros H. destruct (Nat.eq_dec (S i) n) as [E|E]; [left|right].
  - rewrite E, Nat.mod_same by lia. auto.
  - rewrite Nat.mod_small by lia. lia.
Qed.
Lemma count_zero {A} (f : A -> lab * lab) l e : (forall i, In i l -> f i <> e) -> count_occ labs_eq (map f l) e = 0%nat.
Proof. intros H. apply count_occ_not_In. intros X. apply in_map_iff in X as (i & E & Hi). exact (H i Hi E). Qed.
Lemma count_one (f : nat -> lab * lab) n e : (forall i j, (i < n)%nat -> (j < n)%nat -> f i = f j -> i = j) ->
  (count_occ labs_eq (map f (seq 0 n)) e <= 1)%nat.
Proof.
  intros H. apply NoDup_count_occ.
  assert (G : forall l, (forall i, In i l -> (i < n)%nat) -> NoDup l -> NoDup (map f l)).
  { induction l as [|a l IH]; intros Hl N; [constructor|]. apply NoDup_cons_iff in N as [N1 N2]. cbn [map]. constructor.
    - intros X. apply in_map_iff in X as (b & E & Hb). apply H in E; [subst; auto|apply Hl; right; auto|apply Hl; left; auto].
    - apply IH; auto. intros; apply Hl; right; auto. }
  apply G; [intros i Hi; apply in_seq in Hi; lia|apply seq_NoDup].
Qed.
Lemma count_two (f g : nat -> lab * lab) n e : (forall i j, (i < n)%nat -> (j < n)%nat -> f i = f j -> i = j) ->
  (forall i j, (i < n)%nat -> (j < n)%nat -> g i = g j -> i = j) -> (forall i j, (i < n)%nat -> (j < n)%nat -> f i <> g j) ->
  (count_occ labs_eq (map f (seq 0 n)) e + count_occ labs_eq (map g (seq 0 n)) e <= 1)%nat.
Proof.
  intros Hf Hg D. pose proof (count_one f n e Hf). pose proof (count_one g n e Hg).
  destruct (in_dec labs_eq e (map f (seq 0 n))) as [I|I]; [|apply (count_occ_not_In labs_eq) in I; lia].
  destruct (in_dec labs_eq e (map g (seq 0 n))) as [J|J]; [|apply (count_occ_not_In labs_eq) in J; lia].
  apply in_map_iff in I as (a & Ea & Ia). apply in_map_iff in J as (b & Eb & Ib). apply in_seq in Ia, Ib.
  exfalso. apply (D a b); try lia. congruence.
Qed.
Definition disc_down_sides (t : bool) n e : count_occ labs_eq (lall (disc_down t n)) e =
  (count_occ labs_eq (map (fun i => (LC t, LR t (S i mod n))) (seq 0 n)) e +
   (count_occ labs_eq (map (fun i => (LR t (S i mod n), LR t i)) (seq 0 n)) e +
    count_occ labs_eq (map (fun i => (LR t i, LC t)) (seq 0 n)) e))%nat.
Proof.
  unfold lall, disc_down. rewrite flat_map_map.
  rewrite (count_perm labs_eq _ _ e (flat_map_perm _ _ _ (Permutation_sym (Permutation_rev (seq 0 n))))).
  cbn [lsides]. rewrite !count_cons_fun, flat_map_nil. cbn [count_occ]. lia.
Qed.
Definition disc_up_sides (t : bool) n e : count_occ labs_eq (lall (disc_up t n)) e =
  (count_occ labs_eq (map (fun i => (LC t, LR t i)) (seq 0 n)) e +
   (count_occ labs_eq (map (fun i => (LR t i, LR t (S i mod n))) (seq 0 n)) e +
    count_occ labs_eq (map (fun i => (LR t (S i mod n), LC t)) (seq 0 n)) e))%nat.
Proof.
  unfold lall, disc_up. rewrite flat_map_map.
  cbn [lsides]. rewrite !count_cons_fun, flat_map_nil. cbn [count_occ]. lia.
Qed.
Definition cone (n : nat) : list (ltri lab) := map (fun i => (LC true, LR false i, LR false (S i mod n))) (seq 0 n).
Definition cone_sides n e : count_occ labs_eq (lall (cone n)) e =
  (count_occ labs_eq (map (fun i => (LC true, LR false i)) (seq 0 n)) e +
   (count_occ labs_eq (map (fun i => (LR false i, LR false (S i mod n))) (seq 0 n)) e +
    count_occ labs_eq (map (fun i => (LR false (S i mod n), LC true)) (seq 0 n)) e))%nat.
Proof.
  unfold lall, cone. rewrite flat_map_map.
  cbn [lsides]. rewrite !count_cons_fun, flat_map_nil. cbn [count_occ]. lia.
Qed.
Definition wall_sides n e : count_occ labs_eq (lall (wall n)) e =
  (count_occ labs_eq (map (fun i => (LR false i, LR false (S i mod n))) (seq 0 n)) e +
   (count_occ labs_eq (map (fun i => (LR false (S i mod n), LR true (S i mod n))) (seq 0 n)) e +
   (count_occ labs_eq (map (fun i => (LR true (S i mod n), LR false i)) (seq 0 n)) e +
   (count_occ labs_eq (map (fun i => (LR false i, LR true (S i mod n))) (seq 0 n)) e +
   (count_occ labs_eq (map (fun i => (LR true (S i mod n), LR true i)) (seq 0 n)) e +
    count_occ labs_eq (map (fun i => (LR true i, LR false i)) (seq 0 n)) e)))))%nat.
Proof.
  unfold lall, wall. rewrite flat_map_flat.
  cbn [lsides flat_map app]. rewrite !count_cons_fun, flat_map_nil. cbn [count_occ]. lia.
Qed.
Lemma count_back l e : count_occ labs_eq (map lback l) e = count_occ labs_eq l (lback e).
Proof.
  assert (B : forall x : lab * lab, lback (lback x) = x) by (intros [? ?]; reflexivity).
  induction l as [|a l IH]; [reflexivity|]. cbn [map count_occ].
  destruct (labs_eq (lback a) e) as [E|E], (labs_eq a (lback e)) as [F|F]; rewrite IH; auto.
  - exfalso. apply F. rewrite <- E. symmetry. apply B.
  - exfalso. apply E. rewrite F. apply B.
Qed.
Lemma count_flip (f : nat -> lab * lab) l e : count_occ labs_eq (map f l) (lback e) = count_occ labs_eq (map (fun i => lback (f i)) l) e.
Proof. rewrite <- count_back, map_map. reflexivity. Qed.
Definition frustum (n : nat) : list (ltri lab) := disc_down false n ++ wall n ++ disc_up true n.
Definition full_cone (n : nat) : list (ltri lab) := disc_down false n ++ cone n.
Lemma lall_app {L} (a b : list (ltri L)) : lall (a ++ b) = lall a ++ lall b.
Proof. apply flat_map_app. Qed.
Lemma frustum_lorient n : (0 < n)%nat -> lorient (frustum n).
Proof.
  intros Hn. apply (perm_count labs_eq). intros e. rewrite count_back. unfold frustum. rewrite !lall_app, !count_occ_app.
  rewrite !disc_down_sides, !disc_up_sides, !wall_sides, !count_flip. unfold lback; cbn [fst snd].
  pose proof (count_cyc labs_eq (fun j => (LC false, LR false j)) n e Hn).
  pose proof (count_cyc labs_eq (fun j => (LR false j, LC false)) n e Hn).
  pose proof (count_cyc labs_eq (fun j => (LR true j, LC true)) n e Hn).
  pose proof (count_cyc labs_eq (fun j => (LC true, LR true j)) n e Hn).
  pose proof (count_cyc labs_eq (fun j => (LR false j, LR true j)) n e Hn).
  pose proof (count_cyc labs_eq (fun j => (LR true j, LR false j)) n e Hn).
  cbv beta in *. lia.
Qed.
Lemma full_cone_lorient n : (0 < n)%nat -> lorient (full_cone n).
Proof.
  intros Hn. apply (perm_count labs_eq). intros e. rewrite count_back. unfold full_cone. rewrite !lall_app, !count_occ_app.
  rewrite !disc_down_sides, !cone_sides, !count_flip. unfold lback; cbn [fst snd].
  pose proof (count_cyc labs_eq (fun j => (LC false, LR false j)) n e Hn).
  pose proof (count_cyc labs_eq (fun j => (LR false j, LC false)) n e Hn).
  pose proof (count_cyc labs_eq (fun j => (LR false j, LC true)) n e Hn).
  pose proof (count_cyc labs_eq (fun j => (LC true, LR false j)) n e Hn).
  cbv beta in *. lia.
Qed.
Ltac zeros := repeat match goal with |- context [count_occ labs_eq (map ?f (seq 0 ?n)) ?e] =>
  rewrite (count_zero f (seq 0 n) e) by (intros ? _; congruence) end.
Lemma inj_use n i j : (i < n)%nat -> (j < n)%nat -> (S i mod n = S j mod n)%nat -> i = j.
Proof. intros Hi Hj H. destruct (cyc_val n i Hi), (cyc_val n j Hj); lia. Qed.
Lemma cyc_neq n i : (1 < n)%nat -> (i < n)%nat -> (S i mod n)%nat <> i.
Proof. intros Hn Hi. destruct (cyc_val n i Hi); lia. Qed.
Lemma cyc_neq2 n i j : (2 < n)%nat -> (i < n)%nat -> (j < n)%nat -> (S i mod n)%nat = j -> (S j mod n)%nat = i -> False.
Proof. intros Hn Hi Hj. destruct (cyc_val n i Hi), (cyc_val n j Hj); lia. Qed.
Lemma frustum_nodup n : (2 < n)%nat -> NoDup (lall (frustum n)).
Proof.
  intros Hn. apply (NoDup_count_occ labs_eq). intros e. unfold frustum. rewrite !lall_app, !count_occ_app, disc_down_sides, disc_up_sides, wall_sides.
  destruct e as [[[]|[] a] [[]|[] b]]; zeros; cbn [Nat.add]; rewrite ?Nat.add_0_r; try lia;
    try (apply count_one; intros i j Hi Hj E; injection E; intros; subst; eauto using inj_use; fail);
    try (apply count_two; intros i j Hi Hj E; injection E; intros; subst; eauto using inj_use; eapply cyc_neq2; eauto; fail);
    try (apply count_two; intros i j Hi Hj E; injection E; intros; subst; eauto using inj_use).
  - apply (cyc_neq2 n j (S j mod n)); auto.
  - apply (cyc_neq2 n j (S j mod n)); auto.
Qed.
Lemma full_cone_nodup n : (2 < n)%nat -> NoDup (lall (full_cone n)).
Proof.
  intros Hn. apply (NoDup_count_occ labs_eq). intros e. unfold full_cone. rewrite !lall_app, !count_occ_app, disc_down_sides, cone_sides.
  destruct e as [[[]|[] a] [[]|[] b]]; zeros; cbn [Nat.add]; rewrite ?Nat.add_0_r; try lia;
    try (apply count_one; intros i j Hi Hj E; injection E; intros; subst; eauto using inj_use; fail);
    try (apply count_two; intros i j Hi Hj E; injection E; intros; subst; eauto using inj_use).
  apply (cyc_neq2 n j (S j mod n)); auto.
Qed.
Lemma in_frustum n a b : In (a, b) (lall (frustum n)) ->
  (exists i, (i < n)%nat /\ (a, b) = (LR false (S i mod n), LR false i)) \/ (exists i, (i < n)%nat /\ (a, b) = (LR false i, LR false (S i mod n))) \/
  (exists i, (i < n)%nat /\ (a, b) = (LR true (S i mod n), LR true i)) \/ (exists i, (i < n)%nat /\ (a, b) = (LR true i, LR true (S i mod n))) \/
  (exists t i, (i < n)%nat /\ ((a, b) = (LC t, LR t i) \/ (a, b) = (LR t i, LC t))) \/
  (exists i j, (i < n)%nat /\ (j < n)%nat /\ ((a, b) = (LR false i, LR true j) \/ (a, b) = (LR true i, LR false j))).
Proof.
  assert (M : forall i, (i < n)%nat -> (S i mod n < n)%nat) by (intros; apply Nat.mod_upper_bound; lia).
  unfold frustum. rewrite !lall_app. intros H. apply in_app_or in H as [H|H]; [|apply in_app_or in H as [H|H]].
  - apply in_flat_map in H as (t & Ht & H). apply in_map_iff in Ht as (i & <- & Hi). apply in_rev, in_seq in Hi. assert (Hi' : (i < n)%nat) by lia.
    cbn [lsides In] in H. destruct H as [H|[H|[H|[]]]]; rewrite <- H; eauto 12.
  - apply in_flat_map in H as (t & Ht & H). apply in_flat_map in Ht as (i & Hi & Ht). apply in_seq in Hi. assert (Hi' : (i < n)%nat) by lia.
    destruct Ht as [<-|[<-|[]]]; cbn [lsides In] in H; destruct H as [H|[H|[H|[]]]]; rewrite <- H; eauto 15.
  - apply in_flat_map in H as (t & Ht & H). apply in_map_iff in Ht as (i & <- & Hi). apply in_seq in Hi. assert (Hi' : (i < n)%nat) by lia.
    cbn [lsides In] in H. destruct H as [H|[H|[H|[]]]]; rewrite <- H; eauto 15.
Qed.
Lemma frustum_noloop n a : (1 < n)%nat -> ~ In (a, a) (lall (frustum n)).
Proof.
  intros Hn H. apply in_frustum in H.
  destruct H as [(i & Hi & E)|[(i & Hi & E)|[(i & Hi & E)|[(i & Hi & E)|[(t & i & Hi & [E|E])|(i & j & Hi & Hj & [E|E])]]]]];
    injection E; intros; subst; try discriminate; try (eapply cyc_neq; eauto; congruence); congruence.
Qed.
Definition good (n : nat) (a : lab) : Prop := match a with LC _ => True | LR _ i => (i < n)%nat end.
Lemma frustum_label n a : label (frustum n) a -> good n a.
Proof.
  intros [b H]. apply in_frustum in H.
  assert (M : forall i, (i < n)%nat -> (S i mod n < n)%nat) by (intros; apply Nat.mod_upper_bound; lia).
  destruct H as [(i & Hi & E)|[(i & Hi & E)|[(i & Hi & E)|[(i & Hi & E)|[(t & i & Hi & [E|E])|(i & j & Hi & Hj & [E|E])]]]]];
    assert (a = _) by (injection E; intros _ X; exact X); subst a; cbn [good]; auto.
Qed.
Lemma in_full_cone n a b : In (a, b) (lall (full_cone n)) ->
  (exists i, (i < n)%nat /\ (a, b) = (LR false (S i mod n), LR false i)) \/ (exists i, (i < n)%nat /\ (a, b) = (LR false i, LR false (S i mod n))) \/
  (exists t i, (i < n)%nat /\ ((a, b) = (LC t, LR false i) \/ (a, b) = (LR false i, LC t))).
Proof.
  assert (M : forall i, (i < n)%nat -> (S i mod n < n)%nat) by (intros; apply Nat.mod_upper_bound; lia).
  unfold full_cone. rewrite !lall_app. intros H. apply in_app_or in H as [H|H].
  - apply in_flat_map in H as (t & Ht & H). apply in_map_iff in Ht as (i & <- & Hi). apply in_rev, in_seq in Hi. assert (Hi' : (i < n)%nat) by lia.
    cbn [lsides In] in H. destruct H as [H|[H|[H|[]]]]; rewrite <- H; eauto 12.
  - apply in_flat_map in H as (t & Ht & H). apply in_map_iff in Ht as (i & <- & Hi). apply in_seq in Hi. assert (Hi' : (i < n)%nat) by lia.
    cbn [lsides In] in H. destruct H as [H|[H|[H|[]]]]; rewrite <- H; eauto 15.
Qed.
Lemma full_cone_noloop n a : (1 < n)%nat -> ~ In (a, a) (lall (full_cone n)).
Proof.
  intros Hn H. apply in_full_cone in H.
  destruct H as [(i & Hi & E)|[(i & Hi & E)|(t & i & Hi & [E|E])]];
    injection E; intros; subst; try discriminate; try (eapply cyc_neq; eauto; congruence); congruence.
Qed.
Lemma full_cone_label n a : label (full_cone n) a -> match a with LC _ => True | LR t i => t = false /\ (i < n)%nat end.
Proof.
  intros [b H]. apply in_full_cone in H.
  assert (M : forall i, (i < n)%nat -> (S i mod n < n)%nat) by (intros; apply Nat.mod_upper_bound; lia).
  destruct H as [(i & Hi & E)|[(i & Hi & E)|(t & i & Hi & [E|E])]];
    assert (a = _) by (injection E; intros _ X; exact X); subst a; auto.
Qed.

