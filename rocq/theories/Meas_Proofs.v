(** The centroid of a mesh. *)
From Coq Require Import Reals ZArith List Bool Permutation Lra Lia.
From Verif Require Import Dict Xform_Model Xform_Proofs Fig_Model Solid_Model Solid_Spec Solid_Proofs Solid_Proofs2 Solid_Proofs3 Solid_Proofs4.
From Verif Require Import Meas_Model Meas_Spec.
Import ListNotations.
Open Scope R_scope.

Definition det_t (t : tri) : R := let '(p, q, r) := t in det3 p q r.
Definition sum3 (f : vec -> R) (t : tri) : R := let '(p, q, r) := t in f p + f q + f r.
(** 24 times the weighted sum the loop forms *)
Definition moment (f : vec -> R) (ts : list tri) : R := Rsum (fun t => det_t t * sum3 f t) ts.
Definition sixv (ts : list tri) : R := Rsum det_t ts.
Lemma sixv_volume ts : signed_volume ts = sixv ts / 6.
Proof. unfold signed_volume, sixv. reflexivity. Qed.
Lemma tet_signed_det t : tet_signed t = det_t t / 6.
Proof. destruct t as [[p q] r]. unfold tet_signed, det_t, det3. field. Qed.
Lemma acc_eq (a b c d a' b' c' d' : R) : a = a' -> b = b' -> c = c' -> d = d' -> (a, b, c, d) = (a', b', c', d').
Proof. congruence. Qed.
Lemma fold_centroid ts : forall cx cy cz v, fold_left centroid_step ts (cx, cy, cz, v) =
  (cx + moment vx ts / 24, cy + moment vy ts / 24, cz + moment vz ts / 24, v + sixv ts / 6).
Proof.
  induction ts as [|f ts IH]; intros cx cy cz v.
  - unfold moment, sixv; cbn [fold_left Rsum]. apply acc_eq; field.
  - cbn [fold_left]. destruct f as [[p q] r] eqn:E. unfold centroid_step at 2. rewrite IH.
    rewrite tet_signed_det. unfold moment, sixv; cbn [Rsum]. unfold det_t, sum3. apply acc_eq; field.
Qed.
Lemma mesh_centroid_eq x ts : x <> [] -> triangles x ts ->
  mesh_centroid x = (let v := signed_volume ts in
    if Rltb (Rabs v) tiny then Val None
    else Val (Some (point (moment vx ts / 24 / v) (moment vy ts / 24 / v) (moment vz ts / 24 / v)))).
Proof.
  intros HN HT. apply solid_tris_spec in HT. unfold mesh_centroid. destruct x; [congruence|].
  rewrite HT. cbn [obind]. rewrite fold_centroid. cbv zeta. rewrite sixv_volume, !Rplus_0_l. reflexivity.
Qed.
Lemma tiny_pos : 0 < tiny. Proof. unfold tiny. apply Rinv_0_lt_compat. lra. Qed.
Lemma nil_tris ts : triangles [] ts -> ts = [].
Proof. intros (tss & H & ->). inversion H. reflexivity. Qed.
Lemma centroid_some x ts c : triangles x ts ->
  (mesh_centroid x = Val (Some c) <-> tiny <= Rabs (signed_volume ts) /\
     c = point (moment vx ts / (24 * signed_volume ts)) (moment vy ts / (24 * signed_volume ts)) (moment vz ts / (24 * signed_volume ts))).
Proof.
  intros HT. pose proof tiny_pos as TP. destruct x as [|s x].
  - rewrite (nil_tris _ HT). cbn [mesh_centroid]. split; [discriminate|]. intros [H _]. unfold signed_volume in H. cbn [Rsum] in H.
    replace (0 / 6) with 0 in H by field. rewrite Rabs_R0 in H. lra.
  - rewrite (mesh_centroid_eq _ ts) by (auto; discriminate). cbv zeta. set (v := signed_volume ts).
    destruct (Rltb (Rabs v) tiny) eqn:B.
    + apply Rltb_true in B. split; [discriminate|]. intros [H _]. lra.
    + apply Rltb_false in B. assert (V : v <> 0) by (intros ->; rewrite Rabs_R0 in B; lra).
      assert (E : point (moment vx ts / 24 / v) (moment vy ts / 24 / v) (moment vz ts / 24 / v) =
                  point (moment vx ts / (24 * v)) (moment vy ts / (24 * v)) (moment vz ts / (24 * v))).
      { f_equal; field; exact V. }
      rewrite E. split.
      * intros H. injection H as H. split; [exact B|]. symmetry. unfold point. rewrite <- H. reflexivity.
      * intros [_ ->]. reflexivity.
Qed.
Lemma centroid_exists x ts : triangles x ts -> tiny <= Rabs (signed_volume ts) -> exists c, mesh_centroid x = Val (Some c).
Proof. intros HT HV. eexists. apply (centroid_some x ts); auto. Qed.
Lemma centroid_tris x c : mesh_centroid x = Val (Some c) -> exists ts, triangles x ts.
Proof.
  unfold mesh_centroid. destruct x; [discriminate|]. intros H. apply obind_val in H as (ts & H & _). apply solid_tris_spec in H. eauto.
Qed.

(** ** any apex *)
Definition mu (f : vec -> R) (o p q r : vec) : R := tet6 o p q r * (f o + f p + f q + f r).
Definition o0 : vec := mkv 0 0 0 1.
Definition coord (f : vec -> R) : Prop := f = vx \/ f = vy \/ f = vz.
Lemma mu_shift f o p q r : coord f ->
  mu f o p q r = det3 p q r * (f p + f q + f r) - (mu f o0 o p q + mu f o0 o q r + mu f o0 o r p).
Proof.
  destruct o as [a b c e], p as [a1 b1 c1 e1], q as [a2 b2 c2 e2], r as [a3 b3 c3 e3].
  intros [-> | [-> | ->]]; unfold mu, tet6, o0, det3; cbn [vx vy vz]; ring.
Qed.
Lemma tet6_shift o p q r : tet6 o p q r = det3 p q r - (tet6 o0 o p q + tet6 o0 o q r + tet6 o0 o r p).
Proof.
  destruct o as [a b c e], p as [a1 b1 c1 e1], q as [a2 b2 c2 e2], r as [a3 b3 c3 e3].
  unfold tet6, o0, det3; cbn [vx vy vz]; ring.
Qed.
Definition tet6_t (o : vec) (t : tri) : R := let '(p, q, r) := t in tet6 o p q r.
Definition mu_t (f : vec -> R) (o : vec) (t : tri) : R := let '(p, q, r) := t in mu f o p q r.
Lemma tet6_sum o ts : oriented ts -> Rsum (tet6_t o) ts = sixv ts.
Proof.
  intros HO. set (g := fun e : vec * vec => - tet6 o0 o (fst e) (snd e)).
  rewrite (Rsum_ext _ (fun t => det_t t + (let '(p, q, r) := t in g (p, q) + g (q, r) + g (r, p)))).
  - rewrite Rsum_plus, <- (Rsum_sides g), (cancel g); [unfold sixv; ring| |exact HO].
    intros e. unfold g, back; cbn [fst snd]. unfold tet6, det3; cbn [vx vy vz]. ring.
  - intros [[p q] r] _. unfold tet6_t, det_t, g. cbn [fst snd]. rewrite tet6_shift. ring.
Qed.
Lemma mu_sum f o ts : coord f -> oriented ts -> Rsum (mu_t f o) ts = moment f ts.
Proof.
  intros HF HO. set (g := fun e : vec * vec => - mu f o0 o (fst e) (snd e)).
  rewrite (Rsum_ext _ (fun t => det_t t * sum3 f t + (let '(p, q, r) := t in g (p, q) + g (q, r) + g (r, p)))).
  - rewrite Rsum_plus, <- (Rsum_sides g), (cancel g); [unfold moment; ring| |exact HO].
    intros e. unfold g, back; cbn [fst snd]. unfold mu, tet6, det3; cbn [vx vy vz]. ring.
  - intros [[p q] r] _. unfold mu_t, det_t, sum3, g. cbn [fst snd]. rewrite (mu_shift f o p q r HF). ring.
Qed.
Lemma mean_from_eq f o ts c : coord f -> oriented ts ->
  (mean_from f o ts c <-> sixv ts * c = moment f ts / 4).
Proof.
  intros HF HO. unfold mean_from.
  rewrite (Rsum_ext (fun t : tri => let '(p, q, r) := t in tet6 o p q r) (tet6_t o)) by (intros [[p q] r] _; reflexivity).
  rewrite (Rsum_ext (fun t : tri => let '(p, q, r) := t in tet6 o p q r * tet_mean f o p q r) (fun t => / 4 * mu_t f o t)).
  2:{ intros [[p q] r] _. unfold mu_t, mu, tet_mean. field. }
  rewrite Rsum_scal, tet6_sum, mu_sum by auto. split; intros E; rewrite E; field.
Qed.
Lemma coord_x : coord vx. Proof. left. reflexivity. Qed.
Lemma coord_y : coord vy. Proof. right. left. reflexivity. Qed.
Lemma coord_z : coord vz. Proof. right. right. reflexivity. Qed.
Lemma centre_from_eq o ts c : oriented ts -> (centre_from o ts c <->
  sixv ts * vx c = moment vx ts / 4 /\ sixv ts * vy c = moment vy ts / 4 /\ sixv ts * vz c = moment vz ts / 4).
Proof.
  intros HO. unfold centre_from. rewrite !mean_from_eq by (auto using coord_x, coord_y, coord_z). reflexivity.
Qed.
Lemma six_nonzero ts : tiny <= Rabs (signed_volume ts) -> sixv ts <> 0.
Proof.
  rewrite sixv_volume. intros H E. rewrite E in H. replace (0 / 6) with 0 in H by field. rewrite Rabs_R0 in H. pose proof tiny_pos. lra.
Qed.
Lemma centroid_centre x ts c o : triangles x ts -> oriented ts -> mesh_centroid x = Val (Some c) ->
  centre_from o ts c /\ tiny <= Rabs (signed_volume ts) /\ vw c = 1.
Proof.
  intros HT HO H. apply (centroid_some x ts) in H as [HV ->]; auto. split; [|split; [exact HV|reflexivity]].
  pose proof (six_nonzero _ HV) as N. apply centre_from_eq; auto. unfold point; cbn [vx vy vz]. rewrite sixv_volume.
  repeat split; field; exact N.
Qed.
Lemma centre_unique ts o o' c c' : oriented ts -> signed_volume ts <> 0 -> centre_from o ts c -> centre_from o' ts c' ->
  vx c = vx c' /\ vy c = vy c' /\ vz c = vz c'.
Proof.
  intros HO HV H H'. apply centre_from_eq in H as (A & B & C); auto. apply centre_from_eq in H' as (A' & B' & C'); auto.
  assert (N : sixv ts <> 0) by (intros E; apply HV; rewrite sixv_volume, E; field).
  repeat split; apply (Rmult_eq_reg_l (sixv ts)); auto; congruence.
Qed.
Lemma centre_centroid x ts o c : triangles x ts -> oriented ts -> tiny <= Rabs (signed_volume ts) -> centre_from o ts c -> vw c = 1 ->
  mesh_centroid x = Val (Some c).
Proof.
  intros HT HO HV HC HW. destruct (centroid_exists x ts HT HV) as [c' H]. destruct (centroid_centre x ts c' o HT HO H) as (HC' & _ & HW').
  assert (N : signed_volume ts <> 0) by (intros E; rewrite E, Rabs_R0 in HV; pose proof tiny_pos; lra).
  destruct (centre_unique ts o o c c' HO N HC HC') as (A & B & C). rewrite H. do 2 f_equal. destruct c, c'; cbn in *; congruence.
Qed.
