From Coq Require Import Reals List Bool ZArith Permutation Lra Lia Nsatz.
From Verif Require Import Dict Xform_Model Xform_Proofs Fig_Model Fig_Proofs Solid_Model Solid_Spec.
Import ListNotations.
Open Scope R_scope.

Lemma obind_val {A B} (x : out A) (f : A -> out B) b :
  obind x f = Val b -> exists a, x = Val a /\ f a = Val b.
Proof. destruct x; simpl; [|discriminate]. intros H. exists a. auto. Qed.
Lemma omap_val {A B} (f : A -> out B) l bs :
  omap f l = Val bs <-> Forall2 (fun a b => f a = Val b) l bs.
Proof.
  revert bs. induction l as [|a l IH]; intros bs; simpl.
  - split; [intros H; injection H as <-; constructor|]. intros H. inversion H. reflexivity.
  - split.
    + intros H. apply obind_val in H as (b & Hb & H). apply obind_val in H as (r & Hr & H).
      injection H as <-. constructor; auto. apply IH. auto.
    + intros H. inversion H as [|? b ? r Hb Hr]; subst. rewrite Hb. simpl. apply IH in Hr. rewrite Hr. reflexivity.
Qed.

Lemma Forall2_impl {A B} (P Q : A -> B -> Prop) l m :
  (forall a b, P a b -> Q a b) -> Forall2 P l m -> Forall2 Q l m.
Proof. intros H. induction 1; constructor; auto. Qed.
(** ** indexing *)
Lemma pyget_at {A} (l : list A) i a : pyget l i = Val a <-> at_index l i a.
Proof.
  unfold pyget, at_index. set (n := length l).
  destruct (Z.ltb_spec i 0) as [Hi|Hi].
  - destruct (Z.ltb_spec (i + Z.of_nat n) 0) as [Hj|Hj]; simpl.
    + split; [discriminate|]. intros (k & Hk & [->| [E _]]); lia.
    + destruct (Z.leb_spec (Z.of_nat n) (i + Z.of_nat n)) as [Hl|Hl]; simpl; [lia|].
      destruct (nth_error l (Z.to_nat (i + Z.of_nat n))) as [b|] eqn:E.
      * split.
        -- intros H. injection H as ->. exists (Z.to_nat (i + Z.of_nat n)). split; [exact E|right; split; lia].
        -- intros (k & Hk & [->| [E1 _]]); [lia|]. rewrite E1, Nat2Z.id, Hk in E. congruence.
      * exfalso. apply nth_error_None in E. subst n. lia.
  - destruct (Z.ltb_spec i 0); [lia|]. simpl. destruct (Z.leb_spec (Z.of_nat n) i) as [Hl|Hl]; simpl.
    + split; [discriminate|]. intros (k & Hk & [->| [E ?]]); [|lia].
      assert (k < n)%nat by (apply nth_error_Some; congruence). lia.
    + destruct (nth_error l (Z.to_nat i)) as [b|] eqn:E.
      * split.
        -- intros H0. injection H0 as ->. exists (Z.to_nat i). split; [exact E|left; lia].
        -- intros (k & Hk & [->| [E1 ?]]); [|lia]. rewrite Nat2Z.id, Hk in E. congruence.
      * exfalso. apply nth_error_None in E. subst n. lia.
Qed.
Lemma at_index_in {A} (l : list A) i a : at_index l i a -> In a l.
Proof. intros (k & H & _). eapply nth_error_In; eauto. Qed.
Lemma at_index_map {A B} (f : A -> B) l i b :
  at_index (map f l) i b <-> exists a, at_index l i a /\ b = f a.
Proof.
  unfold at_index. rewrite map_length. split.
  - intros (k & H & Hi). rewrite nth_error_map in H. destruct (nth_error l k) as [a|] eqn:E; [|discriminate].
    injection H as <-. exists a. split; [exists k; auto|reflexivity].
  - intros (a & (k & H & Hi) & ->). exists k. rewrite nth_error_map, H. auto.
Qed.
Lemma at_index_fun {A} (l : list A) i a b : at_index l i a -> at_index l i b -> a = b.
Proof. intros H1 H2. apply pyget_at in H1. apply pyget_at in H2. congruence. Qed.
Lemma corner_points_spec s f t : corner_points s f = Val t <-> face_corners s f t.
Proof.
  destruct f as [[i j] k], t as [[p q] r]. unfold corner_points, face_corners. rewrite <- !pyget_at. split.
  - intros H. apply obind_val in H as (p' & Hp & H). apply obind_val in H as (q' & Hq & H).
    apply obind_val in H as (r' & Hr & H). injection H as -> -> ->. auto.
  - intros (-> & -> & ->). reflexivity.
Qed.
Lemma surface_tris_spec s ts : surface_tris s = Val ts <-> Forall2 (face_corners s) (faces s) ts.
Proof.
  unfold surface_tris. rewrite omap_val. split; intros H; (eapply Forall2_impl; [|exact H]); intros; apply corner_points_spec; auto.
Qed.
Lemma solid_tris_spec x ts : solid_tris x = Val ts <-> triangles x ts.
Proof.
  unfold solid_tris, triangles. split.
  - intros H. apply obind_val in H as (l & Hl & H). injection H as <-. exists l. split; [|reflexivity].
    apply omap_val in Hl. eapply Forall2_impl; [|exact Hl]. intros. apply surface_tris_spec; auto.
  - intros (l & Hl & ->). assert (E : omap surface_tris x = Val l).
    { apply omap_val. eapply Forall2_impl; [|exact Hl]. intros. apply surface_tris_spec; auto. }
    rewrite E. reflexivity.
Qed.
Lemma triangles_fun x ts ts' : triangles x ts -> triangles x ts' -> ts = ts'.
Proof. intros H1 H2. apply solid_tris_spec in H1. apply solid_tris_spec in H2. congruence. Qed.

(** ** sums *)
Lemma fold_sum {A} (f : A -> R) l a : fold_left (fun v t => v + f t) l a = a + Rsum f l.
Proof. revert a. induction l as [|t l IH]; intros a; simpl; [ring|]. rewrite IH. ring. Qed.
Lemma Rsum_ext {A} (f g : A -> R) l : (forall a, In a l -> f a = g a) -> Rsum f l = Rsum g l.
Proof. induction l; simpl; intros H; [reflexivity|]. rewrite H, IHl; auto. Qed.
Lemma Rsum_map {A B} (f : B -> R) (g : A -> B) l : Rsum f (map g l) = Rsum (fun a => f (g a)) l.
Proof. induction l; simpl; congruence. Qed.
Lemma Rsum_app {A} (f : A -> R) l m : Rsum f (l ++ m) = Rsum f l + Rsum f m.
Proof. induction l; simpl; [ring|]. rewrite IHl. ring. Qed.
Lemma Rsum_perm {A} (f : A -> R) l m : Permutation l m -> Rsum f l = Rsum f m.
Proof. induction 1; simpl; lra. Qed.
Lemma Rsum_plus {A} (f g : A -> R) l : Rsum (fun a => f a + g a) l = Rsum f l + Rsum g l.
Proof. induction l; simpl; [ring|]. rewrite IHl. ring. Qed.
Lemma Rsum_scal {A} (f : A -> R) c l : Rsum (fun a => c * f a) l = c * Rsum f l.
Proof. induction l; simpl; [ring|]. rewrite IHl. ring. Qed.
Lemma sum_volume_spec ts : sum_volume ts = signed_volume ts.
Proof.
  unfold sum_volume, signed_volume. rewrite fold_sum.
  rewrite (Rsum_ext _ (fun t => / 6 * (let '(p, q, r) := t in det3 p q r))).
  - rewrite Rsum_scal. field.
  - intros [[p q] r] _. unfold tri_volume, dot, cross, sub, det3; simpl. field.
Qed.
Lemma dot_self_cross u w : dot (cross u w) (cross u w) = dot u u * dot w w - dot u w * dot u w.
Proof. unfold dot, cross; simpl. ring. Qed.
Lemma triarea_spec t : triarea t = tri_area t.
Proof.
  destruct t as [[p q] r]. unfold triarea, tri_area, mag. do 2 f_equal.
  unfold cross, sub; simpl. ring.
Qed.
Lemma surfacearea_spec s ts : surface_tris s = Val ts -> surfacearea s = Val (area ts).
Proof.
  intros H. unfold surfacearea. rewrite H. simpl. f_equal. rewrite fold_sum. unfold area.
  rewrite (Rsum_ext _ tri_area); [ring|]. intros t _. apply triarea_spec.
Qed.

(** ** matched sides cancel *)
Lemma cancel (g : vec * vec -> R) E :
  (forall e, g (back e) = - g e) -> Permutation E (map back E) -> Rsum g E = 0.
Proof.
  intros Hg HP. pose proof (Rsum_perm g _ _ HP) as H. rewrite Rsum_map in H.
  rewrite (Rsum_ext (fun a => g (back a)) (fun a => -1 * g a)) in H.
  - rewrite Rsum_scal in H. lra.
  - intros a _. rewrite Hg. ring.
Qed.
Lemma Rsum_sides (g : vec * vec -> R) ts :
  Rsum g (all_sides ts) = Rsum (fun t => let '(p, q, r) := t in g (p, q) + g (q, r) + g (r, p)) ts.
Proof.
  induction ts as [|[[p q] r] ts IH]; [reflexivity|].
  change (all_sides ((p, q, r) :: ts)) with ([(p, q); (q, r); (r, p)] ++ all_sides ts).
  rewrite Rsum_app, IH. simpl. ring.
Qed.

(** ** affine maps on points with w = 1 *)
Record aff := mkaff { ra : vec; rb : vec; rc : vec; tr : vec }.
Definition lin (A : aff) (p : vec) : vec := mkv (dot (ra A) p) (dot (rb A) p) (dot (rc A) p) 1.
Definition act (A : aff) (p : vec) : vec := add (lin A p) (tr A).
Definition adet (A : aff) : R := det3 (ra A) (rb A) (rc A).
Definition tmap (f : vec -> vec) (t : tri) : tri := let '(p, q, r) := t in (f p, f q, f r).
Definition tswap (t : tri) : tri := let '(p, q, r) := t in (p, r, q).
Lemma det_lin A p q r : det3 (lin A p) (lin A q) (lin A r) = adet A * det3 p q r.
Proof. unfold det3, adet, lin, dot; simpl. unfold det3. ring. Qed.
Lemma det_shift t p q r : det3 (add p t) (add q t) (add r t) =
  det3 p q r + (det3 t p q + det3 t q r + det3 t r p).
Proof. unfold det3, add; simpl. ring. Qed.
Lemma signed_volume_act A ts : oriented ts ->
  signed_volume (map (tmap (act A)) ts) = adet A * signed_volume ts.
Proof.
  intros HO. unfold signed_volume. rewrite Rsum_map.
  set (g := fun e : vec * vec => det3 (tr A) (lin A (fst e)) (lin A (snd e))).
  rewrite (Rsum_ext _ (fun t => adet A * (let '(p, q, r) := t in det3 p q r) +
     (let '(p, q, r) := t in g (p, q) + g (q, r) + g (r, p)))).
  2:{ intros [[p q] r] _. unfold tmap, act. rewrite det_shift, det_lin. unfold g; simpl. ring. }
  rewrite Rsum_plus, Rsum_scal. rewrite <- (Rsum_sides g), (cancel g); [field| |exact HO].
  intros e. unfold g, back; simpl. unfold det3. ring.
Qed.
Lemma signed_volume_lin A ts : tr A = mkv 0 0 0 1 ->
  signed_volume (map (tmap (act A)) ts) = adet A * signed_volume ts.
Proof.
  intros HT. unfold signed_volume. rewrite Rsum_map.
  rewrite (Rsum_ext _ (fun t => adet A * (let '(p, q, r) := t in det3 p q r))).
  - rewrite Rsum_scal. field.
  - intros [[p q] r] _. unfold tmap, act. rewrite det_shift, det_lin, HT. unfold det3; simpl. ring.
Qed.
Lemma signed_volume_swap ts : signed_volume (map tswap ts) = - signed_volume ts.
Proof.
  unfold signed_volume. rewrite Rsum_map.
  rewrite (Rsum_ext _ (fun t => -1 * (let '(p, q, r) := t in det3 p q r))).
  - rewrite Rsum_scal. field.
  - intros [[p q] r] _. unfold tswap, det3. ring.
Qed.

(** Area under maps that multiply all dot products by k. *)
Lemma tri_area_dots f k t : 0 <= k ->
  (forall p q r s : vec, (let u := sub q p in let w := sub s r in
     dot (sub (f q) (f p)) (sub (f s) (f r)) = k * dot u w)) ->
  tri_area (tmap f t) = k * tri_area t.
Proof.
  intros Hk H. rewrite <- !triarea_spec. destruct t as [[p q] r]. unfold triarea, tmap.
  assert (M : forall v, mag v = sqrt (dot v v)) by reflexivity.
  rewrite !M, !dot_self_cross. cbv zeta in H. rewrite !H.
  match goal with |- sqrt ?e / 2 = k * (sqrt ?g / 2) => replace e with (k * k * g) by ring end.
  rewrite sqrt_mult_alt by nra. rewrite sqrt_square by assumption. field.
Qed.
Lemma area_map f k ts : 0 <= k ->
  (forall p q r s : vec, (let u := sub q p in let w := sub s r in
     dot (sub (f q) (f p)) (sub (f s) (f r)) = k * dot u w)) ->
  area (map (tmap f) ts) = k * area ts.
Proof.
  intros Hk H. unfold area. rewrite Rsum_map. rewrite <- Rsum_scal. apply Rsum_ext.
  intros t _. apply tri_area_dots; auto.
Qed.
Lemma area_swap ts : area (map tswap ts) = area ts.
Proof.
  unfold area. rewrite Rsum_map. apply Rsum_ext. intros [[p q] r] _. unfold tswap, tri_area. do 2 f_equal. ring.
Qed.
