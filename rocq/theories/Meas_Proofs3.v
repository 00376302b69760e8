(** Where the centroid lies; a tetrahedron; bodies put together. *)
From Coq Require Import Reals ZArith List Bool Permutation Lra Lia.
From Verif Require Import Dict Xform_Model Xform_Proofs Fig_Model Solid_Model Solid_Spec Solid_Proofs Solid_Proofs2 Solid_Proofs3 Solid_Proofs4.
From Verif Require Import Meas_Model Meas_Spec Meas_Proofs Meas_Proofs2.
Import ListNotations.
Open Scope R_scope.

Lemma Rsum_le {A} (f g : A -> R) l : (forall a, In a l -> f a <= g a) -> Rsum f l <= Rsum g l.
Proof. induction l as [|a l IH]; cbn [Rsum]; intros H; [lra|]. pose proof (H a (or_introl eq_refl)). pose proof (IH (fun b Hb => H b (or_intror Hb))). lra. Qed.
(** a combination of the coordinates, weighted over the tetrahedra from [o] *)
Lemma lin_moment a b k o ts c : oriented ts -> centre_from o ts c ->
  4 * sixv ts * (a * vx c + b * vy c + k * vz c) =
  Rsum (fun t => a * mu_t vx o t + b * mu_t vy o t + k * mu_t vz o t) ts.
Proof.
  intros HO HC. apply centre_from_eq in HC as (X & Y & Z); auto.
  rewrite !Rsum_plus, !Rsum_scal, !mu_sum by auto using coord_x, coord_y, coord_z. nra.
Qed.
Lemma half_term a b k d o p q r : in_half a b k d o -> in_half a b k d p -> in_half a b k d q -> in_half a b k d r ->
  a * (vx o + vx p + vx q + vx r) + b * (vy o + vy p + vy q + vy r) + k * (vz o + vz p + vz q + vz r) <= 4 * d.
Proof. unfold in_half. intros; lra. Qed.
Lemma corners_half ts a b k d : (forall p, corner ts p -> in_half a b k d p) ->
  forall p q r, In (p, q, r) ts -> in_half a b k d p /\ in_half a b k d q /\ in_half a b k d r.
Proof.
  intros H p q r I. assert (C : forall e, In e (sides (p, q, r)) -> In e (all_sides ts)).
  { intros e He. unfold all_sides. apply in_flat_map. exists (p, q, r). auto. }
  split; [|split]; apply H; eexists; apply C; cbn; eauto.
Qed.
Lemma half_space ts o c a b k d : oriented ts -> sees o ts -> signed_volume ts <> 0 -> centre_from o ts c ->
  in_half a b k d o -> (forall p, corner ts p -> in_half a b k d p) -> in_half a b k d c.
Proof.
  intros HO HS HV HC Ho Hp. pose proof (lin_moment a b k o ts c HO HC) as E. pose proof (tet6_sum o ts HO) as T.
  assert (N : sixv ts <> 0) by (intros E0; apply HV; rewrite sixv_volume, E0; field).
  pose proof (corners_half ts a b k d Hp) as CH. unfold in_half in *.
  assert (F : forall p q r, a * mu vx o p q r + b * mu vy o p q r + k * mu vz o p q r =
    tet6 o p q r * (a * (vx o + vx p + vx q + vx r) + b * (vy o + vy p + vy q + vy r) + k * (vz o + vz p + vz q + vz r))).
  { intros p q r. unfold mu. ring. }
  destruct HS as [HS|HS].
  - assert (P : 0 <= sixv ts).
    { rewrite <- T. replace 0 with (Rsum (fun _ : tri => 0) ts) by (clear; induction ts; cbn [Rsum]; lra).
      apply Rsum_le. intros [[p q] r] I. apply HS. exact I. }
    assert (L : Rsum (fun t => a * mu_t vx o t + b * mu_t vy o t + k * mu_t vz o t) ts <= Rsum (fun t => 4 * d * tet6_t o t) ts).
    { apply Rsum_le. intros [[p q] r] I. cbn [mu_t tet6_t]. rewrite F. destruct (CH p q r I) as (Cp & Cq & Cr).
      pose proof (half_term a b k d o p q r Ho Cp Cq Cr) as M. pose proof (HS p q r I). nra. }
    rewrite Rsum_scal, T in L. rewrite <- E in L. apply (Rmult_le_reg_l (4 * sixv ts)); [lra|]. lra.
  - assert (P : sixv ts <= 0).
    { rewrite <- T. replace 0 with (Rsum (fun _ : tri => 0) ts) by (clear; induction ts; cbn [Rsum]; lra).
      apply Rsum_le. intros [[p q] r] I. apply HS. exact I. }
    assert (L : Rsum (fun t => 4 * d * tet6_t o t) ts <= Rsum (fun t => a * mu_t vx o t + b * mu_t vy o t + k * mu_t vz o t) ts).
    { apply Rsum_le. intros [[p q] r] I. cbn [mu_t tet6_t]. rewrite F. destruct (CH p q r I) as (Cp & Cq & Cr).
      pose proof (half_term a b k d o p q r Ho Cp Cq Cr) as M. pose proof (HS p q r I). nra. }
    rewrite Rsum_scal, T in L. rewrite <- E in L. apply (Rmult_le_reg_l (- (4 * sixv ts))); [lra|]. lra.
Qed.
(** ** a tetrahedron *)
Ltac perm_find l a pre m :=
  lazymatch m with
  | a :: ?r => let p := eval cbn [rev app] in (rev pre) in refine (@Permutation_cons_app _ l p r a _); cbn [app]
  | ?b :: ?r => perm_find l a (b :: pre) r
  end.
Ltac perm_step := lazymatch goal with |- Permutation (?a :: ?l) ?m => perm_find l a (@nil (vec * vec)) m end.
Lemma tetrahedron_oriented p q r s : oriented (tetrahedron p q r s).
Proof.
  unfold oriented, tetrahedron, all_sides. cbn [flat_map sides app map]. unfold back. cbn [fst snd].
  repeat perm_step. apply perm_nil.
Qed.
Lemma tetrahedron_centre p q r s o : centre_from o (tetrahedron p q r s)
  (point ((vx p + vx q + vx r + vx s) / 4) ((vy p + vy q + vy r + vy s) / 4) ((vz p + vz q + vz r + vz s) / 4)).
Proof.
  apply centre_from_eq; [apply tetrahedron_oriented|]. unfold sixv, moment, tetrahedron, det_t, sum3, det3, point. cbn [Rsum vx vy vz].
  split; [|split]; field.
Qed.
Lemma tetrahedron_volume p q r s : signed_volume (tetrahedron p q r s) = tet6 p q r s / 6.
Proof. unfold signed_volume, tetrahedron, tet6, det3. cbn [Rsum vx vy vz]. field. Qed.
(** ** bodies put together *)
Lemma triangles_app x y ts us : triangles x ts -> triangles y us -> triangles (x ++ y) (ts ++ us).
Proof.
  intros (a & Ha & ->) (b & Hb & ->). exists (a ++ b). split; [apply Forall2_app; auto|]. rewrite concat_app. reflexivity.
Qed.
Lemma sixv_app ts us : sixv (ts ++ us) = sixv ts + sixv us. Proof. apply Rsum_app. Qed.
Lemma moment_app f ts us : moment f (ts ++ us) = moment f ts + moment f us. Proof. apply Rsum_app. Qed.
Lemma together x y ts us c d e : triangles x ts -> triangles y us ->
  mesh_centroid x = Val (Some c) -> mesh_centroid y = Val (Some d) -> mesh_centroid (x ++ y) = Val (Some e) ->
  let v := signed_volume ts in let w := signed_volume us in
  (v + w) * vx e = v * vx c + w * vx d /\ (v + w) * vy e = v * vy c + w * vy d /\ (v + w) * vz e = v * vz c + w * vz d.
Proof.
  intros HT HU HC HD HE. apply (centroid_some x ts) in HC as [V ->]; auto. apply (centroid_some y us) in HD as [W ->]; auto.
  apply (centroid_some _ _ _ (triangles_app _ _ _ _ HT HU)) in HE as [VW ->].
  apply six_nonzero in V. apply six_nonzero in W. apply six_nonzero in VW. cbv zeta. unfold point; cbn [vx vy vz].
  rewrite !sixv_volume, !moment_app. rewrite !sixv_app in *. split; [|split]; field; auto.
Qed.
