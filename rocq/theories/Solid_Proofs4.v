(** Rotation and scaling of solids; area; normals. *)
From Coq Require Import Reals List Bool ZArith Permutation Lra Lia.
From Verif Require Import Dict Xform_Model Xform_Proofs Solid_Model Solid_Spec Solid_Proofs Solid_Proofs2 Solid_Proofs3.
Import ListNotations.
Open Scope R_scope.

Lemma lin_sub A p q : forall v, v = sub (act A p) (act A q) ->
  vx v = vx (lin A (sub p q)) /\ vy v = vy (lin A (sub p q)) /\ vz v = vz (lin A (sub p q)).
Proof. intros v ->. unfold sub, act, add, lin, dot; simpl. split; [|split]; ring. Qed.
Lemma act_dots A k : (forall v w, dot (lin A v) (lin A w) = k * dot v w) ->
  forall p q r s : vec, dot (sub (act A q) (act A p)) (sub (act A s) (act A r)) = k * dot (sub q p) (sub s r).
Proof.
  intros H p q r s. rewrite <- H. unfold dot at 1.
  destruct (lin_sub A q p _ eq_refl) as (-> & -> & ->). destruct (lin_sub A s r _ eq_refl) as (-> & -> & ->). reflexivity.
Qed.
Lemma lin_arot u c s cc v : lin (Arot u c s cc) v = lin (Arot u c s (mkv 0 0 0 1)) v.
Proof. reflexivity. Qed.
Lemma arot_dist u c s cc p q : vx u * vx u + vy u * vy u + vz u * vz u = 1 -> c * c + s * s = 1 ->
  dist (act (Arot u c s cc) p) (act (Arot u c s cc) q) = dist p q.
Proof.
  intros Hu Hcs. unfold dist. change (mag ?v) with (sqrt (dot v v)).
  rewrite (act_dots _ 1); [f_equal; ring|]. intros v w. rewrite !(lin_arot u c s cc), rot_dot by auto. ring.
Qed.
Lemma rotatesolid_inv x ang cent axis x' : rotatesolid x ang cent axis = Val x' ->
  x' = x \/ close ang 0 = false /\ (x' = [] /\ x = [] \/ exists m, rotation_matrix ang cent axis = Val m /\
    x' = map (fun s => mksurf (map (mulMV m) (verts s)) (map (mulMV m) (norms s)) (faces s) (bnd s) (holes s)) x).
Proof.
  unfold rotatesolid, rotatesurface. intros H. apply omap_val in H.
  destruct (close ang 0).
  - left. induction H as [|s s' x x' E H IH]; [reflexivity|]. congruence.
  - right. split; [reflexivity|]. destruct (rotation_matrix ang cent axis) as [m|e].
    + right. exists m. split; [reflexivity|]. induction H as [|s s' x x' E H IH]; [reflexivity|].
      simpl in E. cbn [map]. assert (s' = _) by (injection E as E; symmetry; exact E). subst s'. congruence.
    + left. destruct x; inversion H as [|a b l l' E]; subst; [auto|]. simpl in E. discriminate.
Qed.
Lemma rotate_volume x ts ang cent axis x' v : mag axis = 1 ->
  plain x -> triangles x ts -> separated ts -> oriented ts -> volumeof x = Val v ->
  rotatesolid x ang cent axis = Val x' -> volumeof x' = Val v.
Proof.
  intros Hu HP HT HS HO HV HR. apply rotatesolid_inv in HR as [->|[_ [[-> ->]|(m & Hm & ->)]]]; auto.
  destruct (rotation_matrix_act ang cent axis m Hu Hm) as (c & s & cc & Hcs & HA & HN).
  apply mag_one_sq in Hu. pose proof (volumeof_solid x v HV) as Hs.
  eapply (volume_carry (mulMV m) (Arot axis c s cc) x); eauto.
  - apply Forall2_map_r. intros s0 _. split; reflexivity.
  - apply issolid_map; auto. intros s0 Hin H. destruct (issurface_parts s0 H) as [H1 H2].
    apply (issurface_carry s0); simpl; rewrite ?map_length; auto.
    + intros p Hp. apply in_map_iff in Hp as (p0 & <- & Hp). rewrite HN. simpl. auto.
    + intros p Hp. apply in_map_iff in Hp as (p0 & <- & Hp). rewrite HN. cbn [vw]. auto.
  - rewrite rot_det by auto. apply Rabs_R1.
  - intros p q Hp Hq. rewrite !HA by auto. apply arot_dist; auto.
Qed.
Lemma rotation_matrix_unit ang cent axis : mag axis = 1 -> exists m, rotation_matrix ang cent axis = Val m.
Proof.
  intros Hu. unfold rotation_matrix. destruct (rotation_ok axis ang false Hu) as [r ->]. simpl. eauto.
Qed.
Lemma omap_total {A B} (f : A -> out B) l : (forall a, exists b, f a = Val b) -> exists bs, omap f l = Val bs.
Proof.
  intros H. induction l as [|a l [bs IH]]; simpl; [eauto|]. destruct (H a) as [b ->]. simpl. rewrite IH. simpl. eauto.
Qed.
Lemma rotatesurface_total s ang cent axis : mag axis = 1 -> exists s', rotatesurface s ang cent axis = Val s'.
Proof.
  intros Hu. unfold rotatesurface. destruct (close ang 0); [eauto|].
  destruct (rotation_matrix_unit ang cent axis Hu) as [m ->]. simpl. eauto.
Qed.
Lemma rotatesolid_total x ang cent axis : mag axis = 1 -> exists x', rotatesolid x ang cent axis = Val x'.
Proof. intros Hu. apply omap_total. intros s. apply rotatesurface_total; auto. Qed.

(** ** scaling *)
Definition Sc (a b c : R) (cent : vec) : aff := Adiag a b c (mkv ((a - 1) * vx cent) ((b - 1) * vy cent) ((c - 1) * vz cent) 1).
Definition scmat (sx sy sz : R) (cent : vec) : matrix :=
  let sm := mkmat (mkrows (mkv sx 0 0 0) (mkv 0 sy 0 0) (mkv 0 0 sz 0) (mkv 0 0 0 1)) false in
  if vclose cent (point 0 0 0) then sm
  else mulMM (mulMM (Translation cent true) sm) (Translation cent false).
Lemma scmat_act sx sy sz cent : exists cc, forall p, vw p = 1 -> mulMV (scmat sx sy sz cent) p = act (Sc sx sy sz cc) p.
Proof.
  unfold scmat. destruct (vclose cent (point 0 0 0)).
  - exists (point 0 0 0). intros p Hp. unfold mulMV, getrow, rget, dot4, act, lin, Sc, Adiag, add; simpl.
    unfold dot; simpl. rewrite Hp. apply mkv_eq; ring.
  - exists cent. intros p Hp. rewrite !mulMV_mulMM.
    unfold mulMV, getrow, rget, dot4, act, lin, Sc, Adiag, add, Translation, scale3; simpl.
    unfold dot; simpl. rewrite Hp. apply mkv_eq; ring.
Qed.
Lemma scalesurface_inv s sx sy sz cent s' : vclose (point sx sy sz) (point 1 1 1) = false ->
  scalesurface s sx (Some sy) (Some sz) cent = Val s' ->
    verts s' = map (mulMV (scmat sx sy sz cent)) (verts s) /\ faces s' = faces s /\ bnd s' = bnd s /\ holes s' = holes s /\
    (close sx sy = true /\ close sy sz = true /\ norms s' = norms s \/
     (sx <> 0 /\ sy <> 0 /\ sz <> 0) /\ (close sx sy = true -> close sy sz = false) /\
     norms s' = map (scale_normal sx sy sz) (norms s)).
Proof.
  intros HV H. unfold scalesurface in H. cbn [scale_as_point num] in H. rewrite HV in H.
  unfold Scale in H. cbn [of_res obind] in H. fold (scmat sx sy sz cent) in H.
  destruct (negb (close sx sy) || negb (close sy sz))%bool eqn:B.
  - destruct (Reqb sx 0 || Reqb sy 0 || Reqb sz 0)%bool eqn:Z; [discriminate|].
    rewrite !orb_false_iff, !Reqb_false in Z. destruct Z as [[Z1 Z2] Z3].
    assert (E2 : s' = _) by (injection H as H; symmetry; exact H). subst s'. simpl. repeat (split; [reflexivity|]). right.
    rewrite orb_true_iff, !negb_true_iff in B. split; [auto|]. split; [|reflexivity]. intros C. destruct B; congruence.
  - rewrite orb_false_iff, !negb_false_iff in B. destruct B.
    assert (E2 : s' = _) by (injection H as H; symmetry; exact H). subst s'. simpl. repeat (split; [reflexivity|]). left. auto.
Qed.
Lemma scale_none s sx cent : scalesurface s sx None None cent = scalesurface s sx (Some sx) (Some sx) cent.
Proof. reflexivity. Qed.
Lemma scalesolid_none x sx cent : scalesolid x sx None None cent = scalesolid x sx (Some sx) (Some sx) cent.
Proof. reflexivity. Qed.
Lemma vclose_far p q : epsilon <= dist p q -> vclose p q = false.
Proof.
  intros H. unfold vclose, close. apply Rltb_false. fold (dist p q). rewrite Rminus_0_r, Rabs_right; [exact H|].
  apply Rle_ge, dist_nonneg.
Qed.
Lemma scalesolid_inv x sx sy sz cent x' : vclose (point sx sy sz) (point 1 1 1) = false ->
  scalesolid x sx (Some sy) (Some sz) cent = Val x' -> Forall2 (carries (mulMV (scmat sx sy sz cent))) x x'.
Proof.
  intros HV H. unfold scalesolid in H. cbn [scale_as_point] in H. rewrite HV in H. apply omap_val in H.
  eapply Forall2_impl; [|exact H]. intros s s' E. destruct (scalesurface_inv _ _ _ _ _ _ HV E) as (E1 & E2 & _).
  split; auto.
Qed.
Lemma sc_det a b c cc : adet (Sc a b c cc) = a * b * c.
Proof. unfold adet, det3, Sc, Adiag; simpl. ring. Qed.
Lemma scale_volume x ts sx sy sz cent x' v v' : epsilon <= dist (point sx sy sz) (point 1 1 1) ->
  plain x -> triangles x ts -> oriented ts -> volumeof x = Val v ->
  scalesolid x sx (Some sy) (Some sz) cent = Val x' -> volumeof x' = Val v' ->
  v' = Rabs (sx * sy * sz) * v.
Proof.
  intros HF HP HT HO HV HS HV'. apply vclose_far in HF. apply scalesolid_inv in HS; auto.
  destruct (scmat_act sx sy sz cent) as [cc HA]. rewrite <- (sc_det sx sy sz cc).
  eapply volume_scaled; eauto.
Qed.
(** Signed: a negative product of factors turns the solid inside out. *)
Lemma scale_signed x ts sx sy sz cent x' ts' : epsilon <= dist (point sx sy sz) (point 1 1 1) ->
  plain x -> triangles x ts -> oriented ts -> 
  scalesolid x sx (Some sy) (Some sz) cent = Val x' -> triangles x' ts' ->
  signed_volume ts' = sx * sy * sz * signed_volume ts.
Proof.
  intros HF HP HT HO HS HT'. apply vclose_far in HF. apply scalesolid_inv in HS; auto.
  destruct (scmat_act sx sy sz cent) as [cc HA].
  pose proof (triangles_carry _ _ _ _ HS HT) as HT2. rewrite (triangles_fun _ _ _ HT' HT2).
  rewrite (map_tmap_ext _ (act (Sc sx sy sz cc))) by (intros; apply HA; eapply plain_corner; eauto).
  rewrite signed_volume_act, sc_det by auto. reflexivity.
Qed.

(** ** area *)
Lemma surface_area_iff s a : surfacearea s = Val a -> exists ts, Forall2 (face_corners s) (faces s) ts /\ a = area ts.
Proof.
  unfold surfacearea. intros H. destruct (surface_tris s) as [ts|e] eqn:E; [|discriminate].
  exists ts. split; [apply surface_tris_spec; auto|]. pose proof (surfacearea_spec s ts E) as H2. unfold surfacearea in H2.
  rewrite E in H2. congruence.
Qed.
Lemma surface_area_of s ts : Forall2 (face_corners s) (faces s) ts -> surfacearea s = Val (area ts).
Proof. intros H. apply surfacearea_spec. apply surface_tris_spec. exact H. Qed.
Lemma area_carry f A k s s' a : (forall p, In p (verts s) -> vw p = 1) -> carries f s s' ->
  (forall p, vw p = 1 -> f p = act A p) -> 0 <= k -> (forall v w, dot (lin A v) (lin A w) = k * dot v w) ->
  surfacearea s = Val a -> surfacearea s' = Val (k * a).
Proof.
  intros HP HC HA Hk HD H. apply surface_area_iff in H as (ts & HT & ->).
  rewrite (surface_area_of s' _ (surface_carry _ _ _ _ HC HT)). f_equal.
  rewrite (map_tmap_ext f (act A)).
  - apply area_map; auto. intros. apply act_dots. exact HD.
  - intros p Hp. apply HA. assert (HT2 : triangles [s] ts).
    { exists [ts]. split; [repeat constructor; exact HT|]. simpl. rewrite app_nil_r. reflexivity. }
    destruct (corner_vert [s] ts p HT2 Hp) as (s1 & [->|[]] & H1). auto.
Qed.
Lemma area_flip f A k s s' a : (forall p, In p (verts s) -> vw p = 1) -> flips f s s' ->
  (forall p, vw p = 1 -> f p = act A p) -> 0 <= k -> (forall v w, dot (lin A v) (lin A w) = k * dot v w) ->
  surfacearea s = Val a -> surfacearea s' = Val (k * a).
Proof.
  intros HP HC HA Hk HD H. apply surface_area_iff in H as (ts & HT & ->).
  rewrite (surface_area_of s' _ (surface_flip _ _ _ _ HC HT)). f_equal. rewrite area_swap.
  rewrite (map_tmap_ext f (act A)).
  - apply area_map; auto. intros. apply act_dots. exact HD.
  - intros p Hp. apply HA. assert (HT2 : triangles [s] ts).
    { exists [ts]. split; [repeat constructor; exact HT|]. simpl. rewrite app_nil_r. reflexivity. }
    destruct (corner_vert [s] ts p HT2 Hp) as (s1 & [->|[]] & H1). auto.
Qed.
Lemma translate_area s d a : w_one s -> surfacearea s = Val a -> surfacearea (translatesurface s d) = Val a.
Proof.
  intros HW H. unfold translatesurface. destruct (vclose _ _); auto.
  replace a with (1 * a) by ring.
  eapply (area_carry (fun p => add p d) (Atrans d) 1 s); eauto; [split; reflexivity|intros; apply act_trans|lra|].
  intros v w. unfold lin, Atrans, dot; simpl. ring.
Qed.
Lemma mirror_area s pl a : w_one s -> surfacearea s = Val a -> surfacearea (mirrorsurface s pl) = Val a.
Proof.
  intros HW H. replace a with (1 * a) by ring.
  eapply (area_flip (fun p => mul4 p (flip pl)) (Adiag (vx (flip pl)) (vy (flip pl)) (vz (flip pl)) (mkv 0 0 0 1)) 1 s);
    eauto; [split; reflexivity|intros; apply act_mirror; auto|lra|].
  intros v w. unfold lin, Adiag, dot; destruct pl; simpl; ring.
Qed.
Lemma reverse_area s a : w_one s -> surfacearea s = Val a -> surfacearea (reversesurface s) = Val a.
Proof.
  intros HW H. replace a with (1 * a) by ring.
  eapply (area_flip (fun p => p) Aid 1 s); eauto; [split; simpl; [rewrite map_id; reflexivity|reflexivity]|intros; apply act_id; auto|lra|].
  intros v w. unfold lin, Aid, dot; simpl; ring.
Qed.
Lemma rotate_area s ang cent axis s' a : mag axis = 1 -> w_one s -> surfacearea s = Val a ->
  rotatesurface s ang cent axis = Val s' -> surfacearea s' = Val a.
Proof.
  intros Hu HW H HR. unfold rotatesurface in HR. destruct (close ang 0); [congruence|].
  apply obind_val in HR as (m & Hm & HR). assert (E : s' = _) by (injection HR as HR; symmetry; exact HR). subst s'.
  destruct (rotation_matrix_act ang cent axis m Hu Hm) as (c & s0 & cc & Hcs & HA & HN). apply mag_one_sq in Hu.
  replace a with (1 * a) by ring.
  eapply (area_carry (mulMV m) (Arot axis c s0 cc) 1 s); eauto; [split; reflexivity|lra|].
  intros v w. rewrite !(lin_arot axis c s0 cc), rot_dot by auto. ring.
Qed.
Lemma scale_area s k cent s' a : epsilon <= dist (point k k k) (point 1 1 1) -> w_one s ->
  surfacearea s = Val a -> scalesurface s k None None cent = Val s' -> surfacearea s' = Val (k * k * a).
Proof.
  intros HF HW H HS. rewrite scale_none in HS. apply vclose_far in HF.
  destruct (scalesurface_inv _ _ _ _ _ _ HF HS) as (E1 & E2 & _).
  destruct (scmat_act k k k cent) as [cc HA].
  eapply (area_carry _ (Sc k k k cc)); eauto; [split; eauto|nra|].
  intros v w. unfold lin, Sc, Adiag, dot; simpl. ring.
Qed.
