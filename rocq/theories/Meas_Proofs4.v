(** The reported numbers. *)
From Coq Require Import Reals ZArith String List Bool Permutation Lra Lia.
From Verif Require Import Dict Json_Model Meta_Model Meta_Proofs Xform_Model Xform_Proofs Fig_Model Solid_Model Solid_Spec Solid_Proofs Solid_Proofs2 Solid_Proofs3 Solid_Proofs4 Solid_Proofs7.
From Verif Require Coll_Model Coll_Proofs3.
From Verif Require Import Meas_Model Meas_Spec Meas_Proofs Meas_Proofs2 Meas_Proofs3.
Import ListNotations.
Open Scope R_scope.
Open Scope list_scope.

Lemma Val_inj {A} (a b : A) : Val a = Val b -> a = b. Proof. congruence. Qed.
Notation val k m := (dget teq k m).
Lemma val_same k v (m : metrics) : val k (setk k v m) = Some v. Proof. apply (dget_set_same teq teq_spec). Qed.
Lemma val_other k k' v (m : metrics) : k <> k' -> val k (setk k' v m) = val k m. Proof. apply (dget_set_other teq teq_spec). Qed.
Lemma mval_same k v (m : metrics) : val (t k) (mset k v m) = Some v. Proof. apply (dget_set_same teq teq_spec). Qed.
Lemma mval_other k k' v (m : metrics) : k <> t k' -> val k (mset k' v m) = val k m. Proof. apply (dget_set_other teq teq_spec). Qed.
Ltac clash := let E := fresh in intros E; vm_compute in E; discriminate E.
Ltac gets := repeat first [rewrite mval_same | rewrite val_same | rewrite mval_other by clash | rewrite val_other by clash].
Lemma t_inj a : forall b, t a = t b -> a = b.
Proof.
  induction a as [|c a IH]; intros [|d b] E; cbn in E; auto; try discriminate. injection E as E1 E2.
  apply Nat2Z.inj in E1. f_equal; [|auto]. rewrite <- (Ascii.ascii_nat_embedding c), <- (Ascii.ascii_nat_embedding d). congruence.
Qed.
Lemma tdec_inj i j : tdec i = tdec j -> i = j.
Proof. intros E. apply Coll_Proofs3.decimal_inj, t_inj, E. Qed.
Lemma total_eq vs : forall a, fold_left Rplus vs a = a + Rsum (fun v => v) vs.
Proof. induction vs as [|v vs IH]; intros a; cbn; [ring|]. rewrite IH. ring. Qed.
Lemma total_sum vs : total vs = Rsum (fun v => v) vs. Proof. unfold total. rewrite total_eq. ring. Qed.

(** ** the numbers of the parts *)
Section Parts.
  Variable key : nat -> text.
  Hypothesis inj : forall i j, key i = key j -> i = j.
  Lemma put_other vs : forall i k m, (forall j, (i <= j)%nat -> k <> key j) -> val k (put_parts key i vs m) = val k m.
  Proof.
    induction vs as [|v vs IH]; intros i k m H; cbn [put_parts]; [reflexivity|].
    rewrite IH by (intros j Hj; apply H; lia). apply val_other, H. lia.
  Qed.
  Lemma put_get vs : forall i n v m, nth_error vs n = Some v -> val (key (i + n)%nat) (put_parts key i vs m) = Some v.
  Proof.
    induction vs as [|w vs IH]; intros i [|n] v m H; cbn in H |- *; try discriminate.
    - injection H as ->. rewrite Nat.add_0_r, put_other; [apply val_same|]. intros j Hj E. apply inj in E. lia.
    - replace (i + S n)%nat with (S i + n)%nat by lia. apply IH. exact H.
  Qed.
  Lemma parts_other vs k m : (forall j, k <> key j) -> val k (parts key vs m) = val k m.
  Proof. intros H. unfold parts. destruct (Nat.ltb 1 (length vs)); [|reflexivity]. apply put_other. auto. Qed.
  Lemma parts_get vs n v m : (1 < length vs)%nat -> nth_error vs n = Some v -> val (key n) (parts key vs m) = Some v.
  Proof. intros L H. unfold parts. apply Nat.ltb_lt in L. rewrite L. apply (put_get vs 0 n v m H). Qed.
  Lemma parts_one v m : parts key [v] m = m. Proof. reflexivity. Qed.
End Parts.
Lemma pre_inj s : forall i j, t s ++ tdec i = t s ++ tdec j -> i = j.
Proof. intros i j E. apply app_inv_head in E. apply tdec_inj, E. Qed.
Lemma pre_clash s s' u : t s' ++ u <> t s -> True. Proof. auto. Qed.

Lemma Forall2_nth {A B} (P : A -> B -> Prop) l m : Forall2 P l m -> forall i a, nth_error l i = Some a -> exists b, nth_error m i = Some b /\ P a b.
Proof. induction 1 as [|x y l m H HF IH]; intros [|i] a E; cbn in *; try discriminate; eauto. injection E as ->. eauto. Qed.
Lemma F2_length {A B} (P : A -> B -> Prop) l m : Forall2 P l m -> length l = length m.
Proof. induction 1; cbn; congruence. Qed.

(** ** volume *)
Lemma volume_report u l m : check_volume u l = Val m -> exists vs,
  Forall2 (fun x v => volumeof x = Val v) l vs /\
  val (t "volume") m = Some (Rsum (fun v => v) vs) /\
  val (t "volume_" ++ match u with Some u => u | None => t "mm3" end) m = Some (Rsum (fun v => v) vs) /\
  val (t "part_count") m = Some (INR (length l)) /\
  ((1 < length l)%nat -> forall i v, nth_error vs i = Some v -> val (t "volume.part_" ++ tdec i) m = Some v).
Proof.
  unfold check_volume. destruct l as [|x l]; [discriminate|]. intros H. apply obind_val in H as (vs & HV & H). cbv zeta in H.
  apply omap_val in HV. exists vs. split; [exact HV|]. apply Val_inj in H; subst m. rewrite <- total_sum.
  split; [|split; [|split]].
  - rewrite parts_other by (intros j; clash). gets. reflexivity.
  - rewrite parts_other by (intros j; clash). gets. reflexivity.
  - rewrite parts_other by (intros j; clash). gets. reflexivity.
  - intros L i v E. rewrite (F2_length _ _ _ HV) in L. apply (parts_get (fun i => t "volume.part_" ++ tdec i)); auto. apply pre_inj.
Qed.
Lemma omap_defined {A B} (f : A -> out B) l : (forall a, In a l -> exists b, f a = Val b) -> exists bs, omap f l = Val bs.
Proof.
  induction l as [|a l IH]; intros H; cbn; [eauto|]. destruct (H a (or_introl eq_refl)) as [b ->]. cbn.
  destruct IH as [bs ->]; [intros; apply H; right; auto|]. cbn. eauto.
Qed.
Lemma omap_in {A B} (f : A -> out B) l bs : omap f l = Val bs -> forall a, In a l -> exists b, f a = Val b.
Proof. intros H. apply omap_val in H. induction H as [|x y l m E HF IH]; intros a I; [destruct I|]. destruct I as [<-|I]; eauto. Qed.
Lemma volume_defined u l : (exists m, check_volume u l = Val m) <-> l <> [] /\ forall x, In x l -> exists v, volumeof x = Val v.
Proof.
  unfold check_volume. destruct l as [|x l]; [split; [intros [m H]; discriminate|intros [H _]; congruence]|]. split.
  - intros [m H]. apply obind_val in H as (vs & HV & _). split; [discriminate|]. apply (omap_in _ _ _ HV).
  - intros [_ H]. destruct (omap_defined volumeof (x :: l) H) as [vs ->]. cbn [obind]. eauto.
Qed.
Lemma volume_alone u x v m : volumeof x = Val v -> check_volume u [x] = Val m ->
  m = [(t "volume", v); (t "volume_" ++ match u with Some u => u | None => t "mm3" end, v); (t "part_count", 1)].
Proof.
  intros HV. unfold check_volume. cbn [omap]. rewrite HV. cbn [obind]. cbv zeta. rewrite parts_one. intros H. apply Val_inj in H; subst m.
  unfold total. cbn [fold_left]. rewrite Rplus_0_l. reflexivity.
Qed.
(** ** mass *)
Lemma mass_report d l m : check_mass d l = Val m -> exists vs,
  Forall2 (fun x v => volumeof x = Val v) l vs /\
  let rho := match d with Some d => d | None => 2700 end in let v := Rsum (fun v => v) vs in
  val (t "volume_mm3") m = Some v /\ val (t "volume_m3") m = Some (v / 1000000000) /\
  val (t "mass_kg") m = Some (v / 1000000000 * rho) /\ val (t "mass_g") m = Some (1000 * (v / 1000000000 * rho)) /\
  val (t "density_kgm3") m = Some rho /\ val (t "part_count") m = Some (INR (length l)) /\
  ((1 < length l)%nat -> forall i w, nth_error vs i = Some w -> val (t "mass_kg.part_" ++ tdec i) m = Some (w / 1000000000 * rho)).
Proof.
  unfold check_mass. destruct l as [|x l]; [discriminate|]. intros H. apply obind_val in H as (vs & HV & H). cbv zeta in H.
  apply omap_val in HV. exists vs. split; [exact HV|]. apply Val_inj in H; subst m. cbv zeta. rewrite <- total_sum.
  assert (NE : forall a, a * nano = a / 1000000000) by (intros a; unfold nano; field).
  repeat apply conj.
  1-6: rewrite parts_other by (intros j; clash); gets; rewrite ?NE; try reflexivity; f_equal; ring.
  intros L i w E. rewrite (F2_length _ _ _ HV) in L. rewrite <- NE. apply (parts_get (fun i => t "mass_kg.part_" ++ tdec i)); [apply pre_inj|rewrite map_length; exact L|].
  rewrite nth_error_map, E. reflexivity.
Qed.
(** ** area *)
Lemma area_report u l m : check_area u l = Val m -> exists vs,
  Forall2 (fun x a => exists ts, triangles x ts /\ a = area ts) l vs /\
  val (t "area") m = Some (Rsum (fun v => v) vs) /\
  val (t "area_" ++ match u with Some u => u | None => t "mm2" end) m = Some (Rsum (fun v => v) vs) /\
  val (t "part_count") m = Some (INR (length l)) /\
  ((1 < length l)%nat -> forall i v, nth_error vs i = Some v -> val (t "area.part_" ++ tdec i) m = Some v).
Proof.
  unfold check_area. destruct l as [|x l]; [discriminate|]. intros H. apply obind_val in H as (vs & HV & H). cbv zeta in H.
  apply omap_val in HV. exists vs. split.
  { eapply Forall2_impl; [|exact HV]. clear. intros x a E. unfold need in E. apply obind_val in E as (o & E & Eo).
    unfold solid_area in E. destruct o as [o|]; [|discriminate]. injection Eo as ->.
    assert (X : exists l, omap surfacearea x = Val l /\ a = total l).
    { destruct x; [discriminate|]. apply obind_val in E as (l & E & El). injection El as <-. eauto. }
    destruct X as (l & X & ->). apply omap_val in X. clear E. rewrite total_sum. induction X as [|s b x l E HF IH].
    - exists []. split; [exists []; split; [constructor|reflexivity]|]. reflexivity.
    - destruct IH as (ts & (tss & HT & ->) & IH). apply surface_area_iff in E as (us & HU & ->).
      exists (us ++ concat tss). split; [exists (us :: tss); split; [constructor; assumption|reflexivity]|].
      unfold area in *. rewrite Rsum_app. cbn [Rsum]. rewrite IH. reflexivity. }
  apply Val_inj in H; subst m. rewrite <- total_sum. split; [|split; [|split]].
  - rewrite parts_other by (intros j; clash). gets. reflexivity.
  - rewrite parts_other by (intros j; clash). gets. reflexivity.
  - rewrite parts_other by (intros j; clash). gets. reflexivity.
  - intros L i v E. rewrite (F2_length _ _ _ HV) in L. apply (parts_get (fun i => t "area.part_" ++ tdec i)); auto. apply pre_inj.
Qed.
(** ** bounding boxes *)
Lemma merged_spec l : (forall x, In x l -> x <> [] /\ forall s, In s x -> (2 <= length (verts s))%nat) ->
  forall ps b, holds_all ps b -> spans ps b -> exists r, merged l (Some b) = Val (Some r) /\
    holds_all (ps ++ flat_map (fun x => flat_map verts x) l) r /\ spans (ps ++ flat_map (fun x => flat_map verts x) l) r.
Proof.
  induction l as [|x l IH]; intros H ps b HB SB; cbn [merged flat_map].
  - exists b. rewrite app_nil_r. auto.
  - destruct (H x (or_introl eq_refl)) as [NX VX]. destruct (solidbbox_spec x NX VX) as (c & -> & HC & SC). cbn [obind].
    destruct (IH (fun y Hy => H y (or_intror Hy)) (ps ++ flat_map verts x) (merge b c)) as (r & R1 & R2 & R3).
    + apply joined_holds; auto.
    + apply joined_spans; auto.
    + exists r. rewrite <- app_assoc in *. auto.
Qed.
Lemma merged_box l : l <> [] -> (forall x, In x l -> x <> [] /\ forall s, In s x -> (2 <= length (verts s))%nat) ->
  exists r, merged l None = Val (Some r) /\ holds_all (flat_map (fun x => flat_map verts x) l) r /\ spans (flat_map (fun x => flat_map verts x) l) r.
Proof.
  destruct l as [|x l]; [congruence|]. intros _ H. cbn [merged flat_map].
  destruct (H x (or_introl eq_refl)) as [NX VX]. destruct (solidbbox_spec x NX VX) as (c & -> & HC & SC). cbn [obind].
  apply merged_spec; auto. intros y Hy. apply H. right. exact Hy.
Qed.
Lemma bbox_report a u l : l <> [] -> (forall x, In x l -> x <> [] /\ forall s, In s x -> (2 <= length (verts s))%nat) ->
  exists m lo hi, check_bbox a u l = Val m /\
  let ps := flat_map (fun x => flat_map verts x) l in holds_all ps (lo, hi) /\ spans ps (lo, hi) /\
  val (t "bbox.xmin") m = Some (vx lo) /\ val (t "bbox.xmax") m = Some (vx hi) /\
  val (t "bbox.ymin") m = Some (vy lo) /\ val (t "bbox.ymax") m = Some (vy hi) /\
  val (t "bbox.zmin") m = Some (vz lo) /\ val (t "bbox.zmax") m = Some (vz hi) /\
  val (t "bbox.width") m = Some (vx hi - vx lo) /\ val (t "bbox.depth") m = Some (vy hi - vy lo) /\
  val (t "bbox.height") m = Some (vz hi - vz lo) /\
  val (t "bbox.diagonal") m = Some (dist lo hi) /\ val (t "part_count") m = Some (INR (length l)) /\
  let units := match u with Some u => u | None => t "mm" end in
  let asked (k : text) := a = None \/ a = Some (t "all") \/ a = Some k in
  (asked (t "x") -> val (t "bbox.x_" ++ units) m = Some (vx hi - vx lo)) /\
  (asked (t "y") -> val (t "bbox.y_" ++ units) m = Some (vy hi - vy lo)) /\
  (asked (t "z") -> val (t "bbox.z_" ++ units) m = Some (vz hi - vz lo)) /\
  (~ asked (t "x") -> val (t "bbox.x_" ++ units) m = None) /\
  (~ asked (t "y") -> val (t "bbox.y_" ++ units) m = None) /\
  (~ asked (t "z") -> val (t "bbox.z_" ++ units) m = None).
Proof.
  intros NL H. destruct (merged_box l NL H) as ([lo hi] & HM & HH & HS). unfold check_bbox. destruct l as [|x l]; [congruence|].
  rewrite HM. cbn [obind]. cbv zeta. set (ax := match a with Some a => a | None => t "all" end).
  set (un := match u with Some u => u | None => t "mm" end).
  assert (AX : forall k, on_axis ax k = true <-> (a = None \/ a = Some (t "all") \/ a = Some k)).
  { intros k. unfold on_axis, ax. rewrite orb_true_iff, !teq_spec. destruct a as [a|].
    - split; [intros [-> | ->]; auto|]. intros [X|[X|X]]; try discriminate; injection X as ->; auto.
    - split; [auto|]. intros _. right. reflexivity. }
  assert (AN : forall k, ~ (a = None \/ a = Some (t "all") \/ a = Some k) -> on_axis ax k = false).
  { intros k N. destruct (on_axis ax k) eqn:E; [|reflexivity]. apply AX in E. contradiction. }
  eexists _, lo, hi. split; [reflexivity|]. split; [exact HH|]. split; [exact HS|].
  repeat apply conj; try (intros Q; (apply AX in Q || apply AN in Q); rewrite Q).
  all: repeat match goal with |- context [if on_axis ?ax' ?k then _ else _] => destruct (on_axis ax' k) end; gets; try reflexivity.
  all: f_equal; unfold dist, mag, sub; cbn [vx vy vz]; unfold dot; cbn [vx vy vz]; f_equal; ring.
Qed.
(** ** centroids *)
Lemma centroids_val l cs : centroids l = Val cs <->
  Forall2 (fun x cv => mesh_centroid x = Val (Some (fst cv)) /\ volumeof x = Val (snd cv)) l cs.
Proof.
  revert cs. induction l as [|x l IH]; intros cs; cbn [centroids].
  - split; [intros H; injection H as <-; constructor|]. inversion 1. reflexivity.
  - split.
    + intros H. apply obind_val in H as ([c|] & HC & H); [|discriminate]. apply obind_val in H as (v & HV & H).
      apply obind_val in H as (r & HR & H). injection H as <-. constructor; [auto|]. apply IH, HR.
    + inversion 1 as [|? [c v] ? r [HC HV] HR]; subst. cbn [fst snd] in *. rewrite HC. cbn [obind]. rewrite HV. cbn [obind].
      apply IH in HR. rewrite HR. reflexivity.
Qed.
Lemma weighted_sum f cs : weighted f cs = Rsum (fun c => snd c * f (fst c)) cs.
Proof. unfold weighted. rewrite (fold_sum (fun c => snd c * f (fst c))). ring. Qed.
Definition ckey (i : nat) (s : string) : text := t "centroid.part_" ++ tdec i ++ t s.
Lemma ckey_assoc i s : (t "centroid.part_" ++ tdec i) ++ t s = ckey i s. Proof. unfold ckey. now rewrite app_assoc. Qed.
Lemma put_centroids_other cs : forall i k m, (forall j s, k <> (t "centroid.part_" ++ tdec j) ++ t s) -> val k (put_centroids i cs m) = val k m.
Proof.
  induction cs as [|[c v] cs IH]; intros i k m H; cbn [put_centroids]; [reflexivity|]. cbv zeta. rewrite IH by exact H.
  rewrite !val_other by apply H. reflexivity.
Qed.
Lemma app_last_inj (a b : text) x y : a ++ [46; x]%Z = b ++ [46; y]%Z -> a = b /\ x = y.
Proof.
  intros E. replace (a ++ [46; x]%Z) with ((a ++ [46]%Z) ++ [x]) in E by (rewrite <- app_assoc; reflexivity).
  replace (b ++ [46; y]%Z) with ((b ++ [46]%Z) ++ [y]) in E by (rewrite <- app_assoc; reflexivity).
  apply app_inj_tail in E as [E ->]. apply app_inj_tail in E as [-> _]. auto.
Qed.
Lemma ckey_inj i j x y : (t "centroid.part_" ++ tdec i) ++ [46; x]%Z = (t "centroid.part_" ++ tdec j) ++ [46; y]%Z -> i = j /\ x = y.
Proof. intros E. apply app_last_inj in E as [E ->]. apply pre_inj in E. auto. Qed.
Lemma put_centroids_later cs : forall i j x m, (j < i)%nat -> 
  val ((t "centroid.part_" ++ tdec j) ++ [46; x]%Z) (put_centroids i cs m) = val ((t "centroid.part_" ++ tdec j) ++ [46; x]%Z) m.
Proof.
  induction cs as [|[c v] cs IH]; intros i j x m L; cbn [put_centroids]; [reflexivity|]. cbv zeta. rewrite IH by lia.
  change (t ".x") with [46; 120]%Z. change (t ".y") with [46; 121]%Z. change (t ".z") with [46; 122]%Z.
  rewrite !val_other; [reflexivity|..]; intros E; apply ckey_inj in E; lia.
Qed.
Lemma put_centroids_get cs : forall i n c v m, nth_error cs n = Some (c, v) ->
  val ((t "centroid.part_" ++ tdec (i + n)) ++ t ".x") (put_centroids i cs m) = Some (vx c) /\
  val ((t "centroid.part_" ++ tdec (i + n)) ++ t ".y") (put_centroids i cs m) = Some (vy c) /\
  val ((t "centroid.part_" ++ tdec (i + n)) ++ t ".z") (put_centroids i cs m) = Some (vz c).
Proof.
  change (t ".x") with [46; 120]%Z. change (t ".y") with [46; 121]%Z. change (t ".z") with [46; 122]%Z.
  induction cs as [|[d w] cs IH]; intros i [|n] c v m H; cbn in H; try discriminate.
  - injection H as -> ->. rewrite Nat.add_0_r. cbn [put_centroids]. cbv zeta. rewrite !put_centroids_later by lia.
    change (t ".x") with [46; 120]%Z. change (t ".y") with [46; 121]%Z. change (t ".z") with [46; 122]%Z.
    split; [|split].
    + rewrite 2 val_other by (intros E; apply ckey_inj in E as [_ E]; discriminate). apply val_same.
    + rewrite val_other by (intros E; apply ckey_inj in E as [_ E]; discriminate). apply val_same.
    + apply val_same.
  - cbn [put_centroids]. cbv zeta. replace (i + S n)%nat with (S i + n)%nat by lia. eapply IH. exact H.
Qed.
Lemma centroid_report l m : check_centroid l = Val m -> exists cs,
  Forall2 (fun x cv => mesh_centroid x = Val (Some (fst cv)) /\ volumeof x = Val (snd cv)) l cs /\
  let v := Rsum (fun c => snd c) cs in tiny <= Rabs v /\
  val (t "centroid.x") m = Some (Rsum (fun c => snd c * vx (fst c)) cs / v) /\
  val (t "centroid.y") m = Some (Rsum (fun c => snd c * vy (fst c)) cs / v) /\
  val (t "centroid.z") m = Some (Rsum (fun c => snd c * vz (fst c)) cs / v) /\
  val (t "part_count") m = Some (INR (length l)) /\
  ((1 < length l)%nat -> forall i c w, nth_error cs i = Some (c, w) ->
     val (t "centroid.part_" ++ tdec i ++ t ".x") m = Some (vx c) /\
     val (t "centroid.part_" ++ tdec i ++ t ".y") m = Some (vy c) /\
     val (t "centroid.part_" ++ tdec i ++ t ".z") m = Some (vz c)).
Proof.
  unfold check_centroid. destruct l as [|x0 l0]; [discriminate|]. set (l := x0 :: l0). intros H. apply obind_val in H as (cs & HC & H). cbv zeta in H.
  apply centroids_val in HC. destruct (Rltb (Rabs (total (map snd cs))) tiny) eqn:B; [discriminate|]. apply Rltb_false in B.
  exists cs. split; [exact HC|]. cbv zeta.
  assert (TV : total (map snd cs) = Rsum (fun c => snd c) cs) by (rewrite total_sum, Rsum_map; reflexivity). rewrite TV in *.
  split; [exact B|]. apply Val_inj in H; subst m. rewrite !weighted_sum.
  destruct (Nat.ltb 1 (length l)) eqn:L.
  - rewrite !put_centroids_other by (intros j s; clash). gets. repeat (split; [reflexivity|]).
    intros _ i c w E. rewrite !app_assoc. apply (put_centroids_get cs 0 i c w _ E).
  - gets. repeat (split; [reflexivity|]). intros L'. apply Nat.ltb_ge in L. lia.
Qed.
