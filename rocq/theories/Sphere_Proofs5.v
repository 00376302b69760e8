(** Spheres and spheroids. *)
From Coq Require Import Reals List Bool ZArith Lra Lia Permutation.
From Verif Require Import Xform_Model Xform_Proofs Fig_Model Fig_Proofs Fig_Proofs2 Solid_Model Solid_Spec Solid_Proofs Solid_Proofs2 Solid_Proofs3 Solid_Proofs7
  Prim_Model Prim_Spec Prim_Lab Prim_Proofs Prim_Proofs2 Dict
  Sphere_Model Sphere_Spec Sphere_Proofs Sphere_Proofs2 Sphere_Proofs3 Sphere_Proofs4.
Import ListNotations.
Open Scope R_scope.

Lemma ico_state r H : hash_history H -> state_ok r (ico_list r, map (unitn r) (ico_list r)) H.
Proof. intros HH. split; [split; [apply ico_balls|reflexivity]|apply history_ok; exact HH]. Qed.
(** a mesh of the sphere about the origin, before any placement *)
Definition ball_mesh (r : R) (n : nat) (fs : list (nat * nat * nat)) (vs : list vec) : Prop :=
  Forall (ball r) vs /\ lorient fs /\ length fs = (20 * 4 ^ n)%nat /\ Forall (face_ok r (bound r (1 / 2) n) vs) fs /\ (2 < length vs)%nat.
Lemma sphere_core r n H : hash_history H -> 8 * epsilon <= r ->
  exists fs vs H', refine r n icaIndices (ico_list r, map (unitn r) (ico_list r)) H = Val (fs, (vs, map (unitn r) vs), H') /\
    hash_history H' /\ ball_mesh r n fs vs.
Proof.
  intros HH He. assert (Hr : 0 < r) by (unfold epsilon in He; lra).
  destruct (refine_spec r n Hr He (1 / 2) icaIndices _ H (ico_state r H HH) (ico_faces r Hr) ico_oriented) as (fs & [vs ns] & H' & E & S & G & F & O & L).
  destruct S as [[GB GN] _]. cbn [fst snd] in *. subst ns. exists fs, vs, H'. split; [exact E|]. destruct G as ((w & Ew) & _ & GH).
  split; [apply GH; exact HH|]. split; [exact GB|]. split; [exact O|]. split; [exact L|]. split; [exact F|]. cbn [fst] in Ew. rewrite Ew, app_length. cbn [ico_list length]. lia.
Qed.
Definition pos_of (f : vec -> vec) (vs : list vec) (i : nat) : vec := f (nth i vs origin).
Lemma mesh_triangles f vs ns fs r C b : Forall (face_ok r C vs) fs ->
  triangles [mksurf (map f vs) ns (map zface fs) b []] (map (at_pos (pos_of f vs)) fs).
Proof.
  intros F. exists [map (at_pos (pos_of f vs)) fs]. split; [|cbn [concat]; rewrite app_nil_r; reflexivity].
  constructor; [|constructor]. cbn [faces]. induction F as [|[[i j] k] fs Hf _ IH]; cbn [map]; constructor; [|exact IH].
  destruct Hf as (p & q & s & E1 & E2 & E3 & _). cbn [zface face_corners at_pos verts].
  assert (G : forall i p, nth_error vs i = Some p -> at_index (map f vs) (Z.of_nat i) (pos_of f vs i)).
  { intros i' p' E. apply at_index_nat. unfold pos_of. rewrite (nth_error_nth _ _ _ E). apply map_nth_error. exact E. }
  split; [eapply G; eassumption|]. split; eapply G; eassumption.
Qed.
Lemma Rsum_pos {A} (f : A -> R) l : l <> [] -> (forall a, In a l -> 0 < f a) -> 0 < Rsum f l.
Proof.
  intros N. destruct l as [|a l]; [congruence|]. intros H. cbn [Rsum].
  assert (G : 0 <= Rsum f l). { assert (H' : forall b, In b l -> 0 < f b) by (intros b Hb; apply H; right; exact Hb). clear - H'.
    induction l as [|b l IH]; cbn [Rsum]; [lra|]. assert (0 < f b) by (apply H'; left; reflexivity).
    assert (0 <= Rsum f l) by (apply IH; intros x Hx; apply H'; right; exact Hx). lra. }
  pose proof (H a (or_introl eq_refl)). lra.
Qed.
Lemma outward_volume c ts : ts <> [] -> oriented ts -> (forall t, In t ts -> outward c t) -> 0 < signed_volume ts.
Proof.
  intros N O H. set (A := mkaff (point 1 0 0) (point 0 1 0) (point 0 0 1) (point (- vx c) (- vy c) (- vz c))).
  pose proof (signed_volume_act A ts O) as E. replace (adet A) with 1 in E by (unfold A, adet, det3, point; cbn [ra rb rc vx vy vz]; ring).
  rewrite Rmult_1_l in E. rewrite <- E. unfold signed_volume. apply Rdiv_lt_0_compat; [|lra]. apply Rsum_pos.
  - destruct ts; [congruence|discriminate].
  - intros t Ht. apply in_map_iff in Ht as ([[p q] s] & <- & Ht). specialize (H _ Ht). cbn [outward tmap] in *.
    replace (det3 (act A p) (act A q) (act A s)) with (det3 (sub p c) (sub q c) (sub s c)); [exact H|].
    unfold A, act, lin, det3, sub, add, dot, point. cbn [ra rb rc tr vx vy vz]. ring.
Qed.
Lemma mesh_outward f c K vs fs r C : 0 < K -> 0 < r -> 0 < C -> (forall p q s, det3 (sub (f p) c) (sub (f q) c) (sub (f s) c) = K * det3 p q s) ->
  Forall (face_ok r C vs) fs -> forall t, In t (map (at_pos (pos_of f vs)) fs) -> outward c t.
Proof.
  intros HK Hr HC Hf F t Ht. apply in_map_iff in Ht as ([[i j] k] & <- & Ht). rewrite Forall_forall in F.
  destruct (F _ Ht) as (p & q & s & E1 & E2 & E3 & _ & _ & _ & D). cbn [at_pos outward]. unfold pos_of.
  rewrite (nth_error_nth _ _ _ E1), (nth_error_nth _ _ _ E2), (nth_error_nth _ _ _ E3), Hf.
  assert (0 < r * r * r) by (repeat apply Rmult_lt_0_compat; auto). assert (0 < C * (r * r * r)) by (apply Rmult_lt_0_compat; auto).
  apply Rmult_lt_0_compat; [exact HK|]. specialize (D ltac:(lra)). lra.
Qed.

Lemma sphere_all H d c n : hash_history H -> 16 * epsilon <= d ->
  exists s H' c' ts, sphere H d c n = Val ([s], H') /\ hash_history H' /\ placed c c' /\ issolid [s] = true /\
    length (faces s) = (20 * 4 ^ n)%nat /\ (forall p, In p (verts s) -> on_sphere c' (d / 2) p) /\
    Forall2 (sphere_normal c' (d / 2)) (verts s) (norms s) /\ triangles [s] ts /\ oriented ts /\
    (16 * epsilon * 4 ^ n <= d -> (forall t, In t ts -> outward c' t) /\ 0 < signed_volume ts).
Proof.
  intros HH Hd. set (r := d / 2). assert (He : 8 * epsilon <= r) by (unfold r; lra). assert (Hr : 0 < r) by (unfold epsilon in He; lra).
  destruct (sphere_core r n H HH He) as (fs & vs & H' & E & HH' & GB & O & L & F & LV).
  set (c' := prism_center c).
  assert (V : (if vclose c origin then vs else map (fun p => add p c) vs) = map (fun p => add p c') vs).
  { unfold c', prism_center. destruct (vclose c origin); [|reflexivity]. rewrite <- (map_id vs) at 1. apply map_ext_in. intros p Hp.
    rewrite Forall_forall in GB. destruct (GB p Hp) as [W _]. apply vec_ext; unfold add, origin, point; cbn [vx vy vz vw]; lra. }
  exists (mksurf (map (fun p => add p c') vs) (map (unitn r) vs) (map zface fs) [] []), H', c', (map (at_pos (pos_of (fun p => add p c') vs)) fs).
  split; [|split; [exact HH'|split; [|split; [|split; [|split; [|split; [|split; [|split]]]]]]]].
  - unfold sphere, sphereSurface. fold r. rewrite (ico_start r Hr). cbn [obind]. rewrite E. cbn [obind fst snd]. rewrite V. reflexivity.
  - unfold c', prism_center, placed. fold origin. destruct (vclose c origin) eqn:Ec.
    + right. split; [apply vclose_near; exact Ec|reflexivity].
    + left. split; [|reflexivity]. intros N. apply vclose_near in N. congruence.
  - unfold issolid. cbn [forallb]. rewrite issurface_ok; [reflexivity| | | |].
    + rewrite map_length. exact LV.
    + rewrite !map_length. reflexivity.
    + intros p Hp. apply in_map_iff in Hp as (v & <- & _). reflexivity.
    + intros m Hm. apply in_map_iff in Hm as (v & <- & _). reflexivity.
  - cbn [faces]. rewrite map_length. exact L.
  - cbn [verts]. intros p Hp. apply in_map_iff in Hp as (v & <- & Hv). rewrite Forall_forall in GB. destruct (GB v Hv) as [_ Lv].
    split; [reflexivity|]. unfold len2, dot in Lv. unfold add. cbn [vx vy vz]. rewrite <- Lv. ring.
  - cbn [verts norms]. clear - vs Hr. induction vs as [|v vs IH]; cbn [map]; constructor; [|exact IH].
    unfold sphere_normal, unitn, add. cbn [vx vy vz vw]. fold r. repeat split; field; lra.
  - eapply mesh_triangles. exact F.
  - apply orient_pos. exact O.
  - intros Hn. assert (OW : forall t, In t (map (at_pos (pos_of (fun p => add p c') vs)) fs) -> outward c' t).
    { apply (mesh_outward _ _ 1 _ _ r (bound r (1 / 2) n)); auto; [lra|apply bound_pos; auto; unfold r; lra|].
      intros p q s. unfold det3, sub, add. cbn [vx vy vz]. ring. }
    split; [exact OW|]. apply (outward_volume c'); auto; [|apply orient_pos; exact O].
    intros Z. apply map_eq_nil in Z. subst fs. cbn [length] in L. assert (0 < 4 ^ n)%nat by (clear; induction n; cbn [Nat.pow]; lia). lia.
Qed.

(** spheroid *)
Lemma oblate_normal_val er pr v : 0 < er -> 0 < pr -> ball 1 v ->
  exists m, oblate_normal er pr (unitn 1 v) = Val m /\
    forall c, spheroid_normal c er pr (mkv (vx v * er + vx c) (vy v * er + vy c) (vz v * pr + vz c) 1) m.
Proof.
  intros He Hp [_ L]. unfold oblate_normal, odiv, unitn. cbn [vx vy vz]. unfold Reqb.
  destruct (Req_EM_T er 0); [lra|]. destruct (Req_EM_T pr 0); [lra|]. cbn [obind].
  set (x := vx v / 1 / er). set (y := vy v / 1 / er). set (z := vz v / 1 / pr).
  assert (P : 0 < x * x + y * y + z * z).
  { assert (N : vx v <> 0 \/ vy v <> 0 \/ vz v <> 0).
    { destruct (Req_dec (vx v) 0) as [A|A]; [|auto]. destruct (Req_dec (vy v) 0) as [B|B]; [|auto]. destruct (Req_dec (vz v) 0) as [D|D]; [|auto].
      unfold len2, dot in L. rewrite A, B, D in L. lra. }
    assert (Q : forall a b, 0 < b -> a <> 0 -> a / 1 / b <> 0).
    { intros a b Hb Ha. replace (a / 1 / b) with (a * / b) by (field; lra). apply Rmult_integral_contrapositive. split; [exact Ha|apply Rinv_neq_0_compat; lra]. }
    destruct N as [N|[N|N]]; [pose proof (Q _ _ He N) as G; fold x in G|pose proof (Q _ _ He N) as G; fold y in G|pose proof (Q _ _ Hp N) as G; fold z in G].
    all: pose proof (Rsqr_pos_lt _ G) as G2; unfold Rsqr in G2; pose proof (Rle_0_sqr x); pose proof (Rle_0_sqr y); pose proof (Rle_0_sqr z); unfold Rsqr in *; lra. }
  set (l := sqrt _). assert (Pl : 0 < l) by (apply sqrt_lt_R0; exact P). assert (Ql : l * l = x * x + y * y + z * z) by (apply sqrt_sqrt; lra).
  rewrite (Rltb_t 0 l) by exact Pl. eexists. split; [reflexivity|]. intros c. split; [reflexivity|]. cbn [vx vy vz]. split.
  - replace (x / l * (x / l) + y / l * (y / l) + z / l * (z / l)) with ((x * x + y * y + z * z) / (l * l)) by (field; lra). rewrite <- Ql. field. lra.
  - exists (/ l). split; [apply Rinv_0_lt_compat; exact Pl|]. unfold x, y, z. repeat split; field; repeat split; lra.
Qed.
Lemma oblate_all H d f c n : hash_history H -> 0 < d -> f < 1 ->
  exists s H' ts, oblate_spheroid H d f c n = Val ([s], H') /\ hash_history H' /\ issolid [s] = true /\
    length (faces s) = (20 * 4 ^ n)%nat /\ (forall p, In p (verts s) -> on_spheroid c (d / 2) (d / 2 * (1 - f)) p) /\
    Forall2 (spheroid_normal c (d / 2) (d / 2 * (1 - f))) (verts s) (norms s) /\ triangles [s] ts /\ oriented ts /\
    (8 * epsilon * 4 ^ n <= 1 -> (forall t, In t ts -> outward c t) /\ 0 < signed_volume ts).
Proof.
  intros HH Hd Hf. set (er := d / 2). set (pr := er * (1 - f)). assert (Per : 0 < er) by (unfold er; lra). assert (Ppr : 0 < pr) by (unfold pr; nra).
  assert (He : 8 * epsilon <= 2 / 2) by (unfold epsilon; lra).
  destruct (sphere_core (2 / 2) n H HH He) as (fs & vs & H' & E & HH' & GB & O & L & F & LV).
  assert (V : vclose origin origin = true) by apply vclose_refl.
  set (g := fun v => mkv (vx v * er + vx c) (vy v * er + vy c) (vz v * pr + vz c) 1).
  assert (NS : exists ns, omap (oblate_normal er pr) (map (unitn (2 / 2)) vs) = Val ns /\ Forall2 (spheroid_normal c er pr) (map g vs) ns).
  { clear - GB Per Ppr g. induction GB as [|v vs B _ IH]; cbn [map omap]; [exists []; split; [reflexivity|constructor]|].
    replace (2 / 2) with 1 in * by field. destruct (oblate_normal_val er pr v Per Ppr B) as (m & -> & Hm). destruct IH as (ns & -> & Hns).
    exists (m :: ns). split; [reflexivity|]. constructor; [apply Hm|exact Hns]. }
  destruct NS as (ns & EN & FN).
  exists (mksurf (map g vs) ns (map zface fs) [] []), H', (map (at_pos (pos_of g vs)) fs).
  split; [|split; [exact HH'|split; [|split; [|split; [|split; [|split; [|split]]]]]]].
  - unfold oblate_spheroid. fold er. fold pr. unfold sphereSurface. rewrite (ico_start (2 / 2)) by lra. cbn [obind]. rewrite E. cbn [obind fst snd]. rewrite V.
    cbn [norms verts faces]. rewrite EN. reflexivity.
  - unfold issolid. cbn [forallb]. rewrite issurface_ok; [reflexivity| | | |].
    + rewrite map_length. exact LV.
    + clear - FN. induction FN; cbn [length]; congruence.
    + intros p Hp. apply in_map_iff in Hp as (v & <- & _). reflexivity.
    + clear - FN. induction FN as [|v m vs1 ms Hm _ IH]; intros x Hx; [destruct Hx|]. destruct Hx as [<-|Hx]; [apply Hm|auto].
  - cbn [faces]. rewrite map_length. exact L.
  - cbn [verts]. intros p Hp. apply in_map_iff in Hp as (v & <- & Hv). rewrite Forall_forall in GB. destruct (GB v Hv) as [_ Lv].
    split; [reflexivity|]. unfold len2, dot in Lv. unfold g. cbn [vx vy vz]. fold er. fold pr. replace (2 / 2 * (2 / 2)) with 1 in Lv by field. rewrite <- Lv. field. split; lra.
  - exact FN.
  - eapply mesh_triangles. exact F.
  - apply orient_pos. exact O.
  - intros Hn. assert (OW : forall t, In t (map (at_pos (pos_of g vs)) fs) -> outward c t).
    { assert (K0 : 0 < er * er * pr) by (apply Rmult_lt_0_compat; [apply Rmult_lt_0_compat; exact Per|exact Ppr]). assert (R1 : 0 < 2 / 2) by lra.
      assert (C0 : 0 < bound (2 / 2) (1 / 2) n) by (apply bound_pos; lra).
      refine (mesh_outward g c (er * er * pr) vs fs (2 / 2) _ K0 R1 C0 _ F).
      intros p q s. unfold det3, sub, g. cbn [vx vy vz]. ring. }
    split; [exact OW|]. apply (outward_volume c); auto; [|apply orient_pos; exact O].
    intros Z. apply map_eq_nil in Z. subst fs. cbn [length] in L. assert (0 < 4 ^ n)%nat by (clear; induction n; cbn [Nat.pow]; lia). lia.
Qed.
