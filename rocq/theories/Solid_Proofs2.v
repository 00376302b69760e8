(** Closedness of separated meshes. *)
From Coq Require Import Reals List Bool ZArith Permutation Lra Lia.
From Verif Require Import Dict Xform_Model Xform_Proofs Solid_Model Solid_Spec Solid_Proofs.
Import ListNotations.
Open Scope R_scope.

(** ** rounding *)
Lemma pyround_near x : Rabs (x - IZR (pyround x)) <= 1 / 2.
Proof.
  unfold pyround. destruct (base_Int_part x) as [H1 H2]. set (f := Int_part x) in *.
  destruct (Rltb (x - IZR f) (1 / 2)) eqn:E1.
  - apply Rltb_true in E1. rewrite Rabs_right; lra.
  - apply Rltb_false in E1. destruct (Rltb (1 / 2) (x - IZR f)) eqn:E2.
    + rewrite plus_IZR. simpl. rewrite Rabs_left1; lra.
    + apply Rltb_false in E2. destruct (Z.even f); [|rewrite plus_IZR]; simpl.
      * rewrite Rabs_right; lra.
      * rewrite Rabs_left1; lra.
Qed.
Lemma pyround_eq x y : pyround (x / epsilon) = pyround (y / epsilon) -> Rabs (x - y) <= epsilon.
Proof.
  intros H. pose proof (pyround_near (x / epsilon)) as H1. pose proof (pyround_near (y / epsilon)) as H2.
  rewrite H in H1. set (k := IZR (pyround (y / epsilon))) in *. pose proof eps_pos as He.
  assert (H3 : Rabs (x / epsilon - y / epsilon) <= 1).
  { replace (x / epsilon - y / epsilon) with ((x / epsilon - k) - (y / epsilon - k)) by ring.
    eapply Rle_trans; [apply Rabs_triang|]. rewrite Rabs_Ropp. lra. }
  replace (x / epsilon - y / epsilon) with ((x - y) * / epsilon) in H3 by (field; lra).
  rewrite Rabs_mult, (Rabs_right (/ epsilon)) in H3 by (apply Rle_ge, Rlt_le, Rinv_0_lt_compat; lra).
  apply (Rmult_le_reg_r (/ epsilon)); [apply Rinv_0_lt_compat; lra|].
  rewrite Rinv_r by lra. exact H3.
Qed.
Lemma pyround_IZR n : pyround (IZR n) = n.
Proof.
  unfold pyround. assert (E : Int_part (IZR n) = n).
  { unfold Int_part. rewrite <- (tech_up (IZR n) (n + 1)); rewrite ?plus_IZR; simpl; try lra; lia. }
  rewrite E. replace (IZR n - IZR n) with 0 by ring.
  replace (Rltb 0 (1 / 2)) with true; [reflexivity|]. symmetry. apply Rltb_true. lra.
Qed.
Lemma sq_abs a e : Rabs a <= e -> a * a <= e * e.
Proof. intros H. pose proof (Rabs_pos a). rewrite <- (Rsqr_abs a) || idtac. unfold Rabs in *. destruct (Rcase_abs a); nra. Qed.
Lemma point_to_key_near p q : point_to_key p = point_to_key q -> dist p q <= 2 * epsilon.
Proof.
  unfold point_to_key. intros H. injection H as H1 H2 H3.
  apply pyround_eq in H1, H2, H3. apply sq_abs in H1, H2, H3. pose proof eps_pos.
  unfold dist, mag, sub; simpl. rewrite <- (sqrt_square (2 * epsilon)) by lra.
  apply sqrt_le_1_alt. nra.
Qed.

(** ** keys *)
Lemma key_eqb_spec a b : key_eqb a b = true <-> a = b.
Proof.
  destruct a as [[a1 a2] a3], b as [[b1 b2] b3]. unfold key_eqb.
  rewrite !andb_true_iff, !Z.eqb_eq. split; [intros [[-> ->] ->]; reflexivity|]. intros H. injection H. auto.
Qed.
Lemma edge_eqb_spec a b : edge_eqb a b = true <-> a = b.
Proof.
  destruct a, b. unfold edge_eqb; simpl. rewrite andb_true_iff, !key_eqb_spec.
  split; [intros [-> ->]; reflexivity|]. intros H. injection H. auto.
Qed.
Lemma key_lt_irrefl a : key_ltb a a = false.
Proof. destruct a as [[a1 a2] a3]. unfold key_ltb. rewrite !Z.eqb_refl. apply Z.ltb_irrefl. Qed.
Lemma key_lt_asym a b : key_ltb a b = true -> key_ltb b a = false.
Proof.
  destruct a as [[a1 a2] a3], b as [[b1 b2] b3]. unfold key_ltb. rewrite (Z.eqb_sym b1 a1), (Z.eqb_sym b2 a2).
  destruct (Z.eqb_spec a1 b1); [destruct (Z.eqb_spec a2 b2)|]; intros H; apply Z.ltb_lt in H; apply Z.ltb_ge; lia.
Qed.
Lemma key_lt_total a b : key_ltb a b = false -> key_ltb b a = false -> a = b.
Proof.
  destruct a as [[a1 a2] a3], b as [[b1 b2] b3]. unfold key_ltb. rewrite (Z.eqb_sym b1 a1), (Z.eqb_sym b2 a2).
  destruct (Z.eqb_spec a1 b1); [destruct (Z.eqb_spec a2 b2)|]; rewrite !Z.ltb_ge; intros; try lia.
  subst. f_equal. lia.
Qed.
Definition ukey (k1 k2 : key) : edge_key := (if key_ltb k2 k1 then k2 else k1, if key_ltb k1 k2 then k2 else k1).
Lemma ukey_sym a b : ukey a b = ukey b a.
Proof.
  unfold ukey. destruct (key_ltb a b) eqn:E1, (key_ltb b a) eqn:E2; auto.
  - apply key_lt_asym in E1. congruence.
  - rewrite (key_lt_total a b); auto.
Qed.
Lemma ukey_inj a b c d : ukey a b = ukey c d -> a = c /\ b = d \/ a = d /\ b = c.
Proof.
  unfold ukey. destruct (key_ltb b a) eqn:E1, (key_ltb a b) eqn:E2, (key_ltb d c) eqn:E3, (key_ltb c d) eqn:E4;
    intros H; injection H as H1 H2; subst; auto;
    try (apply key_lt_asym in E1; congruence); try (apply key_lt_asym in E3; congruence);
    try (pose proof (key_lt_total _ _ E2 E1); subst; auto);
    try (pose proof (key_lt_total _ _ E4 E3); subst; auto).
Qed.
Lemma canonical_ukey p q : canonical_edge_key p q = ukey (point_to_key p) (point_to_key q).
Proof. reflexivity. Qed.

(** ** counting *)
Definition cnt (e : edge_key) (l : list edge_key) : nat := length (filter (edge_eqb e) l).
Lemma count_get l : forall d e,
  match dget edge_eqb e (fold_left count_edge l d) with Some n => n | None => 0%nat end
  = ((match dget edge_eqb e d with Some n => n | None => 0 end) + cnt e l)%nat.
Proof.
  induction l as [|a l IH]; intros d e; simpl.
  - unfold cnt; simpl. lia.
  - rewrite IH. unfold count_edge at 1. rewrite (dget_set _ edge_eqb_spec). unfold cnt; simpl.
    destruct (edge_eqb e a) eqn:E; simpl; [|lia]. apply edge_eqb_spec in E. subst. lia.
Qed.
Lemma count_nodup l : forall d, NoDup (keys d) -> NoDup (keys (fold_left count_edge l d)).
Proof. induction l as [|a l IH]; intros d H; simpl; auto. apply IH. apply (nodup_set _ edge_eqb_spec). exact H. Qed.
Lemma count_pos l : forall d e n, (forall e n, In (e, n) d -> (0 < n)%nat) ->
  In (e, n) (fold_left count_edge l d) -> (0 < n)%nat.
Proof.
  induction l as [|a l IH]; intros d e n Hd; simpl; [apply Hd|]. apply IH. intros e' n'.
  unfold count_edge. generalize (match dget edge_eqb a d with Some n => n | None => 0%nat end). intros k.
  induction d as [|[e0 n0] d IHd]; simpl.
  - intros [H|[]]. injection H as <- <-. lia.
  - destruct (edge_eqb a e0); simpl; intros [H|H].
    + injection H as <- <-. lia.
    + apply (Hd e' n'). right. exact H.
    + injection H as <- <-. apply (Hd e0 n0). left. reflexivity.
    + apply IHd; auto. intros. apply (Hd e1 n1). right. auto.
Qed.
Lemma all_two l : forallb (fun e => Nat.eqb (snd e) 2) (fold_left count_edge l []) = true <->
  forall e, In e l -> cnt e l = 2%nat.
Proof.
  rewrite forallb_forall. set (d := fold_left count_edge l []).
  assert (ND : NoDup (keys d)) by (apply count_nodup; constructor).
  assert (G : forall e, match dget edge_eqb e d with Some n => n | None => 0%nat end = cnt e l)
    by (intros e; unfold d; rewrite count_get; reflexivity).
  split.
  - intros H e He. specialize (G e).
    assert (P : (0 < cnt e l)%nat).
    { unfold cnt. assert (I : In e (filter (edge_eqb e) l)) by (apply filter_In; split; auto; apply edge_eqb_spec; auto).
      destruct (filter (edge_eqb e) l); [destruct I|simpl; lia]. }
    destruct (dget edge_eqb e d) as [n|] eqn:E; [|lia].
    apply (dget_in _ edge_eqb_spec) in E. apply H in E. simpl in E. apply Nat.eqb_eq in E. lia.
  - intros H [e n] Hin. simpl. apply Nat.eqb_eq. specialize (G e).
    rewrite (in_dget _ edge_eqb_spec _ _ _ ND Hin) in G. subst n.
    assert (P : (0 < cnt e l)%nat) by (eapply count_pos; [|exact Hin]; intros ? ? []).
    apply H. unfold cnt in P. destruct (filter (edge_eqb e) l) as [|a r] eqn:E; [simpl in P; lia|].
    assert (I : In a (filter (edge_eqb e) l)) by (rewrite E; left; reflexivity).
    apply filter_In in I as [I1 I2]. apply edge_eqb_spec in I2. subst. exact I1.
Qed.
Lemma edge_keys_sides ts : flat_map tri_edge_keys ts =
  map (fun e => canonical_edge_key (fst e) (snd e)) (all_sides ts).
Proof.
  induction ts as [|[[p q] r] ts IH]; [reflexivity|].
  change (all_sides ((p, q, r) :: ts)) with ([(p, q); (q, r); (r, p)] ++ all_sides ts).
  rewrite map_app, <- IH. reflexivity.
Qed.
Lemma counted_filter {A} (P : A -> Prop) (b : A -> bool) l n :
  (forall a, In a l -> b a = true <-> P a) -> counted P l n <-> length (filter b l) = n.
Proof.
  intros H. revert n. induction l as [|a l IH]; intros n; simpl.
  - split; [inversion 1; reflexivity|intros <-; constructor].
  - assert (Hl : forall a, In a l -> b a = true <-> P a) by (intros; apply H; right; auto).
    specialize (IH Hl). destruct (b a) eqn:E; simpl.
    + assert (P a) by (apply H; [left; auto|exact E]).
      split; [inversion 1; subst; [f_equal; apply IH; auto|contradiction]|].
      intros <-. constructor; auto. apply IH. reflexivity.
    + assert (~ P a) by (intros Hp; apply H in Hp; [congruence|left; auto]).
      split; [inversion 1; subst; [contradiction|apply IH; auto]|].
      intros <-. constructor 3; auto. apply IH. reflexivity.
Qed.
Lemma filter_map_length {A B} (f : A -> B) (b : B -> bool) l :
  length (filter b (map f l)) = length (filter (fun a => b (f a)) l).
Proof. induction l; simpl; auto. destruct (b (f a)); simpl; congruence. Qed.
Lemma side_corners ts p q : In (p, q) (all_sides ts) -> corner ts p /\ corner ts q.
Proof.
  intros H. split; [exists q; exact H|]. unfold all_sides in H. apply in_flat_map in H as ([[a b] c] & Ht & H).
  simpl in H. unfold corner, all_sides.
  destruct H as [H|[H|[H|[]]]]; injection H as <- <-; [exists c|exists a|exists b];
    (apply in_flat_map; exists (a, b, c); split; [auto|simpl; auto]).
Qed.
Lemma separated_key ts p q : separated ts -> corner ts p -> corner ts q ->
  point_to_key p = point_to_key q <-> p = q.
Proof.
  intros S Hp Hq. split; [|intros ->; reflexivity]. intros H. apply point_to_key_near in H.
  destruct (S p q Hp Hq); [auto|lra].
Qed.
Lemma closed_watertight ts : separated ts ->
  forallb (fun e => Nat.eqb (snd e) 2) (edge_counts ts) = true <-> watertight ts.
Proof.
  intros S. unfold edge_counts. rewrite all_two, edge_keys_sides. unfold watertight.
  set (K := fun e : vec * vec => canonical_edge_key (fst e) (snd e)).
  assert (J : forall p q, In (p, q) (all_sides ts) -> forall e, In e (all_sides ts) ->
    edge_eqb (K (p, q)) (K e) = true <-> joins p q e).
  { intros p q Hpq [a b] He. rewrite edge_eqb_spec. unfold K; simpl.
    apply side_corners in Hpq as [Hp Hq]. apply side_corners in He as [Ha Hb].
    rewrite !canonical_ukey. unfold joins. split.
    - intros H. apply ukey_inj in H as [[H1 H2]|[H1 H2]];
        apply (separated_key ts) in H1; auto; apply (separated_key ts) in H2; auto; subst; auto.
    - intros [H|H]; injection H as -> ->; [reflexivity|apply ukey_sym]. }
  split.
  - intros H p q Hpq. apply (counted_filter _ (fun e => edge_eqb (K (p, q)) (K e))); [apply J; auto|].
    rewrite <- (filter_map_length K). apply H. apply in_map. exact Hpq.
  - intros H e He. apply in_map_iff in He as ([p q] & <- & He). unfold cnt. rewrite filter_map_length.
    apply (counted_filter (joins p q)); auto. 
Qed.
Lemma closed_iff x ts : issolid x = true -> triangles x ts -> separated ts ->
  (issolidclosed x = Val true <-> watertight ts).
Proof.
  intros Hs Ht S. unfold issolidclosed. rewrite Hs. simpl. apply solid_tris_spec in Ht. rewrite Ht. simpl.
  rewrite <- closed_watertight by exact S. split; [intros H; injection H; auto|intros ->; reflexivity].
Qed.
(** Watertight and every directed side at most once: sides match. *)
Lemma vec_eq_dec (p q : vec) : {p = q} + {p <> q}.
Proof. destruct p, q. repeat decide equality; apply Req_EM_T. Qed.
Lemma side_eq_dec (e f : vec * vec) : {e = f} + {e <> f}.
Proof. decide equality; apply vec_eq_dec. Qed.
Lemma count_filter e l : length (filter (fun a => if side_eq_dec a e then true else false) l) = count_occ side_eq_dec l e.
Proof. induction l; simpl; auto. destruct (side_eq_dec a e); simpl; congruence. Qed.
Lemma back_back e : back (back e) = e. Proof. destruct e; reflexivity. Qed.
Lemma watertight_oriented ts : watertight ts -> NoDup (all_sides ts) -> oriented ts.
Proof.
  intros W ND. unfold oriented.
  assert (H : forall e, In e (all_sides ts) -> In (back e) (all_sides ts)).
  { intros [p q] He. unfold back; simpl. destruct (in_dec side_eq_dec (q, p) (all_sides ts)) as [|N]; [auto|exfalso].
    pose proof (W p q He) as Hc.
    apply (counted_filter _ (fun a => if side_eq_dec a (p, q) then true else false)) in Hc.
    - rewrite count_filter in Hc. rewrite (NoDup_count_occ side_eq_dec) in ND. specialize (ND (p, q)). lia.
    - intros a Ha. unfold joins. destruct (side_eq_dec a (p, q)) as [->|N']; split; auto; try discriminate.
      intros [->| ->]; [congruence|contradiction]. }
  apply NoDup_Permutation; auto.
  - apply FinFun.Injective_map_NoDup; auto. intros a b E. rewrite <- (back_back a), <- (back_back b). congruence.
  - intros e. rewrite in_map_iff. split.
    + intros He. exists (back e). rewrite back_back. auto.
    + intros (f & <- & Hf). auto.
Qed.

(** ** maps that keep corners apart *)
Definition fpair (f : vec -> vec) (e : vec * vec) : vec * vec := (f (fst e), f (snd e)).
Lemma sides_tmap f ts : all_sides (map (tmap f) ts) = map (fpair f) (all_sides ts).
Proof.
  induction ts as [|[[p q] r] ts IH]; [reflexivity|].
  change (all_sides (map (tmap f) ((p, q, r) :: ts))) with ([(f p, f q); (f q, f r); (f r, f p)] ++ all_sides (map (tmap f) ts)).
  change (all_sides ((p, q, r) :: ts)) with ([(p, q); (q, r); (r, p)] ++ all_sides ts).
  rewrite map_app, IH. reflexivity.
Qed.
Lemma corner_tmap f ts p : corner (map (tmap f) ts) p -> exists p0, corner ts p0 /\ p = f p0.
Proof.
  intros (q & H). rewrite sides_tmap in H. apply in_map_iff in H as ([a b] & E & H).
  injection E as <- <-. exists a. split; [exists b; auto|reflexivity].
Qed.
Lemma separated_iso f ts : (forall p q, corner ts p -> corner ts q -> dist (f p) (f q) = dist p q) ->
  separated ts -> separated (map (tmap f) ts).
Proof.
  intros Hf S p q Hp Hq. apply corner_tmap in Hp as (p0 & Hp & ->). apply corner_tmap in Hq as (q0 & Hq & ->).
  destruct (S p0 q0 Hp Hq) as [->|H]; [auto|]. right. rewrite Hf; auto.
Qed.
Lemma oriented_tmap f ts : oriented ts -> oriented (map (tmap f) ts).
Proof.
  unfold oriented. intros H. rewrite sides_tmap. eapply Permutation_trans; [apply Permutation_map, H|].
  rewrite !map_map. apply Permutation_refl.
Qed.
Lemma counted_ext {A} (P Q : A -> Prop) l n :
  (forall a, In a l -> P a <-> Q a) -> counted P l n -> counted Q l n.
Proof.
  intros H HC. induction HC as [|a l n Ha HC IH|a l n Ha HC IH].
  - constructor.
  - constructor; [apply H; [left; auto|auto]|]. apply IH. intros; apply H; right; auto.
  - constructor 3; [rewrite <- (H a); [auto|left; auto]|]. apply IH. intros; apply H; right; auto.
Qed.
Lemma counted_map {A B} (f : A -> B) (P : B -> Prop) l n :
  counted (fun a => P (f a)) l n -> counted P (map f l) n.
Proof. induction 1; simpl; [constructor|constructor|constructor 3]; auto. Qed.
Lemma watertight_iso f ts : (forall p q, corner ts p -> corner ts q -> f p = f q -> p = q) ->
  watertight ts -> watertight (map (tmap f) ts).
Proof.
  intros Hf W p q H. rewrite sides_tmap in *. apply in_map_iff in H as ([a b] & E & H). injection E as <- <-.
  apply counted_map. eapply counted_ext; [|exact (W a b H)].
  intros [c d] He. apply side_corners in H as [Ha Hb]. apply side_corners in He as [Hc Hd].
  unfold joins, fpair; simpl. split.
  - intros [E|E]; injection E as -> ->; auto.
  - intros [E|E]; injection E as E1 E2; apply Hf in E1; auto; apply Hf in E2; auto; subst; auto.
Qed.
Lemma counted_perm {A} (P : A -> Prop) l m : Permutation l m -> forall n, counted P l n -> counted P m n.
Proof.
  induction 1 as [|a l m HP IH|a b l|l m k H1 IH1 H2 IH2]; intros n H; auto.
  - inversion H; subst; [constructor|constructor 3]; auto.
  - inversion H as [|? ? ? Hb H'|? ? ? Hb H']; subst; inversion H' as [|? ? ? Ha H''|? ? ? Ha H'']; subst;
      repeat (first [constructor; [assumption|] | constructor 3; [assumption|]]); auto.
Qed.
Lemma sides_swap ts : Permutation (all_sides (map tswap ts)) (map back (all_sides ts)).
Proof.
  induction ts as [|[[p q] r] ts IH]; [constructor|].
  change (all_sides (map tswap ((p, q, r) :: ts))) with ([(p, r); (r, q); (q, p)] ++ all_sides (map tswap ts)).
  change (map back (all_sides ((p, q, r) :: ts))) with ([(q, p); (r, q); (p, r)] ++ map back (all_sides ts)).
  apply Permutation_app; [|exact IH].
  apply Permutation_trans with [(r, q); (q, p); (p, r)].
  - apply (Permutation_cons_append [(r, q); (q, p)] (p, r)).
  - apply Permutation_trans with [(q, p); (r, q); (p, r)]; [constructor|apply Permutation_refl].
Qed.
Lemma corner_swap ts p : corner (map tswap ts) p -> corner ts p.
Proof.
  intros (q & H). apply (Permutation_in _ (sides_swap ts)) in H. apply in_map_iff in H as ([a b] & E & H).
  injection E as <- <-. apply side_corners in H. tauto.
Qed.
Lemma separated_swap ts : separated ts -> separated (map tswap ts).
Proof. intros S p q Hp Hq. apply S; apply corner_swap; auto. Qed.
Lemma watertight_swap ts : watertight ts -> watertight (map tswap ts).
Proof.
  intros W p q H. eapply counted_perm; [apply Permutation_sym, sides_swap|].
  apply (Permutation_in _ (sides_swap ts)) in H. apply in_map_iff in H as ([a b] & E & H). injection E as <- <-.
  apply counted_map. eapply counted_ext; [|exact (W a b H)]. intros [c d] _. unfold joins, back; simpl.
  split; (intros [E|E]; injection E as -> ->; auto).
Qed.
Lemma oriented_swap ts : oriented ts -> oriented (map tswap ts).
Proof.
  unfold oriented. intros H. eapply Permutation_trans; [apply sides_swap|].
  eapply Permutation_trans; [|apply Permutation_map, Permutation_sym, sides_swap].
  apply Permutation_map. exact H.
Qed.
