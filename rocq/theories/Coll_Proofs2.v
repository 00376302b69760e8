From Coq Require Import Reals String List Bool Lia Lra Psatz Permutation.
From Verif Require Import Dict Coll_Model Coll_Spec Coll_Proofs.
Import ListNotations.
Open Scope R_scope.
Open Scope list_scope.

(** ** Geometry *)
Lemma lt_true x y : lt x y = true <-> x < y. Proof. unfold lt. destruct (Rlt_dec x y); split; auto; discriminate. Qed.
Lemma lt_false x y : lt x y = false <-> y <= x. Proof. unfold lt. destruct (Rlt_dec x y); split; intros; try discriminate; auto; lra. Qed.
Lemma v3 (a b c d e f : R) : a = d -> b = e -> c = f -> (a, b, c) = (d, e, f). Proof. congruence. Qed.
Lemma dot_nonneg u : 0 <= dot u u. Proof. destruct u as [[x y] z]. cbn. nra. Qed.
Lemma cauchy u v : dot u v <= norm u * norm v.
Proof.
  unfold norm. rewrite <- sqrt_mult by apply dot_nonneg. apply Rle_trans with (Rabs (dot u v)); [apply Rle_abs|].
  rewrite <- sqrt_Rsqr_abs. apply sqrt_le_1_alt. unfold Rsqr. destruct u as [[a b] c], v as [[d e] f]. cbn.
  pose proof (Rle_0_sqr (a * e - b * d)). pose proof (Rle_0_sqr (a * f - c * d)). pose proof (Rle_0_sqr (b * f - c * e)). unfold Rsqr in *. nra.
Qed.
Lemma norm_nonneg u : 0 <= norm u. Proof. apply sqrt_pos. Qed.
Lemma norm_sq u : norm u * norm u = dot u u. Proof. apply sqrt_sqrt, dot_nonneg. Qed.
Lemma triangle u v : norm (sub u v) <= norm u + norm v.
Proof.
  apply Rsqr_incr_0; [|apply norm_nonneg|pose proof (norm_nonneg u); pose proof (norm_nonneg v); lra]. unfold Rsqr. rewrite norm_sq.
  replace ((norm u + norm v) * (norm u + norm v)) with (norm u * norm u + norm v * norm v + 2 * (norm u * norm v)) by ring. rewrite !norm_sq.
  assert (C : - dot u v <= norm u * norm v).
  { pose proof (cauchy u (scale (-1) v)) as C. replace (norm (scale (-1) v)) with (norm v) in C.
    - destruct u as [[a b] c], v as [[d e] f]. cbn in *. lra.
    - unfold norm. f_equal. destruct v as [[d e] f]. cbn. ring. }
  destruct u as [[a b] c], v as [[d e] f]. cbn in *. lra.
Qed.
Lemma norm_scale k u : norm (scale k u) = Rabs k * norm u.
Proof.
  unfold norm. rewrite <- sqrt_Rsqr_abs, <- sqrt_mult; [|apply Rle_0_sqr|apply dot_nonneg]. f_equal. destruct u as [[a b] c]. cbn. unfold Rsqr. ring.
Qed.
Lemma unit_norm u : dot u u = 1 -> norm u = 1. Proof. intros E. unfold norm. rewrite E. apply sqrt_1. Qed.
Lemma unit_axis_scale k u : dot u u = 1 -> 1 / 10000000000 < Rabs k -> unit_axis (scale k u) = u \/ unit_axis (scale k u) = scale (-1) u.
Proof.
  intros U Hk. unfold unit_axis. rewrite norm_scale, (unit_norm u U), Rmult_1_r. rewrite (proj2 (lt_true _ _) Hk).
  assert (k <> 0) by (intros ->; rewrite Rabs_R0 in Hk; lra).
  destruct (Rcase_abs k) as [N|P].
  - right. rewrite Rabs_left by auto. destruct u as [[a b] c]. cbn. apply v3; field; lra.
  - left. rewrite Rabs_right by auto. destruct u as [[a b] c]. cbn. apply v3; field; lra.
Qed.
Lemma overlaps_never_misses tol i j u k k' q : 0 < tol -> dot u u = 1 -> 1 / 10000000000 < Rabs k -> 1 / 10000000000 < Rabs k' ->
  axis i = scale k u -> axis j = scale k' u ->
  in_cylinder (center i) u (fst (bounding_cylinder i)) (snd (bounding_cylinder i)) q ->
  in_cylinder (center j) u (fst (bounding_cylinder j)) (snd (bounding_cylinder j)) q ->
  overlaps tol i j = true.
Proof.
  intros Ht U Hk Hk' Ei Ej [A1 R1] [A2 R2]. unfold overlaps. destruct (bounding_cylinder i) as [r1 h1]. destruct (bounding_cylinder j) as [r2 h2]. cbn [fst snd] in *.
  rewrite Ei, Ej. set (a1 := unit_axis (scale k u)). set (a2 := unit_axis (scale k' u)).
  assert (Q1 : a1 = u \/ a1 = scale (-1) u) by (apply unit_axis_scale; auto). assert (Q2 : a2 = u \/ a2 = scale (-1) u) by (apply unit_axis_scale; auto).
  assert (D : Rabs (dot a1 a2) = 1).
  { assert (X : dot a1 a2 = 1 \/ dot a1 a2 = -1).
    { destruct u as [[a b] c]. cbn in U. destruct Q1 as [->| ->], Q2 as [->| ->]; cbn; [left|right|right|left]; lra. }
    destruct X as [->| ->]; unfold Rabs; destruct (Rcase_abs _); lra. }
  rewrite D. rewrite (proj2 (lt_false _ _)) by lra. apply andb_true_iff. rewrite !lt_true.
  set (x := sub q (center i)) in *. set (y := sub q (center j)) in *. set (v := sub (center j) (center i)).
  assert (V : v = sub x y). { unfold v, x, y. destruct q as [[? ?] ?], (center i) as [[? ?] ?], (center j) as [[? ?] ?]. cbn. apply v3; ring. }
  assert (Dv : Rabs (dot v a1) = Rabs (dot x u - dot y u)).
  { rewrite V. destruct Q1 as [->| ->].
    - f_equal. destruct x as [[? ?] ?], y as [[? ?] ?], u as [[? ?] ?]. cbn. ring.
    - rewrite <- Rabs_Ropp. f_equal. destruct x as [[? ?] ?], y as [[? ?] ?], u as [[? ?] ?]. cbn. ring. }
  assert (Pv : sub v (scale (dot v a1) a1) = sub (sub x (scale (dot x u) u)) (sub y (scale (dot y u) u))).
  { rewrite V. destruct Q1 as [->| ->]; destruct x as [[? ?] ?], y as [[? ?] ?], u as [[? ?] ?]; cbn; apply v3; ring. }
  rewrite Dv, Pv. split.
  - pose proof (Rabs_triang (dot x u) (- dot y u)) as T. rewrite Rabs_Ropp in T. unfold Rminus. lra.
  - pose proof (triangle (sub x (scale (dot x u) u)) (sub y (scale (dot y u) u))). lra.
Qed.

(** ** Assemblies *)
Section Detector.
  Context {G T : Type}.
  Variables (user : iface -> iface -> bool) (geometry : string -> option G) (usable : T -> bool)
    (detect : string -> G -> T -> string -> G -> T -> bool * bool) (H : heap).
  Let check := check_collision user geometry usable detect H.
  Lemma check_answers r l a ta b tb : ok H r l -> exists x, check r a ta b tb = ROk x /\ part_a x = a /\ part_b x = b /\
    (collides x = true <-> exists ga gb, geometry a = Some ga /\ geometry b = Some gb /\ usable ta = true /\ usable tb = true /\ fst (detect a ga ta b gb tb) = true) /\
    (compatible_interface x = true <-> collides x = true /\ fits user H l a b).
  Proof.
    intros O. unfold check, check_collision.
    destruct (geometry a) as [ga|]; [|eexists; split; [reflexivity|]; cbn; repeat split; auto; try discriminate; try (intros (? & ? & ? & ? & _); discriminate); intros [X _]; discriminate].
    destruct (geometry b) as [gb|]; [|eexists; split; [reflexivity|]; cbn; repeat split; auto; try discriminate; try (intros (? & ? & ? & ? & _); discriminate); intros [X _]; discriminate].
    destruct (usable ta) eqn:Ua; cbn [andb]; [|eexists; split; [reflexivity|]; cbn; repeat split; auto; try discriminate; try (intros (? & ? & ? & ? & ? & _); discriminate); intros [X _]; discriminate].
    destruct (usable tb) eqn:Ub; [|eexists; split; [reflexivity|]; cbn; repeat split; auto; try discriminate; try (intros (? & ? & ? & ? & ? & ? & _); discriminate); intros [X _]; discriminate].
    destruct (detect a ga ta b gb tb) as [c f] eqn:D. destruct c.
    - destruct (check_overlap_ok H user r l a b O) as (v & results & -> & Hv). destruct v.
      + destruct (compatible_names_ok H user r l a b O) as (ns & -> & _). eexists; split; [reflexivity|]. cbn. split; auto. split; auto. split.
        * split; auto. intros _. exists ga, gb. rewrite D. auto.
        * split; auto. intros _. split; auto. apply Hv; auto.
      + eexists; split; [reflexivity|]. cbn. repeat split; auto; try discriminate.
        * intros _. exists ga, gb. rewrite D. auto.
        * intros [_ F]. apply Hv in F. discriminate.
    - eexists; split; [reflexivity|]. cbn. repeat split; auto; try discriminate.
      + intros (? & ? & E1 & E2 & _ & _ & E3). injection E1 as <-. injection E2 as <-. rewrite D in E3. discriminate.
      + intros [X _]. discriminate.
  Qed.
  Definition pair_of (x : result) : string * string := (part_a x, part_b x).
  Lemma check_all_answers r l ps : ok H r l -> exists rs, check_all user geometry usable detect H r ps = ROk rs /\
    map pair_of rs = map (fun p => (fst (fst p), fst (snd p))) ps /\
    Forall2 (fun p x => check r (fst (fst p)) (snd (fst p)) (fst (snd p)) (snd (snd p)) = ROk x) ps rs.
  Proof.
    intros O. induction ps as [|[[a ta] [b tb]] ps (rs & IH & E & F)]; cbn [check_all]; [exists []; auto|].
    destruct (check_answers r l a ta b tb O) as (x & Ex & Ea & Eb & _). fold check. rewrite Ex, IH. exists (x :: rs). split; auto. cbn [map fst snd]. split.
    - rewrite E. unfold pair_of. rewrite Ea, Eb. reflexivity.
    - constructor; auto.
  Qed.
  Lemma pairs_map {A B} (f : A -> B) l : map (fun p => (f (fst p), f (snd p))) (pairs l) = pairs (map f l).
  Proof. induction l as [|x l IH]; cbn; auto. rewrite map_app, IH, !map_map. reflexivity. Qed.
  Lemma pairs_in {A} (l : list A) a b : In (a, b) (pairs l) -> In a l /\ In b l.
  Proof. induction l as [|x l IH]; cbn; auto. rewrite in_app_iff, in_map_iff. intros [(y & E & Hy)|Hin]; [injection E as <- <-; auto|]. destruct (IH Hin); auto. Qed.
  Lemma pairs_neq {A} (l : list A) a b : NoDup l -> In (a, b) (pairs l) -> a <> b.
  Proof.
    induction l as [|x l IH]; cbn; [intros _ []|]. intros N. inversion N; subst. rewrite in_app_iff, in_map_iff. intros [(y & E & Hy)|Hin]; [injection E as <- <-; congruence|auto].
  Qed.
  Lemma pairs_nodup {A} (l : list A) : NoDup l -> NoDup (pairs l).
  Proof.
    induction l as [|x l IH]; cbn; intros N; [constructor|]. inversion N; subst.
    assert (X : forall m m' : list (A * A), NoDup m -> NoDup m' -> (forall p, In p m -> ~ In p m') -> NoDup (m ++ m')).
    { clear. induction m; cbn; intros m' N N' D; auto. inversion N; subst. constructor; [rewrite in_app_iff; intros [Hi|Hi]; [auto|eapply D; eauto]|]. apply IHm; auto. }
    apply X; auto.
    - apply FinFun.Injective_map_NoDup; auto. intros u v E. congruence.
    - intros [u v] Hin Hin'. apply in_map_iff in Hin as (y & E & Hy). injection E as <- <-. apply pairs_in in Hin' as [? _]. contradiction.
  Qed.
  Lemma pairs_either {A} (l : list A) a b : In a l -> In b l -> a <> b -> In (a, b) (pairs l) \/ In (b, a) (pairs l).
  Proof.
    induction l as [|x l IH]; cbn; [intros []|]. intros [->|Ha] [->|Hb] N; try congruence; rewrite !in_app_iff, !in_map_iff; eauto.
    destruct (IH Ha Hb N); auto.
  Qed.
  Lemma pairs_once {A} (l : list A) a b : NoDup l -> In (a, b) (pairs l) -> ~ In (b, a) (pairs l).
  Proof.
    induction l as [|x l IH]; cbn; [intros _ []|]. intros N. inversion N; subst. rewrite !in_app_iff, !in_map_iff.
    intros [(y & E & Hy)|Hin] [(z & E' & Hz)|Hin'].
    - injection E as <- <-. injection E' as -> ->. contradiction.
    - injection E as <- <-. apply pairs_in in Hin' as [_ ?]. contradiction.
    - injection E' as <- <-. apply pairs_in in Hin as [_ ?]. contradiction.
    - eapply IH; eauto.
  Qed.
  (** every pair of parts that is not skipped exactly once *)
  Lemma assembly_pairs r l transforms skip : ok H r l -> NoDup (map fst transforms) ->
    exists rs, check_assembly user geometry usable detect H r transforms skip = ROk rs /\
      NoDup (map pair_of rs) /\
      (forall a b, In (a, b) (map pair_of rs) -> a <> b /\ ~ In (b, a) (map pair_of rs) /\ In a (map fst transforms) /\ In b (map fst transforms) /\ skipped skip a b = false) /\
      (forall a b, In a (map fst transforms) -> In b (map fst transforms) -> a <> b -> skipped skip a b = false -> In (a, b) (map pair_of rs) \/ In (b, a) (map pair_of rs)) /\
      (forall x, In x rs -> exists ta tb, In (part_a x, ta) transforms /\ In (part_b x, tb) transforms /\ check r (part_a x) ta (part_b x) tb = ROk x).
  Proof.
    intros O N. unfold check_assembly.
    destruct (check_all_answers r l (filter (fun p => negb (skipped skip (fst (fst p)) (fst (snd p)))) (pairs transforms)) O) as (rs & -> & E & F).
    exists rs. split; auto.
    assert (E' : map pair_of rs = filter (fun p => negb (skipped skip (fst p) (snd p))) (pairs (map fst transforms))).
    { rewrite E, <- pairs_map. clear. induction (pairs transforms) as [|p l IH]; cbn; auto. destruct (negb (skipped skip (fst (fst p)) (fst (snd p)))); cbn; rewrite IH; auto. }
    rewrite E'. split; [|split; [|split]].
    - apply NoDup_filter, pairs_nodup, N.
    - intros a b Hin. apply filter_In in Hin as [Hin Hs]. cbn in Hs. apply negb_true_iff in Hs. split; [eapply pairs_neq; eauto|]. split.
      + rewrite filter_In. intros [Hin' _]. eapply pairs_once; eauto.
      + destruct (pairs_in _ _ _ Hin). auto.
    - intros a b Ha Hb Nab Hs.
      assert (Hs' : skipped skip b a = false) by (unfold skipped in *; rewrite <- Hs; clear; induction skip as [|s k IH]; cbn; auto; rewrite IH; f_equal; apply orb_comm).
      destruct (pairs_either _ a b Ha Hb Nab) as [Hin|Hin]; [left|right]; apply filter_In; cbn; rewrite ?Hs, ?Hs'; auto.
    - clear E E'. intros x Hx.
      assert (Y : forall ps rs, Forall2 (fun p x => check r (fst (fst p)) (snd (fst p)) (fst (snd p)) (snd (snd p)) = ROk x) ps rs -> In x rs ->
        exists p, In p ps /\ check r (fst (fst p)) (snd (fst p)) (fst (snd p)) (snd (snd p)) = ROk x).
      { clear. induction 1 as [|p y ps rs E F IH]; intros []; [subst; eexists; split; [left; reflexivity|auto]|]. destruct IH as (p' & ? & ?); auto. exists p'. cbn. auto. }
      destruct (Y _ _ F Hx) as ([[a ta] [b tb]] & Hp & Ex). cbn in Ex. apply filter_In in Hp as [Hp _]. apply pairs_in in Hp as [Ha Hb].
      destruct (check_answers r l a ta b tb O) as (x' & Ex' & <- & <- & _). assert (x' = x) by congruence. subst x'. exists ta, tb. auto.
  Qed.
  Lemma summary_adds_up (rs : list result) : let s := collision_summary rs in
    total_pairs s = length rs /\ (collisions_detected s + length (filter (fun x => negb (collides x)) rs) = total_pairs s)%nat /\
    (actual_errors s + expected_interfaces s = collisions_detected s)%nat /\
    actual_errors s = length (error_pairs s) /\ expected_interfaces s = length (interface_pairs s) /\
    (forall a b, In (a, b) (error_pairs s) <-> exists x, In x rs /\ pair_of x = (a, b) /\ collides x = true /\ compatible_interface x = false).
  Proof.
    cbn [collision_summary total_pairs collisions_detected actual_errors expected_interfaces error_pairs interface_pairs]. unfold count. rewrite !map_length. repeat split; auto.
    - induction rs as [|x rs IH]; cbn; auto. destruct (collides x); cbn; lia.
    - unfold is_error, is_interface_overlap. induction rs as [|x rs IH]; cbn; auto. destruct (collides x) eqn:C; cbn; auto. rewrite C. cbn. destruct (compatible_interface x); cbn; lia.
    - intros Hin. apply in_map_iff in Hin as (x & E & Hx). apply filter_In in Hx as [Hx Er]. apply filter_In in Hx as [Hx C]. unfold is_error in Er. rewrite C in Er. cbn in Er.
      apply negb_true_iff in Er. exists x. auto.
    - intros (x & Hx & E & C & K). apply in_map_iff. exists x. split; auto. apply filter_In. split; [apply filter_In; auto|]. unfold is_error. rewrite C, K. reflexivity.
  Qed.
End Detector.
