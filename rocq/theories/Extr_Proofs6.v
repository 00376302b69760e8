(** The main statement about extrude. *)
From Coq Require Import Reals List Bool ZArith Lra Lia Permutation Arith.
From Verif Require Import Xform_Model Xform_Proofs Fig_Model Fig_Proofs Solid_Model Solid_Spec Solid_Proofs Solid_Proofs2 Solid_Proofs3 Solid_Proofs5 Solid_Proofs6
  Prim_Model Prim_Lab Extr_Model Extr_Spec Extr_Proofs Extr_Proofs2 Extr_Proofs3 Extr_Proofs4 Extr_Proofs5.
Import ListNotations.
Open Scope R_scope.

Lemma consecutive_triples {A} (l : list A) a b c : consecutive l a b c -> In (a, b, c) (loop_triples l).
Proof.
  intros (i & H1 & H2). pose proof (round_nth l i a b H1) as (Hi & A1 & _).
  pose proof (round_nth l _ b c H2) as (_ & B1 & _).
  destruct l as [|x r]; [cbn in Hi; lia|]. set (l := x :: r) in *.
  assert (RS : nth_error (r ++ [x]) (S i mod length l) = Some c).
  { assert (E : nth_error (round l) (S i mod length l) = match nth_error l (S i mod length l), nth_error (r ++ [x]) (S i mod length l) with Some a, Some b => Some (a, b) | _, _ => None end) by apply combine_nth_error.
    rewrite H2, B1 in E. destruct (nth_error (r ++ [x]) (S i mod length l)); congruence. }
  apply (nth_error_In _ (S i mod length l)).
  assert (ET : nth_error (loop_triples l) (S i mod length l) =
     match match nth_error (last r x :: removelast l) (S i mod length l), nth_error l (S i mod length l) with Some a, Some b => Some (a, b) | _, _ => None end,
           nth_error (r ++ [x]) (S i mod length l) with Some a, Some b => Some (a, b) | _, _ => None end).
  { unfold loop_triples, l at 1. fold l. rewrite !combine_nth_error. reflexivity. }
  rewrite ET, RS, B1.
  assert (P : nth_error (last r x :: removelast l) (S i mod length l) = Some a).
  { destruct (Nat.eq_dec (S i) (length l)) as [E|E].
    - rewrite E, Nat.mod_same by lia. cbn [nth_error]. rewrite <- A1. replace i with (length r) by (unfold l in E; cbn in E; lia). unfold l. symmetry. apply last_nth.
    - rewrite Nat.mod_small by lia. cbn [nth_error]. rewrite removelast_nth by lia. exact A1. }
  rewrite P. reflexivity.
Qed.
Lemma triples_mid {A} (l : list A) : map (fun x : A * A * A => snd (fst x)) (loop_triples l) = l.
Proof. rewrite <- (round_fst l) at 2. rewrite <- triples_snd, map_map. reflexivity. Qed.
Lemma all_triples_mid {A} (ls : list (list A)) : map (fun x : A * A * A => snd (fst x)) (flat_map loop_triples ls) = concat ls.
Proof. induction ls as [|l ls IH]; [reflexivity|]. cbn [flat_map concat]. rewrite map_app, triples_mid, IH. reflexivity. Qed.
Lemma all_triples_walls n ls :
  flat_map (fun x : Z * Z * Z => wall_faces n (snd (fst x), snd x)) (flat_map loop_triples ls) = flat_map (wall_faces n) (flat_map round ls).
Proof.
  induction ls as [|l ls IH]; [reflexivity|]. cbn [flat_map]. rewrite !flat_map_app, IH. f_equal.
  rewrite <- triples_snd, flat_map_map. reflexivity.
Qed.
Lemma filter_all {A} (f : A -> bool) l : (forall x, In x l -> f x = true) -> filter f l = l.
Proof. induction l as [|a l IH]; intros H; [reflexivity|]. cbn [filter]. rewrite H by (left; reflexivity). f_equal. apply IH. intros; apply H; right; auto. Qed.

Lemma extrude_main s d dir n outer hs :
  issurface s = true -> w_one s -> epsilon < d -> epsilon <= mag (scaled d dir) -> first_normal s n ->
  proper_mesh s (outer :: hs) -> outline s (outer :: hs) ->
  either_way (bnd s) outer -> Forall2 either_way (holes s) hs ->
  counterclockwise s n outer -> Forall (clockwise s n) hs ->
  (forall l, In l (outer :: hs) -> broad s (scaled d dir) l) ->
  exists strip ts, extrude s d dir = Val [turned_over s; strip; shifted (scaled d dir) s] /\
    verts strip = verts s ++ map (moved (scaled d dir)) (verts s) /\
    (forall l i j k p r, In l (outer :: hs) -> consecutive l i j k -> at_index (verts s) i p -> at_index (verts s) k r ->
       exists m, wall_normal (scaled d dir) p r m /\ at_index (norms strip) j m /\ at_index (norms strip) (j + Z.of_nat (length (verts s))) m) /\
    issolid [turned_over s; strip; shifted (scaled d dir) s] = true /\
    triangles [turned_over s; strip; shifted (scaled d dir) s] ts /\ oriented ts /\
    (forall ts0, triangles [s] ts0 -> signed_volume ts = Rsum (swept (scaled d dir)) ts0) /\
    (far_apart (verts s ++ map (moved (scaled d dir)) (verts s)) ->
       issolidclosed [turned_over s; strip; shifted (scaled d dir) s] = Val true /\
       forall ts0, triangles [s] ts0 -> volumeof [turned_over s; strip; shifted (scaled d dir) s] = Val (Rabs (Rsum (swept (scaled d dir)) ts0))).
Proof.
  intros IS W Hd Ht Hn (Pr & Pd & Pc & P3) (inner & HP & HB) Eo Eh Co Ch Hbr.
  set (t := scaled d dir) in *. set (loops := outer :: hs) in *. set (N := Z.of_nat (length (verts s))).
  set (V := verts s ++ map (moved t) (verts s)). set (L := flat_map round loops).
  change (face_indices s) with (lall (faces s)) in *. change (map turned inner) with (map lback inner) in HB. fold (balanced inner) in HB.
  assert (FR := F_range N (faces s) Pr).
  assert (LI : forall e, In e L -> In e (lall (faces s))) by (intros; eapply L_in; eauto).
  assert (LR : forall l i, In l loops -> In i l -> (0 <= i < N)%Z).
  { intros l i Hl Hi. rewrite <- (round_fst l) in Hi. apply in_map_iff in Hi as ([a b] & E & Hi). cbn in E. subst a.
    apply (FR i b). apply LI. apply in_flat_map. exists l. auto. }
  assert (OK : forall x, In x (flat_map loop_triples loops) -> ok (verts s) t x).
  { intros [[a b] c] H. apply in_flat_map in H as (l & Hl & H). apply triples_consecutive in H.
    pose proof (consecutive_in _ _ _ _ H) as (I1 & I2 & I3). unfold ok. fold N.
    assert (A1 := LR l a Hl I1). assert (A2 := LR l b Hl I2). assert (A3 := LR l c Hl I3). repeat split; try tauto.
    apply (Hbr l Hl a b c); auto; apply pos_at; auto. }
  apply issurface_parts in IS. destruct IS as (S1 & S2 & S3 & S4).
  pose (ns := fold_left (put (verts s) t) (flat_map loop_triples loops) (map (fun _ => mkv 0 0 1 0) V)).
  assert (LV : length V = (length (verts s) + length (verts s))%nat) by (unfold V; rewrite app_length, map_length; reflexivity).
  assert (Lns : length ns = length V) by (unfold ns; rewrite puts_length, map_length; reflexivity).
  assert (Wns : Forall (fun m => vw m = 0) ns).
  { unfold ns. apply puts_w. apply Forall_forall. intros m Hm. apply in_map_iff in Hm as (p & <- & _). reflexivity. }
  pose (strip := mksurf V ns (flat_map (wall_faces N) L) [] []).
  assert (IT : issurface strip = true).
  { apply issurface_parts. cbn [strip verts norms]. rewrite LV. split; [lia|]. split; [|split; [|congruence]].
    - unfold V. apply Forall_app. split; [exact S2|]. apply Forall_forall. intros p Hp. apply in_map_iff in Hp as (q & <- & _). cbn. lra.
    - eapply Forall_impl; [|exact Wns]. intros m ->. apply close_true. rewrite Rminus_0_r, Rabs_R0. apply eps_pos. }
  assert (EX : extrude s d dir = Val [turned_over s; strip; shifted t s]).
  { unfold extrude. cbv zeta. replace (Rleb d epsilon) with false by (symmetry; apply Rleb_f; exact Hd).
    rewrite (translate_shifted s d dir Ht). fold t. rewrite reverse_turned. cbn [turned_over shifted verts]. fold V N.
    assert (OV : orient_loops V (extrude_project s) (extrude_loops s) = Val loops) by exact (orient_val s n (map (moved t) (verts s)) outer hs W Hn LR P3 Eo Eh Co Ch).
    rewrite OV. cbn [obind].
    rewrite filter_all by (intros l Hl; unfold long_loop; apply negb_true_iff, Nat.ltb_ge; pose proof (P3 l Hl); lia).
    assert (WV : walls V N (flat_map loop_triples loops) (map (fun _ => mkv 0 0 1 0) V, []) = Val (ns, flat_map (wall_faces N) L)).
    { unfold L. rewrite <- all_triples_walls. apply (walls_val (verts s) t (flat_map loop_triples loops) (map (fun _ => mkv 0 0 1 0) V) []); auto.
      rewrite map_length. reflexivity. }
    rewrite WV. cbn [obind].
    replace (nonempty (flat_map (wall_faces N) L)) with true.
    2:{ symmetry. unfold L, loops. cbn [flat_map]. pose proof (P3 outer (or_introl eq_refl)) as Q. destruct outer as [|a [|b o]]; cbn in Q; try lia. reflexivity. }
    unfold mk_surface. fold strip. rewrite IT. replace (Nat.eqb (length V) (length ns)) with true by (symmetry; apply Nat.eqb_eq; congruence).
    reflexivity. }
  assert (SO : issolid [turned_over s; strip; shifted t s] = true).
  { unfold issolid. cbn [forallb]. rewrite IT. rewrite andb_true_r.
    assert (I1 : issurface (turned_over s) = true).
    { apply issurface_parts. cbn [turned_over verts norms]. rewrite map_length. repeat split; auto.
      apply Forall_forall. intros m Hm. apply in_map_iff in Hm as (q & <- & Hq). cbn [vw]. apply close_opp.
      apply (proj1 (Forall_forall _ _) S3). exact Hq. }
    assert (I2 : issurface (shifted t s) = true).
    { apply issurface_parts. cbn [shifted verts norms]. rewrite map_length. repeat split; auto.
      apply Forall_forall. intros m Hm. apply in_map_iff in Hm as (q & <- & Hq). cbn. lra. }
    rewrite I1, I2. reflexivity. }
  pose (ts := map (at_pos (pos V)) (ext_faces N (faces s) L)).
  assert (TR : triangles [turned_over s; strip; shifted t s] ts) by (apply ext_triangles; auto).
  assert (LO : lorient (ext_faces N (faces s) L)) by (eapply ext_lorient; eauto).
  assert (VOL : forall ts0, triangles [s] ts0 -> signed_volume ts = Rsum (swept t) ts0).
  { intros ts0 H0. rewrite (self_triangles s Pr ts0 H0). eapply ext_volume; eauto. }
  exists strip, ts. split; [exact EX|]. split; [reflexivity|]. split; [|split; [exact SO|split; [exact TR|split; [apply orient_pos; exact LO|split; [exact VOL|]]]]].
  - intros l i j k p r Hl Hc Hp Hk. pose proof (consecutive_in _ _ _ _ Hc) as (I1 & I2 & I3).
    assert (A1 := LR l i Hl I1). assert (A2 := LR l j Hl I2). assert (A3 := LR l k Hl I3).
    apply consecutive_triples in Hc. assert (HT : In (i, j, k) (flat_map loop_triples loops)) by (apply in_flat_map; exists l; auto).
    exists (wnormal (verts s) t (i, j, k)). rewrite (at_pos_eq _ _ _ A1 Hp), (at_pos_eq _ _ _ A3 Hk).
    split; [apply wnormal_spec; auto|].
    assert (ND : NoDup (map (fun x : Z * Z * Z => snd (fst x)) (flat_map loop_triples loops))) by (rewrite all_triples_mid; exact Pc).
    destruct (puts_in (verts s) t (flat_map loop_triples loops) (map (fun _ => mkv 0 0 1 0) V) (i, j, k)) as [Q1 Q2]; auto.
    { rewrite map_length. reflexivity. }
    cbn [fst snd] in Q1, Q2. fold ns in Q1, Q2. fold N in Q2.
    split; [exists (Z.to_nat j); split; [exact Q1|left; lia]|exists (Z.to_nat (j + N)); split; [exact Q2|left; lia]].
  - intros FA.
    assert (SEP : forall a b, label (ext_faces N (faces s) L) a -> label (ext_faces N (faces s) L) b -> a = b \/ 2 * epsilon < dist (pos V a) (pos V b)).
    { intros a b Ha Hb. eapply ext_label in Ha; eauto. eapply ext_label in Hb; eauto.
      destruct (FA (Z.to_nat a) (Z.to_nat b) (pos V a) (pos V b)) as [E|E].
      - unfold pos. apply nth_error_nth'. fold V. lia.
      - unfold pos. apply nth_error_nth'. fold V. lia.
      - left. lia.
      - right. exact E. }
    assert (CL : issolidclosed [turned_over s; strip; shifted t s] = Val true).
    { apply (closed_iff _ _ SO TR); [apply separated_pos; exact SEP|].
      apply tight_pos; [exact LO|eapply ext_nodup; eauto|intros a; eapply ext_noloop; eauto|apply sep_inj; exact SEP]. }
    split; [exact CL|]. intros ts0 H0. apply (volumeof_iff _ _ _ TR). rewrite (VOL ts0 H0). auto.
Qed.
