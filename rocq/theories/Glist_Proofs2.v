From Coq Require Import Reals List Bool Lra Lia Psatz.
From Verif Require Import Xform_Model Xform_Proofs Fig_Model Fig_Proofs Fig_Proofs2 Isect_Model Isect_Spec
  Isect_Proofs Isect_Proofs2 Isect_Proofs3 Glist_Model Glist_Spec Glist_Proofs.
Import ListNotations.
Open Scope R_scope.

Lemma long_glen g : long g -> glength g = Ok (glen g) /\ 0 < glen g.
Proof. intros (l & E & H). unfold glen. rewrite E. auto. Qed.
Lemma long_lens gs : Forall long gs -> Forall (fun g => 0 < glen g) gs.
Proof. intros H. eapply Forall_impl; [|exact H]. intros g K. apply long_glen, K. Qed.
Lemma ln_sum gs : forall acc, Forall long gs -> ln_list gs acc = Ok (acc + total gs).
Proof.
  induction gs as [|g r IH]; intros acc F; cbn [ln_list total fold_right]; [f_equal; lra|]. inversion F as [|? ? Fg Fr]; subst.
  destruct (long_glen g Fg) as [-> _]. cbn [bind]. rewrite IH by exact Fr. f_equal. unfold total. lra.
Qed.
Lemma list_len gs : Forall long gs -> glength (GList gs) = Ok (total gs).
Proof. intros F. rewrite glength_list, ln_sum by exact F. f_equal. lra. Qed.

Definition seek (dst : R) : list geo -> R -> res (option vec) :=
  fix seek (gs : list geo) (d : R) : res (option vec) :=
             match gs with
             | [] => Ok None
             | g :: r =>
                 bind (glength g) (fun l =>
                   if Rleb dst (d + l) then bind (fdiv (d + l - dst) l) (fun q => sample g (1 - q))
                   else seek r (d + l))
             end.
Definition fin (dst leng : R) : list geo -> res (option vec) :=
  fix fin (gs : list geo) : res (option vec) :=
             match gs with
             | [] => TypeError
             | [g] => bind (glength g) (fun l => bind (fdiv (dst - leng + l) l) (fun uu => sample g uu))
             | _ :: r => fin r
             end.
Lemma sample_GList gs u : sample (GList gs) u =
  bind (glength (GList gs)) (fun leng => if Rltb u 1 then seek (u * leng) gs 0 else fin (u * leng) leng gs).
Proof. reflexivity. Qed.
Notation gpath := (path glen sample (Ok None)).
Lemma total_tot gs : total gs = tot glen gs. Proof. reflexivity. Qed.
Lemma seek_path gs : forall dst d, Forall long gs -> gs <> [] -> dst - d <= total gs -> seek dst gs d = gpath gs (dst - d).
Proof.
  induction gs as [|g r IH]; intros dst d F N T; [congruence|]. inversion F as [|? ? Fg Fr]; subst. destruct (long_glen g Fg) as [E P].
  cbn [seek]. rewrite E. cbn [bind]. cbn [total fold_right] in T. fold (total r) in T.
  destruct (Rleb dst (d + glen g)) eqn:C; [apply Rleb_true in C|apply Rleb_false in C].
  - rewrite path_cons by (first [lra|right; lra]). rewrite fdiv_ok by lra. cbn [bind]. f_equal. field. lra.
  - destruct r as [|h r']; [cbn in T; lra|]. rewrite path_skip by (first [discriminate|lra]).
    change (seek dst (h :: r') (d + glen g) = gpath (h :: r') (dst - d - glen g)).
    rewrite IH; [f_equal; lra|exact Fr|discriminate|lra].
Qed.
Lemma fin_path gs : forall dst leng, Forall long gs -> gs <> [] -> leng <= dst ->
  fin dst leng gs = gpath gs (dst - leng + total gs).
Proof.
  induction gs as [|g r IH]; intros dst leng F N T; [congruence|]. inversion F as [|? ? Fg Fr]; subst. destruct (long_glen g Fg) as [E P].
  cbn [fin total fold_right]. fold (total r). destruct r as [|h r'].
  - rewrite E. cbn [bind]. rewrite fdiv_ok by lra. cbn [bind path]. do 2 f_equal. cbn. lra.
  - pose proof (tot_pos glen (h :: r') (long_lens _ Fr) ltac:(discriminate)) as TP. rewrite total_tot.
    rewrite path_skip by (first [discriminate|lra]). rewrite IH by (first [assumption|discriminate]). rewrite total_tot. f_equal. lra.
Qed.
Lemma sample_path gs u : Forall long gs -> gs <> [] -> sample (GList gs) u = gpath gs (u * total gs).
Proof.
  intros F N. rewrite sample_GList, (list_len gs F). cbn [bind]. pose proof (tot_pos glen gs (long_lens _ F) N) as TP. change (tot glen gs) with (total gs) in TP.
  destruct (Rltb u 1) eqn:C; [apply Rltb_true in C|apply Rltb_false in C].
  - rewrite seek_path; [f_equal; lra|exact F|exact N|]. rewrite Rminus_0_r. nra.
  - rewrite fin_path; [f_equal; lra|exact F|exact N|nra].
Qed.
Lemma sample_place gs u : Forall long gs -> gs <> [] -> 0 <= u <= 1 ->
  exists pre g post t, gs = pre ++ g :: post /\ 0 <= t <= 1 /\ sample (GList gs) u = sample g t /\
    u * total gs = total pre + t * glen g.
Proof.
  intros F N U. rewrite sample_path by assumption. pose proof (tot_pos glen gs (long_lens _ F) N) as TP. change (tot glen gs) with (total gs) in TP.
  apply (path_place glen sample (Ok None) gs (u * total gs) (long_lens _ F) N). change (tot glen gs) with (total gs). nra.
Qed.
Lemma path_first gs : Forall long gs -> forall g r, gs = g :: r -> sample (GList gs) 0 = sample g 0.
Proof.
  intros F g r ->. inversion F as [|? ? Fg Fr]; subst. destruct (long_glen g Fg) as [E P]. rewrite sample_path by (first [assumption|discriminate]).
  rewrite Rmult_0_l. rewrite path_cons by (first [lra|right; lra]). f_equal. field. lra.
Qed.
Lemma path_last gs : Forall long gs -> forall l g, gs = l ++ [g] -> sample (GList gs) 1 = sample g 1.
Proof.
  intros F l g E. rewrite sample_path; [|exact F|rewrite E; destruct l; discriminate]. rewrite Rmult_1_l. subst gs.
  induction l as [|h l IH]; cbn [app] in *.
  - inversion F as [|? ? Fg Fr]; subst. destruct (long_glen g Fg) as [E P]. rewrite path_cons by (first [lra|auto]). f_equal. cbn. field. lra.
  - inversion F as [|? ? Fg Fr]; subst. pose proof (tot_pos glen (l ++ [g]) (long_lens _ Fr) ltac:(destruct l; discriminate)) as TP.
    cbn [total fold_right]. fold (total (l ++ [g])). rewrite total_tot in *. rewrite path_skip; [|destruct l; discriminate|lra].
    replace (glen h + tot glen (l ++ [g]) - glen h) with (total (l ++ [g])) by (rewrite total_tot; lra). apply IH. exact Fr.
Qed.

(** ** cutting lines and arcs *)
Definition seg1 (g : geo) (x y : R) : geo :=
  match g with
  | GLine l => GLine (segmentline l x y)
  | GArc c => GArc (segmentarc c x y)
  | _ => g
  end.
Lemma cuttable_eps g : cuttable g -> epsilon <= glen g.
Proof. destruct g; cbn; try contradiction; unfold glen; cbn; tauto. Qed.
Lemma cuttable_long g : cuttable g -> long g.
Proof.
  assert (EP : 0 < epsilon) by (unfold epsilon; lra).
  destruct g; cbn; try contradiction; intros H; unfold long; cbn; eexists; split; try reflexivity; [lra|destruct H as (_ & _ & H); lra].
Qed.
Lemma arclength_plain c : plain_arc c -> arclength c = pi2 * a_r c * (snd (arc_range c) - fst (arc_range c)) / 360.
Proof.
  intros P. unfold arclength. rewrite (plain_not_circle c P). destruct (plain_range c P) as [-> ->]. pose proof P as (A & B & N & F). rewrite (pymod_id (a_start c)) by lra.
  cbv zeta. destruct (plain_end c P) as [[E ->]|[E ->]].
  - reflexivity.
  - rewrite E. rewrite (proj2 (Rltb_false 360 (a_start c))) by lra. destruct (Rltb 0 (a_start c)) eqn:Z; [f_equal; f_equal; lra|].
    apply Rltb_false in Z. exfalso. apply F. split; [lra|exact E].
Qed.
Lemma reduced_len p r rv ga dl : 0 < dl < 360 -> arclength (mkarc p r (pymod ga 360) (pymod (ga + dl) 360) rv) = pi2 * r * dl / 360.
Proof.
  intros H. pose proof (pymod_range ga 360 ltac:(lra)) as A. pose proof (pymod_range (ga + dl) 360 ltac:(lra)) as B. destruct (pymod_dec ga) as [k K].
  unfold arclength, iscircle. cbn [a_start a_end a_r]. rewrite (proj2 (Reqb_false (pymod (ga + dl) 360) 360)) by lra. rewrite andb_false_r.
  cbv zeta. rewrite (pymod_id (pymod ga 360)), (pymod_id (pymod (ga + dl) 360)) by lra. set (a := pymod ga 360) in *.
  assert (C : (a + dl < 360 /\ pymod (ga + dl) 360 = a + dl) \/ (360 <= a + dl /\ pymod (ga + dl) 360 = a + dl - 360)).
  { destruct (Rlt_dec (a + dl) 360) as [Q|Q]; [left|right]; (split; [lra|]).
    - apply (pymod_eq _ _ k); lra.
    - apply (pymod_eq _ _ (k + 1)); [lra|]. rewrite plus_IZR. lra. }
  destruct C as [[C1 ->]|[C1 ->]].
  - rewrite (proj2 (Rltb_false (a + dl) a)) by lra. f_equal. f_equal. lra.
  - rewrite (proj2 (Rltb_true (a + dl - 360) a)) by lra. f_equal. f_equal. lra.
Qed.
Lemma seg_len_ok g x y : cuttable g -> 0 <= x -> x < y -> y <= 1 -> glen (seg1 g x y) = (y - x) * glen g.
Proof.
  intros C X XY Y. destruct g as [p|l|c|a|gs|]; try contradiction; unfold glen; cbn [seg1 glength].
  - unfold segmentline, linelength at 1. cbn [fst snd]. rewrite sampleline_dist, Rabs_minus_sym, Rabs_right by lra. reflexivity.
  - destruct C as (P & R & _). rewrite (arclength_plain c P). destruct (plain_ranged c P) as [[R1 R2] R3]. unfold segmentarc, arc_angle.
    destruct (arc_range c) as [s e]. cbn [fst snd] in *. destruct (a_rev c).
    + replace ((e - s) * (1 - x) + s) with ((e - s) * (1 - y) + s + (e - s) * (y - x)) by ring. rewrite reduced_len by nra. field.
    + replace ((e - s) * y + s) with ((e - s) * x + s + (e - s) * (y - x)) by ring. rewrite reduced_len by nra. field.
Qed.
Lemma seg_smp_ok g x y t : cuttable g -> 0 <= x -> x < y -> y <= 1 -> sample (seg1 g x y) t = sample g (x + t * (y - x)).
Proof.
  intros C X XY Y. destruct g as [p|l|c|a|gs|]; try contradiction; cbn [seg1 sample].
  - rewrite segment_sample. reflexivity.
  - destruct C as (P & R & _). destruct (plain_ranged c P) as [[R1 R2] R3]. rewrite segment_samples; [reflexivity|split; assumption|exact XY|nra].
Qed.
Lemma loop_ext {A} (len : A -> res R) (len' : A -> R) (seg : A -> R -> R -> res A) (seg' : A -> R -> R -> A) dst1 dst2 gs :
  Forall (fun g => len g = Ok (len' g) /\ forall x y, seg g x y = Ok (seg' g x y)) gs -> forall d b,
  seg_loop len seg dst1 dst2 gs d b = seg_loop (fun g => Ok (len' g)) (fun g x y => Ok (seg' g x y)) dst1 dst2 gs d b.
Proof.
  induction 1 as [|g r [E S] F IH]; intros d b; [reflexivity|]. cbn [seg_loop]. rewrite E. cbn [bind]. rewrite !IH. cbv zeta. rewrite !S. reflexivity.
Qed.
Lemma loop_good gs : Forall cuttable gs -> Forall long gs.
Proof. intros H. eapply Forall_impl; [|exact H]. exact cuttable_long. Qed.
Lemma seg_types dst1 dst2 gs : forall d b gs', Forall cuttable gs ->
  seg_loop (fun g => Ok (glen g)) (fun g x y => Ok (seg1 g x y)) dst1 dst2 gs d b = Ok gs' ->
  Forall (fun g => exists l, glength g = Ok l) gs'.
Proof.
  assert (S : forall g x y, cuttable g -> exists l, glength (seg1 g x y) = Ok l).
  { intros g x y C. destruct g as [p|l|c|a|l|]; try contradiction; cbn; eexists; reflexivity. }
  assert (K : forall g, cuttable g -> exists l, glength g = Ok l).
  { intros g C. destruct (cuttable_long g C) as (l & E & _). exists l. exact E. }
  induction gs as [|g r IH]; intros d b gs' F E; cbn [seg_loop] in E; [injection E as <-; constructor|].
  inversion F as [|? ? Fg Fr]; subst. cbn [bind] in E. cbv zeta in E. destruct (Rltb (glen g) epsilon); [eapply IH; eauto|].
  destruct (Rleb dst1 (d + glen g)); [|eapply IH; eauto]. destruct b; cbn [negb] in E.
  - destruct (Rleb dst2 (d + glen g)); [injection E as <-; repeat constructor; auto|].
    destruct (seg_loop _ _ _ _ r _ _) eqn:Q; cbn [bind] in E; try discriminate. injection E as <-. constructor; [auto|eapply IH; eauto].
  - destruct (Rltb dst2 (d + glen g)); [injection E as <-; repeat constructor; auto|].
    destruct (seg_loop _ _ _ _ r _ _) eqn:Q; cbn [bind] in E; try discriminate. injection E as <-. constructor; [auto|eapply IH; eauto].
Qed.
Lemma segment_ok gs u1 u2 : Forall cuttable gs -> gs <> [] -> 0 <= u1 -> u1 < u2 -> u2 <= 1 ->
  ~ joint gs (u1 * total gs) -> ~ joint gs (u2 * total gs) ->
  exists gs', segmentgeomlist gs u1 u2 = Ok gs' /\ glength (GList gs') = Ok ((u2 - u1) * total gs) /\
    forall v, 0 <= v <= 1 -> sample (GList gs') v = sample (GList gs) (u1 + v * (u2 - u1)).
Proof.
  intros F N U1 U12 U2 J1 J2. pose proof (loop_good gs F) as FL. pose proof (tot_pos glen gs (long_lens _ FL) N) as TP. change (tot glen gs) with (total gs) in TP.
  destruct (loop_fresh glen sample (Ok None) seg1 cuttable cuttable_eps seg_len_ok seg_smp_ok gs (u1 * total gs) (u2 * total gs) 0 F N) as (gs' & E & N' & P & L & Q).
  - nra. - nra. - change (tot glen gs) with (total gs). nra. - rewrite Rminus_0_r. exact J1. - rewrite Rminus_0_r. exact J2.
  - exists gs'. assert (FL' : Forall long gs').
    { pose proof (seg_types _ _ _ _ _ _ F E) as ST. rewrite Forall_forall in *. intros g I. destruct (ST g I) as [l El]. exists l. split; [exact El|]. specialize (P g I). unfold glen in P. rewrite El in P. exact P. }
    change (tot glen gs') with (total gs') in L. split; [|split].
    + unfold segmentgeomlist. rewrite (list_len gs FL). cbn [bind]. unfold slice.
      rewrite (proj2 (Rltb_false u1 0)), (proj2 (Rltb_false u2 u1)), (proj2 (Rltb_false u2 0)), (proj2 (Rltb_false 1 u2)) by lra. cbn [orb].
      rewrite (loop_ext glength glen seg_simple seg1); [exact E|]. rewrite Forall_forall in *. intros g I. split; [apply long_glen, FL, I|].
      intros x y. specialize (F g I). destruct g; try contradiction; reflexivity.
    + rewrite (list_len gs' FL'), L. f_equal. lra.
    + intros v V. rewrite !sample_path by assumption. assert (D : 0 <= u2 * total gs - u1 * total gs) by nra. rewrite L, Q; [f_equal; ring|].
      set (D0 := u2 * total gs - u1 * total gs) in *. clearbody D0. nra.
Qed.
