(** Tree queries and counterexamples. *)
From Coq Require Import Reals Lra List String Bool Arith Lia Permutation.
From Verif Require Import Dict Xform_Model Kin_Model Kin_Spec Kin_Proofs Kin_Proofs2 Kin_Proofs3.
Import ListNotations.
Close Scope R_scope.
Open Scope nat_scope.
Open Scope list_scope.

Section P.
  Context {K : kin}.
  Implicit Types (c : chain K) (p : part K).
  Lemma below_inv c n m : below c n m -> m = n \/ exists q, below c n q /\ In m (get_children c q).
  Proof.
    induction 1 as [n|n ch m H1 H2 IH]; [left; auto|]. right. destruct IH as [->|(q & A & B)].
    - exists n. split; auto. constructor.
    - exists q. split; auto. econstructor; eauto.
  Qed.
  Lemma parent_unique c r m q1 q2 : Struct c r -> In m (get_children c q1) -> In m (get_children c q2) -> q1 = q2.
  Proof.
    intros S H1 H2. destruct (st_ch2 _ _ S _ _ H1) as (p1 & A & B & _).
    destruct (st_ch2 _ _ S _ _ H2) as (p2 & A' & B' & _). congruence.
  Qed.
  Lemma child_rank c r m q : Struct c r -> In m (get_children c q) -> r q < r m.
  Proof.
    intros S H. destruct (st_ch2 _ _ S _ _ H) as (p & A & B & C).
    destruct (st_parent _ _ S m p C A) as (q' & pq & D & _ & E & _). assert (q' = q) by congruence. subst. exact E.
  Qed.
  Lemma below_rank c r n m : Struct c r -> below c n m -> r n <= r m.
  Proof. intros S. induction 1; [lia|]. pose proof (child_rank c r _ _ S H). lia. Qed.
  Lemma below_linear c r (S : Struct c r) : forall k x a b, r x < k -> below c a x -> below c b x -> below c a b \/ below c b a.
  Proof.
    induction k as [|k IH]; intros x a b Hk Ha Hb; [lia|].
    destruct (below_inv _ _ _ Ha) as [->|(q & A1 & A2)]; [auto|].
    destruct (below_inv _ _ _ Hb) as [->|(q' & B1 & B2)]; [auto|].
    rewrite (parent_unique _ _ _ _ _ S B2 A2) in B1. apply (IH q); auto.
    pose proof (child_rank _ _ _ _ S A2). lia.
  Qed.
  Lemma siblings_disjoint c r n (c1 c2 x : string) : Struct c r -> In c1 (get_children c n) -> In c2 (get_children c n) ->
    below c c1 x -> below c c2 x -> c1 = c2.
  Proof.
    intros S H1 H2 B1 B2.
    assert (G : forall a b, In a (get_children c n) -> In b (get_children c n) -> below c a b -> a = b).
    { intros a b Ha Hb B. destruct (below_inv _ _ _ B) as [->|(q & A1 & A2)]; auto.
      rewrite (parent_unique _ _ _ _ _ S A2 Hb) in A1. pose proof (below_rank _ _ _ _ S A1).
      pose proof (child_rank _ _ _ _ S Ha). lia. }
    destruct (below_linear c r S _ x c1 c2 (Nat.lt_succ_diag_r _) B1 B2); [auto|symmetry; auto].
  Qed.
  Lemma descendant_below c r n m : Struct c r -> descendant c n m <-> exists ch, In ch (get_children c n) /\ below c ch m.
  Proof.
    intros S. split.
    - induction 1 as [m p Hm Hp Hq|q m p H IH Hm Hp Hq].
      + exists m. split; [eapply st_ch1; eauto|constructor].
      + destruct IH as (ch & A & B). exists ch. split; auto. eapply below_right; eauto. eapply st_ch1; eauto.
    - intros (ch & A & B). revert A. remember ch as ch0 eqn:E. clear E.
      assert (G : forall x, below c ch0 x -> In ch0 (get_children c n) -> descendant c n x).
      { intros x Hb Hc. revert Hb. assert (W : forall k x, r x < k -> below c ch0 x -> descendant c n x).
        { induction k as [|k IH]; intros y Hy Hb; [lia|].
          destruct (below_inv _ _ _ Hb) as [->|(q & A1 & A2)].
          - destruct (st_ch2 _ _ S _ _ Hc) as (p & P1 & P2 & P3). econstructor; eauto.
          - destruct (st_ch2 _ _ S _ _ A2) as (p & P1 & P2 & P3). eapply desc_step; eauto.
            apply IH; auto. pose proof (child_rank _ _ _ _ S A2). lia. }
        apply (W _ x (Nat.lt_succ_diag_r _)). }
      intros A. apply G; auto.
  Qed.

  Lemma NoDup_app_disj (A : Type) (a b : list A) : NoDup a -> NoDup b -> (forall x, In x a -> ~ In x b) -> NoDup (a ++ b).
  Proof.
    induction a as [|x a IH]; simpl; intros Ha Hb Hd; auto. inversion Ha; subst. constructor.
    - rewrite in_app_iff. intros [H|H]; [auto|]. apply (Hd x); auto.
    - apply IH; auto.
  Qed.
  Lemma descendants_ok c r (S : Struct c r) : forall k n, List.length (c_parts c) <= r n + k ->
    (exists p, get_part c n = Some p) ->
    exists l, get_all_descendants k c n = KOk l /\ NoDup l /\
      forall x, In x l <-> exists ch, In ch (get_children c n) /\ below c ch x.
  Proof.
    induction k as [|k IH]; intros n Hk [p Hp].
    - pose proof (st_rank _ _ S n p Hp). lia.
    - simpl.
      assert (G : forall ls acc, NoDup ls -> (forall x, In x ls -> In x (get_children c n)) -> NoDup acc ->
         (forall x ch, In x acc -> In ch ls -> ~ below c ch x) ->
         exists l, fold_left (fun r ch => kbind r (fun acc =>
             kbind (get_all_descendants k c ch) (fun d => KOk (acc ++ [ch] ++ d)))) ls (KOk acc) = KOk l /\ NoDup l /\
           forall x, In x l <-> In x acc \/ exists ch, In ch ls /\ below c ch x).
      { induction ls as [|ch ls IHl]; intros acc Hnd Hin Hacc Hd.
        - exists acc. simpl. split; auto. split; auto. intros x. split; auto. intros [H|(ch & [] & _)]; auto.
        - simpl. assert (Hch : In ch (get_children c n)) by (apply Hin; left; auto).
          destruct (st_ch2 _ _ S _ _ Hch) as (pc & Hpc & _).
          destruct (IH ch) as (d & Ed & Nd & Dd); [pose proof (child_rank _ _ _ _ S Hch); lia|eauto|].
          rewrite Ed. simpl. inversion Hnd as [|? ? Hnin Hnd']; subst.
          assert (Hsub : forall x, In x (ch :: d) <-> below c ch x).
          { intros x. simpl. rewrite Dd. split.
            - intros [->|(y & A & B)]; [constructor|econstructor; eauto].
            - intros B. inversion B; subst; eauto. }
          destruct (IHl (acc ++ ch :: d)) as (l & El & Nl & Dl); auto.
          + intros x Hx. apply Hin. right. exact Hx.
          + apply NoDup_app_disj; auto.
            * constructor; auto. intros Hc. apply Dd in Hc. destruct Hc as (y & A & B).
              pose proof (child_rank _ _ _ _ S A). pose proof (below_rank _ _ _ _ S B). lia.
            * intros x Hx Hx'. apply Hsub in Hx'. apply (Hd x ch Hx); [left; auto|exact Hx'].
          + intros x ch' Hx Hch' Hb. apply in_app_or in Hx. destruct Hx as [Hx|Hx].
            * apply (Hd x ch' Hx); [right; auto|exact Hb].
            * apply Hsub in Hx. assert (ch = ch') by (eapply siblings_disjoint; eauto; apply Hin; right; auto).
              subst. contradiction.
          + exists l. split; [exact El|]. split; auto. intros x. rewrite Dl, in_app_iff, Hsub. split.
            * intros [[H|H]|(y & A & B)]; [auto| |]; right; [exists ch|exists y]; simpl; auto.
            * intros [H|(y & [->|A] & B)]; [auto|auto|]. right. eauto. }
      destruct (G (get_children c n) []) as (l & El & Nl & Dl); auto.
      + apply (st_ch3 _ _ S).
      + constructor.
      + exists l. split; auto. split; auto. intros x. rewrite Dl. simpl. split; [intros [[]|H]; auto|auto].
  Qed.
  Lemma descendants_reach c n : reachable c -> (exists p, get_part c n = Some p) ->
    exists l, get_all_descendants (depth c) c n = KOk l /\ NoDup l /\ forall x, In x l <-> descendant c n x.
  Proof.
    intros H Hp. destruct (reachable_good _ H) as [r S].
    destruct (descendants_ok c r S (depth c) n) as (l & E & N & D); auto; [unfold depth; lia|].
    exists l. split; auto. split; auto. intros x. rewrite D. symmetry. eapply descendant_below; eauto.
  Qed.

  (** get_chain_to_root *)
  Lemma chain_to_root_S k c n : chain_to_root (1 + k) c (Some n) =
    if String.eqb n "" then KOk []
    else match get_part c n with
         | None => KOk []
         | Some p => kbind (chain_to_root k c (p_parent p)) (fun l => KOk (n :: l))
         end.
  Proof. reflexivity. Qed.
  Lemma root_ok c r (S : Struct c r) (Hne : forall n p, get_part c n = Some p -> n <> ""%string)
    (Hroot : forall p, get_part c DATUM = Some p -> p_parent p = None) :
    forall k n, r n < k -> (exists p, get_part c n = Some p) ->
    exists l, chain_to_root (1 + k) c (Some n) = KOk l /\ hd_error l = Some n /\ last l n = DATUM /\
      forall x, In x l <-> x = n \/ descendant c x n.
  Proof.
    induction k as [|k IH]; intros n Hk [p Hp]; [lia|].
    rewrite chain_to_root_S. rewrite (seqb_neq n ""%string) by eauto. rewrite Hp.
    destruct (String.eqb n DATUM) eqn:En.
    - apply seq_spec in En. subst n. rewrite (Hroot p Hp). simpl. exists [DATUM]. repeat split; auto.
      + intros [<-|[]]. auto.
      + intros [->|Hd]; [left; auto|]. exfalso. inversion Hd; contradiction.
    - apply String.eqb_neq in En. destruct (st_parent _ _ S n p En Hp) as (q & pq & A & B & C & _). rewrite A.
      destruct (IH q) as (l & E & Hh & Hl & Hx); [lia|eauto|]. change (1 + k) with (Datatypes.S k) in E.
      rewrite E. cbn [kbind]. exists (n :: l). split; [reflexivity|]. split; [reflexivity|]. split.
      + destruct l as [|y l]; [discriminate|]. rewrite <- Hl. change (last (y :: l) n = last (y :: l) q).
        clear. revert y. induction l as [|a l IH]; intros y; [reflexivity|]. apply (IH a).
      + intros x. simpl. rewrite Hx. split.
        * intros [->|[->|H]]; [auto| |]; right; [econstructor; eauto|eapply desc_step; eauto].
        * intros [->|H]; [auto|]. right. inversion H; subst; [left; congruence|right].
          assert (p0 = p) by congruence. subst. assert (q0 = q) by congruence. subst. exact H0.
  Qed.
  Lemma datum_parent c : reachable c -> forall p, get_part c DATUM = Some p -> p_parent p = None.
  Proof.
    induction 1 as [name|c o c' H IH E]; intros p Hp.
    - unfold get_part, KinematicChain in Hp. cbn in Hp. injection Hp as <-. reflexivity.
    - destruct (reachable_good _ H) as [r S]. destruct (st_datum _ _ S) as [d D]. specialize (IH d D).
      unfold apply_op in E. destruct o as [n q pf j fr m|n v cl|n f|n f t].
      + destruct (add_part c _) eqn:Ea; try discriminate; [|injection E as <-; congruence]. injection E as ->.
        destruct (add_part_ok c r _ c' S (mk_origin _ _ _ _ _ _) Ea) as (_ & _ & _ & Old & _).
        rewrite (Old _ _ D) in Hp. congruence.
      + destruct (set_joint_value c n v cl) eqn:Es; try discriminate; [|injection E as <-; congruence]. injection E as ->.
        destruct (set_joint_frame c n v cl c' H Es) as (p1 & p2 & A1 & A2 & _ & A3 & _ & _ & A4).
        destruct (String.eqb DATUM n) eqn:En; [apply seq_spec in En; subst; congruence|].
        apply String.eqb_neq in En. specialize (A4 DATUM En). rewrite D, Hp in A4. destruct A4 as (_ & A4 & _). congruence.
      + destruct (get_world_transform c n f) as [[c1 w]| |] eqn:Ew; try discriminate; [|injection E as <-; congruence].
        injection E as <-. simpl in Hp. pose proof (query_keeps c n f c1 w H Ew DATUM) as Q. rewrite D, Hp in Q.
        destruct Q as (_ & Q & _). congruence.
      + unfold add_frame in E. destruct (get_part c n) as [pn|] eqn:En; [|injection E as <-; congruence]. injection E as <-.
        rewrite get_set in Hp. destruct (String.eqb DATUM n) eqn:Ed; [|congruence].
        apply seq_spec in Ed. subst n. injection Hp as <-. simpl. congruence.
  Qed.
  Lemma root_reach c n : reachable c -> (exists p, get_part c n = Some p) ->
    (forall m p, get_part c m = Some p -> m <> ""%string) ->
    exists l, get_chain_to_root c n = KOk l /\ hd_error l = Some n /\ last l n = DATUM /\
      forall x, In x l <-> x = n \/ descendant c x n.
  Proof.
    intros H Hp Hne. destruct (reachable_good _ H) as [r S]. unfold get_chain_to_root, depth.
    destruct (root_ok c r S Hne (datum_parent c H) (List.length (c_parts c)) n) as (l & E & R); auto.
    { destruct Hp as [p Hp]. eapply st_rank; eauto. }
    exists l. split; auto.
  Qed.
End P.

(* ---------------- counterexamples ---------------- *)
Open Scope R_scope.
Definition run {K} (c : chain K) (l : list (op K)) : kres (chain K) :=
  fold_left (fun r o => kbind r (fun c => apply_op c o)) l (KOk c).
Lemma run_reachable {K} (l : list (op K)) : forall c c', reachable c -> run c l = KOk c' -> reachable c'.
Proof.
  induction l as [|o l IH] using rev_ind; intros c c' H E; unfold run in E; simpl in E.
  - injection E as <-. exact H.
  - rewrite fold_left_app in E. simpl in E. destruct (fold_left _ l (KOk c)) eqn:E1; try discriminate. simpl in E.
    econstructor; [eapply IH; eauto|exact E].
Qed.
Fixpoint careful_run {K} (c : chain K) (l : list (op K)) : Prop :=
  match l with [] => True | o :: l => careful c o /\ forall c', apply_op c o = KOk c' -> careful_run c' l end.
Lemma run_err {K} (l : list (op K)) (e : kres (chain K)) : (forall c, e <> KOk c) ->
  fold_left (fun r o => kbind r (fun c => apply_op c o)) l e = e.
Proof. intros H. induction l as [|o l IH]; simpl; auto. destruct e; simpl in *; auto. congruence. Qed.
Lemma run_history {K} (l : list (op K)) : forall c c', history c -> careful_run c l -> run c l = KOk c' -> history c'.
Proof.
  induction l as [|o l IH]; intros c c' H Hc E; unfold run in E; simpl in E.
  - injection E as <-. exact H.
  - destruct (apply_op c o) as [c1| |] eqn:E1.
    + destruct Hc as [H1 H2]. eapply IH; [econstructor; eauto|apply H2; exact E1|exact E].
    + rewrite run_err in E by discriminate. discriminate.
    + rewrite run_err in E by discriminate. discriminate.
Qed.
Tactic Notation "cvk" "in" hyp(H) := cbv -[one mul jtf tser tde jser jde jset fixedj nometa T J M V TD JD] in H.
Tactic Notation "cvk" := cbv -[one mul jtf tser tde jser jde jset fixedj nometa T J M V TD JD].
Section W.
  Variables (K : kin) (ja jb : J K) (m : M K) (t1 t2 : T K).
  Definition stale_ops : list (op K) :=
    [OAdd "A" None ORIGIN ja [("F"%string, t1)] m; OAdd "B" (Some "A"%string) "F" jb [] m;
     OQuery "B" ORIGIN; OFrame "A" "F" t2].
  Lemma stale_gen : exists c c' l, reachable c /\
    get_world_transform c "B" ORIGIN = KOk (c', mul K (mul K (mul K (one K) (jtf K ja)) t1) (jtf K jb)) /\
    path c "B" ORIGIN l /\ product l = mul K (mul K (mul K (one K) (jtf K ja)) t2) (jtf K jb).
  Proof.
    destruct (run (KinematicChain K "m") stale_ops) as [c| |] eqn:E; [|discriminate|discriminate].
    assert (R : reachable c). { eapply run_reachable; [constructor|exact E]. }
    cvk in E. injection E as <-.
    eexists _, _, _. split; [exact R|]. split; [cvk; reflexivity|]. split.
    - eapply path_part; [discriminate|reflexivity|reflexivity|].
      eapply path_part; [discriminate|reflexivity|reflexivity|]. eapply path_root. reflexivity.
    - reflexivity.
  Qed.
  Lemma stale_value_gen : exists c c1 c' l, history c /\ assign_joint c "A" jb = KOk c1 /\
    get_world_transform c1 "A" ORIGIN = KOk (c', mul K (one K) (jtf K ja)) /\
    path c1 "A" ORIGIN l /\ product l = mul K (one K) (jtf K jb).
  Proof.
    set (ops := [OAdd "A" None ORIGIN ja [] m; OQuery "A" ORIGIN]).
    destruct (run (KinematicChain K "m") ops) as [c| |] eqn:E; [|discriminate|discriminate].
    assert (R : history c).
    { unfold run, ops in E. cbn [fold_left kbind] in E.
      destruct (apply_op (KinematicChain K "m") _) as [c0| |] eqn:E0; try discriminate. cbn [kbind] in E.
      econstructor; [econstructor; [constructor| |exact E0]| |exact E]; exact I. }
    cvk in E. injection E as <-.
    eexists _, _, _, _. split; [exact R|]. split; [cvk; reflexivity|]. split; [cvk; reflexivity|].
    split; [eapply path_part; [discriminate|reflexivity|reflexivity|]; eapply path_root; reflexivity|].
    reflexivity.
  Qed.
  Lemma bench_gen : round_trips K -> exists c c1 d c2, reachable c /\ to_dict c true = KOk (c1, d) /\
    (forall ord, set_order ord -> from_dict ord d = KOk c2) /\
    exists c3 c4, get_world_transform c "A" ORIGIN = KOk (c3, mul K (mul K (one K) t1) (jtf K ja)) /\
      get_world_transform c2 "A" ORIGIN = KOk (c4, mul K (one K) (jtf K ja)).
  Proof.
    intros [RT RJ].
    set (ops := [OFrame DATUM "BENCH" t1; OAdd "A" (Some DATUM) "BENCH" ja [] m]).
    destruct (run (KinematicChain K "m") ops) as [c| |] eqn:E; [|discriminate|discriminate].
    assert (R : reachable c). { eapply run_reachable; [constructor|exact E]. }
    cvk in E. injection E as <-.
    eexists _, _, _, _. split; [exact R|]. split; [cvk; reflexivity|]. split.
    - intros ord Ho. unfold from_dict, topological_sort. cbn [cd_parts map fst snd List.length].
      unfold topo_loop.
      assert (P : ord 0%nat ["A"%string] = ["A"%string]).
      { specialize (Ho 0%nat ["A"%string]). apply Permutation_sym, Permutation_length_1_inv in Ho. exact Ho. }
      rewrite P. cbn. unfold part_from_dict. cbn [d_frames frames_from_dict]. rewrite RT. cbn [kbind d_joint]. rewrite RJ. cvk. reflexivity.
    - eexists _, _. split; [cvk; reflexivity|]. cvk. reflexivity.
  Qed.
  Lemma empty_name_gen : round_trips K -> exists c c1 d ord, reachable (K:=K) c /\ to_dict c false = KOk (c1, d) /\
    set_order ord /\ from_dict ord d = @KValueError (chain _).
  Proof.
    intros [RT RJ].
    set (ops := [OAdd "" None ORIGIN ja [] m; OAdd "B" (Some ""%string) ORIGIN jb [] m]).
    destruct (run (KinematicChain K "m") ops) as [c| |] eqn:E; [|discriminate|discriminate].
    assert (R : reachable c). { eapply run_reachable; [constructor|exact E]. }
    cvk in E. injection E as <-.
    eexists _, _, _, (fun _ l => rev l). split; [exact R|]. split; [cvk; reflexivity|]. split.
    - intros i l. apply Permutation_sym, Permutation_rev.
    - cbn. unfold part_from_dict. cbn [d_frames frames_from_dict]. rewrite RT. cbn [kbind d_joint]. rewrite RJ. cvk. reflexivity.
  Qed.
End W.
Definition fx (n : string) : joint := default_joint n.
Lemma stale_frame : exists c c' w, reachable (K:=real_kin) c /\ get_world_transform c "B" ORIGIN = KOk (c', w) /\
  exists l, path c "B" ORIGIN l /\ product (K:=real_kin) l <> w.
Proof.
  destruct (stale_gen real_kin (fx "a") (fx "b") ""%string (t_translation 1 0 0) (t_translation 2 0 0))
    as (c & c' & l & R & W & P & E).
  eexists c, c', _. split; [exact R|]. split; [exact W|]. exists l. split; [exact P|]. rewrite E.
  intros H. apply (f_equal (fun m => vw (row0 m))) in H. revert H.
  unfold fx, default_joint, real_kin. cbn [mul jtf one]. unfold joint_transform. cbn [j_type j_base]. mx. lra.
Qed.
Lemma slider_tf v : joint_transform (slider v) = t_translation 0 0 v.
Proof.
  unfold joint_transform, slider. cbn [j_type j_axis j_base j_value]. unfold norm3.
  replace (0*0+0*0+1*1) with 1 by ring. rewrite sqrt_1.
  replace (Rltb tiny 1) with true by (symmetry; apply Xform_Proofs.Rltb_true; unfold tiny; lra).
  mx. apply rows_eq'; apply Xform_Proofs.mkv_eq; field.
Qed.
Lemma stale_value : exists c c1 c' w, history (K:=real_kin) c /\ assign_joint c "A" (slider 5) = KOk c1 /\
  get_world_transform c1 "A" ORIGIN = KOk (c', w) /\ exists l, path c1 "A" ORIGIN l /\ product (K:=real_kin) l <> w.
Proof.
  destruct (stale_value_gen real_kin (slider 0) (slider 5) ""%string) as (c & c1 & c' & l & R & A & W & P & E).
  eexists c, c1, c', _. split; [exact R|]. split; [exact A|]. split; [exact W|]. exists l. split; [exact P|]. rewrite E.
  intros H. apply (f_equal (fun m => vw (row2 m))) in H. revert H.
  unfold real_kin. cbn [mul jtf one]. rewrite !slider_tf. mx. lra.
Qed.
Lemma bench_lost : exists c c1 d c2, reachable (K:=real_kin) c /\ to_dict c true = KOk (c1, d) /\
  (forall ord, set_order ord -> from_dict ord d = KOk c2) /\
  exists c3 c4 w w', get_world_transform c "A" ORIGIN = KOk (c3, w) /\ get_world_transform c2 "A" ORIGIN = KOk (c4, w') /\ w <> w'.
Proof.
  destruct (bench_gen real_kin (fx "a") ""%string (t_translation 0 0 5) real_round_trips)
    as (c & c1 & d & c2 & R & D & L & c3 & c4 & W1 & W2).
  exists c, c1, d, c2. split; [exact R|]. split; [exact D|]. split; [exact L|].
  eexists c3, c4, _, _. split; [exact W1|]. split; [exact W2|].
  intros H. apply (f_equal (fun m => vw (row2 m))) in H. revert H.
  unfold fx, default_joint, real_kin. cbn [mul jtf one]. unfold joint_transform. cbn [j_type j_base]. mx. lra.
Qed.
Lemma empty_name_lost : exists c c1 d ord, reachable (K:=real_kin) c /\ to_dict c false = KOk (c1, d) /\
  set_order ord /\ from_dict ord d = @KValueError (chain _).
Proof. exact (empty_name_gen real_kin (fx "a") (fx "b") ""%string real_round_trips). Qed.

Lemma quarter_turn : t_point (t_rot_z 90) (1,0,0)%R = (0,1,0)%R /\
  t_point (t_rot_x 90) (0,1,0)%R = (0,0,1)%R /\ t_point (t_rot_y 90) (0,0,1)%R = (1,0,0)%R.
Proof.
  unfold t_rot_x, t_rot_y, t_rot_z. replace (radians 90) with (PI/2) by (unfold radians; field).
  rewrite cos_PI2, sin_PI2. mx. repeat split; (f_equal; [f_equal|]); ring.
Qed.
Lemma translation_moves x y z p q r : t_point (t_translation x y z) (p,q,r) = (p + x, q + y, r + z)%R /\
  t_vector (t_translation x y z) (p,q,r) = (p, q, r).
Proof. mx. split; (f_equal; [f_equal|]); ring. Qed.
Lemma clamp_example : clamp_value (slider 0) 500 = 180%R /\ clamp_value (slider 0) (-500) = (-180)%R /\
  clamp_value (slider 0) 7 = 7%R.
Proof.
  unfold clamp_value, pymax, pymin, slider. simpl.
  Ltac rb := match goal with |- context [Rltb ?a ?b] =>
    lazymatch a with context [Rltb] => fail | _ => lazymatch b with context [Rltb] => fail | _ =>
    first [replace (Rltb a b) with true by (symmetry; apply Xform_Proofs.Rltb_true; lra)
          |replace (Rltb a b) with false by (symmetry; apply Xform_Proofs.Rltb_false; lra)] end end end.
  repeat split; repeat rb; reflexivity.
Qed.

Lemma path_part' {K} (c : chain K) n f p q l l' : n <> DATUM -> get_part c n = Some p -> p_parent p = Some q ->
  path c q (p_pframe p) l -> l' = l ++ [jtf K (p_joint p)] ++ frame_factor p f -> path c n f l'.
Proof. intros H1 H2 H3 H4 ->. econstructor; eauto. Qed.
