(** Saving and loading. *)
From Coq Require Import List String Bool Arith Lia Permutation.
From Verif Require Import Dict Kin_Model Kin_Spec Kin_Proofs.
Import ListNotations.
Open Scope list_scope.

Lemma mem_in n l : mem n l = true <-> In n l.
Proof.
  unfold mem. rewrite existsb_exists. split.
  - intros (x & A & B). apply seq_spec in B. subst. exact A.
  - intros H. exists n. split; auto. apply seqb_refl.
Qed.
Lemma mem_nin n l : mem n l = false <-> ~ In n l.
Proof. rewrite <- mem_in. destruct (mem n l); split; congruence. Qed.


(** every name comes after its dependency *)
Fixpoint ordered (deps : list (string * option string)) (seen : list string) (l : list string) : Prop :=
  match l with
  | [] => True
  | n :: r => (forall q, dget String.eqb n deps = Some (Some q) -> In q seen) /\ ordered deps (n :: seen) r
  end.
Lemma ordered_app deps a b seen :
  ordered deps seen (a ++ b) <-> ordered deps seen a /\ ordered deps (rev a ++ seen) b.
Proof.
  revert seen. induction a as [|x a IH]; intros seen; simpl; [tauto|].
  rewrite IH. rewrite <- app_assoc. simpl. tauto.
Qed.
Lemma ordered_weaken deps l s s' : (forall x, In x s -> In x s') -> ordered deps s l -> ordered deps s' l.
Proof.
  revert s s'. induction l as [|x l IH]; intros s s' Hi; simpl; auto. intros [A B]. split; auto.
  eapply IH; [|exact B]. simpl. firstorder.
Qed.
Lemma ordered_ready deps s l : (forall n q, In n l -> dget String.eqb n deps = Some (Some q) -> In q s) ->
  ordered deps s l.
Proof.
  revert s. induction l as [|x l IH]; intros s H; simpl; auto. split; [intros; eapply H; simpl; eauto|].
  apply IH. intros n q Hn Hq. right. eapply H; simpl; eauto.
Qed.

Lemma min_rank (r : string -> nat) (l : list string) : l <> [] -> exists m, In m l /\ forall x, In x l -> r m <= r x.
Proof.
  induction l as [|a l IH]; [congruence|]. intros _. destruct l as [|b l].
  - exists a. split; [left; auto|]. intros x [->|[]]. lia.
  - destruct IH as (m & Hm & Hmin); [discriminate|]. destruct (le_lt_dec (r a) (r m)).
    + exists a. split; [left; auto|]. intros x [->|Hx]; [lia|]. specialize (Hmin x Hx). lia.
    + exists m. split; [right; auto|]. intros x [->|Hx]; [lia|]. auto.
Qed.
Lemma filter_len (A : Type) (f : A -> bool) l : List.length (filter f l) <= List.length l.
Proof. induction l as [|a l IH]; simpl; [lia|]. destruct (f a); simpl; lia. Qed.
Lemma filter_shrink (f : string -> bool) l x : In x l -> f x = false -> List.length (filter f l) < List.length l.
Proof.
  induction l as [|a l IH]; simpl; [tauto|]. intros [->|H] Hf.
  - rewrite Hf. pose proof (filter_len _ f l). lia.
  - specialize (IH H Hf). destruct (f a); simpl; lia.
Qed.
Lemma split_perm (l ready : list string) : NoDup l -> NoDup ready -> (forall x, In x ready -> In x l) ->
  Permutation (ready ++ filter (fun n => negb (mem n ready)) l) l.
Proof.
  intros Hl Hr Hi. apply NoDup_Permutation; auto.
  - assert (D : forall x, In x ready -> ~ In x (filter (fun n => negb (mem n ready)) l)).
    { intros x Hx Hf. apply filter_In in Hf. destruct Hf as [_ Hf]. apply mem_in in Hx. rewrite Hx in Hf. discriminate. }
    clear Hi. assert (Hf := NoDup_filter (fun n => negb (mem n ready)) Hl).
    revert D Hf. generalize (filter (fun n => negb (mem n ready)) l). intros l2.
    induction ready as [|a rd IH]; simpl; intros D Hf; auto. inversion Hr; subst. constructor.
    + rewrite in_app_iff. intros [H|H]; [auto|]. apply (D a); auto.
    + apply IH; auto.
  - intros x. rewrite in_app_iff, filter_In. split; [intros [H|[H _]]; auto|].
    intros H. destruct (mem x ready) eqn:E; [left; apply mem_in; auto|right; split; auto].
Qed.

Lemma topo_ok ord deps (r : string -> nat) : set_order ord ->
  (forall n q, dget String.eqb n deps = Some (Some q) -> r q < r n) ->
  forall fuel i remaining seen, NoDup remaining -> List.length remaining <= fuel ->
    (forall n q, In n remaining -> dget String.eqb n deps = Some (Some q) -> In q seen \/ In q remaining) ->
    Permutation (topo_loop ord deps fuel i remaining) remaining /\
    ordered deps seen (topo_loop ord deps fuel i remaining).
Proof.
  intros Ho Hr. induction fuel as [|fuel IH]; intros i remaining seen Hn Hlen Hd.
  - destruct remaining; [simpl; auto|]. simpl in Hlen. lia.
  - destruct remaining as [|x0 rem0]; [simpl; auto|].
    cbn [topo_loop]. set (remaining := x0 :: rem0) in *.
    set (isready := fun n => match dget String.eqb n deps with
                             | Some (Some q) => negb (mem q remaining) | _ => true end).
    assert (Hit : Permutation (ord i remaining) remaining) by apply Ho.
    assert (Hne : remaining <> []) by discriminate.
    destruct (min_rank r remaining Hne) as (m & Hm & Hmin).
    assert (Hrm : isready m = true).
    { unfold isready. destruct (dget String.eqb m deps) as [[q|]|] eqn:E; auto.
      apply negb_true_iff, mem_nin. intros Hq. specialize (Hmin q Hq). specialize (Hr m q E). lia. }
    assert (Hin : In m (filter isready (ord i remaining))).
    { apply filter_In. split; auto. eapply Permutation_in; [apply Permutation_sym; exact Hit|exact Hm]. }
    fold isready.
    destruct (filter isready (ord i remaining)) as [|y ready0] eqn:Ef; [contradiction|].
    set (ready := y :: ready0) in *.
    assert (Hri : forall x, In x ready -> In x remaining /\ isready x = true).
    { intros x Hx. rewrite <- Ef in Hx. apply filter_In in Hx. destruct Hx as [A B]. split; auto.
      eapply Permutation_in; [exact Hit|exact A]. }
    assert (Hrn : NoDup ready).
    { rewrite <- Ef. apply NoDup_filter. eapply Permutation_NoDup; [apply Permutation_sym; exact Hit|exact Hn]. }
    set (rest := filter (fun n => negb (mem n ready)) remaining).
    destruct (IH (S i) rest (rev ready ++ seen)) as [P O].
    + apply NoDup_filter. exact Hn.
    + assert (L := filter_shrink (fun n => negb (mem n ready)) remaining m Hm).
      assert (mem m ready = true) by (apply mem_in; exact Hin). cbv beta in L. rewrite H in L. specialize (L eq_refl).
      fold rest in L. simpl in Hlen. change (List.length remaining) with (S (List.length rem0)) in L. lia.
    + intros n q Hq E. apply filter_In in Hq. destruct Hq as [A B].
      destruct (Hd n q A E) as [Hs|Hs]; [left; apply in_or_app; auto|].
      destruct (mem q ready) eqn:Eq.
      * left. apply in_or_app. left. apply -> in_rev. apply mem_in. exact Eq.
      * right. apply filter_In. rewrite Eq. auto.
    + split.
      * eapply perm_trans; [apply Permutation_app_head; exact P|].
        apply split_perm; auto. intros x Hx. apply Hri. exact Hx.
      * apply ordered_app. split; [|exact O].
        apply ordered_ready. intros n q Hq E. destruct (Hri n Hq) as [A B]. unfold isready in B. rewrite E in B.
        apply negb_true_iff, mem_nin in B. destruct (Hd n q A E); tauto.
Qed.

Section P.
  Context {K : kin}.
  Implicit Types (c : chain K) (p : part K).

  (** the data of one part, up to the stored world transform *)
  Definition saved p (d : pdata K) : Prop :=
    d_name d = p_name p /\ d_parent d = p_parent p /\ d_pframe d = p_pframe p /\
    d_joint d = jser K (p_joint p) /\
    d_frames d = map (fun ft => (fst ft, tser K (snd ft))) (p_frames p) /\ d_meta d = p_meta p.

  Lemma to_dict_loop_ok incl c0 r : Struct c0 r -> forall l c,
    same c0 c -> (forall n p, In (n, p) l -> exists p', get_part c0 n = Some p') ->
    exists c' ds, to_dict_loop incl l c = KOk (c', ds) /\ same c0 c' /\ (Cache c -> Cache c') /\
      map fst ds = filter (fun n => negb (String.eqb n DATUM)) (map fst l) /\
      (forall n d, In (n, d) ds -> exists p, In (n, p) l /\ saved p d /\
          (incl = true -> exists w, d_world d = Some (tser K w) /\
              (Cache c -> exists pl, path c0 n ORIGIN pl /\ w = product pl))).
  Proof.
    intros S. induction l as [|[n p] l IH]; intros c Hs Hin.
    - exists c, []. simpl. repeat split; try apply Hs; auto; contradiction.
    - simpl. destruct (String.eqb n DATUM) eqn:En; simpl.
      + destruct (IH c Hs) as (c' & ds & E & A & AC & B & C); [intros; eapply Hin; right; eauto|].
        exists c', ds. repeat (split; [assumption|]). intros m d Hd. destruct (C m d Hd) as (pm & ? & ?). eauto.
      + assert (Step : exists c1 d, (if incl
           then kbind (get_world_transform c n ORIGIN) (fun '(c1, w) =>
                KOk (c1, mkpd K (p_name p) (p_parent p) (p_pframe p) (jser K (p_joint p))
                     (map (fun ft => (fst ft, tser K (snd ft))) (p_frames p)) (p_meta p) (Some (tser K w))))
           else KOk (c, part_to_dict p)) = KOk (c1, d) /\ same c0 c1 /\ (Cache c -> Cache c1) /\ saved p d /\
           (incl = true -> exists w, d_world d = Some (tser K w) /\
              (Cache c -> exists pl, path c0 n ORIGIN pl /\ w = product pl))).
        { destruct incl.
          - destruct (Hin n p (or_introl eq_refl)) as (p0 & Hp0). destruct (same_get _ _ _ _ Hs Hp0) as (pc & Hpc & _).
            destruct (world_ok c0 r S (depth c) c n ORIGIN pc Hs) as (c1 & w & E & A & B); auto.
            { unfold depth. pose proof (st_rank _ _ (struct_same _ _ _ Hs S) n pc Hpc). lia. }
            unfold get_world_transform. rewrite E. simpl. eexists _, _. split; [reflexivity|].
            split; [exact A|]. split; [intros HC; apply B; exact HC|].
            split; [repeat split|]. intros _. exists w. split; [reflexivity|]. intros HC.
            destruct (B HC) as (_ & pl & P1 & P2). eauto.
          - eexists _, _. split; [reflexivity|]. split; [exact Hs|]. split; [auto|]. split; [repeat split|discriminate]. }
        destruct Step as (c1 & d & E1 & Hs1 & HC1 & Hd & Hw).
        destruct (IH c1 Hs1) as (c' & ds & E & A & AC & B & C); [intros; eapply Hin; right; eauto|].
        exists c', ((n, d) :: ds). unfold part_to_dict in *; cbn [d_name d_parent d_pframe d_joint d_frames d_meta] in *.
        rewrite E1. simpl. rewrite E. simpl.
        split; [reflexivity|]. split; [exact A|]. split; [auto|]. split; [f_equal; exact B|].
        intros m dm [Hm|Hm].
        * injection Hm as <- <-. exists p. auto.
        * destruct (C m dm Hm) as (pm & P1 & P2 & P3). exists pm. split; [auto|]. split; [auto|].
          intros Hi. destruct (P3 Hi) as (w & W1 & W2). exists w. split; auto.
  Qed.

  Lemma frames_rt (l : list (string * T K)) : round_trips K ->
    frames_from_dict (map (fun ft => (fst ft, tser K (snd ft))) l) = KOk l.
  Proof.
    intros [R _]. induction l as [|[f t] l IH]; simpl; [reflexivity|]. rewrite R. simpl. rewrite IH. reflexivity.
  Qed.
  Lemma part_rt p d : round_trips K -> saved p d -> dmem String.eqb ORIGIN (p_frames p) = true ->
    exists p', part_from_dict d = KOk p' /\ same_part p p'.
  Proof.
    intros R (A & B & C & D & E & F) Ho. unfold part_from_dict. rewrite E, (frames_rt _ R). simpl.
    rewrite D. destruct R as [_ R]. rewrite R. simpl. eexists. split; [reflexivity|].
    unfold KinematicPart. rewrite Ho. repeat split; simpl; congruence.
  Qed.

  (** loading a list of part descriptions in a parents-first order *)
  Lemma load_ok c r (Sc : Struct c r) (RT : round_trips K) ds deps
    (Hds : forall n d, dget String.eqb n ds = Some d -> exists p, get_part c n = Some p /\ saved p d /\ n <> DATUM)
    (Hdeps : forall n d q, dget String.eqb n ds = Some d -> d_parent d = Some q -> q <> DATUM ->
       dget String.eqb n deps = Some (Some q))
    (Hroot : forall n p, get_part c n = Some p -> p_parent p = Some DATUM -> p_pframe p = ORIGIN) :
    forall l c1 seen r1, Struct c1 r1 -> Cache c1 ->
      (forall n, In n l -> exists d, dget String.eqb n ds = Some d) -> NoDup l ->
      ordered deps seen l -> (forall n, In n seen -> In n (keys (c_parts c1))) ->
      (forall n, In n l -> get_part c1 n = None) ->
      (forall n p, n <> DATUM -> get_part c1 n = Some p -> exists p0, get_part c n = Some p0 /\ same_part p0 p) ->
      exists c2, fold_left (fun r n => kbind r (fun c =>
                 match dget String.eqb n ds with
                 | None => KOk c
                 | Some pd => kbind (part_from_dict pd) (add_part c)
                 end)) l (KOk c1) = KOk c2 /\
        (exists r2, Struct c2 r2) /\ Cache c2 /\ c_name c2 = c_name c1 /\
        keys (c_parts c2) = keys (c_parts c1) ++ l /\
        (forall n p, n <> DATUM -> get_part c2 n = Some p -> exists p0, get_part c n = Some p0 /\ same_part p0 p).
  Proof.
    induction l as [|n l IH]; intros c1 seen r1 S1 C1 Hl Hnd Ho Hseen Hnew Hsame.
    - exists c1. simpl. rewrite app_nil_r. repeat split; eauto.
    - destruct (Hl n (or_introl eq_refl)) as (d & Hd). destruct (Hds n d Hd) as (p & Hp & Hsv & Hn).
      destruct (part_rt p d RT Hsv (st_frames _ _ Sc n p Hp)) as (p' & Ep & Esp).
      destruct (st_parent _ _ Sc n p Hn Hp) as (q & pq & Hq & Hpq & Hrk & Hfr).
      assert (Hnm : p_name p' = n). { rewrite <- (proj1 Esp). exact (st_names _ _ Sc n p Hp). }
      assert (Hpar : p_parent p' = Some q) by (destruct Esp as (_ & E & _); congruence).
      assert (Hpf : p_pframe p' = p_pframe p) by (destruct Esp as (_ & _ & E & _); congruence).
      simpl in Ho. destruct Ho as [Ho1 Ho2].
      assert (Hq1 : exists pq1, get_part c1 q = Some pq1 /\ dmem String.eqb (p_pframe p) (p_frames pq1) = true).
      { destruct (String.eqb q DATUM) eqn:Eq.
        - apply seq_spec in Eq. subst q. destruct (st_datum _ _ S1) as [d1 D1]. exists d1. split; auto.
          rewrite (Hroot n p Hp Hq). eapply st_frames; eauto.
        - apply String.eqb_neq in Eq.
          assert (In q seen). { apply Ho1. eapply Hdeps; [exact Hd| |exact Eq]. destruct Hsv as (_ & E & _). congruence. }
          destruct (key_get c1 q (Hseen q H)) as [pq1 Hpq1]. exists pq1. split; auto.
          destruct (Hsame q pq1 Eq Hpq1) as (pq0 & G & F). assert (pq0 = pq) by congruence. subst.
          destruct F as (_ & _ & _ & _ & F & _). rewrite <- F. exact Hfr. }
      destruct Hq1 as (pq1 & Hpq1 & Hfr1).
      assert (Hadd : exists c2, add_part c1 p' = KOk c2).
      { apply add_part_errors. rewrite Hnm, Hpar. split; [apply Hnew; left; auto|eauto]. }
      destruct Hadd as [c2 Hadd].
      assert (Hor : dmem String.eqb ORIGIN (p_frames p') = true).
      { destruct Esp as (_ & _ & _ & _ & E & _). rewrite <- E. exact (st_frames _ _ Sc n p Hp). }
      destruct (add_part_ok c1 r1 p' c2 S1 Hor Hadd) as (r2 & S2 & C2 & Old & _ & Hk & Hcn & q' & pq' & p2 & Q1 & Q2 & Q3 & Q4 & Q5 & Q6 & Q7 & Q8 & Q9).
      rewrite Hnm in *. rewrite Hpar in Q1. subst q'. assert (pq' = pq1) by congruence. subst pq'.
      rewrite Hpf, Hfr1 in Q5.
      assert (Esp2 : same_part p p2).
      { destruct Esp as (A1 & A2 & A3 & A4 & A5 & A6). repeat split; congruence. }
      assert (Hg2 : forall m, m <> n -> get_part c2 m = get_part c1 m).
      { intros m Hm. destruct (get_part c1 m) as [pm|] eqn:Em; [auto|].
        destruct (get_part c2 m) as [pm|] eqn:Em2; auto. exfalso.
        apply get_key in Em2. rewrite Hk in Em2. apply in_app_or in Em2. destruct Em2 as [Em2|[Em2|[]]]; [|congruence].
        apply key_get in Em2. destruct Em2. congruence. }
      inversion Hnd; subst.
      destruct (IH c2 (p_name p' :: seen) r2 S2 (C2 C1)) as (c3 & E3 & S3 & C3 & N3 & K3 & P3); auto.
      + intros m Hm. apply Hl. right. exact Hm.
      + intros m [Hm|Hm]; [subst; eapply get_key; eauto|]. rewrite Hk. apply in_or_app. left. auto.
      + intros m Hm. rewrite Hg2; [apply Hnew; right; auto|]. intros ->. contradiction.
      + intros m pm Hm Hpm. destruct (String.eqb m (p_name p')) eqn:Em.
        * apply seq_spec in Em. rewrite Em in *. exists p. split; auto. congruence.
        * apply String.eqb_neq in Em. rewrite Hg2 in Hpm by auto. auto.
      + exists c3. simpl. rewrite Hd. simpl. rewrite Ep. simpl. rewrite Hadd. repeat split; auto; [congruence|].
        rewrite K3, Hk, <- app_assoc. reflexivity.
  Qed.

  Lemma nonempty_root c n p : reachable c -> get_part c n = Some p -> p_name p = n.
  Proof. intros H Hp. destruct (reachable_good _ H) as [r S]. eapply st_names; eauto. Qed.


  Lemma save_load c incl ord : reachable c -> round_trips K -> set_order ord -> loadable c ->
    exists c1 d c2, to_dict c incl = KOk (c1, d) /\ from_dict ord d = KOk c2 /\
      c_name c2 = c_name c /\
      (forall n, n <> DATUM -> match get_part c n, get_part c2 n with
              | Some p, Some p' => same_part p p' | None, None => True | _, _ => False end) /\
      (forall n f l, n <> DATUM -> path c n f l -> exists c3, get_world_transform c2 n f = KOk (c3, product l)).
  Proof.
    intros Hc RT Ho HL. destruct (reachable_good _ Hc) as [r S].
    destruct (to_dict_loop_ok incl c r S (c_parts c) c (same_refl c)) as (c1 & ds & E & Hs1 & _ & Hk & Hd).
    { intros n p Hi. exists p. apply (in_dget String.eqb seq_spec); auto. apply (st_nodup _ _ S). }
    unfold to_dict. rewrite E. simpl.
    assert (Hkeys : keys ds = filter (fun n => negb (String.eqb n DATUM)) (keys (c_parts c))) by exact Hk.
    assert (Hnd : NoDup (keys ds)) by (rewrite Hkeys; apply NoDup_filter; apply (st_nodup _ _ S)).
    assert (Hds : forall n d, dget String.eqb n ds = Some d -> exists p, get_part c n = Some p /\ saved p d /\ n <> DATUM).
    { intros n d Hg. apply (dget_in String.eqb seq_spec) in Hg.
      assert (Hin : In n (keys ds)) by (apply (in_map fst) in Hg; exact Hg).
      destruct (Hd n d Hg) as (p & Hi & Hsv & _). exists p. split; [|split; auto].
      - apply (in_dget String.eqb seq_spec); auto. apply (st_nodup _ _ S).
      - rewrite Hkeys in Hin. apply filter_In in Hin. destruct Hin as [_ Hin]. apply negb_true_iff, String.eqb_neq in Hin. exact Hin. }
    assert (Hget : forall n, In n (keys ds) -> exists d, dget String.eqb n ds = Some d).
    { intros n Hn. apply (dget_some_key String.eqb seq_spec). exact Hn. }
    assert (Hdsin : forall n p, n <> DATUM -> get_part c n = Some p -> In n (keys ds)).
    { intros n p Hn Hp. rewrite Hkeys. apply filter_In. split; [eapply get_key; eauto|].
      apply negb_true_iff, String.eqb_neq. exact Hn. }
    set (deps := map (fun nd : string * pdata K => (fst nd, dependency ds (snd nd))) ds).
    assert (Hdg : forall n, dget String.eqb n deps = option_map (dependency ds) (dget String.eqb n ds)).
    { intros n. unfold deps. generalize (dependency ds). intros g. clear. induction ds as [|[m d] ds IH]; simpl; auto.
      destruct (String.eqb n m); auto. }
    assert (Hdeps : forall n d q, dget String.eqb n ds = Some d -> d_parent d = Some q -> q <> DATUM ->
       dget String.eqb n deps = Some (Some q)).
    { intros n d q Hg Hq Hqd. rewrite Hdg, Hg. simpl. unfold dependency. rewrite Hq.
      destruct (Hds n d Hg) as (p & Hp & Hsv & Hn). destruct Hsv as (_ & Hpar & _).
      assert (Hq' : p_parent p = Some q) by congruence.
      rewrite (seqb_neq q ""%string) by (intros ->; apply (proj1 (HL n p Hp)); exact Hq').
      destruct (st_parent _ _ S n p Hn Hp) as (q2 & pq & A1 & A2 & _).
      assert (q2 = q) by congruence. subst q2.
      replace (dmem String.eqb q ds) with true; auto. symmetry. apply (dmem_in String.eqb seq_spec). eapply Hdsin; eauto. }
    assert (Hrk : forall n q, dget String.eqb n deps = Some (Some q) -> r q < r n /\ In q (keys ds)).
    { intros n q. rewrite Hdg. destruct (dget String.eqb n ds) as [d|] eqn:Eg; [|discriminate]. simpl.
      unfold dependency. destruct (d_parent d) as [q0|] eqn:Eq; [|discriminate].
      destruct (String.eqb q0 ""); [discriminate|]. destruct (dmem String.eqb q0 ds) eqn:Em; [|discriminate].
      intros Hx. injection Hx as ->. destruct (Hds n d Eg) as (p & Hp & Hsv & Hn). destruct Hsv as (_ & Hpar & _).
      destruct (st_parent _ _ S n p Hn Hp) as (q2 & pq & A1 & A2 & A3 & _).
      assert (q2 = q) by congruence. subst q2. split; auto. apply (dmem_in String.eqb seq_spec). exact Em. }
    destruct (topo_ok ord deps r Ho (fun n q Hx => proj1 (Hrk n q Hx)) (List.length ds) 0 (keys ds) [] Hnd) as [P O].
    { unfold keys. rewrite map_length. lia. } { intros n q _ Hx. right. apply (Hrk n q Hx). }
    change (topo_loop ord deps (List.length ds) 0 (keys ds)) with (topological_sort ord ds) in *.
    destruct (new_struct (c_name c) (K:=K)) as [S0 C0].
    assert (Hfresh : forall n p, get_part (KinematicChain K (c_name c)) n = Some p -> n = DATUM).
    { intros n p. unfold get_part, KinematicChain. cbn [c_parts dget]. destruct (String.eqb n DATUM) eqn:E'; [|discriminate].
      intros _. apply seq_spec. exact E'. }
    destruct (load_ok c r S RT ds deps Hds Hdeps (fun n p H1 => proj2 (HL n p H1)) (topological_sort ord ds) (KinematicChain K (c_name c)) [] (fun _ => 0) S0 C0)
      as (c2 & E2 & (r2 & S2) & C2 & N2 & K2 & P2).
    { intros n Hn. apply Hget. eapply Permutation_in; eauto. }
    { eapply Permutation_NoDup; [apply Permutation_sym; exact P|exact Hnd]. }
    { exact O. } { intros n []. }
    { intros n Hn. destruct (get_part (KinematicChain K (c_name c)) n) as [p|] eqn:Eg; auto.
      apply Hfresh in Eg. subst. exfalso. apply (Permutation_in _ P) in Hn.
      destruct (Hget _ Hn) as (d & Hg). destruct (Hds _ _ Hg) as (? & _ & _ & H). congruence. }
    { intros n p Hn Hp. apply Hfresh in Hp. contradiction. }
    exists c1, (mkcd K (c_name c) ds), c2. split; [reflexivity|]. split; [exact E2|]. split; [exact N2|].
    assert (Hall : forall n, n <> DATUM -> match get_part c n, get_part c2 n with
              | Some p, Some p' => same_part p p' | None, None => True | _, _ => False end).
    { intros n Hn. destruct (get_part c2 n) as [p2|] eqn:E2n.
      - destruct (P2 n p2 Hn E2n) as (p0 & -> & F). exact F.
      - destruct (get_part c n) as [p|] eqn:En; auto. exfalso.
        assert (Hi : In n (keys (c_parts c2))).
        { rewrite K2. apply in_or_app. right. eapply Permutation_in; [apply Permutation_sym; exact P|]. eapply Hdsin; eauto. }
        apply key_get in Hi. destruct Hi. congruence. }
    split; [exact Hall|].
    intros n f l Hn Hp.
    assert (Hpath : path c2 n f l).
    { assert (G : forall n f l, path c n f l -> (n = DATUM -> f = ORIGIN) -> path c2 n f l).
      { clear - Hall HL S2. induction 1 as [f p Hp|n f p q l Hn Hp Hq Hl IH]; intros Hf.
        - rewrite (Hf eq_refl). destruct (st_datum _ _ S2) as [d D].
          change (frame_factor p ORIGIN) with (frame_factor d ORIGIN). constructor. exact D.
        - specialize (Hall n Hn). rewrite Hp in Hall. destruct (get_part c2 n) as [p2|] eqn:E2; [|contradiction].
          destruct Hall as (A1 & A2 & A3 & A4 & A5 & A6). rewrite (ff_same p p2 f A5), A4.
          eapply path_part; [exact Hn|exact E2| |rewrite <- A3; apply IH]; [congruence|].
          intros ->. exact (proj2 (HL _ _ Hp) Hq). }
      apply G; auto. intros; contradiction. }
    destruct (path_part_exists _ _ _ _ Hpath) as [p2 Hp2].
    destruct (world_ok c2 r2 S2 (depth c2) c2 n f p2 (same_refl c2)) as (c3 & w & Ew & _ & B); auto.
    { unfold depth. pose proof (st_rank _ _ S2 n p2 Hp2). lia. }
    destruct (B C2) as (_ & l' & Pl & Wl). rewrite (path_fun _ _ _ _ Hpath _ Pl), <- Wl. exists c3. exact Ew.
  Qed.

  Lemma save_world c : history c -> forall c1 d, to_dict c true = KOk (c1, d) ->
    forall n pd, In (n, pd) (cd_parts d) -> exists l, path c n ORIGIN l /\ d_world pd = Some (tser K (product l)).
  Proof.
    intros Hc c1 d E n pd Hi. destruct (reachable_good _ (history_reachable _ Hc)) as [r S].
    destruct (to_dict_loop_ok true c r S (c_parts c) c (same_refl c)) as (c2 & ds & E2 & _ & _ & _ & Hd).
    { intros m p Hm. exists p. apply (in_dget String.eqb seq_spec); auto. apply (st_nodup _ _ S). }
    unfold to_dict in E. rewrite E2 in E. simpl in E. injection E as <- <-. simpl in Hi.
    destruct (Hd n pd Hi) as (p & _ & _ & W). destruct (W eq_refl) as (w & W1 & W2).
    destruct (W2 (history_cache _ Hc)) as (pl & P1 & P2). exists pl. split; auto. congruence.
  Qed.
End P.
