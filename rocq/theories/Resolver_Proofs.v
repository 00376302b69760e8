From Coq Require Import List String ZArith Bool Lia Permutation Sorting.Sorted.
From Verif Require Import Dict Resolver_Model Resolver_Spec.
Import ListNotations.
Open Scope string_scope.
Open Scope list_scope.

Lemma seq_spec : forall a b, String.eqb a b = true <-> a = b.
Proof. exact String.eqb_eq. Qed.
Lemma existsb_In x l : existsb (String.eqb x) l = true <-> In x l.
Proof.
  rewrite existsb_exists. split.
  - intros (y & H1 & H2). apply String.eqb_eq in H2. subst. assumption.
  - intros H. exists x. split; auto. apply String.eqb_refl.
Qed.

Definition ent (c : string * op) : entry := (prio (snd c), fst c, snd c).
Lemma e_prio_ent c : e_prio (ent c) = prio (snd c). Proof. reflexivity. Qed.
Lemma ent_inj a b : ent a = ent b -> a = b.
Proof. destruct a, b. unfold ent; simpl. intros H. inversion H. reflexivity. Qed.

Definition opt {A} (o : option (list A)) : list A := match o with Some l => l | None => [] end.

Lemma push_get t e idx u :
  dget String.eqb u (push t e idx) = if String.eqb u t then Some (opt (dget String.eqb t idx) ++ [e]) else dget String.eqb u idx.
Proof. unfold push. apply (dget_set String.eqb seq_spec). Qed.

Lemma index_inner c ts : forall idx u,
  let n := count_occ string_dec ts u in
  dget String.eqb u (fold_left (fun idx t => push t (ent c) idx) ts idx) =
  match n with O => dget String.eqb u idx | _ => Some (opt (dget String.eqb u idx) ++ repeat (ent c) n) end.
Proof.
  induction ts as [|t ts IH]; simpl; intros idx u; [reflexivity|].
  rewrite IH. rewrite push_get. destruct (string_dec t u) as [->|Hn].
  - rewrite String.eqb_refl. destruct (count_occ string_dec ts u) eqn:E; simpl; [reflexivity|].
    rewrite <- app_assoc. reflexivity.
  - assert (String.eqb u t = false) as -> by (apply String.eqb_neq; congruence). reflexivity.
Qed.
Definition gath (cs : list (string * op)) (t : string) : list (string * op) :=
  flat_map (fun c => repeat c (count_occ string_dec (target_list (snd c)) t)) cs.
Lemma map_repeat {A B} (f : A -> B) x n : map f (repeat x n) = repeat (f x) n.
Proof. induction n; simpl; congruence. Qed.
Lemma index_gen cs : forall idx u,
  dget String.eqb u (fold_left (fun idx c => fold_left (fun idx t => push t (ent c) idx) (target_list (snd c)) idx) cs idx) =
  match gath cs u with [] => dget String.eqb u idx | l => Some (opt (dget String.eqb u idx) ++ map ent l) end.
Proof.
  induction cs as [|c cs IH]; simpl; intros idx u; [reflexivity|].
  rewrite IH, index_inner. cbv zeta.
  destruct (count_occ string_dec (target_list (snd c)) u) eqn:E; simpl; [reflexivity|].
  rewrite map_app, map_repeat.
  destruct (gath cs u) eqn:G; simpl.
  - rewrite app_nil_r. reflexivity.
  - rewrite <- app_assoc. reflexivity.
Qed.
Lemma index_get cs u :
  dget String.eqb u (index cs) = match gath cs u with [] => None | l => Some (map ent l) end.
Proof. unfold index. fold ent. pose proof (index_gen cs [] u) as H. simpl in H. exact H. Qed.

(** ** the sort *)
Lemma insert_perm e l : Permutation (e :: l) (insert e l).
Proof.
  induction l as [|x l IH]; simpl; [reflexivity|].
  destruct (e_prio e <? e_prio x)%Z; [reflexivity|].
  rewrite perm_swap. constructor. exact IH.
Qed.
Definition le_e (a b : entry) : Prop := (e_prio a <= e_prio b)%Z.
Lemma insert_sorted e l : StronglySorted le_e l -> StronglySorted le_e (insert e l).
Proof.
  induction 1 as [|x l Hs IH Hall]; simpl; [repeat constructor|].
  destruct (Z.ltb_spec (e_prio e) (e_prio x)).
  - constructor; [constructor; assumption|]. constructor; [unfold le_e; lia|].
    eapply Forall_impl; [|exact Hall]. intros y Hy. unfold le_e in *. lia.
  - constructor; [exact IH|]. rewrite Forall_forall in *. intros y Hy.
    apply (Permutation_in _ (Permutation_sym (insert_perm e l))) in Hy. destruct Hy as [<-|Hy]; [unfold le_e; lia|auto].
Qed.
Lemma insert_stable e l p : StronglySorted le_e l ->
  filter (fun x => (e_prio x =? p)%Z) (insert e l) =
  filter (fun x => (e_prio x =? p)%Z) l ++ (if (e_prio e =? p)%Z then [e] else []).
Proof.
  induction 1 as [|x l Hs IH Hall]; simpl; [destruct (_ =? _)%Z; reflexivity|].
  destruct (Z.ltb_spec (e_prio e) (e_prio x)).
  - simpl. destruct (Z.eqb_spec (e_prio e) p); [|rewrite app_nil_r; reflexivity].
    assert (E : (e_prio x =? p)%Z = false) by (apply Z.eqb_neq; lia). rewrite E.
    assert (E2 : filter (fun x0 => (e_prio x0 =? p)%Z) l = []).
    { clear -Hall e0 H. induction Hall as [|y l Hy Hl IHl]; simpl; [reflexivity|].
      unfold le_e in Hy. assert ((e_prio y =? p)%Z = false) as -> by (apply Z.eqb_neq; lia). exact IHl. }
    rewrite E2. reflexivity.
  - simpl. rewrite IH. destruct (e_prio x =? p)%Z; reflexivity.
Qed.
Lemma sort_gen l : forall acc, StronglySorted le_e acc ->
  let r := fold_left (fun acc e => insert e acc) l acc in
  Permutation (acc ++ l) r /\ StronglySorted le_e r /\
  forall p, filter (fun x => (e_prio x =? p)%Z) r = filter (fun x => (e_prio x =? p)%Z) (acc ++ l).
Proof.
  induction l as [|e l IH]; simpl; intros acc H.
  - rewrite app_nil_r. auto.
  - destruct (IH (insert e acc) (insert_sorted e acc H)) as (H1 & H2 & H3). split; [|split; [exact H2|]].
    + rewrite <- H1. rewrite <- Permutation_middle. rewrite app_comm_cons. apply Permutation_app_tail, insert_perm.
    + intros p. rewrite H3, !filter_app, insert_stable by assumption. simpl. rewrite <- app_assoc.
      f_equal. destruct (e_prio e =? p)%Z; reflexivity.
Qed.
Lemma filter_map_ent l p : filter (fun x => (e_prio x =? p)%Z) (map ent l) = map ent (filter (fun c => (prio (snd c) =? p)%Z) l).
Proof. induction l as [|c l IH]; simpl; [reflexivity|]. rewrite e_prio_ent, IH. destruct (_ =? _)%Z; reflexivity. Qed.
Lemma sort_spec l : exists l', sort (map ent l) = map ent l' /\ stable_sorted l l'.
Proof.
  unfold sort. destruct (sort_gen (map ent l) [] ltac:(constructor)) as (H1 & H2 & H3). simpl in *.
  set (r := fold_left _ _ _) in *. clearbody r.
  apply Permutation_sym in H1. apply Permutation_map_inv in H1. destruct H1 as (l' & -> & Hp).
  exists l'. split; [reflexivity|]. split; [exact Hp|]. split.
  - clear -H2. induction l' as [|c l' IH]; simpl in *; [constructor|]. inversion H2; subst. constructor; auto.
    rewrite Forall_forall in *. intros x Hx. specialize (H3 (ent x) (in_map ent _ _ Hx)). exact H3.
  - intros p. specialize (H3 p). rewrite !filter_map_ent in H3.
    revert H3. generalize (filter (fun c => (prio (snd c) =? p)%Z) l') (filter (fun c => (prio (snd c) =? p)%Z) l).
    induction l0 as [|a l0 IH]; intros [|b l1] E; simpl in E; try discriminate; [reflexivity|].
    assert (ent a = ent b) by congruence. apply ent_inj in H. subst. f_equal. apply IH. congruence.
Qed.
Lemma stable_sorted_nil l : stable_sorted [] l -> l = [].
Proof. intros (H & _). apply Permutation_nil in H. exact H. Qed.

Section R.
  Variable geom : Type.
  Variable bo : geom -> geom -> string -> option geom.
  Notation basic := (basic_resolve bo).
  Notation cuts := (Resolver_Spec.cuts geom bo).
  Notation stage_runs := (Resolver_Spec.stage_runs geom bo).
  Notation out_parts := (Resolver_Spec.out_parts geom).
  Notation applied_in := (Resolver_Spec.applied_in geom).

  Lemma policy_cases p m ew :
    handle_policy p m ew =
    (fst ew ++ (if String.eqb p "strict" then [m] else []), snd ew ++ (if String.eqb p "warn" then [m] else [])).
  Proof.
    unfold handle_policy. destruct ew as [e w]; simpl.
    destruct (String.eqb_spec p "strict").
    - subst. simpl. rewrite app_nil_r. reflexivity.
    - destruct (String.eqb p "warn"); rewrite ?app_nil_r; reflexivity.
  Qed.

  Lemma run_gen ps pid l : forall s, exists tr g',
    cuts ps (t_geom s) l g' tr /\
    let r := fold_left (tstep geom bo ps pid) (map ent l) s in
    t_geom r = g' /\ t_applied r = t_applied s ++ applied_ids tr /\
    t_retained r = t_retained s ++ retained_ids tr /\
    t_ew r = (fst (t_ew s) ++ messages "strict" pid tr, snd (t_ew s) ++ messages "warn" pid tr).
  Proof.
    induction l as [|[c o] l IH]; intros s.
    - exists [], (t_geom s). split; [constructor|]. simpl. rewrite !app_nil_r.
      destruct (t_ew s). auto.
    - cbn [map fold_left].
      destruct (IH (tstep geom bo ps pid s (ent (c, o)))) as (tr & g2 & H1 & H2). cbv zeta in H2.
      destruct H2 as (H2 & H3 & H4 & H5). cbv zeta. rewrite H2, H3, H4, H5. clear H2 H3 H4 H5 IH.
      unfold ent, fst, snd in *. unfold tstep in *.
      destruct (dget String.eqb c ps) as [cg|] eqn:E.
      + destruct (bo (t_geom s) cg (kind o)) as [g'|] eqn:Eb.
        * exists ((c, o, Applied) :: tr), g2. cbn [t_geom t_applied t_retained t_ew] in *.
          split; [eapply cuts_apply; [exact E|exact Eb|exact H1]|]. split; [reflexivity|].
          cbn [applied_ids retained_ids messages flat_map snd fst].
          rewrite <- app_assoc. split; [reflexivity|]. split.
          -- destruct (consumes o); simpl; rewrite <- ?app_assoc; reflexivity.
          -- destruct (_ =? _)%string, (_ =? _)%string; reflexivity.
        * exists ((c, o, Failed) :: tr), g2. cbn [t_geom t_applied t_retained t_ew] in *.
          split; [eapply cuts_fail; [exact E|exact Eb|exact H1]|]. split; [reflexivity|].
          rewrite policy_cases. cbn [applied_ids retained_ids messages flat_map snd fst].
          split; [reflexivity|]. split.
          -- destruct (consumes o); simpl; rewrite <- ?app_assoc; reflexivity.
          -- rewrite <- !app_assoc. reflexivity.
      + exists ((c, o, Missing) :: tr), g2. cbn [t_geom t_applied t_retained t_ew] in *.
        split; [eapply cuts_missing; [exact E|exact H1]|]. split; [reflexivity|].
        rewrite policy_cases. cbn [applied_ids retained_ids messages flat_map snd fst].
        split; [reflexivity|]. split; [reflexivity|]. rewrite <- !app_assoc. reflexivity.
  Qed.
  Lemma run_target_spec ps pid g l : exists tr g',
    cuts ps g l g' tr /\ let r := run_target geom bo ps pid g (map ent l) in
    t_geom r = g' /\ t_applied r = applied_ids tr /\ t_retained r = retained_ids tr /\
    t_ew r = (messages "strict" pid tr, messages "warn" pid tr).
  Proof. exact (run_gen ps pid l (mkts g [] [] ([], []) [])). Qed.

  Lemma cuts_det ps g l : forall g1 tr1 g2 tr2,
    cuts ps g l g1 tr1 -> cuts ps g l g2 tr2 -> g1 = g2 /\ tr1 = tr2.
  Proof.
    intros g1 tr1 g2 tr2 H. revert g2 tr2.
    induction H; intros g3 tr3 H3; inversion H3; subst; try congruence; auto.
    - assert (cg0 = cg) by congruence. subst. assert (g'0 = g') by congruence. subst.
      match goal with H : cuts _ _ rest g3 _ |- _ => destruct (IHcuts _ _ H) end. subst. auto.
    - match goal with H : cuts _ _ rest g3 _ |- _ => destruct (IHcuts _ _ H) end. subst. auto.
    - match goal with H : cuts _ _ rest g3 _ |- _ => destruct (IHcuts _ _ H) end. subst. auto.
  Qed.

  (** ** the whole resolution *)
  Definition dropped (m : list (string * op)) (pid : string) : bool :=
    existsb (String.eqb pid) (map fst (filter (fun c => consumes (snd c)) (filter is_cutter m))).
  Definition tops (m : list (string * op)) := map (fun te => (fst te, sort (snd te))) (index (filter is_cutter m)).
  Lemma map_snd_get {V W} (f : V -> W) d k :
    dget String.eqb k (map (fun te => (fst te, f (snd te))) d) = option_map f (dget String.eqb k d).
  Proof. induction d as [|[k' v] d IH]; simpl; [reflexivity|]. destruct (String.eqb k k'); auto. Qed.
  Lemma tops_get m pid : dget String.eqb pid (tops m) =
    match ops_on m pid with [] => None | l => Some (sort (map ent l)) end.
  Proof.
    unfold tops. rewrite map_snd_get, index_get. unfold ops_on, gath.
    destruct (flat_map _ _); reflexivity.
  Qed.
  (** what becomes of one part *)
  Definition part_out (ps : list (string * geom)) (m : list (string * op)) (pg : string * geom) : list (string * rpart geom) :=
    let '(pid, g) := pg in
    match ops_on m pid with
    | [] => if dropped m pid then [] else [(pid, mkrp g [] [] [] [])]
    | l => let t := run_target geom bo ps pid g (sort (map ent l)) in
           [(pid, mkrp (t_geom t) (t_applied t) (t_retained t) (snd (t_ew t)) (fst (t_ew t)))]
    end.
  Definition part_errs ps m pg : list msg := flat_map (fun x => r_errors (snd x)) (part_out ps m pg).
  Definition part_ret ps m pg : list string := flat_map (fun x => r_retained (snd x)) (part_out ps m pg).

  Lemma dset_app k (v : rpart geom) d : ~ In k (keys d) -> dset String.eqb k v d = d ++ [(k, v)].
  Proof.
    induction d as [|[k' v'] d IH]; simpl; intros H; [reflexivity|].
    destruct (String.eqb k k') eqn:E; [apply String.eqb_eq in E; subst; tauto|]. rewrite IH by tauto. reflexivity.
  Qed.
  Lemma part_out_key ps m pid g k : In k (keys (part_out ps m (pid, g))) -> k = pid.
  Proof.
    unfold part_out. destruct (ops_on m pid); simpl; [destruct (dropped m pid)|]; simpl; intros H; try contradiction; destruct H as [H|[]]; auto.
  Qed.
  Lemma pfold ps m qs : forall s, NoDup (keys qs) -> (forall k, In k (keys qs) -> ~ In k (keys (p_res s))) ->
    let r := fold_left (pstep geom bo ps (tops m) (map fst (filter (fun c => consumes (snd c)) (filter is_cutter m)))) qs s in
    p_res r = p_res s ++ flat_map (part_out ps m) qs /\
    p_errs r = p_errs s ++ flat_map (part_errs ps m) qs /\
    p_retall r = p_retall s ++ flat_map (part_ret ps m) qs.
  Proof.
    induction qs as [|[pid g] qs IH]; intros s Hn Hd.
    - simpl. rewrite !app_nil_r. auto.
    - cbn [fold_left]. inversion Hn as [|? ? Hnin Hn']; subst.
      assert (Hpid : ~ In pid (keys (p_res s))) by (apply Hd; left; reflexivity).
      set (s' := pstep _ _ _ _ _ s (pid, g)).
      assert (E : p_res s' = p_res s ++ part_out ps m (pid, g) /\ p_errs s' = p_errs s ++ part_errs ps m (pid, g) /\
                  p_retall s' = p_retall s ++ part_ret ps m (pid, g)).
      { unfold s', pstep. rewrite tops_get. unfold part_errs, part_ret, part_out. destruct (ops_on m pid) as [|x l].
        - fold (dropped m pid). destruct (dropped m pid); simpl; rewrite ?app_nil_r; auto.
          rewrite dset_app by assumption. auto.
        - simpl. rewrite dset_app by assumption. rewrite !app_nil_r. auto. }
      destruct E as (E1 & E2 & E3).
      destruct (IH s') as (H1 & H2 & H3); [assumption| |].
      { intros k Hk. rewrite E1. unfold keys. rewrite map_app, in_app_iff. intros [H|H].
        - eapply Hd; [right; exact Hk|exact H].
        - apply (part_out_key ps m pid g) in H. subst. apply Hnin. exact Hk. }
      cbv zeta. simpl. rewrite H1, H2, H3, E1, E2, E3, <- !app_assoc. auto.
  Qed.

  (** retained cutters are always already in the output *)
  Lemma retained_src ps m pid g c : In c (part_ret ps m (pid, g)) ->
    exists o, In (c, o) (filter is_cutter m) /\ consumes o = false /\ dget String.eqb c ps <> None.
  Proof.
    unfold part_ret, part_out. destruct (ops_on m pid) as [|x l] eqn:E.
    - destruct (dropped m pid); simpl; tauto.
    - destruct (sort_spec (x :: l)) as (l' & Hs & Hp & _).
      rewrite Hs. destruct (run_target_spec ps pid g l') as (tr & g' & Hc & Hr). cbv zeta in Hr.
      destruct Hr as (_ & _ & Hr & _). cbn [flat_map snd r_retained]. rewrite Hr, app_nil_r.
      intros Hin. unfold retained_ids in Hin. apply in_flat_map in Hin.
      destruct Hin as ([[c' o] w] & Hin & Hc').
      assert (Hc2 : In (c', o) l' /\ (w <> Missing -> dget String.eqb c' ps <> None)).
      { clear -Hc Hin. induction Hc; simpl in Hin; try contradiction; destruct Hin as [Hin|Hin];
        try (injection Hin as -> -> <-; split; [left; reflexivity|congruence]);
        destruct (IHHc Hin); split; auto; right; auto. }
      destruct Hc2 as [Hl Hps].
      destruct w; try contradiction; destruct (consumes o) eqn:Ec; simpl in Hc'; try contradiction;
      destruct Hc' as [<-|[]]; exists o; (split; [|split; [exact Ec|apply Hps; discriminate]]);
      apply (Permutation_in _ (Permutation_sym Hp)) in Hl; rewrite <- E in Hl; unfold ops_on in Hl;
      apply in_flat_map in Hl; destruct Hl as (y & Hy & Hrep); apply repeat_spec in Hrep; subst; exact Hy.
  Qed.
  Lemma not_dropped m c o : NoDup (keys m) -> In (c, o) (filter is_cutter m) -> consumes o = false -> dropped m c = false.
  Proof.
    intros Hn Hin Hc. destruct (dropped m c) eqn:E; [|reflexivity]. exfalso.
    unfold dropped in E. apply existsb_In in E. apply in_map_iff in E. destruct E as ([c' o'] & Ec & Hin').
    simpl in Ec. subst c'. apply filter_In in Hin'. destruct Hin' as [Hin' Hc'].
    apply filter_In in Hin. apply filter_In in Hin'.
    assert (o = o').
    { pose proof (in_dget String.eqb seq_spec c o m Hn (proj1 Hin)) as A1.
      pose proof (in_dget String.eqb seq_spec c o' m Hn (proj1 Hin')) as A2. congruence. }
    subst. simpl in Hc'. congruence.
  Qed.
  Lemma part_in_out ps m pid g : ops_on m pid <> [] \/ dropped m pid = false -> In pid (keys (part_out ps m (pid, g))).
  Proof.
    unfold part_out. intros H. destruct (ops_on m pid); [|left; reflexivity].
    destruct H as [H| ->]; [congruence|left; reflexivity].
  Qed.
  Lemma rfold_id ps retall cs : forall res,
    (forall c, In c cs -> In (fst c) retall -> In (fst c) (keys res)) -> fold_left (rstep geom ps retall) cs res = res.
  Proof.
    induction cs as [|c cs IH]; simpl; intros res H; [reflexivity|].
    assert (E : rstep geom ps retall res c = res).
    { unfold rstep. destruct (dmem String.eqb (fst c) res) eqn:Em; [reflexivity|].
      destruct (existsb (String.eqb (fst c)) retall) eqn:Er; [|reflexivity].
      exfalso. apply existsb_In in Er. assert (In (fst c) (keys res)) by (apply H; auto).
      apply (dmem_in String.eqb seq_spec) in H0. congruence. }
    rewrite E. apply IH. intros; apply H; auto.
  Qed.

  Lemma validate_nil m : validate_cutters (filter is_cutter m) = [] <-> well_formed m.
  Proof.
    unfold validate_cutters, well_formed. split.
    - intros H c o Hin Hk Ht.
      assert (Hf : In (c, o) (filter is_cutter m)) by (apply filter_In; auto).
      assert (Hx : In (MNoTarget c) (@nil msg)).
      { rewrite <- H. apply in_flat_map. exists (c, o). split; [assumption|]. simpl. rewrite Ht. left. reflexivity. }
      exact Hx.
    - intros H. induction m as [|[c o] m IH]; simpl; [reflexivity|].
      destruct (is_cutter (c, o)) eqn:E; simpl.
      + destruct (target_list o) eqn:Et; [exfalso; eapply (H c o); simpl; auto|].
        apply IH. intros; eapply H; simpl; eauto.
      + apply IH. intros; eapply H; simpl; eauto.
  Qed.

  Theorem basic_eq ps m : NoDup (keys ps) -> NoDup (keys m) -> well_formed m ->
    s_parts (basic ps m) = flat_map (part_out ps m) ps /\
    s_errors (basic ps m) = flat_map (part_errs ps m) ps /\
    s_success (basic ps m) = match s_errors (basic ps m) with [] => true | _ => false end.
  Proof.
    intros Hp Hm Hw. unfold basic_resolve. unfold collect_cutters.
    change (fun c : string * op => truthy (o_kind (snd c))) with is_cutter.
    rewrite (proj2 (validate_nil m) Hw). fold (tops m).
    destruct (pfold ps m ps (mkps [] [] [] []) Hp) as (H1 & H2 & H3); [intros ? ? []|].
    simpl in H1, H2, H3. cbn [s_parts s_errors s_success].
    rewrite H2. rewrite rfold_id; [auto|].
    intros [c o] Hc Hr. simpl in *. rewrite H3 in Hr. rewrite H1.
    apply in_flat_map in Hr. destruct Hr as ([pid g] & Hpg & Hr).
    destruct (retained_src ps m pid g c Hr) as (o' & Hin & Hcons & Hps).
    pose proof (not_dropped m c o' Hm Hin Hcons) as Hd.
    destruct (dget String.eqb c ps) as [cg|] eqn:Eg; [|congruence].
    apply (dget_in String.eqb seq_spec) in Eg.
    pose proof (part_in_out ps m c cg (or_intror Hd)) as Hk. unfold keys in *.
    apply in_map_iff in Hk. destruct Hk as ([k v] & Hk1 & Hk2). simpl in Hk1. subst k.
    apply in_map_iff. exists (c, v). split; [reflexivity|]. apply in_flat_map. exists (c, cg). auto.
  Qed.

  Lemma part_out_get ps m qs pid g : NoDup (keys qs) -> In (pid, g) qs ->
    dget String.eqb pid (flat_map (part_out ps m) qs) = dget String.eqb pid (part_out ps m (pid, g)).
  Proof.
    assert (App : forall a b : list (string * rpart geom), dget String.eqb pid (a ++ b) =
       match dget String.eqb pid a with Some v => Some v | None => dget String.eqb pid b end).
    { induction a as [|[k v] a IHa]; simpl; intros b; [reflexivity|]. destruct (String.eqb pid k); auto. }
    induction qs as [|[p2 g2] qs IH]; intros Hn Hin; [contradiction|].
    cbn [flat_map]. rewrite App. inversion Hn as [|? ? Hnin Hn']; subst. destruct Hin as [Hin|Hin].
    - injection Hin as -> ->. destruct (dget String.eqb pid (part_out ps m (pid, g))) eqn:E; [reflexivity|].
      apply (dget_none String.eqb seq_spec). intros Hk. unfold keys in Hk. apply in_map_iff in Hk.
      destruct Hk as ([k v] & Hk1 & Hk2). simpl in Hk1. subst k. apply in_flat_map in Hk2.
      destruct Hk2 as ([p3 g3] & H3 & H4). apply (in_map fst) in H4. apply part_out_key in H4. simpl in H4. subst p3.
      apply Hnin. apply (in_map fst) in H3. exact H3.
    - destruct (dget String.eqb pid (part_out ps m (p2, g2))) eqn:E.
      + exfalso. apply (dget_in String.eqb seq_spec) in E. apply (in_map fst) in E. apply part_out_key in E.
        simpl in E. subst. apply Hnin. apply (in_map fst) in Hin. exact Hin.
      + auto.
  Qed.

  (** ** main lemmas *)
  Lemma basic_target ps m pid g : NoDup (keys ps) -> NoDup (keys m) -> well_formed m ->
    In (pid, g) ps -> ops_on m pid <> [] ->
    exists order tr rp, stable_sorted (ops_on m pid) order /\ dget String.eqb pid (s_parts (basic ps m)) = Some rp /\
      cuts ps g order (r_geom rp) tr /\ r_applied rp = applied_ids tr /\ r_retained rp = retained_ids tr /\
      r_errors rp = messages "strict" pid tr /\ r_warnings rp = messages "warn" pid tr /\
      incl (r_errors rp) (s_errors (basic ps m)).
  Proof.
    intros Hp Hm Hw Hin Hops. destruct (basic_eq ps m Hp Hm Hw) as (E1 & E2 & _).
    rewrite E1, (part_out_get ps m ps pid g Hp Hin).
    destruct (ops_on m pid) as [|x l] eqn:E; [congruence|].
    destruct (sort_spec (x :: l)) as (order & Hs & Hst).
    destruct (run_target_spec ps pid g order) as (tr & g' & Hc & Hr). cbv zeta in Hr. destruct Hr as (R1 & R2 & R3 & R4).
    assert (Eo : part_out ps m (pid, g) = [(pid, mkrp g' (applied_ids tr) (retained_ids tr) (messages "warn" pid tr) (messages "strict" pid tr))]).
    { unfold part_out. rewrite E, Hs. cbv zeta. rewrite R1, R2, R3, R4. reflexivity. }
    exists order, tr, (mkrp g' (applied_ids tr) (retained_ids tr) (messages "warn" pid tr) (messages "strict" pid tr)).
    split; [exact Hst|]. rewrite Eo. cbn [dget]. rewrite String.eqb_refl. cbn [r_geom r_applied r_retained r_errors r_warnings].
    split; [reflexivity|]. split; [exact Hc|]. repeat split; auto.
    rewrite E2. intros y Hy. apply in_flat_map. exists (pid, g). split; [exact Hin|].
    unfold part_errs. rewrite Eo. simpl. rewrite app_nil_r. exact Hy.
  Qed.
  Lemma basic_untargeted ps m pid g : NoDup (keys ps) -> NoDup (keys m) -> well_formed m ->
    In (pid, g) ps -> ops_on m pid = [] ->
    dget String.eqb pid (s_parts (basic ps m)) =
      if dropped m pid then None else Some (mkrp g [] [] [] []).
  Proof.
    intros Hp Hm Hw Hin Hops. destruct (basic_eq ps m Hp Hm Hw) as (E1 & _ & _).
    rewrite E1, (part_out_get ps m ps pid g Hp Hin). unfold part_out. rewrite Hops.
    destruct (dropped m pid); simpl; [reflexivity|]. rewrite String.eqb_refl. reflexivity.
  Qed.
  Lemma dropped_spec m pid : dropped m pid = true <-> exists o, In (pid, o) m /\ truthy (o_kind o) = true /\ consumes o = true.
  Proof.
    unfold dropped. rewrite existsb_In, in_map_iff. split.
    - intros ([c o] & E & H). simpl in E. subst c. apply filter_In in H. destruct H as [H1 H2]. apply filter_In in H1.
      exists o. tauto.
    - intros (o & H1 & H2 & H3). exists (pid, o). split; [reflexivity|]. apply filter_In. split; [|exact H3]. apply filter_In. auto.
  Qed.
  Lemma basic_keys ps m : NoDup (keys ps) -> NoDup (keys m) -> well_formed m ->
    keys (s_parts (basic ps m)) = filter (fun pid => negb (match ops_on m pid with [] => dropped m pid | _ => false end)) (keys ps).
  Proof.
    intros Hp Hm Hw. destruct (basic_eq ps m Hp Hm Hw) as (E1 & _ & _). rewrite E1. clear.
    assert (G : forall ps' qs, keys (flat_map (part_out ps' m) qs) =
      filter (fun pid => negb (match ops_on m pid with [] => dropped m pid | _ => false end)) (keys qs)).
    { intros ps' qs. induction qs as [|[pid g] qs IH]; [reflexivity|]. cbn [flat_map]. unfold keys in *.
      rewrite map_app, IH. unfold part_out. cbn [map fst filter].
      destruct (ops_on m pid); simpl; [destruct (dropped m pid)|]; reflexivity. }
    apply G.
  Qed.
  Lemma basic_invalid ps m : ~ well_formed m ->
    s_success (basic ps m) = false /\ s_errors (basic ps m) <> [] /\ s_parts (basic ps m) = untouched ps.
  Proof.
    intros Hw. unfold basic_resolve, collect_cutters.
    change (fun c : string * op => truthy (o_kind (snd c))) with is_cutter.
    destruct (validate_cutters (filter is_cutter m)) eqn:E; [exfalso; apply Hw, validate_nil; exact E|].
    simpl. repeat split; congruence.
  Qed.
  Lemma basic_success ps m : s_success (basic ps m) = true <-> s_errors (basic ps m) = [].
  Proof.
    unfold basic_resolve. destruct (validate_cutters _) as [|v vs]; simpl.
    - destruct (p_errs _); split; congruence.
    - split; discriminate.
  Qed.

  (** ** staged resolution *)
  Notation staged := (staged_resolve bo).
  Lemma staged_success stages ps m : s_success (staged stages ps m) = true <-> s_errors (staged stages ps m) = [].
  Proof.
    unfold staged_resolve. destruct (validate_cutters _) as [|v vs]; simpl.
    - destruct (ss_errs _); split; congruence.
    - split; discriminate.
  Qed.

  Lemma last_cons {A} (x : A) l d : last (x :: l) d = last l x.
  Proof.
    revert x d. induction l as [|y l IH]; intros x d; [reflexivity|].
    change (last (y :: l) d = last (y :: l) x). rewrite !IH. reflexivity.
  Qed.
  Lemma sfold stages m todo : forall s,
    let f := fold_left (sstep geom bo stages m (collect_cutters m)) todo s in
    ss_errs f = ss_errs s ++ flat_map (@s_errors geom) (stage_runs stages todo (ss_parts s) m) /\
    ss_parts f = last (map out_parts (stage_runs stages todo (ss_parts s) m)) (ss_parts s).
  Proof.
    induction todo as [|st todo IH]; intros s; cbv zeta.
    - simpl. rewrite app_nil_r. auto.
    - cbn [fold_left]. specialize (IH (sstep geom bo stages m (collect_cutters m) s st)). cbv zeta in IH.
      destruct IH as [I1 I2]. rewrite I1, I2. clear I1 I2. cbn [stage_runs]. unfold sstep.
      destruct (bucket stages (collect_cutters m) st) as [|b bs]; cbn [ss_errs ss_parts]; [auto|].
      cbv zeta. cbn [flat_map map]. split; [rewrite app_assoc; reflexivity|].
      fold (out_parts (basic (ss_parts s) (stage_meta m (b :: bs)))).
      rewrite last_cons. reflexivity.
  Qed.
  Lemma staged_errors stages ps m : well_formed m ->
    s_errors (staged stages ps m) = flat_map (@s_errors geom) (stage_runs stages stages ps m).
  Proof.
    intros Hw. unfold staged_resolve. unfold collect_cutters at 1.
    change (fun c : string * op => truthy (o_kind (snd c))) with is_cutter.
    rewrite (proj2 (validate_nil m) Hw). cbn [s_errors].
    destruct (sfold stages m stages (mkss ps [] (stage_warnings stages (collect_cutters m)) [])) as [H _].
    cbv zeta in H. simpl in H. exact H.
  Qed.
  Lemma staged_parts stages ps m : well_formed m ->
    out_parts (staged stages ps m) = last (map out_parts (stage_runs stages stages ps m)) ps.
  Proof.
    intros Hw. unfold staged_resolve. unfold collect_cutters at 1.
    change (fun c : string * op => truthy (o_kind (snd c))) with is_cutter.
    rewrite (proj2 (validate_nil m) Hw). unfold out_parts at 1. cbn [s_parts].
    destruct (sfold stages m stages (mkss ps [] (stage_warnings stages (collect_cutters m)) [])) as [_ H].
    cbv zeta in H. simpl in H. rewrite <- H. rewrite map_map. simpl.
    rewrite <- (map_id (ss_parts _)) at 2. apply map_ext. intros [k v]. reflexivity.
  Qed.

  Lemma basic_nodup ps m : NoDup (keys ps) -> NoDup (keys (s_parts (basic ps m))).
  Proof.
    intros H. unfold basic_resolve. destruct (validate_cutters _) as [|v vs].
    - cbn [s_parts].
      assert (A : forall cs res rt, NoDup (keys res) -> NoDup (keys (fold_left (rstep geom ps rt) cs res))).
      { induction cs as [|c cs IH]; simpl; intros res rt Hr; [exact Hr|]. apply IH. unfold rstep.
        destruct (dmem _ _ _); auto. destruct (existsb _ _); auto. destruct (dget _ _ _); auto.
        apply nodup_set; auto. exact seq_spec. }
      apply A. clear A.
      set (tp := map _ (index _)). set (cn := map fst _). clearbody tp cn. generalize ps at 1. intros ps0.
      assert (A : forall qs s, NoDup (keys (p_res s)) -> NoDup (keys (p_res (fold_left (pstep geom bo ps0 tp cn) qs s)))).
      { induction qs as [|[pid g] qs IH]; simpl; intros s Hs; [exact Hs|]. apply IH. 
        destruct (dget String.eqb pid tp).
        - simpl. apply nodup_set; auto. exact seq_spec.
        - destruct (existsb _ _); auto. simpl. apply nodup_set; auto. exact seq_spec. }
      apply A. constructor.
    - cbn [s_parts]. unfold untouched, keys. rewrite map_map. simpl. exact H.
  Qed.
  Lemma acc_fold (pr : list (string * rpart geom)) : forall acc pid, NoDup (keys pr) ->
    opt (dget String.eqb pid (fold_left (fun acc pr =>
                dset String.eqb (fst pr)
                  (match dget String.eqb (fst pr) acc with Some l => l | None => [] end ++ r_applied (snd pr)) acc) pr acc)) =
    opt (dget String.eqb pid acc) ++ match dget String.eqb pid pr with Some rp => r_applied rp | None => [] end.
  Proof.
    induction pr as [|[k rp] pr IH]; simpl; intros acc pid Hn; [rewrite app_nil_r; reflexivity|].
    inversion Hn as [|? ? Hnin Hn']; subst. rewrite IH by assumption.
    rewrite (dget_set String.eqb seq_spec). destruct (String.eqb pid k) eqn:E; [|reflexivity].
    apply String.eqb_eq in E. subst k. simpl.
    rewrite (proj2 (dget_none String.eqb seq_spec pid pr) Hnin), app_nil_r. reflexivity.
  Qed.
  Lemma sfold_acc stages m todo pid : forall s, NoDup (keys (ss_parts s)) ->
    let f := fold_left (sstep geom bo stages m (collect_cutters m)) todo s in
    opt (dget String.eqb pid (ss_acc f)) =
    opt (dget String.eqb pid (ss_acc s)) ++ flat_map (applied_in pid) (stage_runs stages todo (ss_parts s) m).
  Proof.
    induction todo as [|st todo IH]; intros s Hn; cbv zeta.
    - simpl. rewrite app_nil_r. auto.
    - cbn [fold_left]. specialize (IH (sstep geom bo stages m (collect_cutters m) s st)). cbv zeta in IH.
      rewrite IH; clear IH.
      + cbn [stage_runs]. unfold sstep.
        destruct (bucket stages (collect_cutters m) st) as [|b bs]; cbn [ss_acc ss_parts]; [auto|].
        cbv zeta. cbn [flat_map]. rewrite acc_fold by (apply basic_nodup; exact Hn).
        unfold applied_in at 2. rewrite <- app_assoc. reflexivity.
      + unfold sstep. destruct (bucket stages (collect_cutters m) st); cbn [ss_parts]; [exact Hn|].
        unfold keys. rewrite map_map. simpl. apply basic_nodup. exact Hn.
  Qed.
  Lemma staged_applied stages ps m pid rp : well_formed m -> NoDup (keys ps) ->
    dget String.eqb pid (s_parts (staged stages ps m)) = Some rp ->
    r_applied rp = flat_map (applied_in pid) (stage_runs stages stages ps m).
  Proof.
    intros Hw Hn. unfold staged_resolve. unfold collect_cutters at 1.
    change (fun c : string * op => truthy (o_kind (snd c))) with is_cutter.
    rewrite (proj2 (validate_nil m) Hw). cbn [s_parts].
    pose proof (sfold_acc stages m stages pid (mkss ps [] (stage_warnings stages (collect_cutters m)) []) Hn) as H.
    cbv zeta in H. simpl in H. rewrite <- H. clear H.
    set (f := fold_left _ _ _). generalize (ss_parts f). intros l.
    assert (G : forall l, dget String.eqb pid (map (fun pg : string * geom => (fst pg, mkrp (snd pg) (opt (dget String.eqb (fst pg) (ss_acc f))) [] [] [])) l) = Some rp ->
       r_applied rp = opt (dget String.eqb pid (ss_acc f))).
    { clear l. induction l as [|[k g] l IH]; simpl; [discriminate|].
      destruct (String.eqb pid k) eqn:E; auto. apply String.eqb_eq in E. subst. intros H. injection H as <-. reflexivity. }
    apply G.
  Qed.
  Lemma basic_cutters ps m1 m2 : collect_cutters m1 = collect_cutters m2 -> basic ps m1 = basic ps m2.
  Proof. intros H. unfold basic_resolve. rewrite H. reflexivity. Qed.
  Lemma filter_all {A} (f : A -> bool) l : (forall x, In x l -> f x = true) -> filter f l = l.
  Proof.
    induction l as [|a l IH]; simpl; intros H; [reflexivity|]. rewrite (H a) by auto. f_equal. apply IH. auto.
  Qed.
  Lemma filter_none {A} (f : A -> bool) l : (forall x, In x l -> f x = false) -> filter f l = [].
  Proof. induction l as [|a l IH]; simpl; intros H; [reflexivity|]. rewrite (H a) by auto. apply IH. auto. Qed.
  (** only the cutters of the stage are cutters for that stage *)
  Lemma stage_meta_cutters m b : NoDup (keys m) -> (forall c, In c b -> In c m /\ is_cutter c = true) ->
    collect_cutters (stage_meta m b) = b.
  Proof.
    intros Hn Hb. unfold collect_cutters, stage_meta. rewrite filter_app.
    rewrite (filter_none _ (map _ (filter _ _))).
    2:{ intros x Hx. apply in_map_iff in Hx. destruct Hx as (y & <- & _). reflexivity. }
    rewrite app_nil_r.
    assert (E : map (fun c => (fst c, match dget String.eqb (fst c) m with Some o => o | None => op0 end)) b = b).
    { rewrite <- (map_id b) at 2. apply map_ext_in. intros [c o] Hc. simpl.
      rewrite (in_dget String.eqb seq_spec c o m Hn) by (apply Hb; exact Hc). reflexivity. }
    rewrite E. apply filter_all. intros c Hc. apply Hb. exact Hc.
  Qed.
  Lemma staged_single st ps m : NoDup (keys ps) -> NoDup (keys m) -> well_formed m ->
    out_parts (staged [st] ps m) = out_parts (basic ps m) /\
    s_errors (staged [st] ps m) = s_errors (basic ps m) /\
    s_success (staged [st] ps m) = s_success (basic ps m) /\
    forall pid rp rp', dget String.eqb pid (s_parts (staged [st] ps m)) = Some rp ->
      dget String.eqb pid (s_parts (basic ps m)) = Some rp' -> r_applied rp = r_applied rp'.
  Proof.
    intros Hp Hm Hw.
    assert (Hb : bucket [st] (collect_cutters m) st = collect_cutters m).
    { unfold bucket. apply filter_all. intros [c o] _. unfold bucket_of. simpl.
      destruct (o_stage o) as [t|]; [|apply String.eqb_refl].
      rewrite orb_false_r. destruct (String.eqb t st) eqn:E; [exact E|apply String.eqb_refl]. }
    assert (Hr : stage_runs [st] [st] ps m = match collect_cutters m with [] => [] | _ => [basic ps m] end).
    { cbn [stage_runs]. rewrite Hb. destruct (collect_cutters m) as [|c cs] eqn:E; [reflexivity|].
      cbv zeta. f_equal. apply basic_cutters. rewrite E. apply stage_meta_cutters; [exact Hm|].
      intros x Hx. rewrite <- E in Hx. apply filter_In in Hx. exact Hx. }
    assert (He : s_errors (staged [st] ps m) = s_errors (basic ps m) /\ out_parts (staged [st] ps m) = out_parts (basic ps m)).
    { rewrite staged_errors, staged_parts, Hr by assumption.
      destruct (collect_cutters m) as [|c cs] eqn:E.
      - destruct (basic_eq ps m Hp Hm Hw) as (E1 & E2 & _). rewrite E2. unfold out_parts. rewrite E1.
        assert (Ho : forall pg, part_out ps m pg = [(fst pg, mkrp (snd pg) [] [] [] [])]).
        { intros [pid g]. unfold part_out, ops_on, dropped. change (filter is_cutter m) with (collect_cutters m). rewrite E. reflexivity. }
        simpl. split.
        + symmetry. clear -Ho. generalize ps at 2. intros qs. induction qs as [|q qs IH]; simpl; [reflexivity|].
          unfold part_errs at 1. rewrite Ho. simpl. exact IH.
        + clear -Ho. generalize ps at 1 3. intros qs. induction qs as [|q qs IH]; [reflexivity|].
          cbn [flat_map]. rewrite Ho. simpl. rewrite <- IH. destruct q. reflexivity.
      - simpl. rewrite app_nil_r. auto. }
    destruct He as [He1 He2]. split; [exact He2|]. split; [exact He1|]. split.
    - destruct (s_success (basic ps m)) eqn:E.
      + apply staged_success. rewrite He1. apply basic_success. exact E.
      + destruct (s_success (staged [st] ps m)) eqn:E2; [|reflexivity].
        apply staged_success in E2. rewrite He1 in E2. apply basic_success in E2. congruence.
    - intros pid rp rp' H1 H2. rewrite (staged_applied _ _ _ _ _ Hw Hp H1), Hr.
      destruct (collect_cutters m) as [|c cs] eqn:E.
      + simpl. destruct (basic_eq ps m Hp Hm Hw) as (E1 & _ & _). rewrite E1 in H2.
        apply (dget_in String.eqb seq_spec) in H2. apply in_flat_map in H2. destruct H2 as ([k g] & _ & H2).
        unfold part_out, ops_on, dropped in H2. change (filter is_cutter m) with (collect_cutters m) in H2. rewrite E in H2.
        simpl in H2. destruct H2 as [H2|[]]. injection H2 as _ <-. reflexivity.
      + simpl. rewrite app_nil_r. unfold applied_in. rewrite H2. reflexivity.
  Qed.
End R.

(** ** the through flag is never read *)
Definition clear_through (o : op) : op :=
  mkop (o_kind o) (o_targets o) (o_priority o) (o_policy o) (o_consume o) (o_stage o) None.
Definition ct (c : string * op) : string * op := (fst c, clear_through (snd c)).
Definition ct_e (e : entry) : entry := (fst e, clear_through (snd e)).
Lemma index_ct cs : index (map ct cs) = map (fun te => (fst te, map ct_e (snd te))) (index cs).
Proof.
  unfold index.
  assert (P : forall t e idx, push t (ct_e e) (map (fun te : string * list entry => (fst te, map ct_e (snd te))) idx) =
     map (fun te => (fst te, map ct_e (snd te))) (push t e idx)).
  { intros t e idx. unfold push.
    assert (A : dget String.eqb t (map (fun te : string * list entry => (fst te, map ct_e (snd te))) idx) = option_map (map ct_e) (dget String.eqb t idx)).
    { induction idx as [|[k v] idx IH]; simpl; [reflexivity|]. destruct (String.eqb t k); auto. }
    rewrite A. generalize (dget String.eqb t idx) as o. intros o.
    assert (B : forall v, dset String.eqb t (map ct_e v) (map (fun te : string * list entry => (fst te, map ct_e (snd te))) idx) =
       map (fun te => (fst te, map ct_e (snd te))) (dset String.eqb t v idx)).
    { intros v. clear. induction idx as [|[k w] idx IH]; simpl; [reflexivity|]. destruct (String.eqb t k); simpl; [reflexivity|]. rewrite IH. reflexivity. }
    rewrite <- B. f_equal. rewrite map_app. f_equal. destruct o; reflexivity. }
  assert (G : forall cs idx idx', idx' = map (fun te => (fst te, map ct_e (snd te))) idx ->
    fold_left (fun idx c => fold_left (fun idx t => push t (prio (snd c), fst c, snd c) idx) (target_list (snd c)) idx) (map ct cs) idx' =
    map (fun te => (fst te, map ct_e (snd te)))
      (fold_left (fun idx c => fold_left (fun idx t => push t (prio (snd c), fst c, snd c) idx) (target_list (snd c)) idx) cs idx)).
  { clear cs. induction cs as [|c cs IH]; simpl; intros idx idx' ->; [reflexivity|]. apply IH.
    change (target_list (clear_through (snd c))) with (target_list (snd c)).
    generalize (target_list (snd c)) as ts. intros ts. revert idx.
    induction ts as [|t ts IHt]; intros idx; simpl; [reflexivity|]. rewrite <- IHt. f_equal.
    exact (P t (prio (snd c), fst c, snd c) idx). }
  exact (G cs [] [] eq_refl).
Qed.
Lemma sort_ct l : sort (map ct_e l) = map ct_e (sort l).
Proof.
  unfold sort.
  assert (I : forall e l, insert (ct_e e) (map ct_e l) = map ct_e (insert e l)).
  { induction l0 as [|x l0 IH]; simpl; [reflexivity|].
    change (e_prio (ct_e e)) with (e_prio e). change (e_prio (ct_e x)) with (e_prio x).
    destruct (e_prio e <? e_prio x)%Z; simpl; [reflexivity|]. rewrite IH. reflexivity. }
  assert (G : forall l acc, fold_left (fun acc e => insert e acc) (map ct_e l) (map ct_e acc) =
     map ct_e (fold_left (fun acc e => insert e acc) l acc)).
  { induction l0 as [|e l0 IH]; simpl; intros acc; [reflexivity|]. rewrite I. apply IH. }
  exact (G l []).
Qed.
Lemma filter_map_ct (f : string * op -> bool) l : (forall c, f (ct c) = f c) -> filter f (map ct l) = map ct (filter f l).
Proof. intros H. induction l as [|c l IH]; simpl; [reflexivity|]. rewrite H, IH. destruct (f c); reflexivity. Qed.
Lemma through_ignored (geom : Type) bo ps m : basic_resolve (geom := geom) bo ps (map ct m) = basic_resolve bo ps m.
Proof.
  unfold basic_resolve.
  assert (Ec : collect_cutters (map ct m) = map ct (collect_cutters m)) by (apply filter_map_ct; reflexivity).
  rewrite Ec. set (cs := collect_cutters m).
  assert (Ev : validate_cutters (map ct cs) = validate_cutters cs).
  { unfold validate_cutters. induction cs as [|c cs IH]; simpl; [reflexivity|]. rewrite IH. reflexivity. }
  rewrite Ev. destruct (validate_cutters cs); [|reflexivity].
  rewrite index_ct, map_map. cbn [fst snd].
  assert (Ecn : map fst (filter (fun c : string * op => consumes (snd c)) (map ct cs)) = map fst (filter (fun c => consumes (snd c)) cs)).
  { rewrite filter_map_ct by reflexivity. rewrite map_map. reflexivity. }
  rewrite Ecn.
  assert (Er : forall rt res, fold_left (rstep geom ps rt) (map ct cs) res = fold_left (rstep geom ps rt) cs res).
  { intros rt. clear. induction cs as [|c cs IH]; simpl; intros res; [reflexivity|]. apply IH. }
  assert (Et : forall pid, dget String.eqb pid (map (fun x => (fst x, sort (map ct_e (snd x)))) (index cs)) =
     option_map (map ct_e) (dget String.eqb pid (map (fun te => (fst te, sort (snd te))) (index cs)))).
  { intros pid. generalize (index cs) as idx. intros idx. induction idx as [|[k v] idx IH]; simpl; [reflexivity|].
    rewrite sort_ct. destruct (String.eqb pid k); auto. }
  assert (Erun : forall pid g es, run_target geom bo ps pid g (map ct_e es) = run_target geom bo ps pid g es).
  { intros pid g es. unfold run_target. generalize (@mkts geom g [] [] ([], []) []) as s.
    induction es as [|[[pr c] o] es IH]; simpl; intros s; [reflexivity|]. apply IH. }
  set (t1 := map (fun x => (fst x, sort (map ct_e (snd x)))) (index cs)) in *.
  set (t2 := map (fun te => (fst te, sort (snd te))) (index cs)) in *.
  set (cn := map fst _).
  assert (Ep : forall qs s, fold_left (pstep geom bo ps t1 cn) qs s = fold_left (pstep geom bo ps t2 cn) qs s).
  { induction qs as [|[pid g] qs IH]; simpl; intros s; [reflexivity|]. rewrite IH. f_equal.
    rewrite Et. destruct (dget String.eqb pid t2); simpl; [rewrite Erun|]; reflexivity. }
  rewrite Ep, Er. reflexivity.
Qed.
