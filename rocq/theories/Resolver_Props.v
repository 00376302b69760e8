(** Property theorems about yapcad.assembly.resolver, for every geometry type and
    every (possibly failing) boolean engine [bo]. *)
From Coq Require Import List String ZArith Bool Permutation Sorting.Sorted Lia.
From Verif Require Import Dict Resolver_Model Resolver_Spec Resolver_Proofs.
Import ListNotations.
Open Scope string_scope.
Open Scope list_scope.

(** The documented meaning of absent and present keys, used by the vocabulary below. *)
Theorem c27_operation_keys : forall k t p pol con st th,
  let o := mkop k t p pol con st th in
  prio o = match p with Some p => p | None => 50%Z end /\
  policy o = match pol with Some s => s | None => "strict" end /\
  consumes o = match con with Some b => b | None => true end /\
  kind o = match k with Some s => s | None => "subtract" end /\
  target_list o = match t with Some l => l | None => [] end /\
  (truthy k = true <-> exists s, k = Some s /\ s <> "").
Proof.
  intros. repeat split; destruct k as [[|a s]|]; simpl; try discriminate; intros H; eauto.
  - eexists. split; [reflexivity|discriminate].
  - destruct H as (s & H & H1). congruence.
  - destruct H as (s & H & H1). congruence.
Qed.
Print Assumptions c27_operation_keys.

(** *** Vocabulary
    [ops_on m t] (Resolver_Spec.v): the operations of [m] with a kind that list [t]
    in target_filter, in dictionary order, once per occurrence of [t].
    [stable_sorted l l']: l' is a permutation of l, sorted by priority, keeping the
    order of equal priorities.
    [cuts ps g l g' tr]: applying the operations [l] one after another to [g] gives
    [g'], where an operation whose cutter is absent or whose boolean fails leaves
    the geometry unchanged; [tr] records what happened to each.
    [well_formed m]: every cutter has a non-empty target_filter. *)
Section P.
  Variable geom : Type.
  Variable bo : geom -> geom -> string -> option geom.
  Notation basic := (basic_resolve bo).
  Notation staged := (staged_resolve bo).

  (** C27: a targeted part gets exactly the operations that name it, in stable
      priority order; failures become errors ("strict") or warnings ("warn"). *)
  Theorem c27_targeted_part : forall ps m pid g,
    NoDup (keys ps) -> NoDup (keys m) -> well_formed m -> In (pid, g) ps -> ops_on m pid <> [] ->
    exists order tr rp, stable_sorted (ops_on m pid) order /\
      dget String.eqb pid (s_parts (basic ps m)) = Some rp /\
      cuts geom bo ps g order (r_geom rp) tr /\ r_applied rp = applied_ids tr /\
      r_retained rp = retained_ids tr /\
      r_errors rp = messages "strict" pid tr /\ r_warnings rp = messages "warn" pid tr /\
      incl (r_errors rp) (s_errors (basic ps m)).
  Proof. exact (basic_target geom bo). Qed.
Print Assumptions c27_targeted_part.

  (** If every operation is strict (the default) and success is reported, all of
      them were applied, in order. *)
  Theorem c27_success_means_all_applied : forall ps m pid g,
    NoDup (keys ps) -> NoDup (keys m) -> well_formed m -> In (pid, g) ps -> ops_on m pid <> [] ->
    (forall c o, In (c, o) m -> policy o = "strict") ->
    s_success (basic ps m) = true ->
    exists order rp, stable_sorted (ops_on m pid) order /\
      dget String.eqb pid (s_parts (basic ps m)) = Some rp /\ r_applied rp = map fst order /\
      r_warnings rp = [] /\
      exists step, (forall g' c o, step (Some g') (c, o) =
                      match dget String.eqb c ps with Some cg => bo g' cg (kind o) | None => None end) /\
                   fold_left step order (Some g) = Some (r_geom rp).
  Proof.
    intros ps m pid g Hp Hm Hw Hin Hops Hpol Hs.
    destruct (basic_target geom bo ps m pid g Hp Hm Hw Hin Hops) as (order & tr & rp & H1 & H2 & H3 & H4 & _ & H6 & H7 & H8).
    apply (basic_success geom bo) in Hs. rewrite Hs in H8.
    assert (He : messages "strict" pid tr = []).
    { rewrite <- H6. destruct (r_errors rp) as [|e es]; [reflexivity|]. destruct (H8 e); left; reflexivity. }
    assert (Hord : forall c o, In (c, o) order -> policy o = "strict").
    { intros c o Hc. destruct H1 as (Hperm & _). apply (Permutation_in _ (Permutation_sym Hperm)) in Hc.
      unfold ops_on in Hc. apply in_flat_map in Hc. destruct Hc as (y & Hy & Hr). apply repeat_spec in Hr. subst y.
      apply filter_In in Hy. apply (Hpol c). apply Hy. }
    exists order, rp. split; [exact H1|]. split; [exact H2|].
    set (step := fun (og : option geom) (co : string * op) =>
       match og with Some g' => match dget String.eqb (fst co) ps with Some cg => bo g' cg (kind (snd co)) | None => None end | None => None end).
    assert (G : applied_ids tr = map fst order /\ messages "warn" pid tr = [] /\ fold_left step order (Some g) = Some (r_geom rp)).
    { clear -H3 He Hord.
      induction H3 as [g|g c o cg g' rest g2 tr E Eb H IH|g c o rest g2 tr E H IH|g c o cg rest g2 tr E Eb H IH].
      - auto.
      - cbn in He. assert (Ho : policy o = "strict") by (apply (Hord c); left; reflexivity).
        rewrite Ho in He. simpl in He.
        destruct IH as (I1 & I2 & I3); [exact He|intros; eapply Hord; right; eassumption|].
        cbn. rewrite Ho. simpl. rewrite E, Eb. split; [f_equal; exact I1|]. split; [exact I2|exact I3].
      - exfalso. cbn in He. rewrite (Hord c o) in He by (left; reflexivity). discriminate.
      - exfalso. cbn in He. rewrite (Hord c o) in He by (left; reflexivity). discriminate. }
    destruct G as (G1 & G2 & G3). rewrite H4, H7. split; [exact G1|]. split; [exact G2|].
    exists step. split; [reflexivity|exact G3].
  Qed.
Print Assumptions c27_success_means_all_applied.

  (** A part no operation names is passed through unchanged, unless it is itself a
      consumed cutter. *)
  Theorem c27_untargeted_part : forall ps m pid g,
    NoDup (keys ps) -> NoDup (keys m) -> well_formed m -> In (pid, g) ps -> ops_on m pid = [] ->
    ((exists o, In (pid, o) m /\ truthy (o_kind o) = true /\ consumes o = true) /\
       dget String.eqb pid (s_parts (basic ps m)) = None) \/
    (~ (exists o, In (pid, o) m /\ truthy (o_kind o) = true /\ consumes o = true) /\
       dget String.eqb pid (s_parts (basic ps m)) = Some (mkrp g [] [] [] [])).
  Proof.
    intros ps m pid g Hp Hm Hw Hin Hops. rewrite (basic_untargeted geom bo ps m pid g Hp Hm Hw Hin Hops).
    destruct (dropped m pid) eqn:E.
    - left. split; [apply dropped_spec; exact E|reflexivity].
    - right. split; [|reflexivity]. intros H. apply dropped_spec in H. congruence.
  Qed.
Print Assumptions c27_untargeted_part.

  (** C28: the parts in the result are, in order, the input parts minus the consumed
      cutters nobody targets; nothing else appears. *)
  Theorem c28_result_parts : forall ps m pid, NoDup (keys ps) -> NoDup (keys m) -> well_formed m ->
    In pid (keys (s_parts (basic ps m))) <->
    In pid (keys ps) /\
    (ops_on m pid <> [] \/ ~ exists o, In (pid, o) m /\ truthy (o_kind o) = true /\ consumes o = true).
  Proof.
    intros ps m pid Hp Hm Hw. rewrite (basic_keys geom bo ps m Hp Hm Hw), filter_In.
    rewrite <- dropped_spec. destruct (ops_on m pid) as [|x l].
    - destruct (dropped m pid); simpl; split; intros [H1 H2]; split; auto; try discriminate.
      destruct H2 as [H2|H2]; congruence.
    - simpl. split; intros [H1 H2]; split; auto. left. discriminate.
  Qed.
Print Assumptions c28_result_parts.
  Theorem c28_success_iff_no_errors : forall ps m,
    s_success (basic ps m) = true <-> s_errors (basic ps m) = [].
  Proof. exact (basic_success geom bo). Qed.
Print Assumptions c28_success_iff_no_errors.
  (** Every part-level error is a reported error and conversely. *)
  Theorem c28_errors_exact : forall ps m e, NoDup (keys ps) -> NoDup (keys m) -> well_formed m ->
    In e (s_errors (basic ps m)) <-> exists pid rp, In (pid, rp) (s_parts (basic ps m)) /\ In e (r_errors rp).
  Proof.
    intros ps m e Hp Hm Hw. destruct (basic_eq geom bo ps m Hp Hm Hw) as (E1 & E2 & _). rewrite E1, E2.
    rewrite in_flat_map. unfold part_errs. split.
    - intros (pg & H1 & H2). apply in_flat_map in H2. destruct H2 as ([pid rp] & H2 & H3).
      exists pid, rp. split; [|exact H3]. apply in_flat_map. exists pg. auto.
    - intros (pid & rp & H1 & H2). apply in_flat_map in H1. destruct H1 as (pg & H1 & H3).
      exists pg. split; [exact H1|]. apply in_flat_map. exists (pid, rp). auto.
  Qed.
Print Assumptions c28_errors_exact.
  (** A cutter without targets fails the whole resolution and leaves every part untouched. *)
  Theorem c28_invalid : forall ps m, ~ well_formed m ->
    s_success (basic ps m) = false /\ s_errors (basic ps m) <> [] /\
    map (fun pr => (fst pr, r_geom (snd pr))) (s_parts (basic ps m)) = ps.
  Proof.
    intros ps m H. destruct (basic_invalid geom bo ps m H) as (H1 & H2 & H3). split; [exact H1|]. split; [exact H2|].
    rewrite H3. unfold untouched. rewrite map_map. simpl. rewrite <- (map_id ps) at 2.
    apply map_ext. intros [k v]. reflexivity.
  Qed.
Print Assumptions c28_invalid.

  (** C29: [stage_runs] is the list of basic resolutions, one per non-empty stage in
      order, each on the output of the one before and with only that stage's
      cutters.  Errors are all reported, the final geometry is that of the last
      run, and each part lists the operations of all stages in order. *)
  Theorem c29_staged : forall stages ps m, NoDup (keys ps) -> well_formed m ->
    s_errors (staged stages ps m) = flat_map (@s_errors geom) (stage_runs geom bo stages stages ps m) /\
    (s_success (staged stages ps m) = true <-> s_errors (staged stages ps m) = []) /\
    map (fun pr => (fst pr, r_geom (snd pr))) (s_parts (staged stages ps m)) =
      last (map (out_parts geom) (stage_runs geom bo stages stages ps m)) ps /\
    (forall pid rp, dget String.eqb pid (s_parts (staged stages ps m)) = Some rp ->
       r_applied rp = flat_map (applied_in geom pid) (stage_runs geom bo stages stages ps m)).
  Proof.
    intros stages ps m Hp Hw. split; [exact (staged_errors geom bo stages ps m Hw)|].
    split; [exact (staged_success geom bo stages ps m)|].
    split; [exact (staged_parts geom bo stages ps m Hw)|].
    intros pid rp H. exact (staged_applied geom bo stages ps m pid rp Hw Hp H).
  Qed.
Print Assumptions c29_staged.
  (** Each run sees exactly its own stage's cutters. *)
  Theorem c29_stage_isolation : forall stages m st, NoDup (keys m) ->
    let b := filter (fun c => String.eqb (bucket_of stages (snd c)) st) (collect_cutters m) in
    collect_cutters (stage_meta m b) = b.
  Proof.
    intros stages m st Hm. cbv zeta. apply stage_meta_cutters; [exact Hm|].
    intros c Hc. apply filter_In in Hc. destruct Hc as [Hc _]. apply filter_In in Hc. exact Hc.
  Qed.
Print Assumptions c29_stage_isolation.
  (** With one stage it agrees with BasicResolver. *)
  Theorem c29_single_stage_is_basic : forall st ps m, NoDup (keys ps) -> NoDup (keys m) -> well_formed m ->
    map (fun pr => (fst pr, r_geom (snd pr))) (s_parts (staged [st] ps m)) =
      map (fun pr => (fst pr, r_geom (snd pr))) (s_parts (basic ps m)) /\
    s_errors (staged [st] ps m) = s_errors (basic ps m) /\
    s_success (staged [st] ps m) = s_success (basic ps m) /\
    forall pid rp rp', dget String.eqb pid (s_parts (staged [st] ps m)) = Some rp ->
      dget String.eqb pid (s_parts (basic ps m)) = Some rp' -> r_applied rp = r_applied rp'.
  Proof. exact (staged_single geom bo). Qed.
Print Assumptions c29_single_stage_is_basic.

  (** C57: the [through] flag, documented as checked after each cut (resolver.py:46-49),
      never has any effect: erasing it gives the same result. *)
  Theorem c57_through_refuted : forall ps m,
    basic ps (map (fun c => (fst c, clear_through (snd c))) m) = basic ps m.
  Proof. exact (through_ignored geom bo). Qed.
Print Assumptions c57_through_refuted.
End P.

(** *** Concrete cases: geometry is the list of cuts made. *)
Definition demo_bo (g c : list string) (k : string) : option (list string) := Some (g ++ c).
Definition demo_op (ts : list string) (p : Z) : op := mkop (Some "subtract") (Some ts) (Some p) None None None None.
Definition demo_parts : list (string * list string) := [("plate", ["plate"]); ("hole", ["hole"]); ("slot", ["slot"])].
Definition demo_meta : list (string * op) :=
  [("plate", op0); ("hole", demo_op ["plate"] 60); ("slot", demo_op ["plate"] 10)].
Example c27_nonvacuous :
  NoDup (keys demo_parts) /\ NoDup (keys demo_meta) /\ well_formed demo_meta /\ ops_on demo_meta "plate" <> [] /\
  map (fun pr => (fst pr, r_geom (snd pr))) (s_parts (basic_resolve demo_bo demo_parts demo_meta)) = [("plate", ["plate"; "slot"; "hole"])].
Proof.
  split; [|split; [|split; [|split]]].
  - repeat constructor; simpl; intuition discriminate.
  - repeat constructor; simpl; intuition discriminate.
  - intros c o H Hk. simpl in H. destruct H as [H|[H|[H|[]]]]; injection H as <- <-; simpl in *; discriminate.
  - discriminate.
  - reflexivity.
Qed.
(** C56: a cutter whose target does not exist vanishes: success, no error, no
    warning, and the cutter is gone. *)
Theorem c56_unknown_target_refuted :
  let m := [("plate", op0); ("hole", demo_op ["plaet"] 60)] in
  let r := basic_resolve demo_bo [("plate", ["plate"]); ("hole", ["hole"])] m in
  s_success r = true /\ s_errors r = [] /\ s_log r = [] /\ s_parts r = [("plate", mkrp ["plate"] [] [] [] [])].
Proof. vm_compute. auto. Qed.
Print Assumptions c56_unknown_target_refuted.
(** C58: the staged result drops the warnings and retained cutters of its stages. *)
Theorem c58_staged_drops_warnings_refuted :
  let bad (g c : list string) (k : string) : option (list string) := None in
  let o := mkop (Some "subtract") (Some ["plate"]) None (Some "warn") (Some false) None None in
  let ps := [("plate", ["plate"]); ("hole", ["hole"])] in
  let m := [("plate", op0); ("hole", o)] in
  option_map (@r_warnings _) (dget String.eqb "plate" (s_parts (basic_resolve bad ps m))) = Some [MFailed "subtract" "hole" "plate"] /\
  option_map (@r_retained _) (dget String.eqb "plate" (s_parts (basic_resolve bad ps m))) = Some ["hole"] /\
  option_map (@r_warnings _) (dget String.eqb "plate" (s_parts (staged_resolve bad ["all"] ps m))) = Some [] /\
  option_map (@r_retained _) (dget String.eqb "plate" (s_parts (staged_resolve bad ["all"] ps m))) = Some [].
Proof. vm_compute. auto. Qed.
Print Assumptions c58_staged_drops_warnings_refuted.
(** C58: a stage name listed twice applies its operations twice. *)
Theorem c58_repeated_stage_refuted :
  let o := mkop (Some "subtract") (Some ["plate"]) None None (Some false) (Some "cut") None in
  let ps := [("plate", ["plate"]); ("hole", ["hole"])] in
  let m := [("plate", op0); ("hole", o)] in
  option_map (@r_applied _) (dget String.eqb "plate" (s_parts (staged_resolve demo_bo ["cut"; "cut"] ps m))) = Some ["hole"; "hole"].
Proof. reflexivity. Qed.
Print Assumptions c58_repeated_stage_refuted.
