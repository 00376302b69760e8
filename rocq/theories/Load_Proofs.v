(** Load cases: what is accepted, writing and reading, the registries. *)
From Coq Require Import Reals ZArith String List Bool Permutation Lra Lia.
From Verif Require Import Dict Json_Model Meta_Model Meta_Proofs Load_Model Load_Spec.
Import ListNotations.
Open Scope Z_scope.
Open Scope string_scope.
Open Scope list_scope.

Lemma entries_lists v l : entries v = Some l <-> lists v l.
Proof.
  split.
  - destruct v; cbn; try discriminate; intros H; injection H as <-; constructor.
  - inversion 1; reflexivity.
Qed.
Lemma one_of_named l v : one_of l v = true <-> named l v.
Proof.
  unfold one_of, named. split.
  - destruct v; try discriminate. intros H. apply mem_spec in H. eauto.
  - intros (s & -> & H). apply mem_spec. exact H.
Qed.
Lemma three_entries {A} (l : list A) : length l = 3%nat <-> exists a b c, l = [a; b; c].
Proof.
  split; [|intros (a & b & c & ->); reflexivity].
  destruct l as [|a [|b [|c [|d l]]]]; cbn; intros E; try discriminate E. eauto.
Qed.
Lemma is_none_iff v : is_none v = true <-> v = JNull.
Proof. destruct v; cbn; split; congruence. Qed.
Lemma post_init_iff x y : post_init x = Got y <-> y = x /\ sound x.
Proof.
  unfold post_init, sound. change [t "inertial"; t "recovery"; t "pressure"; t "handling"; t "custom"] with valid_groups.
  change [t "vehicle"; t "mesh"] with valid_frames. change [t "confirmed"; t "estimated"; t "tribal"; t "placeholder"] with valid_statuses.
  destruct (one_of valid_groups (l_group x)) eqn:G; cbn [negb].
  2:{ split; [discriminate|]. intros (_ & N & _). apply one_of_named in N. congruence. }
  destruct (one_of valid_frames (l_frame x)) eqn:F; cbn [negb].
  2:{ split; [discriminate|]. intros (_ & _ & N & _). apply one_of_named in N. congruence. }
  destruct (one_of valid_statuses (l_status x)) eqn:S; cbn [negb].
  2:{ split; [discriminate|]. intros (_ & _ & _ & N & _). apply one_of_named in N. congruence. }
  destruct (is_none (l_n x) && is_none (l_g x))%bool eqn:N.
  { split; [discriminate|]. apply andb_true_iff in N as [N1 N2]. apply is_none_iff in N1. apply is_none_iff in N2.
    intros (_ & _ & _ & _ & [K|K] & _); contradiction. }
  assert (MG : l_n x <> JNull \/ l_g x <> JNull).
  { apply andb_false_iff in N as [N|N]; [left|right]; intros K; apply is_none_iff in K; congruence. }
  destruct (entries (l_direction x)) as [l|] eqn:E.
  - apply entries_lists in E. destruct (Nat.eqb (length l) 3) eqn:L.
    + apply Nat.eqb_eq, three_entries in L as (a & b & c & ->). split.
      * intros H. injection H as <-. split; [reflexivity|]. split; [apply one_of_named; exact G|]. split; [apply one_of_named; exact F|].
        split; [apply one_of_named; exact S|]. split; [exact MG|]. eauto.
      * intros [-> _]. reflexivity.
    + split; [discriminate|]. intros (_ & _ & _ & _ & _ & a & b & c & D). apply entries_lists in D. apply entries_lists in E.
      rewrite E in D. injection D as ->. discriminate L.
  - split; [discriminate|]. intros (_ & _ & _ & _ & _ & a & b & c & D). apply entries_lists in D. congruence.
Qed.

(** ** writing and reading *)
Lemma truthy_bool H b : truthy H (JBool b) = b. Proof. reflexivity. Qed.
Definition read_back (w : bool) (l p : list json) (x : load) : load :=
  mkload (l_id x) (l_name x) (l_group x) (JList l)
    (mkattach (a_part (l_attach x)) (JList p) (a_interface (l_attach x)) (a_clock (l_attach x)) (a_bolt (l_attach x)))
    (l_n x) (l_g x) (l_frame x) (l_description x) (l_source x) (l_status x) (JBool w).
Lemma to_dict_iff H x : (exists l p, lists (l_direction x) l /\ lists (a_position (l_attach x)) p) <-> exists d, to_dict H x = Got d.
Proof.
  unfold to_dict, attach_dict. split.
  - intros (l & p & HL & HP). apply entries_lists in HL. apply entries_lists in HP. rewrite HL, HP. cbn [gbind]. eauto.
  - intros [d E]. destruct (entries (l_direction x)) as [l|] eqn:EL; [|discriminate].
    destruct (entries (a_position (l_attach x))) as [p|] eqn:EP; [|discriminate].
    exists l, p. split; apply entries_lists; assumption.
Qed.
Lemma read_written H x l p d : lists (l_direction x) l -> lists (a_position (l_attach x)) p -> to_dict H x = Got d ->
  from_dict d = post_init (read_back (truthy H (l_warn x)) l p x).
Proof.
  intros HL HP. apply entries_lists in HL. apply entries_lists in HP.
  unfold to_dict, attach_dict. rewrite HL, HP. cbn [gbind]. cbv zeta. intros E.
  assert (D : d = _) by (injection E as E; symmetry; exact E). subst d. clear E.
  destruct x as [i n g dir [part pos itf clk blt] mn mg fr ds src st w]. cbn [l_id l_name l_group l_direction l_attach l_n l_g l_frame l_description l_source l_status l_warn a_part a_position a_interface a_clock a_bolt] in *.
  unfold read_back. cbn [l_id l_name l_group l_direction l_attach l_n l_g l_frame l_description l_source l_status l_warn a_part a_position a_interface a_clock a_bolt].
  destruct (truthy H w).
  all: destruct mn; destruct mg; reflexivity.
Qed.
Lemma same_read_back x w l p : same_case w l p x (read_back w l p x).
Proof. unfold same_case, read_back. cbn. repeat split. Qed.
Lemma sound_read_back x w l p : sound x -> lists (l_direction x) l -> sound (read_back w l p x).
Proof.
  intros (G & F & S & M & a & b & c & D) L. apply entries_lists in D. apply entries_lists in L. rewrite D in L. injection L as <-.
  unfold sound, read_back; cbn. repeat (split; [assumption|]). exists a, b, c. constructor.
Qed.
Lemma round_trip H x l p : sound x -> lists (l_direction x) l -> lists (a_position (l_attach x)) p ->
  exists d y, to_dict H x = Got d /\ from_dict d = Got y /\ same_case (truthy H (l_warn x)) l p x y.
Proof.
  intros HS HL HP. destruct (proj1 (to_dict_iff H x)) as [d E]; [eauto|].
  exists d, (read_back (truthy H (l_warn x)) l p x). split; [exact E|]. split; [|apply same_read_back].
  rewrite (read_written H x l p d HL HP E). apply post_init_iff. split; [reflexivity|]. apply sound_read_back; assumption.
Qed.
(** writing again gives the same dictionary *)
Lemma written_again H x l p d : lists (l_direction x) l -> lists (a_position (l_attach x)) p -> to_dict H x = Got d ->
  to_dict H (read_back (truthy H (l_warn x)) l p x) = Got d.
Proof.
  intros HL HP E. rewrite <- E. apply entries_lists in HL. apply entries_lists in HP. unfold to_dict, attach_dict, read_back.
  cbn [l_id l_name l_group l_direction l_attach l_n l_g l_frame l_description l_source l_status l_warn a_part a_position a_interface a_clock a_bolt entries].
  rewrite HL, HP. cbn [gbind]. cbv zeta. rewrite truthy_bool. reflexivity.
Qed.
Lemma stable H x d y : sound x -> to_dict H x = Got d -> from_dict d = Got y -> to_dict H y = Got d.
Proof.
  intros HS E R. destruct (proj2 (to_dict_iff H x) (ex_intro _ d E)) as (l & p & HL & HP).
  rewrite (read_written H x l p d HL HP E) in R. apply post_init_iff in R as [-> _]. apply written_again; assumption.
Qed.
(** what is read is sound, and the fields are the dictionary's *)
Lemma from_dict_parts d x : from_dict d = Got x -> sound x /\ exists a,
  (get (t "attach") d = Some (JObj a)) /\ get (t "part") a = Some (a_part (l_attach x)) /\
  get (t "id") d = Some (l_id x) /\ get (t "name") d = Some (l_name x) /\ get (t "group") d = Some (l_group x) /\
  get (t "direction") d = Some (l_direction x).
Proof.
  unfold from_dict, or_else at 1. destruct (get (t "attach") d) as [a|] eqn:A; [|discriminate].
  destruct a as [| | | | | |a|]; try discriminate. unfold need.
  destruct (get (t "part") a) as [part|] eqn:P; [|discriminate]. destruct (get (t "id") d) as [i|]; [|discriminate].
  destruct (get (t "name") d) as [n|]; [|discriminate]. destruct (get (t "group") d) as [g|]; [|discriminate].
  destruct (get (t "direction") d) as [dir|]; [|discriminate]. cbn [gbind]. cbv zeta.
  intros H. apply post_init_iff in H as [-> S]. split; [exact S|]. exists a. cbn. auto 10.
Qed.

(** ** registries *)
Section Reg.
  Variable L B M : Type.
  Implicit Type r : registry L B.
  Lemma pair_spec a b : pair_eqb a b = true <-> a = b.
  Proof. destruct a as [a1 a2], b as [b1 b2]. unfold pair_eqb. cbn [fst snd]. rewrite andb_true_iff, !teq_spec. split; [intros [-> ->]; reflexivity|intros E; injection E; auto]. Qed.
  Lemma dset_new {K V} (eqb : K -> K -> bool) k (v : V) d : dget eqb k d = None -> dset eqb k v d = d ++ [(k, v)].
  Proof.
    induction d as [|[k' v'] d IH]; cbn; [reflexivity|]. destruct (eqb k k') eqn:E; [discriminate|]. intros H. rewrite IH by exact H. reflexivity.
  Qed.
  Lemma load_added part id x r r' : add_load_case L B part id x r = Some r' <->
    (part = t "_assembly" \/ In part (parts _ _ r)) /\ ~ In id (map fst (loads _ _ r)) /\ 
    r' = mkreg _ _ (parts _ _ r) (loads _ _ r ++ [(id, x)]) (patterns _ _ r).
  Proof.
    unfold add_load_case.
    destruct (negb (teq part (t "_assembly")) && negb (mem part (parts _ _ r)))%bool eqn:P.
    { split; [discriminate|]. apply andb_true_iff in P as [P1 P2]. rewrite negb_true_iff in P1, P2. intros ([-> |K] & _).
      - rewrite teq_refl in P1. discriminate.
      - apply mem_spec in K. congruence. }
    assert (P' : part = t "_assembly" \/ In part (parts _ _ r)).
    { apply andb_false_iff in P as [P|P]; rewrite negb_false_iff in P; [left; apply teq_spec; exact P|right; apply mem_spec; exact P]. }
    destruct (dmem teq id (loads _ _ r)) eqn:D.
    { split; [discriminate|]. apply (dmem_in teq teq_spec) in D. intros (_ & N & _). contradiction. }
    assert (D' : ~ In id (map fst (loads _ _ r))) by (intros I; apply (dmem_in teq teq_spec) in I; congruence).
    rewrite dset_new by (apply (dget_none teq teq_spec); exact D'). split.
    - intros E. split; [exact P'|]. split; [exact D'|]. congruence.
    - intros (_ & _ & ->). reflexivity.
  Qed.
  Lemma pattern_added a b x r r' : add_bolt_pattern L B a b x r = Some r' <->
    In a (parts _ _ r) /\ In b (parts _ _ r) /\ ~ In (a, b) (map fst (patterns _ _ r)) /\
    r' = mkreg _ _ (parts _ _ r) (loads _ _ r) (patterns _ _ r ++ [((a, b), x)]).
  Proof.
    unfold add_bolt_pattern.
    destruct (mem a (parts _ _ r)) eqn:PA; cbn [negb].
    2:{ split; [discriminate|]. intros (K & _). apply mem_spec in K. congruence. }
    destruct (mem b (parts _ _ r)) eqn:PB; cbn [negb].
    2:{ split; [discriminate|]. intros (_ & K & _). apply mem_spec in K. congruence. }
    apply mem_spec in PA. apply mem_spec in PB.
    destruct (dmem pair_eqb (a, b) (patterns _ _ r)) eqn:D.
    { split; [discriminate|]. apply (dmem_in pair_eqb pair_spec) in D. intros (_ & _ & N & _). contradiction. }
    assert (D' : ~ In (a, b) (map fst (patterns _ _ r))) by (intros I; apply (dmem_in pair_eqb pair_spec) in I; congruence).
    rewrite dset_new by (apply (dget_none pair_eqb pair_spec); exact D'). split.
    - intros E. split; [exact PA|]. split; [exact PB|]. split; [exact D'|]. congruence.
    - intros (_ & _ & _ & ->). reflexivity.
  Qed.

  (** ** grouping *)
  Variable ends : M -> text * text.
  Notation group := (group_mates M ends).
  Lemma group_snoc ms m : group (ms ++ [m]) = group_mate M ends (group ms) m.
  Proof. unfold group_mates. rewrite fold_left_app. reflexivity. Qed.
  Definition same_ends (k : text * text) (m : M) : bool := pair_eqb k (ends m).
  Lemma group_get ms k : dget pair_eqb k (group ms) = match filter (same_ends k) ms with [] => None | l => Some l end.
  Proof.
    induction ms as [|m ms IH] using rev_ind; [reflexivity|]. rewrite group_snoc. unfold group_mate.
    rewrite filter_app. cbn [filter]. unfold same_ends at 2.
    destruct (pair_eqb k (ends m)) eqn:E.
    - apply pair_spec in E. subst k. rewrite (dget_set_same pair_eqb pair_spec), IH.
      destruct (filter (same_ends (ends m)) ms); reflexivity.
    - assert (N : k <> ends m) by (intros ->; rewrite (proj2 (pair_spec _ _) eq_refl) in E; discriminate).
      rewrite (dget_set_other pair_eqb pair_spec) by exact N. rewrite IH, app_nil_r. reflexivity.
  Qed.
  Lemma group_nodup ms : NoDup (map fst (group ms)).
  Proof.
    induction ms as [|m ms IH] using rev_ind; [constructor|]. rewrite group_snoc. unfold group_mate.
    apply (nodup_set pair_eqb pair_spec). exact IH.
  Qed.
  Lemma group_firsts ms : firsts (map ends ms) (map fst (group ms)).
  Proof.
    induction ms as [|m ms IH] using rev_ind; [constructor|]. rewrite group_snoc, map_app. unfold group_mate. cbn [map].
    change (map fst ?d) with (keys d) in *. rewrite keys_set.
    assert (IN : In (ends m) (keys (group ms)) <-> In (ends m) (map ends ms)).
    { rewrite <- (dget_some_key pair_eqb pair_spec). rewrite group_get. rewrite in_map_iff. split.
      - intros [v E]. destruct (filter (same_ends (ends m)) ms) as [|m' l] eqn:F; [discriminate|].
        assert (I : In m' (filter (same_ends (ends m)) ms)) by (rewrite F; left; reflexivity).
        apply filter_In in I as [I S]. apply pair_spec in S. exists m'. auto.
      - intros (m' & E & I). assert (J : In m' (filter (same_ends (ends m)) ms)).
        { apply filter_In. split; [exact I|]. apply pair_spec. auto. }
        destruct (filter (same_ends (ends m)) ms); [destruct J|eauto]. }
    destruct (dmem pair_eqb (ends m) (group ms)) eqn:D.
    - constructor; [exact IH|]. apply IN. apply (dmem_in pair_eqb pair_spec). exact D.
    - apply F_new; [exact IH|]. intros I. apply IN in I. apply (dmem_in pair_eqb pair_spec) in I. congruence.
  Qed.
  Lemma group_in ms k l : In (k, l) (group ms) <-> l <> [] /\ l = filter (same_ends k) ms.
  Proof.
    split.
    - intros I. apply (in_dget pair_eqb pair_spec) in I; [|apply group_nodup]. rewrite group_get in I.
      destruct (filter (same_ends k) ms); [discriminate|]. injection I as <-. split; [discriminate|reflexivity].
    - intros [N ->]. apply (dget_in pair_eqb pair_spec). rewrite group_get. destruct (filter (same_ends k) ms); [congruence|reflexivity].
  Qed.
End Reg.
