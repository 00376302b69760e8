(** C343-C347: load cases and bolt patterns of assemblies. *)
From Coq Require Import Reals ZArith String List Bool Lra Lia.
From Verif Require Import Dict Json_Model Meta_Model Load_Model Load_Spec.
From Verif Require Meta_Proofs Load_Proofs Meta_Props.
Import ListNotations.
Open Scope Z_scope.
Open Scope string_scope.
Open Scope list_scope.

Definition demo_attach : attach := mkattach (JStr (t "fin")) (JList [JInt 0; JInt 0; JInt 5]) JNull (JInt 90) JNull.
Definition demo_load : load := mkload (JStr (t "L1")) (JStr (t "chute")) (JStr (t "recovery")) (JList [JInt 1; JInt 0; JInt 0]) demo_attach
  (JInt 900) JNull (JStr (t "vehicle")) (JStr []) (JStr []) (JStr (t "estimated")) (JInt 1).

(** C343: which load cases and bolt patterns are accepted. *)
Theorem c343_accepted x y : post_init x = Got y <-> y = x /\ sound x.
Proof. exact (Load_Proofs.post_init_iff x y). Qed.
Print Assumptions c343_accepted.
Theorem c343_read d x : from_dict d = Got x -> sound x /\ exists a,
  get (t "attach") d = Some (JObj a) /\ get (t "part") a = Some (a_part (l_attach x)) /\
  get (t "id") d = Some (l_id x) /\ get (t "name") d = Some (l_name x) /\ get (t "group") d = Some (l_group x) /\
  get (t "direction") d = Some (l_direction x).
Proof. exact (Load_Proofs.from_dict_parts d x). Qed.
Print Assumptions c343_read.
Theorem c343_bolts b : bolt_pattern b = Got b <-> (0 < b_pcd b)%R /\ (0 < b_n b)%R /\ exists x y z, b_access b = [x; y; z].
Proof.
  unfold bolt_pattern, Rpos. rewrite <- Load_Proofs.three_entries.
  destruct (Rlt_dec 0 (b_pcd b)), (Rlt_dec 0 (b_n b)); cbn [negb]; try (split; [discriminate|intros (A & B & _); contradiction]).
  destruct (Nat.eqb (length (b_access b)) 3) eqn:E; cbn [negb].
  - apply Nat.eqb_eq in E. split; auto.
  - split; [discriminate|]. intros (_ & _ & K). apply Nat.eqb_eq in K. congruence.
Qed.
Print Assumptions c343_bolts.
Example c343_nonvacuous : post_init demo_load = Got demo_load /\ sound demo_load.
Proof. split; [reflexivity|]. apply (proj1 (c343_accepted demo_load demo_load) eq_refl). Qed.

(** C344: writing a load case and reading it gives it back. *)
Theorem c344_round_trip H x l p : sound x -> lists (l_direction x) l -> lists (a_position (l_attach x)) p ->
  exists d y, to_dict H x = Got d /\ from_dict d = Got y /\ same_case (truthy H (l_warn x)) l p x y.
Proof. exact (Load_Proofs.round_trip H x l p). Qed.
Print Assumptions c344_round_trip.
Theorem c344_writable H x : (exists d, to_dict H x = Got d) <->
  exists l p, lists (l_direction x) l /\ lists (a_position (l_attach x)) p.
Proof. symmetry. exact (Load_Proofs.to_dict_iff H x). Qed.
Print Assumptions c344_writable.
Theorem c344_stable H x d y : sound x -> to_dict H x = Got d -> from_dict d = Got y -> to_dict H y = Got d.
Proof. exact (Load_Proofs.stable H x d y). Qed.
Print Assumptions c344_stable.
Theorem c344_bolts b k : bolt_pattern b = Got b -> b_n b = IZR k -> reread (written b) = Got b.
Proof.
  intros HB HK. unfold reread, written. assert (E : IZR (Int_part (b_n b)) = b_n b).
  { rewrite HK. destruct (base_Int_part (IZR k)) as [H1 H2]. f_equal. apply le_IZR in H1.
    assert (H3 : (IZR k < IZR (Int_part (IZR k)) + 1)%R) by lra. rewrite <- plus_IZR in H3. apply lt_IZR in H3. lia. }
  rewrite E. destruct b. exact HB.
Qed.
Print Assumptions c344_bolts.
Example c344_nonvacuous : exists d y, to_dict Meta_Props.demo demo_load = Got d /\ from_dict d = Got y /\ l_warn y = JBool true /\ l_g y = JNull.
Proof. eexists _, _. split; [reflexivity|]. split; [vm_compute; reflexivity|]. split; reflexivity. Qed.

(** C345: the registries of an assembly. *)
Theorem c345_load_case L B part id x (r r' : registry L B) : add_load_case L B part id x r = Some r' <->
  (part = t "_assembly" \/ In part (parts _ _ r)) /\ ~ In id (map fst (loads _ _ r)) /\
  r' = mkreg _ _ (parts _ _ r) (loads _ _ r ++ [(id, x)]) (patterns _ _ r).
Proof. exact (Load_Proofs.load_added L B part id x r r'). Qed.
Print Assumptions c345_load_case.
Theorem c345_bolt_pattern L B a b x (r r' : registry L B) : add_bolt_pattern L B a b x r = Some r' <->
  In a (parts _ _ r) /\ In b (parts _ _ r) /\ ~ In (a, b) (map fst (patterns _ _ r)) /\
  r' = mkreg _ _ (parts _ _ r) (loads _ _ r) (patterns _ _ r ++ [((a, b), x)]).
Proof. exact (Load_Proofs.pattern_added L B a b x r r'). Qed.
Print Assumptions c345_bolt_pattern.
Theorem c345_found L B part id x (r r' : registry L B) : add_load_case L B part id x r = Some r' ->
  get_load_case L B id r' = Some x /\ (forall id', id' <> id -> get_load_case L B id' r' = get_load_case L B id' r) /\
  exported_loads L B r' = exported_loads L B r ++ [x].
Proof.
  intros H. pose proof H as H'. apply c345_load_case in H as (_ & N & ->). unfold add_load_case in H'.
  destruct (negb (teq part (t "_assembly")) && negb (mem part (parts _ _ r)))%bool; [discriminate|].
  destruct (dmem teq id (loads _ _ r)); [discriminate|].
  assert (E : dset teq id x (loads _ _ r) = loads _ _ r ++ [(id, x)]).
  { apply Load_Proofs.dset_new, (dget_none teq Meta_Proofs.teq_spec). exact N. }
  unfold get_load_case, exported_loads. cbn [loads]. rewrite map_app. rewrite <- E.
  split; [apply (dget_set_same teq Meta_Proofs.teq_spec)|]. split; [|reflexivity].
  intros id' D. apply (dget_set_other teq Meta_Proofs.teq_spec). exact D.
Qed.
Print Assumptions c345_found.
Theorem c345_pattern_found L B a b x (r r' : registry L B) : add_bolt_pattern L B a b x r = Some r' ->
  get_bolt_pattern L B a b r' = Some x /\
  forall a' b', (a', b') <> (a, b) -> get_bolt_pattern L B a' b' r' = get_bolt_pattern L B a' b' r.
Proof.
  intros H. apply c345_bolt_pattern in H as (_ & _ & N & ->).
  assert (E : dset pair_eqb (a, b) x (patterns _ _ r) = patterns _ _ r ++ [((a, b), x)]).
  { apply Load_Proofs.dset_new, (dget_none pair_eqb Load_Proofs.pair_spec). exact N. }
  unfold get_bolt_pattern. cbn [patterns]. rewrite <- E. split; [apply (dget_set_same pair_eqb Load_Proofs.pair_spec)|].
  intros a' b' D. apply (dget_set_other pair_eqb Load_Proofs.pair_spec). exact D.
Qed.
Print Assumptions c345_pattern_found.
Definition demo_reg : registry load bolts := mkreg _ _ [t "fin"; t "tube"] [] [].
Example c345_nonvacuous : (exists r', add_load_case _ _ (t "fin") (t "L1") demo_load demo_reg = Some r') /\
  add_load_case _ _ (t "wing") (t "L1") demo_load demo_reg = None.
Proof. split; [eexists|]; reflexivity. Qed.

(** C346: the interfaces of an exported assembly. *)
Theorem c346_interfaces L B M (ends : M -> text * text) ms (r : registry L B) :
  let out := interfaces L B M ends ms r in
  firsts (map ends ms) (map (fun i => fst (fst i)) out) /\ NoDup (map (fun i => fst (fst i)) out) /\
  forall k l p, In (k, l, p) out -> l <> [] /\ l = filter (fun m => pair_eqb k (ends m)) ms /\ p = get_bolt_pattern L B (fst k) (snd k) r.
Proof.
  cbv zeta. unfold interfaces. rewrite map_map. cbn [fst]. split; [|split].
  - apply Load_Proofs.group_firsts.
  - apply Load_Proofs.group_nodup.
  - intros k l p I. apply in_map_iff in I as ([k' l'] & E & I). cbn [fst snd] in E. injection E as -> -> <-.
    apply Load_Proofs.group_in in I as [N F]. split; [exact N|]. split; [exact F|]. destruct k; reflexivity.
Qed.
Print Assumptions c346_interfaces.
Theorem c346_complete L B M (ends : M -> text * text) ms (r : registry L B) m : In m ms ->
  exists l, In (ends m, l, get_bolt_pattern L B (fst (ends m)) (snd (ends m)) r) (interfaces L B M ends ms r) /\ In m l.
Proof.
  intros I. set (l := filter (Load_Proofs.same_ends M ends (ends m)) ms).
  assert (J : In m l) by (apply filter_In; split; [exact I|]; apply Load_Proofs.pair_spec; reflexivity).
  exists l. split; [|exact J]. unfold interfaces. apply in_map_iff. exists (ends m, l). cbn [fst snd]. split.
  - unfold get_bolt_pattern. destruct (ends m); reflexivity.
  - apply Load_Proofs.group_in. split; [|reflexivity]. intros E. rewrite E in J. destruct J.
Qed.
Print Assumptions c346_complete.
Theorem c346_equal_pairs a b : pair_eqb a b = true <-> a = b.
Proof. exact (Load_Proofs.pair_spec a b). Qed.
Print Assumptions c346_equal_pairs.
Example c346_nonvacuous : map (fun i => fst (fst i)) (interfaces load bolts _ (fun m => m)
  [(t "fin", t "tube"); (t "nose", t "tube"); (t "fin", t "tube")] demo_reg) = [(t "fin", t "tube"); (t "nose", t "tube")].
Proof. reflexivity. Qed.

(** C347 (refuted): everything that was accepted can be written, read and found again. *)
Theorem c347_refuted :
  (exists d x, from_dict d = Got x /\ forall H, to_dict H x = Fault BadType) /\
  (exists b, bolt_pattern b = Got b /\ reread (written b) = Fault BadValue) /\
  (exists (r r' : registry load bolts) b, add_bolt_pattern _ _ (t "tube") (t "fin") b r = Some r' /\
     forall k l p, In (k, l, p) (interfaces _ _ _ (fun m => m) [(t "fin", t "tube")] r') -> p = None).
Proof.
  split; [|split].
  - eexists [(t "attach", JObj [(t "part", JStr (t "fin")); (t "position", JNull)]); (t "id", JStr (t "L1")); (t "name", JStr (t "n"));
      (t "group", JStr (t "custom")); (t "direction", JList [JInt 1; JInt 0; JInt 0]); (t "magnitude_n", JInt 5)], _.
    split; [vm_compute; reflexivity|]. intros H. reflexivity.
  - exists (mkbolts 40 (1 / 2) (t "M4") [0; 0; 1]%R). split.
    + apply c343_bolts. cbn. split; [lra|]. split; [lra|]. eauto.
    + unfold reread, written. cbn [b_pcd b_n b_spec b_access].
      assert (E : Int_part (1 / 2) = 0).
      { destruct (base_Int_part (1 / 2)) as [H1 H2]. assert (A : (IZR (Int_part (1 / 2)) < 1)%R) by lra. assert (B : (-1 < IZR (Int_part (1 / 2)))%R) by lra.
        apply lt_IZR in A. apply lt_IZR in B. lia. }
      rewrite E. unfold bolt_pattern, Rpos. cbn [b_pcd b_n]. destruct (Rlt_dec 0 40); [|exfalso; lra]. cbn [negb].
      destruct (Rlt_dec 0 0); [exfalso; lra|]. reflexivity.
  - exists demo_reg. eexists _, (mkbolts 40 6 (t "M4") [0; 0; 1]%R). split; [reflexivity|].
    intros k l p I. match type of I with In _ ?o => assert (G : o = [((t "fin", t "tube"), [(t "fin", t "tube")], None)]) by reflexivity end.
    rewrite G in I. destruct I as [E|[]]. inversion E. reflexivity.
Qed.
Print Assumptions c347_refuted.
