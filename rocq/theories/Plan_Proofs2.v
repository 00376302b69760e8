From Coq Require Import ZArith String List Bool Lia.
From Verif Require Import Dict Json_Model Meta_Model Meta_Proofs Plan_Model Plan_Spec Plan_Proofs.
Import ListNotations.
Open Scope list_scope.

Lemma lacking_missing d l : lacking d l (missing l d).
Proof.
  induction l as [|k l IH]; [constructor|]. cbn [missing filter]. destruct (has k d) eqn:E; apply has_split in E; cbn [negb]; [apply L_has|apply L_lacks]; assumption.
Qed.
Lemma lacking_det d l m : lacking d l m -> m = missing l d.
Proof.
  induction 1 as [|k l m H _ IH|k l m H _ IH]; [reflexivity| |]; cbn [missing filter].
  - apply has_iff in H. rewrite H. exact IH.
  - apply has_not in H. rewrite H. cbn [negb]. f_equal. exact IH.
Qed.
Lemma missing_none d l : missing l d = [] <-> forall k, In k l -> has_field d k.
Proof.
  induction l as [|k l IH]; [cbn; tauto|]. cbn [missing filter]. destruct (has k d) eqn:E; apply has_split in E; cbn [negb].
  - fold (missing l d). rewrite IH. split; [intros X k' [<-|I]; auto|intros X k' I; apply X; right; exact I].
  - split; [discriminate|]. intros X. exfalso. apply E, X. left. reflexivity.
Qed.
Lemma says_mapping k d : says (mapping k d) (mapping_error k d) never.
Proof.
  unfold mapping, mapping_error. destruct (get k d) as [v|] eqn:G.
  - assert (W : (exists c, v = JObj c) \/ (~ a_mapping v /\ match v with JObj _ => none | _ => error k (WrongType v) end = error k (WrongType v))).
    { destruct v as [| | | | | |c|]; eauto; right; (split; [apply not_mapping; discriminate|reflexivity]). }
    destruct W as [(c & ->)|[N ->]]; (eapply says_eqv; [apply says_none || apply says_error|..]; [|reflexivity]); intros e.
    + split; [intros []|]. intros (v & [= <-] & N & _). apply N. exists c. reflexivity.
    + split; [intros ->; exists v; auto|]. intros (v' & [= <-] & _ & ->). reflexivity.
  - eapply says_eqv; [apply says_none|..]; [|reflexivity]. intros e. split; [intros []|]. intros (v & X & _). discriminate.
Qed.
Section H.
Variable H : host.
Lemma lstrip_nil s : lstrip H s = [] <-> Forall (fun c => space H c = true) s.
Proof.
  induction s as [|c s IH]; cbn [lstrip]; [split; auto|]. destruct (space H c) eqn:E.
  - rewrite IH. split; [constructor; auto|]. inversion 1; assumption.
  - split; [discriminate|]. inversion 1. congruence.
Qed.
Lemma lstrip_forall s : Forall (fun c => space H c = true) (lstrip H s) -> Forall (fun c => space H c = true) s.
Proof.
  induction s as [|c s IH]; cbn [lstrip]; auto. destruct (space H c) eqn:E; [constructor; auto|]. auto.
Qed.
Lemma strip_nil s : strip H s = [] <-> Forall (fun c => space H c = true) s.
Proof.
  unfold strip. split.
  - intros X. apply lstrip_forall. apply (f_equal (@rev Z)) in X. rewrite rev_involutive in X. cbn [rev] in X. apply lstrip_nil in X.
    apply Forall_rev in X. rewrite rev_involutive in X. exact X.
  - intros X. apply lstrip_nil in X. rewrite X. reflexivity.
Qed.
Lemma blank_iff v : blank H v = false <-> a_name H v.
Proof.
  unfold blank, a_name. destruct v as [| | | |s| | |]; try (split; [discriminate|intros (s0 & X & _); discriminate]).
  assert (D : strip H s = [] <-> ~ Exists (fun c => space H c = false) s).
  { rewrite strip_nil, <- Forall_Exists_neg. split; apply Forall_impl; intros c; destruct (space H c); congruence. }
  destruct (strip H s) as [|c r].
  - split; [discriminate|]. intros (s0 & [= <-] & X). exfalso. apply D; auto.
  - split; [|reflexivity]. intros _. exists s. split; [reflexivity|]. destruct (Exists_dec (fun c => space H c = false) s) as [X|X]; [intros x; destruct (space H x); [right; discriminate|left; reflexivity]|exact X|].
    apply D in X. discriminate.
Qed.
Lemma says_text k d : has_field d k -> says (check_text H k (arg k d)) (name_error H k d) never.
Proof.
  intros (v & G). unfold check_text, arg, name_error. rewrite G. destruct (blank H v) eqn:B; (eapply says_eqv; [apply says_none || apply says_error|..]; [|reflexivity]); intros e.
  - split; [intros ->; exists v; split; [reflexivity|]; split; [|reflexivity]; intros N; apply blank_iff in N; congruence|]. intros (v' & [= <-] & _ & ->). reflexivity.
  - apply blank_iff in B. split; [intros []|]. intros (v' & [= <-] & N & _). contradiction.
Qed.
Lemma says_unknown known d : says (unknown known d) never (unknown_field known d).
Proof.
  split; intros e; [reflexivity|]. cbn [unknown snd]. rewrite in_map_iff. unfold unknown_field. split.
  - intros (k & <- & I). apply filter_In in I as [I N]. exists k. split; [|split; [|reflexivity]].
    + apply has_iff. unfold has. apply (dmem_in _ teq_spec). exact I.
    + intros J. apply mem_spec in J. rewrite J in N. discriminate.
  - intros (k & I & N & ->). exists k. split; [reflexivity|]. apply filter_In. split.
    + apply has_iff in I. unfold has in I. apply (dmem_in _ teq_spec) in I. exact I.
    + destruct (mem k known) eqn:M; [apply mem_spec in M; contradiction|reflexivity].
Qed.
Lemma says_acceptance d r : optional (t "acceptance") d check_acceptance = Ok r -> says r (acceptance_error d) (acceptance_warning d).
Proof.
  unfold optional, acceptance_error, acceptance_warning. destruct (get (t "acceptance") d) as [v|] eqn:G; intros E.
  - assert (W : (exists c, v = JObj c) \/ (~ a_mapping v /\ check_acceptance v = Ok (error (t "acceptance") (WrongType v)))).
    { destruct v as [| | | | | |c|]; eauto; right; (split; [apply not_mapping; discriminate|reflexivity]). }
    destruct W as [(l & ->)|[N W]].
    + eapply says_eqv; [exact (criteria_says _ _ _ E)|..]; intros e; unfold entry_error, entry_warning.
      * split; [intros (k & c & I & X); exists (JObj l); split; [reflexivity|]; right; exists l, k, c; auto|].
        intros (v & [= <-] & [[N _]|(l' & k & c & [= <-] & I & X)]); [exfalso; apply N; exists l; reflexivity|]. exists k, c. auto.
      * split; [intros (k & c & I & X); exists l, k, c; auto|]. intros (l' & k & c & [= <-] & I & X). exists k, c. auto.
    + rewrite W in E. apply ok_of in E. subst r. eapply says_eqv; [apply says_error|..]; intros e.
      * split; [intros ->; exists v; auto|]. intros (v' & X & Y). apply some_inj in X. subst v'. destruct Y as [[_ ->]|(l & k & c & -> & _)]; [reflexivity|]. exfalso. apply N. exists l. reflexivity.
      * split; [intros []|]. intros (l & k & c & X & _). apply some_inj in X. apply N. exists l. exact X.
  - apply ok_of in E. subst r. eapply says_eqv; [apply says_none|..]; intros e; (split; [intros []|]); [intros (v & X & _)|intros (l & k & c & X & _)]; discriminate.
Qed.
Lemma acceptance_err d e : optional (t "acceptance") d check_acceptance = Err e <->
  (exists l k r, get (t "acceptance") d = Some (JObj l) /\ In (k, JObj r) l /\ odd_choice (t "comparison") r) /\ e = TypeErr.
Proof.
  unfold optional. destruct (get (t "acceptance") d) as [v|] eqn:G.
  - assert (W : (exists c, v = JObj c) \/ (~ a_mapping v /\ check_acceptance v = Ok (error (t "acceptance") (WrongType v)))).
    { destruct v as [| | | | | |c|]; eauto; right; (split; [apply not_mapping; discriminate|reflexivity]). }
    destruct W as [(l & ->)|[N W]].
    + cbn [check_acceptance]. rewrite criteria_err. split; intros (X & ->); (split; [|reflexivity]).
      * destruct X as (k & r & I & O). exists l, k, r. auto.
      * destruct X as (l' & k & r & [= <-] & I & O). exists k, r. auto.
    + rewrite W. split; [discriminate|]. intros ((l & k & r & X & _) & _). apply some_inj in X. exfalso. apply N. exists l. exact X.
  - split; [discriminate|]. intros ((l & k & r & X & _) & _). discriminate.
Qed.
Lemma says_list types k d r : check_list types k d = Ok r -> says r (list_error types k d) (list_warning k d).
Proof.
  unfold check_list, list_error, list_warning. destruct (get k d) as [v|] eqn:G; intros E.
  - assert (W : (exists c, v = JList c) \/ (~ a_list v /\ match v with JList l => check_items types k 0 l | _ => Ok (error k (WrongType v)) end = Ok (error k (WrongType v)))).
    { destruct v as [| | | | |c| |]; eauto; right; (split; [apply not_a_list; discriminate|reflexivity]). }
    destruct W as [(l & ->)|[N W]].
    + eapply says_eqv; [exact (items_says _ _ _ _ _ E)|..]; intros e; unfold items_error, items_warning; cbn [Nat.add].
      * split; [intros (i & x & I & X); exists (JList l); split; [reflexivity|]; right; exists l, i, x; auto|].
        intros (v & [= <-] & [[N _]|(l' & i & x & [= <-] & I & X)]); [exfalso; apply N; exists l; reflexivity|]. exists i, x. auto.
      * split; [intros (i & x & I & X); exists l, i, x; auto|]. intros (l' & i & x & [= <-] & I & X). exists i, x. auto.
    + rewrite W in E. apply ok_of in E. subst r. eapply says_eqv; [apply says_error|..]; intros e.
      * split; [intros ->; exists v; auto|]. intros (v' & X & Y). apply some_inj in X. subst v'. destruct Y as [[_ ->]|(l & i & c & -> & _)]; [reflexivity|]. exfalso. apply N. exists l. reflexivity.
      * split; [intros []|]. intros (l & i & c & X & _). apply some_inj in X. apply N. exists l. exact X.
  - apply ok_of in E. subst r. eapply says_eqv; [apply says_none|..]; intros e; (split; [intros []|]); [intros (v & X & _)|intros (l & i & c & X & _)]; discriminate.
Qed.
Lemma list_err types k d e : check_list types k d = Err e <-> odd_item k d /\ e = TypeErr.
Proof.
  unfold check_list, odd_item. destruct (get k d) as [v|] eqn:G.
  - assert (W : (exists c, v = JList c) \/ (~ a_list v /\ match v with JList l => check_items types k 0 l | _ => Ok (error k (WrongType v)) end = Ok (error k (WrongType v)))).
    { destruct v as [| | | | |c| |]; eauto; right; (split; [apply not_a_list; discriminate|reflexivity]). }
    destruct W as [(l & ->)|[N W]].
    + rewrite items_err. split; intros (X & ->); (split; [|reflexivity]).
      * destruct X as (r & I & O). exists l, r. auto.
      * destruct X as (l' & r & [= <-] & I & O). exists r. auto.
    + rewrite W. split; [discriminate|]. intros ((l & r & X & _) & _). apply some_inj in X. exfalso. apply N. exists l. exact X.
  - split; [discriminate|]. intros ((l & r & X & _) & _). discriminate.
Qed.
Lemma says_geometry d : says (match get (t "geometry") d with Some g => check_geometry g | None => none end) (geometry_error d) (geometry_warning d).
Proof.
  unfold geometry_error, geometry_warning, mapping_error. destruct (get (t "geometry") d) as [v|] eqn:G.
  - assert (W : (exists c, v = JObj c) \/ (~ a_mapping v /\ check_geometry v = error (t "geometry") (WrongType v))).
    { destruct v as [| | | | | |c|]; eauto; right; (split; [apply not_mapping; discriminate|reflexivity]). }
    destruct W as [(g & ->)|[N ->]].
    + cbn [check_geometry].
      assert (A : says (if has (t "source") g then none else warning (t "geometry") (NoField (t "source"))) never (fun e => ~ has_field g (t "source") /\ e = (t "geometry", NoField (t "source")))).
      { destruct (has (t "source") g) eqn:L; apply has_split in L; (eapply says_eqv; [apply says_none || apply says_warning|..]); kill. }
      assert (B : says (match get (t "entities") g with None | Some (JList _) => none | Some e => error (t "geometry.entities") (WrongType e) end)
        (fun e => exists v, get (t "entities") g = Some v /\ ~ a_list v /\ e = (t "geometry.entities", WrongType v)) never).
      { destruct (get (t "entities") g) as [v|].
        - assert (W : (exists c, v = JList c) \/ (~ a_list v /\ match v with JList _ => none | _ => error (t "geometry.entities") (WrongType v) end = error (t "geometry.entities") (WrongType v))).
          { destruct v as [| | | | |c| |]; eauto; right; (split; [apply not_a_list; discriminate|reflexivity]). }
          destruct W as [(c & ->)|[N ->]]; (eapply says_eqv; [apply says_none || apply says_error|..]; [|reflexivity]); intros e.
          + split; [intros []|]. intros (v & [= <-] & N & _). apply N. exists c. reflexivity.
          + split; [intros ->; exists v; auto|]. intros (v' & [= <-] & _ & ->). reflexivity.
        - eapply says_eqv; [apply says_none|..]; [|reflexivity]. intros e. split; [intros []|]. intros (v & X & _). discriminate. }
      eapply says_eqv; [exact (says_both _ _ _ _ _ _ A B)|..]; intros e; unfold or_, never.
      * split; [intros [[]|(v & X)]; right; exists g, v; tauto|]. intros [(v & [= <-] & N & _)|(g' & v & [= <-] & X)]; [exfalso; apply N; exists g; reflexivity|]. right. exists v. exact X.
      * split; [intros [X|[]]; exists g; auto|]. intros (g' & [= <-] & X). auto.
    + eapply says_eqv; [apply says_error|..]; intros e.
      * split; [intros ->; left; exists v; auto|]. intros [(v' & X & _ & ->)|(g & v' & X & _)]; apply some_inj in X; [subst; reflexivity|]. exfalso. apply N. exists g. exact X.
      * split; [intros []|]. intros (g & X & _). apply some_inj in X. apply N. exists g. exact X.
  - eapply says_eqv; [apply says_none|..]; intros e; (split; [intros []|]).
    + intros [(v & X & _)|(g & v & X & _)]; discriminate.
    + intros (g & X & _). discriminate.
Qed.
Definition run_check (k : text) (d : dict) : res issues := match get (t "check") d with None => Ok (error [] (NoField (t "check"))) | Some c => check_check k c end.
Lemma says_check k d r : run_check k d = Ok r -> says r (check_error k d) never.
Proof.
  unfold run_check, check_error, mapping_error. destruct (get (t "check") d) as [v|] eqn:G; intros E.
  - assert (W : (exists c, v = JObj c) \/ (~ a_mapping v /\ check_check k v = Ok (error (t "check") (WrongType v)))).
    { destruct v as [| | | | | |c|]; eauto; right; (split; [apply not_mapping; discriminate|reflexivity]). }
    assert (F : has_field d (t "check")) by (exists v; exact G).
    destruct W as [(c & ->)|[N W]].
    + cbn [check_check] in E. destruct (get (t "property") c) as [p|] eqn:P.
      * destruct (in_set p (check_properties k)) as [ok|] eqn:I; cbn [bind] in E; [|discriminate]. apply ok_of in E. subst r. pose proof (in_set_ok _ _ _ I) as K.
        destruct ok; (eapply says_eqv; [apply says_none || apply says_error|..]; [|reflexivity]); intros e.
        -- split; [intros []|]. intros [[N _]|[(v & [= <-] & N & _)|(c' & [= <-] & [[N _]|(v & X & N & _)])]]; [contradiction|apply N; exists c; reflexivity|apply N; exists p; exact P|]. rewrite P in X. apply some_inj in X. subst v. apply N, K. reflexivity.
        -- split; [intros ->; right; right; exists c; split; [reflexivity|]; right; exists p; split; [exact P|]; split; [|reflexivity]; intros O; apply K in O; discriminate|].
           intros [[N _]|[(v & [= <-] & N & _)|(c' & [= <-] & [[N _]|(v & X & N & ->)])]]; [contradiction|exfalso; apply N; exists c; reflexivity|exfalso; apply N; exists p; exact P|]. rewrite P in X. apply some_inj in X. subst v. reflexivity.
      * apply ok_of in E. subst r. eapply says_eqv; [apply says_error|..]; [|reflexivity]. intros e.
        split; [intros ->; right; right; exists c; split; [reflexivity|]; left; split; [apply get_none, P|reflexivity]|].
        intros [[N _]|[(v & [= <-] & N & _)|(c' & [= <-] & [[_ X]|(v & X & _)])]]; [contradiction|exfalso; apply N; exists c; reflexivity|exact X|]. rewrite P in X. discriminate.
    + rewrite W in E. apply ok_of in E. subst r. eapply says_eqv; [apply says_error|..]; [|reflexivity]. intros e.
      split; [intros ->; right; left; exists v; auto|]. intros [[X _]|[(v' & X & _ & ->)|(c & X & _)]]; [contradiction| |]; apply some_inj in X; [subst; reflexivity|]. exfalso. apply N. exists c. exact X.
  - apply ok_of in E. subst r. eapply says_eqv; [apply says_error|..]; [|reflexivity]. intros e. split.
    + intros ->. left. split; [apply get_none, G|reflexivity].
    + intros [[_ X]|[(v & X & _)|(c & X & _)]]; [exact X|discriminate..].
Qed.
Lemma check_err k d e : run_check k d = Err e <-> (exists c, get (t "check") d = Some (JObj c) /\ odd_choice (t "property") c) /\ e = TypeErr.
Proof.
  unfold run_check. destruct (get (t "check") d) as [v|] eqn:G.
  - assert (W : (exists c, v = JObj c) \/ (~ a_mapping v /\ check_check k v = Ok (error (t "check") (WrongType v)))).
    { destruct v as [| | | | | |c|]; eauto; right; (split; [apply not_mapping; discriminate|reflexivity]). }
    destruct W as [(c & ->)|[N W]].
    + cbn [check_check]. unfold odd_choice. destruct (get (t "property") c) as [p|] eqn:P.
      * destruct (in_set p (check_properties k)) as [ok|e'] eqn:I; cbn [bind].
        -- split; [discriminate|]. intros ((c' & [= <-] & v & X & N) & ->). rewrite P in X. apply some_inj in X. subst v. pose proof (proj2 (in_set_err p (check_properties k) TypeErr) (conj N eq_refl)). congruence.
        -- apply in_set_err in I as [N ->]. split; [intros [= <-]; split; [|reflexivity]; exists c; split; [reflexivity|]; exists p; auto|]. intros (_ & ->). reflexivity.
      * split; [discriminate|]. intros ((c' & [= <-] & v & X & _) & _). congruence.
    + rewrite W. split; [discriminate|]. intros ((c & X & _) & _). apply some_inj in X. exfalso. apply N. exists c. exact X.
  - split; [discriminate|]. intros ((c & X & _) & _). discriminate.
Qed.
Lemma bc_iff d k : conditions_under d k <-> k = bc_key d.
Proof.
  unfold conditions_under, bc_key. destruct (has (t "boundaryConditions") d) eqn:E; apply has_split in E; intuition.
Qed.
Lemma says_simulation k d r : check_simulation k d = Ok r -> says r
  (or_ (mapping_error (t "materials") d) (or_ (list_error load_types (t "loads") d) (list_error bc_types (bc_key d) d)))
  (or_ (list_warning (t "loads") d) (or_ (list_warning (bc_key d) d) (fun e => (k = t "structural" \/ k = t "thermal") /\ ~ has_field d (t "materials") /\ e = ([], NoField (t "materials"))))).
Proof.
  unfold check_simulation. intros E. destruct (check_list load_types (t "loads") d) as [a|] eqn:A; cbn [bind] in E; [|discriminate].
  destruct (check_list bc_types (bc_key d) d) as [b|] eqn:B; cbn [bind] in E; [|discriminate]. apply ok_of in E. subst r.
  assert (C : says (if mem k [t "structural"; t "thermal"] && negb (has (t "materials") d) then warning [] (NoField (t "materials")) else none) never
     (fun e => (k = t "structural" \/ k = t "thermal") /\ ~ has_field d (t "materials") /\ e = ([], NoField (t "materials")))).
  { assert (M : mem k [t "structural"; t "thermal"] = true <-> (k = t "structural" \/ k = t "thermal")) by (rewrite mem_spec; cbn [In]; intuition).
    destruct (mem k _) eqn:Q; cbn [andb].
    - destruct (has (t "materials") d) eqn:L; apply has_split in L; cbn [negb]; (eapply says_eqv; [apply says_none || apply says_warning|..]); [kill..| |]; intros e; unfold never; [tauto|]. pose proof (proj1 M eq_refl). tauto.
    - eapply says_eqv; [apply says_none|..]; [reflexivity|]. intros e. split; [intros []|]. intros (X & _). apply M in X. discriminate. }
  eapply says_eqv; [exact (says_both _ _ _ _ _ _ (says_mapping (t "materials") d) (says_both _ _ _ _ _ _ (says_list _ _ _ _ A) (says_both _ _ _ _ _ _ (says_list _ _ _ _ B) C)))|..]; intros e; unfold or_, never; tauto.
Qed.
Lemma simulation_err k d e : check_simulation k d = Err e <-> (odd_item (t "loads") d \/ odd_item (bc_key d) d) /\ e = TypeErr.
Proof.
  unfold check_simulation. destruct (check_list load_types (t "loads") d) as [a|e1] eqn:A; cbn [bind].
  - assert (NA : ~ odd_item (t "loads") d). { intros O. pose proof (proj2 (list_err load_types (t "loads") d TypeErr) (conj O eq_refl)). congruence. }
    destruct (check_list bc_types (bc_key d) d) as [b|e2] eqn:B; cbn [bind].
    + assert (NB : ~ odd_item (bc_key d) d). { intros O. pose proof (proj2 (list_err bc_types (bc_key d) d TypeErr) (conj O eq_refl)). congruence. }
      split; [discriminate|]. tauto.
    + apply list_err in B as [O ->]. split; [intros [= <-]; auto|]. intros (_ & ->). reflexivity.
  - apply list_err in A as [O ->]. split; [intros [= <-]; auto|]. intros (_ & ->). reflexivity.
Qed.
End H.
