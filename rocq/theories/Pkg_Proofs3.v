From Coq Require Import ZArith String List Bool Lia.
From Verif Require Import Dict Json_Model Pkg_Model Pkg_Spec Pkg_Proofs Pkg_Proofs2.
Import ListNotations.
Open Scope Z_scope.
Open Scope list_scope.
#[local] Arguments t : simpl never.

Lemma filter_paths p l : forall l', filter_items p l = Ok l' ->
  (NoDup (paths l) -> NoDup (paths l')) /\ (forall q, In q (paths l') -> In q (paths l)) /\ (forall s, p = JStr s -> ~ In s (paths l')).
Proof.
  induction l as [|i l IH]; intros l' E; cbn in E.
  - apply Ok_inj in E as <-. repeat split; auto.
  - binds E. binds E. apply Ok_inj in E as <-. destruct (IH _ B0) as (I1 & I2 & I3).
    unfold other_path in B. binds B. apply get_dict in B1 as (d & -> & ->). apply Ok_inj in B.
    assert (X : forall r, paths (JObj d :: r) = match field d "path" with Some (JStr p) => [p] | _ => [] end ++ paths r) by reflexivity.
    rewrite X. unfold field. destruct v.
    + rewrite X. unfold field. destruct (dget teq (t "path") d) as [[]|] eqn:Ep; cbn [app]; auto.
      repeat split.
      * intros N. inversion N; subst. constructor; auto.
      * intros q [<-|Hq]; cbn; auto.
      * intros s' -> [<-|Hs]; [rewrite teq_refl in B; discriminate|]. eapply I3; eauto.
    + repeat split; auto.
      * intros N. destruct (dget teq (t "path") d) as [[]|]; cbn [app] in N; auto. inversion N; auto.
      * intros q Hq. apply in_or_app. auto.
Qed.
Lemma paths_app a b : paths (a ++ b) = paths a ++ paths b. Proof. apply flat_map_app. Qed.
Lemma put_paths k e d : NoDup (section_paths d k) -> NoDup (section_paths (fst (put_entry (t k) e d)) k).
Proof.
  unfold put_entry, section_paths, field. destruct (dget teq (t k) d) as [v|] eqn:Ev; intros N.
  - destruct v; cbn [fst]; try (rewrite Ev; exact N).
    destruct (filter_items _ l) as [l'|] eqn:F; cbn [fst]; [|rewrite Ev; exact N].
    rewrite (dget_set_same _ teq_spec), paths_app. apply filter_paths in F as (F1 & F2 & F3). unfold paths at 2. cbn [flat_map]. rewrite app_nil_r. unfold field.
    destruct (dget teq (t "path") e) as [[]|]; rewrite ?app_nil_r; auto. apply NoDup_app_snoc; auto.
  - cbn [filter_items app fst]. rewrite (dget_set_same _ teq_spec). unfold paths. cbn [flat_map]. rewrite app_nil_r.
    destruct (field e "path") as [[]|]; repeat constructor; auto.
Qed.
Lemma put_paths_other k k' e d : k <> k' -> section_paths (fst (put_entry (t k) e d)) k' = section_paths d k'.
Proof. intros N. unfold section_paths. rewrite put_other; auto. Qed.

Section P.
  Variable H : host.
  Definition unique (s : state) : Prop := NoDup (derived_paths (fst s)) /\ NoDup (section_paths (fst s) "attachments").
  Lemma rehash_path alg fs e e' : rehash H alg fs e = Ok e' -> paths [e'] = paths [e].
  Proof.
    unfold rehash. intros E. binds E. destruct (dget teq (loc H v) fs); [|apply Ok_inj in E as <-; auto].
    destruct (known H alg); [|discriminate]. destruct e; try discriminate. apply Ok_inj in E as <-.
    unfold paths. cbn [flat_map]. rewrite fget_other by discriminate. reflexivity.
  Qed.
  Lemma paths_cons e l : paths (e :: l) = paths [e] ++ paths l. Proof. change (e :: l) with ([e] ++ l). apply paths_app. Qed.
  Lemma rehash_all_paths alg fs l : paths (fst (rehash_all H alg fs l)) = paths l.
  Proof.
    induction l as [|e l IH]; [reflexivity|]. cbn [rehash_all]. destruct (rehash H alg fs e) as [e'|] eqn:E; [|reflexivity].
    destruct (rehash_all H alg fs l) as [l' x]. cbn [fst] in *. rewrite paths_cons, (paths_cons e), IH, (rehash_path _ _ _ _ E). reflexivity.
  Qed.
  Lemma rehash_section_paths alg fs d k k' : section_paths (fst (rehash_section H alg fs (t k) d)) k' = section_paths d k'.
  Proof.
    destruct (string_dec k k') as [<-|N]; [|unfold section_paths; rewrite rehash_section_other; auto].
    unfold rehash_section, section_paths, field. destruct (dget teq (t k) d) as [v|] eqn:E; [|cbn [fst]; rewrite E; reflexivity].
    destruct (truthy H v); [|cbn [fst]; rewrite E; reflexivity]. destruct v; try (cbn [fst]; rewrite E; reflexivity).
    pose proof (rehash_all_paths alg fs l) as R. destruct (rehash_all H alg fs l) as [l' x]. cbn [fst] in *. rewrite (dget_set_same _ teq_spec). exact R.
  Qed.
  Lemma recompute_paths alg s : derived_paths (fst (fst (recompute_hashes H alg s))) = derived_paths (fst s) /\
    section_paths (fst (fst (recompute_hashes H alg s))) "attachments" = section_paths (fst s) "attachments".
  Proof.
    destruct s as [d fs]. unfold recompute_hashes. cbn [fst].
    assert (G : forall g, match dget teq (t "geometry") d with Some g => g | None => JObj [] end = JObj g ->
      forall g', section_paths g' "derived" = section_paths g "derived" ->
      derived_paths (match dget teq (t "geometry") d with Some _ => dset teq (t "geometry") (JObj g') d | None => d end) = derived_paths d).
    { intros g Eg g' Eq. unfold derived_paths, field. destruct (dget teq (t "geometry") d) as [v|] eqn:E; [|rewrite E; reflexivity].
      rewrite (dget_set_same _ teq_spec). subst v. exact Eq. }
    assert (A : forall g', section_paths (match dget teq (t "geometry") d with Some _ => dset teq (t "geometry") (JObj g') d | None => d end) "attachments" = section_paths d "attachments").
    { intros g'. destruct (dget teq (t "geometry") d); auto. unfold section_paths. rewrite fget_other by discriminate. reflexivity. }
    destruct (match dget teq (t "geometry") d with Some g => g | None => JObj [] end) as [| | | | | |g|] eqn:Eg; try (split; reflexivity).
    specialize (G g eq_refl). 
    set (x := match dget teq (t "primary") g with Some p => _ | None => _ end). destruct x as [g1 r1] eqn:Ex.
    assert (E1 : section_paths g1 "derived" = section_paths g "derived").
    { subst x. destruct (dget teq (t "primary") g) as [pr|]; [|injection Ex as <- _; reflexivity]. destruct (truthy H pr); [|injection Ex as <- _; reflexivity].
      destruct (rehash H alg fs pr); [|injection Ex as <- _; reflexivity]. assert (X : g1 = dset teq (t "primary") a g) by congruence.
      subst g1. unfold section_paths. rewrite fget_other by discriminate. reflexivity. }
    destruct r1; [|cbn [fst]; auto].
    pose proof (rehash_section_paths alg fs g1 "derived" "derived") as E2. destruct (rehash_section H alg fs (t "derived") g1) as [g2 r2]. cbn [fst] in E2.
    rewrite E1 in E2. destruct r2; [|cbn [fst]; auto]. set (d2 := match dget teq (t "geometry") d with Some _ => dset teq (t "geometry") (JObj g2) d | None => d end).
    assert (D2 : derived_paths d2 = derived_paths d) by (apply G; exact E2). assert (A2 : section_paths d2 "attachments" = section_paths d "attachments") by apply A.
    pose proof (rehash_section_paths alg fs d2 "exports" "attachments") as A3. pose proof (rehash_section_other H alg fs d2 "exports" "geometry" ltac:(discriminate)) as D3.
    destruct (rehash_section H alg fs (t "exports") d2) as [d3 r3]. cbn [fst] in *.
    assert (D3' : derived_paths d3 = derived_paths d) by (unfold derived_paths; rewrite D3; exact D2).
    destruct r3; [|cbn [fst]; split; congruence].
    pose proof (rehash_section_paths alg fs d3 "attachments" "attachments") as A4. pose proof (rehash_section_other H alg fs d3 "attachments" "geometry" ltac:(discriminate)) as D4.
    destruct (rehash_section H alg fs (t "attachments") d3) as [d4 r4]. cbn [fst] in *. split; [unfold derived_paths; rewrite D4; exact D3'|congruence].
  Qed.
  Lemma save_field s k : k <> "schema"%string -> field (fst (fst (save H s))) k = field (fst s) k.
  Proof.
    intros N. unfold save. set (d := match dget teq (t "schema") (fst s) with Some _ => _ | None => _ end).
    assert (E : field d k = field (fst s) k). { unfold d. destruct (dget teq (t "schema") (fst s)); auto. apply fget_other; auto. }
    destruct (representable (JObj d)); exact E.
  Qed.
  Lemma unique_step o s : unique s -> unique (step H o s).
  Proof.
    intros [U1 U2]. destruct o; cbn [step].
    - destruct s as [data fs]. destruct (add_geometry_file H src dest stem purpose category overwrite metadata (data, fs)) as [s' r] eqn:E. cbn [fst].
      apply add_step in E. destruct E as [-> |(b & p & l & data' & _ & _ & _ & -> & D & _)]; [split; auto|]. unfold unique. cbn [fst] in *.
      destruct D as [-> |[(_ & g & Eg & ->)|[(_ & Eg & ->)|(_ & e' & -> & _)]]]; auto.
      + split; [|unfold section_paths; rewrite fget_other by discriminate; exact U2].
        unfold derived_paths in *. rewrite fget_same. rewrite Eg in U1. apply put_paths, U1.
      + split; [|unfold section_paths; rewrite fget_other by discriminate; exact U2].
        unfold derived_paths in *. rewrite fget_same. apply put_paths. constructor.
      + split; [|apply put_paths, U2]. unfold derived_paths. rewrite put_other by discriminate. exact U1.
    - destruct (recompute_paths alg s) as [E1 E2]. split; [rewrite E1|rewrite E2]; auto.
    - unfold unique, derived_paths, section_paths. rewrite !save_field by discriminate. auto.
  Qed.
  Lemma unique_run ops : forall s, unique s -> unique (run H ops s).
  Proof. unfold run. induction ops as [|o ops IH]; intros s U; [exact U|]. cbn [fold_left]. apply IH, unique_step, U. Qed.

  (** ** The entry made by an addition. *)
  Lemma put_records k e d p h : snd (put_entry (t k) e d) = Ok tt -> field e "path" = Some (JStr p) -> field e "hash" = Some (JStr h) ->
    records (fst (put_entry (t k) e d)) k p h.
  Proof.
    unfold put_entry. intros E Ep Eh. destruct (match dget teq (t k) d with Some v => v | None => JList [] end); try discriminate E.
    destruct (filter_items _ l) as [l'|]; [|discriminate E]. cbn [fst]. exists (l' ++ [JObj e]), e. rewrite fget_same. repeat split; auto.
    apply in_or_app. right. left. reflexivity.
  Qed.
  Lemma filter_keeps q l : forall l' e p, filter_items q l = Ok l' -> In (JObj e) l -> field e "path" = Some (JStr p) -> q <> JStr p -> In (JObj e) l'.
  Proof.
    induction l as [|i l IH]; intros l' e p E Hin Ep Nq; [contradiction|]. cbn in E. binds E. binds E. apply Ok_inj in E as <-.
    destruct Hin as [-> |Hin].
    - unfold other_path in B. rewrite get_obj in B. cbn [bind] in B. unfold field in Ep. rewrite Ep in B. apply Ok_inj in B as <-.
      assert (X : match q with JStr a => negb (teq a p) | _ => true end = true).
      { destruct q; auto. destruct (teq s p) eqn:T; auto. apply teq_spec in T. congruence. }
      rewrite X. left. reflexivity.
    - destruct v; [right|]; eapply IH; eauto.
  Qed.
  Lemma put_keeps k e d p h : records d k p h -> field e "path" <> Some (JStr p) -> records (fst (put_entry (t k) e d)) k p h.
  Proof.
    intros (l & e0 & El & Hin & Ep & Eh) N. unfold put_entry. unfold field in El. rewrite El.
    destruct (filter_items _ l) as [l'|] eqn:F; cbn [fst]; [|exists l, e0; auto].
    exists (l' ++ [JObj e]), e0. rewrite fget_same. repeat split; auto. apply in_or_app. left. eapply filter_keeps; eauto.
    unfold field in N. destruct (dget teq (t "path") e); [congruence|discriminate].
  Qed.
  (** Where an addition puts its entry. *)
  Definition destination (src : source) (dest : option text) (category : text) : text :=
    match dest with Some d => d | None => if teq category (t "derived") then t "geometry/derived/" ++ s_name src
                                          else if teq category (t "attachments") then t "attachments/" ++ s_name src else s_name src end.
  Definition unrelated (category p : text) (o : op) : Prop :=
    match o with
    | Add src dest _ _ c _ md => ~ In (t "path") (map fst md) /\ (c = category -> destination src dest c <> p)
    | Save => True
    | Recompute _ => False
    end.
  Definition recorded (category : text) (d : dict) (p h : text) : Prop :=
    (category = t "derived" /\ derived_records d p h) \/ (category = t "attachments" /\ records d "attachments" p h).
  Lemma entry_path src b dest purpose md : ~ In (t "path") (map fst md) -> field (entry_of H src b dest purpose md) "path" = Some (JStr dest).
  Proof. intros N1. unfold entry_of, field. rewrite !dupdate_other by auto. destruct (teq purpose []); reflexivity. Qed.
  Lemma add_records src dest stem purpose category ow md s s' b : ~ In (t "path") (map fst md) -> ~ In (t "hash") (map fst md) ->
    add_geometry_file H src dest stem purpose category ow md s = (s', Ok tt) -> s_bytes src = Some b ->
    recorded category (fst s') (destination src dest category) (sha256 H b).
  Proof.
    intros N1 N2 E Sb. destruct s as [data fs]. unfold add_geometry_file in E. rewrite Sb in E. fold (destination src dest category) in E. set (p := destination src dest category) in *.
    destruct (match dest with Some d => is_absolute d | None => false end); [discriminate|]. destruct (negb ow && _); [discriminate|].
    destruct (entry_fields H src b p purpose md N1 N2) as [Ep Eh].
    destruct (teq category (t "derived")) eqn:C1.
    - apply teq_spec in C1. left. split; auto. unfold derived_records, field.
      destruct (match dget teq (t "geometry") data with Some g => g | None => JObj [] end); try discriminate E.
      destruct (put_entry (t "derived") _ d) as [g' r'] eqn:Pe. injection E as E1 E2. subst s' r'. cbn [fst]. exists g'. split; [apply (dget_set_same _ teq_spec)|].
      replace g' with (fst (put_entry (t "derived") (entry_of H src b p purpose md) d)) by (rewrite Pe; reflexivity). apply put_records; auto. rewrite Pe. reflexivity.
    - destruct (teq category (t "attachments")) eqn:C2; [|discriminate E]. apply teq_spec in C2. right. split; auto.
      set (e' := match dget teq (t "id") (entry_of H src b p purpose md) with Some _ => _ | None => _ end) in E.
      assert (P1 : field e' "path" = Some (JStr p)) by (unfold e'; destruct (dget teq (t "id") _); auto; rewrite fget_other by discriminate; auto).
      assert (P2 : field e' "hash" = Some (JStr (sha256 H b))) by (unfold e'; destruct (dget teq (t "id") _); auto; rewrite fget_other by discriminate; auto).
      destruct (put_entry (t "attachments") e' data) as [g' r'] eqn:Pe. injection E as E1 E2. subst s' r'. cbn [fst].
      replace g' with (fst (put_entry (t "attachments") e' data)) by (rewrite Pe; reflexivity). apply put_records; auto. rewrite Pe. reflexivity.
  Qed.
  Lemma unrelated_step category p h o s : recorded category (fst s) p h -> unrelated category p o -> recorded category (fst (step H o s)) p h.
  Proof.
    intros R U. destruct o; cbn [step unrelated] in *; [|contradiction|].
    - destruct U as [N U]. destruct s as [data fs].
      assert (Dst : forall s' r, add_geometry_file H src dest stem purpose category0 overwrite metadata (data, fs) = (s', r) ->
        s' = (data, fs) \/ exists b data' fs', s' = (data', fs') /\
          (data' = data \/
           (category0 = t "derived" /\ exists g e, (field data "geometry" = Some (JObj g) \/ field data "geometry" = None) /\ data' = dset teq (t "geometry") (JObj (fst (put_entry (t "derived") e g))) data /\ field e "path" = Some (JStr (destination src dest category0))) \/
           (category0 = t "attachments" /\ exists e', data' = fst (put_entry (t "attachments") e' data) /\ field e' "path" = Some (JStr (destination src dest category0)))) /\ s_bytes src = Some b).
      { intros s' r E. unfold add_geometry_file in E. destruct (s_bytes src) as [b|]; [|injection E as <- <-; auto]. fold (destination src dest category0) in E. set (q := destination src dest category0) in *.
        destruct (match dest with Some d => is_absolute d | None => false end); [injection E as <- <-; auto|]. destruct (negb overwrite && _); [injection E as <- <-; auto|]. right.
        pose proof (entry_path src b q purpose metadata N) as Ep.
        destruct (teq category0 (t "derived")) eqn:C1.
        - pose proof (proj1 (teq_spec _ _) C1). unfold field. destruct (dget teq (t "geometry") data) as [g|] eqn:Eg.
          + destruct g; try (injection E as <- <-; exists b, data, (dset teq (loc H q) b fs); auto).
            destruct (put_entry (t "derived") _ d) as [g' r'] eqn:Pe. assert (s' = (dset teq (t "geometry") (JObj g') data, dset teq (loc H q) b fs)) by congruence. subst s'.
            eexists b, _, _. split; [reflexivity|]. split; auto. right. left. split; auto. exists d, (entry_of H src b q purpose metadata). rewrite Pe. auto.
          + destruct (put_entry (t "derived") _ []) as [g' r'] eqn:Pe. assert (s' = (dset teq (t "geometry") (JObj g') data, dset teq (loc H q) b fs)) by congruence. subst s'.
            eexists b, _, _. split; [reflexivity|]. split; auto. right. left. split; auto. exists [], (entry_of H src b q purpose metadata). repeat split; auto.
            exact (f_equal (fun x => dset teq (t "geometry") (JObj (fst x)) data) (eq_sym Pe)).
        - destruct (teq category0 (t "attachments")) eqn:C2.
          + pose proof (proj1 (teq_spec _ _) C2). set (e' := match dget teq (t "id") (entry_of H src b q purpose metadata) with Some _ => _ | None => _ end) in E.
            destruct (put_entry (t "attachments") e' data) as [g' r'] eqn:Pe. injection E as <- <-. eexists b, _, _. split; [reflexivity|]. split; auto. right. right. split; auto.
            exists e'. rewrite Pe. split; auto. unfold e'. destruct (dget teq (t "id") _); auto. rewrite fget_other by discriminate. exact Ep.
          + injection E as <- <-. exists b, data, (dset teq (loc H q) b fs). auto. }
      destruct (add_geometry_file H src dest stem purpose category0 overwrite metadata (data, fs)) as [s' r] eqn:E. destruct (Dst _ _ eq_refl) as [-> |(b & data' & fs' & -> & D & _)]; auto.
      cbn [fst] in *. destruct D as [-> |[(-> & g & e & Eg & -> & Ee)|(-> & e' & -> & Ee)]]; auto.
      + destruct R as [[-> (g' & Eg' & R)]|[-> R]].
        * left. split; auto. destruct Eg as [Eg|Eg]; [|congruence]. rewrite Eg in Eg'. injection Eg' as <-.
          exists (fst (put_entry (t "derived") e g)). split; [apply fget_same|]. apply put_keeps; auto. rewrite Ee. intros X. apply (U eq_refl). congruence.
        * right. split; auto. destruct R as (l & e0 & El & R). exists l, e0. split; auto. rewrite fget_other by discriminate. exact El.
      + destruct R as [[-> (g' & Eg' & R)]|[-> R]].
        * left. split; auto. exists g'. split; auto. rewrite put_other by discriminate. exact Eg'.
        * right. split; auto. apply put_keeps; auto. rewrite Ee. intros X. apply (U eq_refl). congruence.
    - destruct R as [[-> (g' & Eg' & R)]|[-> (l & e0 & El & R)]].
      + left. split; auto. exists g'. split; auto. rewrite save_field by discriminate. exact Eg'.
      + right. split; auto. exists l, e0. split; auto. rewrite save_field by discriminate. exact El.
  Qed.
  Lemma unrelated_run category p h ops : forall s, recorded category (fst s) p h -> Forall (unrelated category p) ops -> recorded category (fst (run H ops s)) p h.
  Proof.
    unfold run. induction ops as [|o ops IH]; intros s R F; [exact R|]. inversion F; subst. cbn [fold_left]. apply IH; auto. apply unrelated_step; auto.
  Qed.
End P.
