From Coq Require Import ZArith String List Bool Lia.
From Verif Require Import Dict Json_Model Pkg_Model Pkg_Spec Pkg_Proofs.
Import ListNotations.
Open Scope Z_scope.
Open Scope list_scope.

#[local] Arguments t : simpl never.
Lemma Ok_inj {A} (a b : A) : Ok a = Ok b -> a = b. Proof. congruence. Qed.
Lemma Some_inj {A} (a b : A) : Some a = Some b -> a = b. Proof. congruence. Qed.
Lemma t_neq a b : a <> b -> t a <> t b.
Proof. intros N E. apply N, t_inj, E. Qed.
Lemma fget_other d k k' v : k <> k' -> field (dset teq (t k') v d) k = field d k.
Proof. intros N. apply (dget_set_other _ teq_spec). apply t_neq, N. Qed.
Lemma fget_same d k v : field (dset teq (t k) v d) k = Some v.
Proof. apply (dget_set_same _ teq_spec). Qed.
Lemma dupdate_other m : forall d k, ~ In k (map fst m) -> dget teq k (dupdate d m) = dget teq k d.
Proof.
  unfold dupdate. induction m as [|[k' v] m IH]; intros d k N; [reflexivity|]. cbn in N |- *. rewrite IH by tauto.
  apply (dget_set_other _ teq_spec). intuition.
Qed.

Section P.
  Variable H : host.
  Notation mf := (manifest_file H).
  Definition fine (fs : files) (e : json) : Prop :=
    exists d p, e = JObj d /\ field d "path" = Some (JStr p) /\ file_ok H fs p (field d "hash") /\ loc H p <> mf.
  Definition sect (fs : files) (d : dict) (k : string) : Prop :=
    forall v, field d k = Some v -> truthy H v = false \/ exists l, v = JList l /\ Forall (fine fs) l.
  Definition prim (fs : files) (g : dict) : Prop :=
    exists pr p b, field g "primary" = Some (JObj pr) /\ field pr "path" = Some (JStr p) /\ fine fs (JObj pr) /\
      contents H fs p = Some b /\ geometry_ok H b = true.
  Definition mats (d : dict) : Prop :=
    absent_or (fun m => truthy H m = true -> exists ms, m = JObj ms /\ Forall (fun kv => material_ok H (snd kv)) ms) (field d "materials").
  Definition inv (s : state) : Prop :=
    let (d, fs) := s in
    field d "schema" = Some (JStr (t "ycpkg-spec-v0.1")) /\
    (exists g, field d "geometry" = Some (JObj g) /\ prim fs g /\ sect fs g "derived") /\
    sect fs d "exports" /\ sect fs d "attachments" /\ mats d /\ dget teq mf fs <> None.

  Lemma fine_ok fs e : fine fs e -> entry_ok H fs e.
  Proof. intros (d & p & -> & Ep & F & _). exists d, p. auto. Qed.
  Lemma sect_ok fs d k : sect fs d k -> section_ok H fs d k.
  Proof.
    intros S. unfold section_ok, section_of. destruct (field d k) as [v|] eqn:E.
    - destruct (S v E) as [T|(l & -> & F)].
      + exists []. split; [|constructor]. right. split; auto. intros v' X. injection X as <-. auto.
      + exists l. split; auto. eapply Forall_impl; [|exact F]. apply fine_ok.
    - exists []. split; [|constructor]. right. split; auto. discriminate.
  Qed.
  Lemma inv_ok d fs : inv (d, fs) -> package_ok H fs d.
  Proof.
    intros (Es & (g & Eg & (pr & p & b & E1 & E2 & F & C & G) & Sd) & S1 & S2 & M & _). repeat split; auto using sect_ok.
    exists g, pr, p, b. repeat split; auto using sect_ok. destruct F as (d' & p' & X & Ep & Fo & _). injection X as <-.
    rewrite E2 in Ep. injection Ep as <-. exact Fo.
  Qed.
  (** Writing where no listed file is. *)
  Definition away (l : text) (fs : files) : Prop := l = mf \/ dget teq l fs = None.
  Lemma contents_frame fs l b p : away l fs -> loc H p <> mf -> contents H fs p <> None -> contents H (dset teq l b fs) p = contents H fs p.
  Proof.
    intros A N C. unfold contents in *. apply (dget_set_other _ teq_spec). intros E. destruct A as [A|A]; congruence.
  Qed.
  Lemma fine_frame fs l b e : away l fs -> fine fs e -> fine (dset teq l b fs) e.
  Proof.
    intros A (d & p & -> & Ep & (x & C & G) & N). exists d, p. repeat split; auto. exists x. split; auto.
    rewrite contents_frame; auto. rewrite C. discriminate.
  Qed.
  Lemma sect_frame fs l b d k : away l fs -> sect fs d k -> sect (dset teq l b fs) d k.
  Proof.
    intros A S v E. destruct (S v E) as [T|(r & -> & F)]; auto. right. exists r. split; auto. eapply Forall_impl; [|exact F].
    intros e. apply fine_frame, A.
  Qed.
  Lemma prim_frame fs l b g : away l fs -> prim fs g -> prim (dset teq l b fs) g.
  Proof.
    intros A (pr & p & x & E1 & E2 & F & C & G). exists pr, p, x. repeat split; auto using fine_frame.
    rewrite contents_frame; auto. { destruct F as (d & p' & X & Ep & _ & N). injection X as <-. rewrite E2 in Ep. injection Ep as <-. exact N. }
    rewrite C. discriminate.
  Qed.
  Lemma inv_frame d fs l b : away l fs -> inv (d, fs) -> inv (d, dset teq l b fs).
  Proof.
    intros A (Es & (g & Eg & P & Sd) & S1 & S2 & M & E). repeat split; auto using sect_frame.
    - exists g. auto using prim_frame, sect_frame.
    - rewrite (dget_set _ teq_spec). destruct (teq mf l); [discriminate|exact E].
  Qed.
  Lemma inv_save s : inv s -> inv (fst (save H s)).
  Proof.
    destruct s as [d fs]. intros I. unfold save. pose proof I as (Es & _). unfold field in Es. cbn [fst snd]. rewrite Es.
    destruct (representable (JObj d)); apply inv_frame; auto; left; reflexivity.
  Qed.
  Lemma inv_set d fs k v : k <> "schema"%string -> k <> "geometry"%string -> k <> "exports"%string -> k <> "materials"%string ->
    inv (d, fs) -> sect fs (dset teq (t k) v d) "attachments" -> inv (dset teq (t k) v d, fs).
  Proof.
    intros N1 N2 N3 N4 (Es & G & S1 & S2 & M & E) S. repeat split; auto.
    - rewrite fget_other; auto.
    - rewrite fget_other; auto.
    - unfold sect. rewrite fget_other; auto.
    - unfold mats. rewrite fget_other; auto.
  Qed.
  Lemma sect_put fs d k e : sect fs d k -> fine fs (JObj e) -> sect fs (fst (put_entry (t k) e d)) k.
  Proof.
    intros S F. unfold put_entry. set (p := match dget teq (t "path") e with Some p => p | None => JNull end). unfold field in S.
    assert (Fl : forall l l', Forall (fine fs) l -> filter_items p l = Ok l' -> Forall (fine fs) l').
    { induction l as [|i l IH]; intros l' Fa E; cbn in E; [injection E as <-; auto|]. inversion Fa; subst.
      binds E. binds E. injection E as <-. destruct v; eauto. }
    destruct (dget teq (t k) d) as [v|] eqn:Ev.
    - destruct v; cbn [fst]; try exact S.
      destruct (filter_items p l) as [l'|] eqn:Fi; cbn [fst]; [|exact S].
      intros v' X. rewrite fget_same in X. injection X as <-. right. eexists. split; [reflexivity|]. apply Forall_app. split; auto.
      assert (Fa : Forall (fine fs) l).
      { destruct (S _ Ev) as [T|(r & X & Fr)]; [destruct l; [constructor|discriminate T]|]. injection X as <-. exact Fr. }
      eauto.
    - cbn [filter_items app fst]. intros v' X. rewrite fget_same in X. injection X as <-. right. exists [JObj e]. split; auto.
  Qed.
  Lemma put_other k k' e d : k <> k' -> field (fst (put_entry (t k) e d)) k' = field d k'.
  Proof.
    intros N. unfold put_entry. destruct (dget teq (t k) d) as [v|].
    - destruct v; auto. destruct (filter_items _ _); auto. apply fget_other; auto.
    - cbn [filter_items app fst]. rewrite !fget_other; auto.
  Qed.
  Lemma entry_fields src b dest purpose md : ~ In (t "path") (map fst md) -> ~ In (t "hash") (map fst md) ->
    field (entry_of H src b dest purpose md) "path" = Some (JStr dest) /\
    field (entry_of H src b dest purpose md) "hash" = Some (JStr (sha256 H b)).
  Proof.
    intros N1 N2. unfold entry_of, field. rewrite !dupdate_other by auto. destruct (teq purpose []); split; reflexivity.
  Qed.
  Lemma lower_eq_refl a : lower a = lower a. Proof. reflexivity. Qed.
  Lemma add_step src dest stem purpose category ow md data fs s' r :
    add_geometry_file H src dest stem purpose category ow md (data, fs) = (s', r) ->
    s' = (data, fs) \/
    exists b p l data', s_bytes src = Some b /\ l = loc H p /\ (ow = false -> dget teq l fs = None) /\ s' = (data', dset teq l b fs) /\
      (data' = data \/
       (category = t "derived" /\ exists g, field data "geometry" = Some (JObj g) /\ data' = dset teq (t "geometry") (JObj (fst (put_entry (t "derived") (entry_of H src b p purpose md) g))) data) \/
       (category = t "derived" /\ field data "geometry" = None /\ data' = dset teq (t "geometry") (JObj (fst (put_entry (t "derived") (entry_of H src b p purpose md) []))) data) \/
       (category = t "attachments" /\ exists e', data' = fst (put_entry (t "attachments") e' data) /\
          field e' "path" = field (entry_of H src b p purpose md) "path" /\ field e' "hash" = field (entry_of H src b p purpose md) "hash")) /\
      (r = Ok tt -> p = match dest with Some d => d | None => if teq category (t "derived") then t "geometry/derived/" ++ s_name src else t "attachments/" ++ s_name src end).
  Proof.
    unfold add_geometry_file. destruct (s_bytes src) as [b|]; [|intros X; injection X as <- <-; auto].
    set (p := match dest with Some d => d | None => _ end).
    destruct (match dest with Some d => is_absolute d | None => false end); [intros X; injection X as <- <-; auto|].
    destruct (negb ow && dmem teq (loc H p) fs) eqn:Ow; [intros X; injection X as <- <-; auto|]. intros E. right.
    exists b, p, (loc H p).
    assert (A : ow = false -> dget teq (loc H p) fs = None).
    { intros ->. cbn in Ow. unfold dmem in Ow. destruct (dget _ _ fs); [discriminate|auto]. }
    destruct (teq category (t "derived")) eqn:C1.
    - pose proof (proj1 (teq_spec _ _) C1) as Ec. unfold field. destruct (dget teq (t "geometry") data) as [g|] eqn:Eg.
      + destruct g; try (injection E as <- <-; exists data; repeat split; auto; discriminate).
        destruct (put_entry (t "derived") _ d) as [g' r'] eqn:Pe. injection E as <- <-.
        eexists. repeat split; auto. { right. left. split; auto. exists d. split; auto. rewrite Pe. reflexivity. }
      + destruct (put_entry (t "derived") _ []) as [g' r'] eqn:Pe. injection E as <- <-.
        eexists. repeat split; auto. { right. right. left. split; [exact Ec|]. split; reflexivity. }
    - destruct (teq category (t "attachments")) eqn:C2.
      + pose proof (proj1 (teq_spec _ _) C2) as Ec.
        set (e' := match dget teq (t "id") (entry_of H src b p purpose md) with Some _ => _ | None => _ end) in E.
        destruct (put_entry (t "attachments") e' data) as [g' r'] eqn:Pe. injection E as <- <-.
        eexists. repeat split; auto. { right. right. right. split; auto. exists e'. rewrite Pe. repeat split; subst e'; destruct (dget teq (t "id") _); auto; apply fget_other; discriminate. }
      + injection E as <- <-. exists data. repeat split; auto. discriminate.
  Qed.
  Lemma inv_add src dest stem purpose category md s : ~ In (t "path") (map fst md) -> ~ In (t "hash") (map fst md) ->
    inv s -> inv (fst (add_geometry_file H src dest stem purpose category false md s)).
  Proof.
    intros N1 N2. destruct s as [data fs]. intros I.
    destruct (add_geometry_file H src dest stem purpose category false md (data, fs)) as [s' r] eqn:E. cbn [fst].
    apply add_step in E. destruct E as [-> |(b & p & l & data' & Sb & El & A & -> & D & _)]; [exact I|]. specialize (A eq_refl).
    assert (Aw : away l fs) by (right; exact A). pose proof (inv_frame data fs l b Aw I) as I'.
    assert (Nm : loc H p <> mf). { rewrite <- El. intros X. destruct I as (_ & _ & _ & _ & _ & M). apply M. rewrite <- X. exact A. }
    destruct (entry_fields src b p purpose md N1 N2) as [Ep Eh].
    assert (Fi : forall e', field e' "path" = field (entry_of H src b p purpose md) "path" -> field e' "hash" = field (entry_of H src b p purpose md) "hash" -> fine (dset teq l b fs) (JObj e')).
    { intros e' X1 X2. exists e', p. rewrite X1, X2, Ep, Eh. repeat split; auto. exists b. split.
      - unfold contents. rewrite <- El. apply (dget_set_same _ teq_spec).
      - intros v X _. injection X as <-. exists (sha256 H b). auto. }
    destruct D as [-> |[(_ & g & Eg & ->)|[(_ & Eg & _)|(_ & e' & -> & X1 & X2)]]]; auto.
    - destruct I' as (Es & (g' & Eg' & P & Sd) & S1 & S2 & M & E). rewrite Eg in Eg'. injection Eg' as <-.
      repeat split; auto; try (unfold sect, mats; rewrite fget_other by discriminate; auto; fail).
      + rewrite fget_same. eexists. split; [reflexivity|]. split; [|apply sect_put; auto].
        destruct P as (pr & q & x & P1 & P2 & P3 & P4 & P5). exists pr, q, x. repeat split; auto. rewrite put_other by discriminate. exact P1.
    - destruct I' as (_ & (g' & Eg' & _) & _). congruence.
    - destruct I' as (Es & (g' & Eg' & P & Sd) & S1 & S2 & M & E).
      repeat split; auto; try (unfold sect, mats; rewrite put_other by discriminate; auto; fail).
      + rewrite put_other by discriminate. eauto.
      + apply sect_put; auto.
  Qed.

  Lemma rehash_fine fs e e' : rehash H (t "sha256") fs e = Ok e' -> fine fs e -> fine fs e'.
  Proof.
    intros E (d & p & -> & Ep & (b & C & G) & N). unfold rehash, path_of in E. unfold field in Ep. rewrite Ep in E. cbn [bind] in E.
    unfold contents in C. rewrite C in E. destruct (known H (t "sha256")); [|discriminate]. apply Ok_inj in E as <-.
    eexists _, p. split; [reflexivity|]. split; [unfold field; rewrite (dget_set_other _ teq_spec) by (apply t_neq; discriminate); exact Ep|]. split; auto.
    exists b. split; auto. intros v X _. unfold field in X. rewrite (dget_set_same _ teq_spec) in X. injection X as <-. eexists. split; reflexivity.
  Qed.
  Lemma rehash_all_fine fs l : Forall (fine fs) l -> Forall (fine fs) (fst (rehash_all H (t "sha256") fs l)).
  Proof.
    induction 1; cbn [rehash_all fst]; auto. destruct (rehash H (t "sha256") fs x) eqn:E; cbn [fst]; auto.
    destruct (rehash_all H (t "sha256") fs l). cbn [fst] in *. constructor; auto. eapply rehash_fine; eauto.
  Qed.
  Lemma rehash_section_sect fs d k : sect fs d k -> sect fs (fst (rehash_section H (t "sha256") fs (t k) d)) k.
  Proof.
    intros S. unfold rehash_section. destruct (dget teq (t k) d) as [v|] eqn:E; [|exact S]. destruct (truthy H v) eqn:T; [|exact S].
    destruct v; try exact S. destruct (rehash_all H (t "sha256") fs l) as [l' x] eqn:R. cbn [fst]. intros v X. rewrite fget_same in X. injection X as <-.
    right. exists l'. split; auto. destruct (S _ E) as [T'|(r & X & F)]; [congruence|]. injection X as <-. apply rehash_all_fine in F. rewrite R in F. exact F.
  Qed.
  Lemma rehash_section_other alg fs d k k' : k <> k' -> field (fst (rehash_section H alg fs (t k) d)) k' = field d k'.
  Proof.
    intros N. unfold rehash_section. destruct (dget teq (t k) d) as [v|]; auto. destruct (truthy H v); auto. destruct v; auto.
    destruct (rehash_all H alg fs l). apply fget_other; auto.
  Qed.
  Lemma inv_sections d d' fs : inv (d, fs) -> field d' "schema" = field d "schema" -> field d' "materials" = field d "materials" ->
    (exists g, field d' "geometry" = Some (JObj g) /\ prim fs g /\ sect fs g "derived") ->
    sect fs d' "exports" -> sect fs d' "attachments" -> inv (d', fs).
  Proof.
    intros (Es & _ & _ & _ & M & E) X1 X2 G S1 S2. repeat split; auto; [congruence|]. unfold mats. rewrite X2. exact M.
  Qed.
  Lemma inv_recompute s : inv s -> inv (fst (recompute_hashes H (t "sha256") s)).
  Proof.
    destruct s as [d fs]. intros I. pose proof I as (Es & (g & Eg & P & Sd) & S1 & S2 & M & E). unfold recompute_hashes.
    unfold field in Eg. rewrite Eg. destruct P as (pr & p & b & P1 & P2 & P3 & P4 & P5). unfold field in P1. rewrite P1.
    assert (Tp : truthy H (JObj pr) = true) by (destruct pr; [discriminate P2|reflexivity]). rewrite Tp.
    assert (Put : forall g', prim fs g' -> sect fs g' "derived" -> inv (dset teq (t "geometry") (JObj g') d, fs)).
    { intros g' Pg Sg. apply (inv_sections d); auto; try (apply fget_other; discriminate).
      - exists g'. rewrite fget_same. auto.
      - unfold sect. rewrite fget_other by discriminate. exact S1.
      - unfold sect. rewrite fget_other by discriminate. exact S2. }
    assert (P : prim fs g) by (exists pr, p, b; auto).
    destruct (rehash H (t "sha256") fs (JObj pr)) as [pr'|] eqn:R; [|cbn [fst]; apply Put; auto].
    pose proof (rehash_fine _ _ _ R P3) as F'.
    assert (Pp : exists d', pr' = JObj d' /\ field d' "path" = Some (JStr p)).
    { unfold rehash, path_of in R. unfold field in P2. rewrite P2 in R. cbn [bind] in R. unfold contents in P4. rewrite P4 in R.
      destruct (known H (t "sha256")); [|discriminate]. apply Ok_inj in R as <-. eexists. split; [reflexivity|]. unfold field.
      rewrite (dget_set_other _ teq_spec) by (apply t_neq; discriminate). exact P2. }
    destruct Pp as (dp & -> & Pp).
    set (g1 := dset teq (t "primary") (JObj dp) g).
    assert (P' : prim fs g1). { exists dp, p, b. unfold g1. rewrite fget_same. auto. }
    assert (Sd1 : sect fs g1 "derived") by (unfold sect, g1; rewrite fget_other by discriminate; exact Sd).
    destruct (rehash_section H (t "sha256") fs (t "derived") g1) as [g2 r2] eqn:R2.
    assert (Sd2 : sect fs g2 "derived") by (pose proof (rehash_section_sect fs g1 "derived" Sd1) as X; rewrite R2 in X; exact X).
    assert (P2' : prim fs g2).
    { destruct P' as (a & q & x & Q1 & Q). exists a, q, x. split; auto. pose proof (rehash_section_other (t "sha256") fs g1 "derived" "primary" ltac:(discriminate)) as X. rewrite R2 in X. cbn [fst] in X. rewrite X. exact Q1. }
    destruct r2; [|cbn [fst]; apply Put; auto].
    set (d2 := dset teq (t "geometry") (JObj g2) d).
    pose proof (Put g2 P2' Sd2) as I2. fold d2 in I2.
    destruct (rehash_section H (t "sha256") fs (t "exports") d2) as [d3 r3] eqn:R3.
    assert (O : forall k, k <> "exports"%string -> field d3 k = field d2 k).
    { intros k N. pose proof (rehash_section_other (t "sha256") fs d2 "exports" k ltac:(auto)) as X. rewrite R3 in X. exact X. }
    assert (I3 : inv (d3, fs)).
    { destruct I2 as (Es2 & G2 & S12 & S22 & M2 & E2). apply (inv_sections d2); repeat split; auto; try (apply O; discriminate); unfold sect.
      - rewrite O by discriminate. exact G2.
      - pose proof (rehash_section_sect fs d2 "exports" S12) as X. rewrite R3 in X. exact X.
      - rewrite O by discriminate. exact S22. }
    destruct r3; [|exact I3].
    destruct (rehash_section H (t "sha256") fs (t "attachments") d3) as [d4 r4] eqn:R4.
    assert (O4 : forall k, k <> "attachments"%string -> field d4 k = field d3 k).
    { intros k N. pose proof (rehash_section_other (t "sha256") fs d3 "attachments" k ltac:(auto)) as X. rewrite R4 in X. exact X. }
    destruct I3 as (Es3 & G3 & S13 & S23 & M3 & E3). cbn [fst]. apply (inv_sections d3); repeat split; auto; try (apply O4; discriminate); unfold sect.
    - rewrite O4 by discriminate. exact G3.
    - rewrite O4 by discriminate. exact S13.
    - pose proof (rehash_section_sect fs d3 "attachments" S23) as X. rewrite R4 in X. exact X.
  Qed.

  (** Operations that cannot spoil a package. *)
  Definition careful (o : op) : Prop :=
    match o with
    | Add _ _ _ _ _ overwrite metadata => overwrite = false /\ ~ In (t "path") (map fst metadata) /\ ~ In (t "hash") (map fst metadata)
    | Recompute alg => alg = t "sha256"
    | Save => True
    end.
  Lemma inv_run ops : forall s, Forall careful ops -> inv s -> inv (run H ops s).
  Proof.
    unfold run. induction ops as [|o ops IH]; intros s F I; [exact I|]. inversion F as [|? ? C F']; subst. cbn [fold_left]. apply IH; auto.
    destruct o; cbn [step].
    - destruct C as (-> & N1 & N2). apply inv_add; auto.
    - cbn in C. subst. apply inv_recompute; auto.
    - apply inv_save; auto.
  Qed.
  Lemma saved_valid strict s s' : yaml_faithful H -> inv s -> save H s = (s', Ok tt) -> exists ms, validate_package H strict (snd s') = Ok (true, ms).
  Proof.
    intros Y I E. pose proof (inv_save s I) as I'. rewrite E in I'. cbn [fst] in I'. destruct s as [d fs]. unfold save in E. cbn [fst snd] in E.
    pose proof I as (Es & _). unfold field in Es. rewrite Es in E. destruct (representable (JObj d)) eqn:R; [|discriminate]. injection E as <-.
    unfold validate_package, load. cbn [snd]. rewrite (dget_set_same _ teq_spec), (Y _ R).
    assert (T : truthy H (JObj d) = true) by (destruct d; [discriminate Es|reflexivity]). rewrite T. apply validate_true, inv_ok, I'.
  Qed.
  Definition clean (extra : dict) : Prop := forall k, In k ["schema"; "geometry"; "exports"; "attachments"; "materials"]%string -> field extra k = None.
  Lemma dget_app k (a b : dict) : dget teq k (a ++ b) = match dget teq k a with Some v => Some v | None => dget teq k b end.
  Proof. induction a as [|[k' v] a IH]; cbn; auto. destruct (teq k k'); auto. Qed.
  Lemma inv_create doc ids extra materials ow fs s r : clean extra ->
    (forall b, doc = Some b -> geometry_ok H b = true) ->
    absent_or (fun m => truthy H m = true -> exists ms, m = JObj ms /\ Forall (fun kv => material_ok H (snd kv)) ms) materials ->
    loc H primary_path <> mf ->
    create H doc ids extra materials ow (t "sha256") fs = (s, r) -> (exists e, r = Raise e /\ fst s = []) \/ inv s.
  Proof.
    intros Cl Go Mo Nl E. unfold create in E.
    destruct (negb ow && _); [injection E as <- <-; left; eauto|]. destruct doc as [b|]; [|injection E as <- <-; left; eauto].
    destruct (known H (t "sha256")); [|injection E as <- <-; left; eauto]. right.
    set (info := [(t "path", JStr primary_path); _; _; _]) in E. set (tail := match materials with Some m => [(t "materials", m)] | None => [] end) in E.
    set (data := (t "schema", JStr (t "ycpkg-spec-v0.1")) :: extra ++ [(t "geometry", JObj [(t "primary", JObj info)])] ++ tail) in E.
    assert (Fd : forall k, In k ["geometry"; "exports"; "attachments"; "materials"]%string -> field data k = field ([(t "geometry", JObj [(t "primary", JObj info)])] ++ tail) k).
    { intros k Hk. unfold field, data. cbn [dget]. replace (teq (t k) (t "schema")) with false.
      2:{ symmetry. destruct (teq (t k) (t "schema")) eqn:Q; auto. apply teq_spec, t_inj in Q. subst k. cbn in Hk. intuition discriminate. }
      rewrite dget_app. pose proof (Cl k ltac:(cbn in Hk |- *; tauto)) as Ce. unfold field in Ce. rewrite Ce. reflexivity. }
    assert (Et : forall k, In k ["exports"; "attachments"]%string -> field data k = None).
    { intros k Hk. rewrite Fd by (cbn in Hk |- *; tauto). unfold field, tail. cbn in Hk. destruct Hk as [<-|[<-|[]]]; destruct materials; reflexivity. }
    assert (Sch : dget teq (t "schema") data = Some (JStr (t "ycpkg-spec-v0.1"))) by reflexivity.
    assert (I : forall x, inv (data, dset teq mf x (dset teq (loc H primary_path) b fs))).
    { intros x. unfold inv. repeat split.
      - rewrite Fd by (cbn; auto). exists [(t "primary", JObj info)]. split; [reflexivity|]. 
        assert (C : contents H (dset teq mf x (dset teq (loc H primary_path) b fs)) primary_path = Some b).
        { unfold contents. rewrite (dget_set_other _ teq_spec) by auto. apply (dget_set_same _ teq_spec). }
        split; [|intros v X; discriminate X].
        exists info, primary_path, b. repeat split; auto. exists info, primary_path. repeat split; auto. exists b. split; auto.
        intros v X _. injection X as <-. eexists. split; reflexivity.
      - intros v X. rewrite Et in X by (cbn; auto). discriminate.
      - intros v X. rewrite Et in X by (cbn; auto). discriminate.
      - intros m Em. rewrite Fd in Em by (cbn; auto). apply Mo. unfold field, tail in Em. destruct materials; cbn in Em; [exact Em|discriminate].
      - rewrite (dget_set_same _ teq_spec). discriminate. }
    unfold save in E. cbn [fst snd] in E. rewrite Sch in E. destruct (representable (JObj data)); injection E as <- <-; apply I.
  Qed.
End P.
