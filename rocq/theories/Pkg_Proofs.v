From Coq Require Import ZArith String List Bool Lia.
From Verif Require Import Dict Json_Model Pkg_Model Pkg_Spec.
Import ListNotations.
Open Scope Z_scope.
Open Scope list_scope.

Lemma teq_spec a b : teq a b = true <-> a = b.
Proof. unfold teq. destruct (list_eq_dec _ _ _); split; auto; discriminate. Qed.
Lemma teq_refl a : teq a a = true. Proof. apply teq_spec; auto. Qed.
Lemma bind_ok {A B} (m : res A) (f : A -> res B) b : bind m f = Ok b -> exists a, m = Ok a /\ f a = Ok b.
Proof. destruct m; cbn; eauto; discriminate. Qed.
Ltac binds E := let a := fresh "v" in let X := fresh "B" in apply bind_ok in E as (a & X & E).

Section P.
  Variable H : host.
  Lemma check_file_true fs p h ms : check_file H fs p h = Ok (true, ms) <-> file_ok H fs p h /\ ms = [].
  Proof.
    unfold check_file, file_ok, contents, sha256. destruct (dget teq (loc H p) fs) as [b|] eqn:E.
    2:{ split; [discriminate|]. intros ((b & X & _) & _). discriminate. }
    destruct h as [e|].
    - destruct (truthy H e) eqn:T.
      + split.
        * destruct e; try discriminate. destruct (teq _ _) eqn:Q; [|discriminate]. intros X; injection X as <-. apply teq_spec in Q.
          split; auto. exists b. split; auto. intros v X _. injection X as <-. eauto.
        * intros ((b' & X & G) & ->). injection X as <-. destruct (G e eq_refl T) as (s & -> & L).
          replace (teq (lower s) (lower (compute_hash H b (t "sha256")))) with true; auto. symmetry. apply teq_spec. exact L.
      + split; [|intros [_ ->]; auto]. intros X; injection X as <-. split; auto. exists b. split; auto. intros v X T'. injection X as <-. congruence.
    - split; [|intros [_ ->]; auto]. intros X; injection X as <-. split; auto. exists b. split; auto. discriminate.
  Qed.
  Lemma check_file_error fs p h b ms : check_file H fs p h = Ok (b, ms) -> existsb is_error ms = negb b.
  Proof.
    unfold check_file. destruct (dget _ _ _); [|intros X; injection X as <- <-; auto].
    destruct h as [e|]; [|intros X; injection X as <- <-; auto]. destruct (truthy H e); [|intros X; injection X as <- <-; auto].
    destruct e; try discriminate. destruct (teq _ _); intros X; injection X as <- <-; auto.
  Qed.
  Lemma existsb_app' {A} (f : A -> bool) a b : existsb f (a ++ b) = existsb f a || existsb f b.
  Proof. apply existsb_app. Qed.
  Lemma check_entries_true strict fs l : (exists ms, check_entries H strict fs l = Ok (true, ms)) <-> Forall (entry_ok H fs) l.
  Proof.
    induction l as [|e l IH]; [split; eauto; cbn; eauto|].
    cbn [check_entries]. split.
    - intros [ms E]. binds E. binds E. binds E. destruct v1 as [ok m1]. cbn [bind] in E. binds E. destruct v1 as [ok' m2].
      injection E as E _. apply andb_true_iff in E as [-> ->]. constructor; [|apply IH; eauto].
      destruct e; try discriminate B. unfold path_of in B. unfold get in B0. injection B0 as <-.
      destruct (dget teq (t "path") d) as [[]|] eqn:Ep; try discriminate B. injection B as ->.
      exists d, v. repeat split; auto. apply check_file_true in B1. apply B1.
    - intros F. inversion F as [|? ? (d & p & -> & Ep & Ok_) F']; subst. apply IH in F' as [ms Er].
      unfold path_of. unfold field in Ep. rewrite Ep. cbn [bind get]. 
      assert (C : check_file H fs p (field d "hash") = Ok (true, [])) by (apply check_file_true; auto). unfold field in C.
      rewrite C. cbn [bind]. rewrite Er. cbn. eauto.
  Qed.
  Lemma check_entries_error strict fs l : forall b ms, check_entries H strict fs l = Ok (b, ms) -> existsb is_error ms = negb b.
  Proof.
    induction l as [|e l IH]; intros b ms E; cbn [check_entries] in E; [injection E as <- <-; auto|].
    binds E. binds E. binds E. destruct v1 as [ok m1]. cbn [bind] in E. binds E. destruct v1 as [ok' m2]. injection E as <- <-.
    rewrite !existsb_app', (check_file_error _ _ _ _ _ B1), (IH _ _ B2).
    destruct strict; [destruct v0 as [[]|]|]; destruct ok, ok'; reflexivity.
  Qed.
  Lemma existsb_source s : existsb (teq s) source_types = true <-> exists ty, s = t ty /\ In ty ["standard"; "vendor"; "custom"; "tested"]%string.
  Proof.
    unfold source_types. split.
    - intros E. apply existsb_exists in E as (x & Hx & E). apply teq_spec in E as ->.
      destruct Hx as [<-|[<-|[<-|[<-|[]]]]]; [exists "standard"%string|exists "vendor"%string|exists "custom"%string|exists "tested"%string]; (split; [reflexivity|cbn; auto]).
    - intros (ty & -> & Hty). apply existsb_exists. exists (t ty). split; [|apply teq_refl].
      destruct Hty as [<-|[<-|[<-|[<-|[]]]]]; [left|right; left|right; right; left|right; right; right; left]; reflexivity.
  Qed.
  Lemma t_inj a : forall b, t a = t b -> a = b.
  Proof.
    induction a as [|c a IH]; intros [|d b]; cbn; try discriminate; auto. intros E. injection E as E1 E2. f_equal; auto.
    apply Nat2Z.inj in E1. rewrite <- (Ascii.ascii_nat_embedding c), <- (Ascii.ascii_nat_embedding d), E1. reflexivity.
  Qed.
  Lemma get_obj k d : get k (JObj d) = Ok (dget teq k d). Proof. reflexivity. Qed.
  Lemma get_dict k j o : get k j = Ok o -> exists d, j = JObj d /\ o = dget teq k d.
  Proof. destruct j; cbn; try discriminate. intros X; injection X as <-. eauto. Qed.
  Lemma get_or_dict k df j o : get_or k df j = Ok o -> exists d, j = JObj d /\ o = match dget teq k d with Some v => v | None => df end.
  Proof. unfold get_or. intros E. binds E. apply get_dict in B as (d & -> & ->). injection E as <-. eauto. Qed.
  Lemma source_type_true id d : (exists ms, source_type_check H id (JObj d) = Ok (true, ms)) <->
    exists ty, field d "type" = Some (JStr (t ty)) /\ In ty ["standard"; "vendor"; "custom"; "tested"]%string /\
      (ty = "standard"%string -> absent_or is_dict (field d "standard")).
  Proof.
    unfold source_type_check, field. rewrite get_obj. cbn [bind]. split.
    - intros [ms E]. destruct (dget teq (t "type") d) as [ty|]; [|discriminate]. destruct (negb (truthy H ty)); [discriminate|].
      destruct ty; try discriminate. destruct (existsb (teq s) source_types) eqn:X; [|discriminate].
      apply existsb_source in X as (ty & -> & Hty). exists ty. repeat split; auto. intros ->. rewrite teq_refl in E.
      binds E. apply get_or_dict in B as (d' & X & ->). injection X as <-. binds E.
      unfold get_truthy in B. binds B. apply get_dict in B0 as (w & Ew & ->). intros w' Ev. rewrite Ev in Ew. exists w. auto.
    - intros (ty & -> & Hty & Std). assert (N : truthy H (JStr (t ty)) = true).
      { cbn in Hty. destruct Hty as [<-|[<-|[<-|[<-|[]]]]]; reflexivity. }
      rewrite N. cbn [negb]. replace (existsb (teq (t ty)) source_types) with true by (symmetry; apply existsb_source; eauto).
      destruct (teq (t ty) (t "standard")) eqn:X; [|eauto]. apply teq_spec, t_inj in X. specialize (Std X).
      unfold get_or. rewrite get_obj. cbn [bind]. unfold get_truthy.
      destruct (dget teq (t "standard") d) as [v|].
      + destruct (Std v eq_refl) as [w ->]. rewrite !get_obj. cbn. eauto.
      + cbn. eauto.
  Qed.
  Lemma source_type_error id j b ms : source_type_check H id j = Ok (b, ms) -> existsb is_error ms = negb b.
  Proof.
    unfold source_type_check. intros E. binds E. destruct v as [ty|]; [|injection E as <- <-; auto].
    destruct (negb (truthy H ty)); [injection E as <- <-; auto|]. destruct ty; try discriminate; try (injection E as <- <-; auto; fail).
    destruct (existsb (teq s) source_types); [|injection E as <- <-; auto]. destruct (teq s (t "standard")); [|injection E as <- <-; auto].
    binds E. binds E. binds E. injection E as <- <-. destruct v0, v1; reflexivity.
  Qed.
  Lemma color_true id c : fst (color_check H id c) = true <-> absent_or (fun c => truthy H c = true -> exists r g b, c = JList [r; g; b]) c.
  Proof.
    unfold color_check, absent_or. destruct c as [c|]; [|split; auto; discriminate]. destruct (truthy H c) eqn:T; cbn [negb].
    - split.
      + intros E v X _. injection X as <-. destruct c; try discriminate. destruct l as [|a [|b [|c [|]]]]; try discriminate. eauto.
      + intros E. destruct (E c eq_refl T) as (a & b & e & ->). reflexivity.
    - split; auto. intros _ v X T'. injection X as <-. congruence.
  Qed.
  Lemma color_error id c : existsb is_error (snd (color_check H id c)) = negb (fst (color_check H id c)).
  Proof.
    unfold color_check. destruct c as [c|]; auto. destruct (negb (truthy H c)); auto. destruct c; auto.
    destruct l as [|a [|b [|c [|]]]]; auto. destruct (forallb _ _); reflexivity.
  Qed.
  Lemma range_error w id o : existsb is_error (range_check H w id o) = false.
  Proof. unfold range_check. destruct o as [j|]; auto. destruct j; try reflexivity; destruct (unit_number H _); reflexivity. Qed.
  Lemma material_true strict id m : (exists ms, validate_material H strict id m = Ok (true, ms)) <-> material_ok H m.
  Proof.
    unfold validate_material, material_ok. split.
    - intros [ms E]. binds E. apply get_dict in B as (d & -> & ->). destruct (dget teq (t "source") d) as [so|] eqn:Es; [|discriminate].
      destruct (negb (truthy H so)) eqn:T; [discriminate|]. binds E. destruct v as [ok1 m1]. binds E. binds E. destruct (color_check H id v0) as [ok2 m2] eqn:C.
      binds E. binds E. binds E. injection E as E _. apply andb_true_iff in E as [-> ->].
      assert (Ds : exists s, so = JObj s). { unfold source_type_check in B. binds B. apply get_dict in B5 as (s & -> & _). eauto. }
      destruct Ds as [s ->]. destruct (proj1 (source_type_true id s)) as (ty & E1 & E2 & E3); [eauto|].
      exists d, s, ty. repeat split; auto. intros v' Ev. apply get_or_dict in B0 as (d' & X & ->). injection X as <-.
      unfold field in Ev. rewrite Ev in *. apply get_dict in B1 as (w & -> & ->). exists w. split; auto.
      apply (color_true id). unfold field. rewrite C. reflexivity.
    - intros (d & s & ty & -> & Es & Et & Ht & Std & Vis). unfold field in *. rewrite get_obj. cbn [bind]. rewrite Es.
      assert (T : truthy H (JObj s) = true) by (destruct s; [discriminate Et|reflexivity]). rewrite T. cbn [negb].
      destruct (proj2 (source_type_true id s)) as [m1 E1]; [exists ty; auto|]. rewrite E1. cbn [bind]. unfold get_or, get_truthy. rewrite !get_obj. cbn [bind].
      destruct (dget teq (t "visual") d) as [v|].
      + destruct (Vis v eq_refl) as (w & -> & C). apply (color_true id) in C. rewrite !get_obj. cbn [bind]. unfold field in C.
        destruct (color_check H id (dget teq (t "color") w)) as [ok2 m2]. cbn in C. subst ok2. eauto.
      + rewrite !get_obj. cbn [bind dget color_check]. eauto.
  Qed.
  Lemma material_error strict id m b ms : validate_material H strict id m = Ok (b, ms) -> existsb is_error ms = negb b.
  Proof.
    unfold validate_material. intros E. binds E. destruct v as [so|]; [|injection E as <- <-; auto].
    destruct (negb (truthy H so)); [injection E as <- <-; auto|]. binds E. destruct v as [ok1 m1]. binds E. binds E.
    destruct (color_check H id v0) as [ok2 m2] eqn:C. binds E. binds E. binds E. injection E as <- <-.
    rewrite !existsb_app', (source_type_error _ _ _ _ B0), !range_error. pose proof (color_error id v0) as Q. rewrite C in Q. cbn in Q. rewrite Q.
    destruct strict, v3, ok1, ok2; reflexivity.
  Qed.
  Lemma each_true strict d : (exists ms, validate_each H strict d = Ok (true, ms)) <-> Forall (fun kv => material_ok H (snd kv)) d.
  Proof.
    induction d as [|[id m] d IH]; [split; eauto; cbn; eauto|]. cbn [validate_each]. split.
    - intros [ms E]. binds E. destruct v as [ok1 m1]. binds E. destruct v as [ok2 m2]. injection E as E _. apply andb_true_iff in E as [-> ->].
      constructor; [|apply IH; eauto]. cbn. destruct m; try discriminate B. apply (material_true strict id). eauto.
    - intros F. inversion F as [|? ? M F']; subst. apply IH in F' as [m2 E2]. cbn in M. pose proof M as M'. apply (material_true strict id) in M as [m1 E1].
      destruct M' as (dd & _ & _ & -> & _). rewrite E1. cbn [bind]. rewrite E2. cbn. eauto.
  Qed.
  Lemma each_error strict d : forall b ms, validate_each H strict d = Ok (b, ms) -> existsb is_error ms = negb b.
  Proof.
    induction d as [|[id m] d IH]; intros b ms E; cbn [validate_each] in E; [injection E as <- <-; auto|].
    binds E. destruct v as [ok1 m1]. binds E. destruct v as [ok2 m2]. injection E as <- <-. rewrite existsb_app', (IH _ _ B0).
    assert (Q : existsb is_error m1 = negb ok1).
    { destruct m; try (injection B as <- <-; reflexivity). eapply material_error; eauto. }
    rewrite Q. destruct ok1, ok2; reflexivity.
  Qed.
  Lemma items_section d k (l : list json) : field d k = Some (JList l) \/ (l = [] /\ forall v, field d k = Some v -> truthy H v = false) <->
    items H (match dget teq (t k) d with Some v => v | None => JList [] end) = Ok l.
  Proof.
    unfold items, field. destruct (dget teq (t k) d) as [v|] eqn:E.
    - split.
      + intros [X|[-> X]].
        * injection X as ->. destruct l; reflexivity.
        * rewrite (X v eq_refl). reflexivity.
      + destruct (truthy H v) eqn:T.
        * destruct v; try discriminate. intros X; injection X as <-. auto.
        * intros X; injection X as <-. right. split; auto. intros v' X. injection X as <-. auto.
    - cbn. split; [intros [X|[-> _]]; [discriminate|auto]|]. intros X; injection X as <-. right. split; auto. discriminate.
  Qed.

  Lemma validate_true strict fs d : (exists ms, validate_data H strict fs (JObj d) = Ok (true, ms)) <-> package_ok H fs d.
  Proof.
    unfold validate_data, package_ok. rewrite get_obj. cbn [bind]. split.
    - intros [ms E].
      destruct (geometry_primary_path H (JObj d)) as [p|] eqn:Gp; [|discriminate].
      unfold geometry_primary_path in Gp. binds Gp. apply get_or_dict in B as (d' & X & ->). injection X as <-. binds Gp. apply get_dict in B as (g & Eg & ->).
      destruct (dget teq (t "primary") g) as [pr|] eqn:Epr; [|discriminate]. destruct (truthy H pr) eqn:Tp; [|discriminate].
      destruct pr as [| | | | | |pr|]; try discriminate Gp. unfold path_of in Gp. destruct (dget teq (t "path") pr) as [[]|] eqn:Epp; try discriminate Gp. injection Gp as ->.
      assert (Eg' : dget teq (t "geometry") d = Some (JObj g)).
      { destruct (dget teq (t "geometry") d) as [v|]; [rewrite Eg; auto|]. injection Eg as <-. discriminate Epr. }
      unfold get_or in E. rewrite !get_obj in E. cbn [bind] in E. rewrite Eg' in E. rewrite !get_obj in E. cbn [bind] in E. rewrite Epr in E. rewrite get_obj in E. cbn [bind] in E.
      binds E. destruct v as [ok1 m1]. cbn [bind] in E. binds E. binds E. destruct v0 as [ok2 m2].
      cbn [bind] in E. binds E. binds E. destruct v1 as [ok3 m3]. cbn [bind] in E. binds E. binds E. destruct v2 as [ok4 m4]. cbn [bind] in E. binds E. destruct v2 as [ok5 m5].
      injection E as E _. apply andb_true_iff in E as [E ->]. apply andb_true_iff in E as [E ->]. apply andb_true_iff in E as [E ->]. apply andb_true_iff in E as [E ->].
      apply andb_true_iff in E as [E1 Eok]. apply andb_true_iff in E1 as [-> Go].
      destruct (dget teq (loc H p) fs) as [b|] eqn:Eb; [|discriminate Go].
      repeat split.
      + unfold field. change [115; 99; 104; 101; 109; 97] with (t "schema") in Eok. destruct (dget teq (t "schema") d) as [[| | | |sc| | |]|]; try discriminate Eok. destruct (teq sc _) eqn:Q; [|discriminate Eok]. apply teq_spec in Q as ->. reflexivity.
      + exists g, pr, p, b. apply check_file_true in B as [Fo _]. repeat split; auto. exists v. split; [apply items_section; exact B0|]. apply (check_entries_true false). eauto.
      + exists v0. split; [apply items_section; exact B2|]. apply (check_entries_true strict). eauto.
      + exists v1. split; [apply items_section; exact B4|]. apply (check_entries_true strict). eauto.
      + intros m Em Tm. unfold field in Em. rewrite Em in B6. rewrite Tm in B6. unfold validate_materials in B6. destruct m; try discriminate B6. exists d0. split; auto. apply (each_true strict). eauto.
    - intros (Es & (g & pr & p & b & Eg & Epr & Ep & Fo & Eb & Go & (l2 & S2 & F2)) & (l3 & S3 & F3) & (l4 & S4 & F4) & Mo).
      unfold field in *. rewrite Es, teq_refl.
      unfold geometry_primary_path, get_or. rewrite !get_obj. cbn [bind]. rewrite Eg. rewrite !get_obj. cbn [bind]. rewrite Epr.
      assert (Tp : truthy H (JObj pr) = true) by (destruct pr; [discriminate Ep|reflexivity]). rewrite Tp. unfold path_of. rewrite Ep.
      rewrite get_obj. cbn [bind].
      assert (C : check_file H fs p (field pr "hash") = Ok (true, [])) by (apply check_file_true; auto). unfold field in C. rewrite C. cbn [bind].
      unfold contents in Eb. rewrite Eb, Go. cbn [andb negb app existsb].
      apply items_section in S2, S3, S4. rewrite S2. cbn [bind].
      apply (check_entries_true false) in F2 as [m2 F2]. rewrite F2. cbn [bind]. rewrite S3. cbn [bind]. 
      apply (check_entries_true strict) in F3 as [m3 F3]. rewrite F3. cbn [bind]. rewrite S4. cbn [bind]. 
      apply (check_entries_true strict) in F4 as [m4 F4]. rewrite F4. cbn [bind].
      destruct (dget teq (t "materials") d) as [m|].
      + destruct (truthy H m) eqn:Tm; [|cbn; eauto]. destruct (Mo m eq_refl Tm) as (mm & -> & Fm). apply (each_true strict) in Fm as [m5 F5].
        cbn [validate_materials]. rewrite F5. cbn. eauto.
      + cbn. eauto.
  Qed.
  Lemma validate_error strict fs j b ms : validate_data H strict fs j = Ok (b, ms) -> existsb is_error ms = negb b.
  Proof.
    unfold validate_data. intros E. binds E. set (m0 := match v with Some (JStr s) => _ | _ => _ end) in E.
    destruct (geometry_primary_path H j) as [p|]; [|injection E as <- <-; rewrite existsb_app'; cbn; apply orb_true_r].
    binds E. binds E. binds E. binds E. destruct v3 as [ok1 m1]. cbn [bind] in E. binds E. binds E. binds E. destruct v5 as [ok2 m2].
    cbn [bind] in E. binds E. binds E. binds E. destruct v7 as [ok3 m3]. cbn [bind] in E. binds E. binds E. binds E. destruct v9 as [ok4 m4]. cbn [bind] in E.
    binds E. binds E. destruct v10 as [ok5 m5]. injection E as <- <-.
    set (ok1' := ok1 && _). set (overall := ok1' && _ && ok2 && ok3 && ok4 && ok5).
    assert (Hd : forall l, existsb is_error ((if overall then (OK_, t "passed validation") else (FAILED, t "has validation errors")) :: l) = existsb is_error l) by (intros; destruct overall; reflexivity).
    rewrite Hd. subst overall. rewrite !existsb_app', (check_file_error _ _ _ _ _ B3), (check_entries_error _ _ _ _ _ B6), (check_entries_error _ _ _ _ _ B9), (check_entries_error _ _ _ _ _ B12).
    assert (Q5 : existsb is_error m5 = negb ok5).
    { destruct v9 as [m|]; [|injection B14 as <- <-; auto]. destruct (truthy H m); [|injection B14 as <- <-; auto]. unfold validate_materials in B14.
      destruct m; try (injection B14 as <- <-; reflexivity). eapply each_error; eauto. }
    rewrite Q5. assert (Le : ok1' = true -> ok1 = true) by (unfold ok1'; intros X; apply andb_true_iff in X; tauto).
    match goal with |- context [existsb is_error (if ok1 && negb ok1' then ?x else ?y)] => set (g1 := x); set (g2 := y) end.
    clearbody ok1'. destruct (existsb is_error m0), ok1, ok1', ok2, ok3, ok4, ok5; try reflexivity; exfalso; specialize (Le eq_refl); discriminate.
  Qed.
End P.
