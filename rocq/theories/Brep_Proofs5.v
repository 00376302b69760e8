(** Traversals, outcomes of additions, and graphs as counterexamples. *)
From Coq Require Import String Reals List Bool ZArith Lia Lra.
From Verif Require Kin_Model.
From Verif Require Import Dict Xform_Model Fig_Model Xform_Proofs ASurf_Model Brep_Model Brep_Spec Brep_Proofs Brep_Proofs2 Brep_Proofs3.
Import ListNotations.
Open Scope list_scope.
Open Scope nat_scope.

Lemma found_all {V} (d : list (string * V)) (id : V -> string) l : filed id d -> (forall k, In k l -> there d k) ->
  map id (found d l) = l /\ forall v, In v (found d l) <-> exists k, In k l /\ sget k d = Some v.
Proof.
  intros F T. split.
  - unfold found. induction l as [|k l IH]; cbn; auto. destruct (T k (or_introl eq_refl)) as [v Q]. rewrite Q. cbn. rewrite (filed_get _ _ _ _ F Q). f_equal. apply IH. intros; apply T; right; auto.
  - intros v. unfold found. rewrite in_flat_map. split.
    + intros (k & Hk & Hv). exists k. split; auto. destruct (sget k d); [destruct Hv as [->|[]]; auto|destruct Hv].
    + intros (k & Hk & Q). exists k. split; auto. rewrite Q. left. reflexivity.
Qed.
Lemma distinct_ok l : forall seen, NoDup (map e_id (distinct seen l)) /\
  (forall e, In e (distinct seen l) -> In e l /\ ~ In (e_id e) seen) /\
  (forall e, In e l -> (forall e', In e' l -> e_id e' = e_id e -> e' = e) -> ~ In (e_id e) seen -> In e (distinct seen l)).
Proof.
  induction l as [|x l IH]; intros seen; cbn [distinct]; [split; [constructor|split; intros e []]|].
  destruct (existsb (String.eqb (e_id x)) seen) eqn:Q.
  - apply existsb_exists in Q as (k & Hk & E). apply String.eqb_eq in E. subst k. destruct (IH seen) as (A & B & C). split; auto. split.
    + intros e He. destruct (B e He). split; auto. right; auto.
    + intros e [->|He] U Ns; [contradiction|]. apply C; auto. intros e' He'. apply U. right; auto.
  - assert (Nx : ~ In (e_id x) seen).
    { intros Hin. assert (existsb (String.eqb (e_id x)) seen = true); [|congruence]. apply existsb_exists. exists (e_id x). split; auto. apply String.eqb_refl. }
    destruct (IH (e_id x :: seen)) as (A & B & C). cbn [map]. split; [|split].
    + constructor; auto. intros Hin. apply in_map_iff in Hin as (e & Ee & He). destruct (B e He) as [_ Nb]. apply Nb. left. auto.
    + intros e [<-|He]; [split; auto; left; auto|]. destruct (B e He) as [X Y]. split; [right; auto|]. intros Hin. apply Y. right. auto.
    + intros e He U Ns. destruct (string_dec (e_id x) (e_id e)) as [Ex|Ex].
      * left. apply U; auto. left. auto.
      * destruct He as [->|He]; [congruence|]. right. apply C; auto; [intros; apply U; auto; right; auto|]. intros [X|X]; auto.
Qed.
Lemma face_edges_ok g fid f : all_filed g ->
  sget fid (faces g) = Some f ->
  NoDup (map e_id (face_edges g fid)) /\ forall e, In e (face_edges g fid) <-> exists k, sget k (edges g) = Some e /\ face_count g k fid <> 0.
Proof.
  intros (_ & F2 & _) Q. unfold face_edges. rewrite Q.
  assert (X : forall e, In e (found (edges g) (face_uses g f)) <-> exists k, sget k (edges g) = Some e /\ face_count g k fid <> 0).
  { intros e. unfold found. rewrite in_flat_map. split.
    - intros (k & Hk & He). exists k. split; [destruct (sget k (edges g)); [destruct He as [->|[]]; auto|destruct He]|].
      rewrite <- (face_uses_count g fid f k Q). apply (count_occ_In string_dec) in Hk. lia.
    - intros (k & Qk & Hk). exists k. split; [|rewrite Qk; left; reflexivity]. apply (count_occ_In string_dec). rewrite (face_uses_count g fid f k Q). lia. }
  destruct (distinct_ok (found (edges g) (face_uses g f)) []) as (A & B & C). split; auto. intros e. rewrite <- X. split.
  - intros He. apply B, He.
  - intros He. apply C; auto. intros e' He' Ee. apply X in He as (k & Qk & _). apply X in He' as (k' & Qk' & _).
    rewrite (filed_get _ _ _ _ F2 Qk), (filed_get _ _ _ _ F2 Qk') in Ee. congruence.
Qed.

Section Outcomes.
  Variables (order : list string -> list string).
  Hypothesis O : set_order order.
  Lemma closed_eq g g' fids : trims g' = trims g -> loops g' = loops g -> (forall k, option_map f_loops (sget k (faces g')) = option_map f_loops (sget k (faces g))) ->
    (closed_up g' fids <-> closed_up g fids).
  Proof.
    intros ST SL SF. assert (X : forall eid, shell_count g' eid fids = shell_count g eid fids).
    { intros eid. unfold shell_count. f_equal. apply map_ext. intros fid. unfold face_count. specialize (SF fid).
      destruct (sget fid (faces g')), (sget fid (faces g)); cbn [option_map] in SF; try discriminate; auto. apply some_inj in SF. rewrite SF. f_equal. apply map_ext.
      intros lid. unfold loop_count. rewrite SL. destruct (sget lid (loops g)); auto. unfold on_edge. rewrite ST. reflexivity. }
    unfold closed_up. split; intros C eid; specialize (C eid); rewrite ?X in *; auto.
  Qed.
  Lemma add_shell_ok s g : exists g', 
    trims g' = trims g /\ loops g' = loops g /\ edges g' = edges g /\ vertices g' = vertices g /\ solids g' = solids g /\
    (forall k, sget k (faces g') = option_map (fun f => if in_dec string_dec k (s_faces s) then mark_face (s_id s) f else f) (sget k (faces g))) /\
    match s_closed s with
    | None => exists b, (b = true <-> closed_up g (s_faces s)) /\ add_shell order s true g = (g', Done) /\ (forall k, sget k (shells g') = if String.eqb k (s_id s) then Some (set_closed b s) else sget k (shells g))
    | Some c => (forall k, sget k (shells g') = if String.eqb k (s_id s) then Some s else sget k (shells g)) /\
        exists o, add_shell order s true g = (g', o) /\ if c then (o = Done <-> closed_up g (s_faces s)) /\ (o <> Done -> o = NotClosed) else o = Done
    end.
  Proof.
    unfold add_shell. set (g1 := mkgraph (vertices g) (edges g) (trims g) (loops g) _ _ _).
    assert (Idem : forall v, mark_face (s_id s) (mark_face (s_id s) v) = mark_face (s_id s) v) by reflexivity.
    pose proof (fun k => sget_marks (mark_face (s_id s)) (s_faces s) (faces g) k Idem) as GF.
    assert (G1 : sget (s_id s) (shells g1) = Some s) by (unfold g1; cbn [shells]; rewrite sget_sset, String.eqb_refl; reflexivity).
    destruct (closure_ok order g1 (s_id s) s O G1) as (c & Ec & Hc & _). rewrite Ec.
    assert (CL : closed_up g1 (s_faces s) <-> closed_up g (s_faces s)).
    { apply closed_eq; auto. intros k. unfold g1. cbn [faces]. rewrite GF. destruct (sget k (faces g)); auto. cbn. destruct (in_dec _ _ _); reflexivity. }
    rewrite CL in Hc. destruct (s_closed s) as [[|]|].
    - exists g1. repeat (split; [reflexivity|]). split; [exact GF|]. split; [intros k; apply sget_sset|]. eexists. split; [reflexivity|].
      destruct (c_closed c); split; try (intros; congruence); split; intros; try discriminate; try (apply Hc; reflexivity); auto. apply Hc in H. discriminate.
    - exists g1. repeat (split; [reflexivity|]). split; [exact GF|]. split; [intros k; apply sget_sset|]. eexists. split; reflexivity.
    - exists (with_shells g1 (touch (s_id s) (set_closed (c_closed c)) (shells g1))). do 5 (split; [reflexivity|]). split; [|exists (c_closed c); split; [exact Hc|split; [reflexivity|]]].
      + exact GF.
      + intros k. unfold with_shells. cbn [shells]. rewrite sget_touch. unfold g1. cbn [shells]. rewrite sget_sset. destruct (String.eqb k (s_id s)) eqn:Q; auto.
  Qed.
  Lemma shell_ok_iff g sid : shell_ok order g sid = true <-> exists s, sget sid (shells g) = Some s /\ s_closed s <> Some false /\ closed_up g (s_faces s).
  Proof.
    unfold shell_ok. destruct (sget sid (shells g)) as [s|] eqn:Q; [|split; [discriminate|intros (x & X & _); discriminate]].
    destruct (closure_ok order g sid s O Q) as (c & -> & Hc & _). destruct (s_closed s) as [[|]|] eqn:Qc.
    - rewrite Hc. split; [intros; exists s; rewrite Qc; split; auto; split; auto; discriminate|intros (x & X & _ & C); apply some_inj in X; subst; exact C].
    - split; [discriminate|]. intros (x & X & C & _). congruence.
    - rewrite Hc. split; [intros; exists s; rewrite Qc; split; auto; split; auto; discriminate|intros (x & X & _ & C); apply some_inj in X; subst; exact C].
  Qed.
  Lemma pairs_iff (P : string -> string -> bool) l : existsb (fun p => P (fst p) (snd p)) (pairs l) = false <-> ForallOrdPairs (fun a b => P a b = false) l.
  Proof.
    induction l as [|x l IH]; cbn [pairs existsb]; [split; [constructor|reflexivity]|]. rewrite existsb_app, orb_false_iff, IH. split.
    - intros [A B]. constructor; auto. apply Forall_forall. intros y Hy. destruct (P x y) eqn:Q; auto. exfalso. assert (existsb (fun p => P (fst p) (snd p)) (map (pair x) l) = true); [|congruence].
      apply existsb_exists. exists (x, y). split; auto. apply in_map. exact Hy.
    - intros A. inversion A; subst. split; auto. destruct (existsb (fun p => P (fst p) (snd p)) (map (pair x) l)) eqn:Q; auto. apply existsb_exists in Q as ([a b] & Hin & Q). apply in_map_iff in Hin as (y & [= <- <-] & Hy).
      rewrite Forall_forall in H1. cbn in Q. rewrite (H1 y Hy) in Q. discriminate.
  Qed.
  Lemma add_solid_ok intersect centre contains s g : let g' := fst (add_solid order intersect centre contains s true g) in let o := snd (add_solid order intersect centre contains s true g) in
    sget (so_id s) (solids g') = Some s /\ (o <> Done -> o = Invalid) /\
    (o = Done <-> so_shells s <> [] /\
      (forall sid, In sid (so_shells s) -> exists sh, sget sid (shells g) = Some sh /\ s_closed sh <> Some false /\ closed_up g (s_faces sh)) /\
      ForallOrdPairs (fun a b => intersect g' a b = false) (so_shells s) /\
      (forall v c, In v (tl (so_shells s)) -> centre g' v = Some c -> contains g' (hd EmptyString (so_shells s)) c = true)).
  Proof.
    cbn zeta. unfold add_solid. cbn [fst snd]. set (g' := mkgraph _ _ _ _ _ _ _).
    assert (G1 : sget (so_id s) (solids g') = Some s) by (unfold g'; cbn [solids]; rewrite sget_sset, String.eqb_refl; reflexivity). split; auto.
    assert (Idem : forall v, mark_shell (so_id s) (mark_shell (so_id s) v) = mark_shell (so_id s) v) by reflexivity.
    pose proof (fun k => sget_marks (mark_shell (so_id s)) (so_shells s) (shells g) k Idem) as GS. change (forall k, sget k (shells g') = option_map (fun v => if in_dec string_dec k (so_shells s) then mark_shell (so_id s) v else v) (sget k (shells g))) in GS.
    assert (OKS : forall sid, shell_ok order g' sid = true <-> exists sh, sget sid (shells g) = Some sh /\ s_closed sh <> Some false /\ closed_up g (s_faces sh)).
    { intros sid. rewrite shell_ok_iff, GS. destruct (sget sid (shells g)) as [x|]; cbn [option_map]; [|split; intros (y & Y & _); discriminate].
      assert (CE : forall fids, closed_up g' fids <-> closed_up g fids) by (intros; apply closed_eq; reflexivity).
      split; intros (y & Y & A & B); apply some_inj in Y; subst y.
      - exists x. split; auto. rewrite CE in B. destruct (in_dec _ _ _); auto.
      - eexists. split; [reflexivity|]. rewrite CE. destruct (in_dec _ _ _); auto. }
    unfold validate_solid. rewrite G1. destruct (so_shells s) as [|a l] eqn:Es; cbn [hd tl]; [split; [congruence|split; [discriminate|intros [X _]; congruence]]|].
    destruct (forallb (shell_ok order g') (a :: l)) eqn:Q1; cbn [negb].
    2: { split; [congruence|]. split; [discriminate|]. intros (_ & A & _). exfalso. assert (forallb (shell_ok order g') (a :: l) = true); [|congruence]. apply forallb_forall. intros sid Hs. apply OKS, A, Hs. }
    assert (A1 : forall sid, In sid (a :: l) -> exists sh, sget sid (shells g) = Some sh /\ s_closed sh <> Some false /\ closed_up g (s_faces sh)).
    { intros sid Hs. apply OKS. rewrite forallb_forall in Q1. apply Q1, Hs. }
    destruct (existsb (fun p => intersect g' (fst p) (snd p)) (pairs (a :: l))) eqn:Q2.
    { split; [congruence|]. split; [discriminate|]. intros (_ & _ & B & _). apply pairs_iff in B. congruence. }
    apply pairs_iff in Q2. destruct (forallb _ l) eqn:Q3.
    - split; [congruence|]. split; auto. intros _. split; [discriminate|]. split; auto. split; auto. intros v c Hv Ec. rewrite forallb_forall in Q3. specialize (Q3 v Hv). rewrite Ec in Q3. exact Q3.
    - split; [congruence|]. split; [discriminate|]. intros (_ & _ & _ & C). exfalso. assert (forallb (fun v => match centre g' v with Some c => contains g' a c | None => true end) l = true); [|congruence].
      apply forallb_forall. intros v Hv. destruct (centre g' v) eqn:Ec; auto. eapply C; eauto.
  Qed.
End Outcomes.
