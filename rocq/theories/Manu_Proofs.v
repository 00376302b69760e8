From Coq Require Import String Reals List Bool ZArith Permutation Lra Lia.
From Verif Require Import Dict Xform_Model Xform_Proofs Path_Model Path_Spec Path_Proofs Path_Proofs2 Manu_Model Manu_Spec.
From Verif Require Coll_Model Coll_Proofs3.
Import ListNotations.
Open Scope string_scope.
Open Scope R_scope.
Open Scope list_scope.

Lemma seg_id_inj e i j : seg_id e i = seg_id e j -> i = j.
Proof. unfold seg_id. intros H. apply Coll_Proofs3.append_inj in H. apply Coll_Proofs3.append_inj in H. apply Coll_Proofs3.decimal_inj in H. exact H. Qed.

(** ** sorting *)
Fixpoint ascending (a : R) (l : list cutpoint) : Prop := match l with [] => True | c :: r => a <= cp_t c /\ ascending (cp_t c) r end.
Lemma insert_asc c l : forall a, a <= cp_t c -> ascending a l -> ascending a (insert_cut c l).
Proof.
  induction l as [|d r IH]; intros a A H; cbn; [auto|]. destruct H as [H1 H2].
  destruct (Rltb (cp_t d) (cp_t c) || Reqb (cp_t d) (cp_t c)) eqn:E.
  - split; [exact H1|]. apply IH; [|exact H2]. apply orb_true_iff in E. destruct E as [E|E]; [apply Rltb_true in E; lra|]. unfold Reqb in E. destruct (Req_EM_T (cp_t d) (cp_t c)); [lra|discriminate].
  - apply orb_false_iff in E. destruct E as [E _]. apply Rltb_false in E. repeat split; try assumption; lra.
Qed.
Lemma insert_perm c l : Permutation (c :: l) (insert_cut c l).
Proof.
  induction l as [|d r IH]; cbn; [reflexivity|]. destruct (_ || _); [|reflexivity]. etransitivity; [apply perm_swap|]. apply perm_skip, IH.
Qed.
Lemma sort_perm_acc l : forall acc, Permutation (l ++ acc) (fold_left (fun acc c => insert_cut c acc) l acc).
Proof.
  induction l as [|c l IH]; intros acc; cbn; [reflexivity|]. etransitivity; [|apply IH].
  etransitivity; [apply Permutation_middle|]. apply Permutation_app_head, insert_perm.
Qed.
Lemma sort_perm l : Permutation l (sort_cuts l). Proof. unfold sort_cuts. etransitivity; [|apply sort_perm_acc]. rewrite app_nil_r. reflexivity. Qed.
Lemma sort_asc_acc a l : forall acc, Forall (fun c => a <= cp_t c) l -> ascending a acc -> ascending a (fold_left (fun acc c => insert_cut c acc) l acc).
Proof. induction l as [|c l IH]; intros acc H A; cbn; [exact A|]. inversion H; subst. apply IH; [assumption|]. apply insert_asc; assumption. Qed.
Lemma sort_asc a l : Forall (fun c => a <= cp_t c) l -> ascending a (sort_cuts l).
Proof. intros H. apply sort_asc_acc; [exact H|exact I]. Qed.

Section seg.
Context {S C : Type}.
Notation segment := (segment S).
Lemma update_last q f (l : list segment) o : ~ In q (map s_id l) -> s_id o = q -> update_id q f (l ++ [o]) = l ++ [f o].
Proof.
  induction l as [|s r IH]; cbn; intros N E.
  - rewrite (proj2 (String.eqb_eq _ _) E). reflexivity.
  - destruct (String.eqb_spec (s_id s) q) as [Q|Q]; [exfalso; apply N; left; exact Q|]. f_equal. apply IH; [|exact E]. intros I. apply N. right. exact I.
Qed.
Lemma find_last q (l : list segment) o : ~ In q (map s_id l) -> s_id o = q -> find_id q (l ++ [o]) = Some o.
Proof.
  induction l as [|s r IH]; cbn; intros N E.
  - rewrite (proj2 (String.eqb_eq _ _) E). reflexivity.
  - destruct (String.eqb_spec (s_id s) q) as [Q|Q]; [exfalso; apply N; left; exact Q|]. apply IH; [|exact E]. intros I. apply N. right. exact I.
Qed.
Lemma tiles_snoc rs : forall a b c, tiles a rs b -> b <= c -> tiles a (rs ++ [(b, c)]) c.
Proof. induction rs as [|[x y] r IH]; cbn; intros a b c H L; [subst; auto|]. destruct H as (H1 & H2 & H3). repeat split; try assumption. apply IH; assumption. Qed.
Lemma neighbours_snoc l : forall b (o o' n : segment), neighbours b (l ++ [o]) -> s_id o' = s_id o -> s_mates o' = s_mates o ++ [s_id n] -> s_mates n = [s_id o] ->
  neighbours b (l ++ [o'; n]).
Proof.
  induction l as [|s r IH]; intros b o o' n H E1 E2 E3; cbn [app] in *.
  - destruct H as [H _]. cbn. rewrite E2, H, E3, E1, app_nil_r. auto.
  - cbn [neighbours] in *. destruct H as [H1 H2]. split; [|eapply IH; eassumption].
    rewrite H1. f_equal. destruct r as [|m r]; cbn; [rewrite E1; reflexivity|reflexivity].
Qed.

(** ** the loop *)
Definition indexed (e : string) (i : nat) (l : list segment) : Prop := NoDup (map s_id l) /\ forall s, In s l -> exists j, (j < i)%nat /\ s_id s = seg_id e j.
Definition Inv (p : provenance S) (i : nat) (s : state S) : Prop :=
  tiles 0 (map s_range (segs s)) (start_t s) /\ neighbours [] (segs s) /\ indexed (p_id p) i (segs s) /\
  Forall (fun x => s_parent x = p_id p) (segs s) /\
  ((segs s = [] /\ prev s = None) \/ exists l o, segs s = l ++ [o] /\ prev s = Some (s_id o)).
Lemma fresh e i (l : list segment) : indexed e i l -> ~ In (seg_id e i) (map s_id l).
Proof. intros [_ H] I. apply in_map_iff in I. destruct I as (s & E & I). destruct (H s I) as (j & L & E'). rewrite E' in E. apply seg_id_inj in E. lia. Qed.
Lemma indexed_snoc e i l (n : segment) : indexed e i l -> s_id n = seg_id e i -> indexed e (Datatypes.S i) (l ++ [n]).
Proof.
  intros H E. pose proof (fresh _ _ _ H) as F. destruct H as [H1 H2]. split.
  - rewrite map_app. cbn [map]. apply (Permutation_NoDup (Permutation_cons_append (map s_id l) (s_id n))). constructor; [rewrite E; exact F|exact H1].
  - intros s I. apply in_app_or in I. destruct I as [I|[<-|[]]]; [|exists i; auto]. destruct (H2 s I) as (j & L & J). exists j. split; [lia|exact J].
Qed.
Lemma indexed_same e i l (o o' : segment) : indexed e i (l ++ [o]) -> s_id o' = s_id o -> indexed e i (l ++ [o']).
Proof.
  intros [H1 H2] E. rewrite map_app in H1. split; [rewrite map_app; cbn [map] in *; rewrite E; exact H1|].
  intros s I. apply in_app_or in I. destruct I as [I|[<-|[]]]; [apply H2, in_or_app; auto|]. rewrite E. apply H2, in_or_app. right. left. reflexivity.
Qed.
Lemma snoc_step p i s (f : segment -> segment) n t : Inv p i s -> (forall o, s_id (f o) = s_id o /\ s_mates (f o) = s_mates o ++ [s_id n] /\ s_range (f o) = s_range o /\ s_parent (f o) = s_parent o) ->
  s_id n = seg_id (p_id p) i -> s_mates n = match prev s with Some q => [q] | None => [] end -> s_range n = (start_t s, t) -> s_parent n = p_id p -> start_t s <= t ->
  let l := match prev s with Some q => update_id q f (segs s) | None => segs s end ++ [n] in
  tiles 0 (map s_range l) t /\ neighbours [] l /\ indexed (p_id p) (Datatypes.S i) l /\ Forall (fun x => s_parent x = p_id p) l.
Proof.
  intros (T & N & X & PA & L) F I M RG PR LE l. destruct L as [[E P]|(l0 & o & E & P)]; rewrite P in M; unfold l; clear l; rewrite P.
  - rewrite E in *. cbn [app map].
    split; [cbn [map tiles] in *; rewrite RG; auto|]. split; [cbn [neighbours]; rewrite M; auto|]. split; [apply (indexed_snoc _ _ []); assumption|]. repeat constructor. exact PR.
  - rewrite E in *. assert (NI : ~ In (s_id o) (map s_id l0)).
    { destruct X as [X _]. rewrite map_app in X. cbn [map] in X. apply (Permutation_NoDup (Permutation_sym (Permutation_cons_append _ _))) in X. inversion X. assumption. }
    rewrite update_last by (auto || reflexivity). destruct (F o) as (F1 & F2 & F3 & F4). split; [|split; [|split]].
    + rewrite !map_app in *. cbn [map] in *. rewrite F3, RG. apply tiles_snoc; assumption.
    + rewrite <- app_assoc. cbn [app]. eapply neighbours_snoc; eauto.
    + apply indexed_snoc; [|exact I]. eapply indexed_same; eassumption.
    + apply Forall_app in PA. destruct PA as [P1 P2]. inversion P2; subst. repeat (apply Forall_app; split); try assumption; repeat constructor; congruence.
Qed.
Lemma step_inv (k : kit S C) p build un i c s s' : Inv p i s -> start_t s <= cp_t c -> cut_step k p build un i c s = Some s' ->
  Inv p (Datatypes.S i) s' /\ start_t s' <= cp_t c /\ start_t s <= start_t s'.
Proof.
  intros HI LE H. unfold cut_step in H. destruct (compute_cut_plane (p_spine p) (cp_t c)) as [pl| | | | |]; try discriminate.
  destruct (split k (remaining s) pl) as [a b| |]; [| |discriminate].
  - destruct (do_connector k p build un c a b _ _) as [j|]; [|discriminate]. injection H as <-. cbn [start_t segs prev].
    split; [|lra].
    pose proof (snoc_step p i s (fun o => let o := add_mate (seg_id (p_id p) i) o in if is_male (j_type j) && is_none (s_type o) then set_type Female o else o)
      (Segment (seg_id (p_id p) i) (j_seg j) (p_id p) (start_t s, cp_t c) (j_tab j) (j_type j) (match prev s with Some q => [q] | None => [] end)) (cp_t c) HI) as K.
    cbn [s_id s_mates s_range s_parent] in K. destruct K as (K1 & K2 & K3 & K4); auto.
    { intros o. cbv zeta. destruct (_ && _); cbn; auto. }
    split; [exact K1|split; [exact K2|split; [exact K3|split; [exact K4|]]]]. right. eexists. eexists. split; [reflexivity|reflexivity].
  - injection H as <-. cbn [start_t]. split; [|lra]. destruct HI as (H1 & H2 & [H3 H4] & H5 & H6). repeat split; try assumption.
    intros x Hx. destruct (H4 x Hx) as (j & J & E). exists j. split; [cbn; lia|exact E].
Qed.
Lemma loop_inv (k : kit S C) p build un l : forall i s s', Inv p i s -> ascending (start_t s) l -> cut_loop k p build un i l s = Some s' -> Forall (fun c => cp_t c <= 1) l -> start_t s <= 1 ->
  Inv p (i + length l) s' /\ start_t s' <= 1.
Proof.
  induction l as [|c r IH]; intros i s s' HI A H B B1; cbn in H.
  - injection H as <-. rewrite Nat.add_0_r. auto.
  - destruct (cut_step k p build un i c s) as [s1|] eqn:E; [|discriminate]. destruct A as [A1 A2]. inversion B; subst.
    destruct (step_inv _ _ _ _ _ _ _ _ HI A1 E) as (I1 & L1 & L2). cbn [length]. replace (i + Datatypes.S (length r))%nat with (Datatypes.S i + length r)%nat by lia.
    eapply IH; try eassumption; [|lra]. destruct r as [|d r]; [exact I|]. cbn in *. destruct A2. split; [lra|assumption].
Qed.
Lemma result_ok (k : kit S C) p cuts build un r : Forall (fun c => 0 < cp_t c < 1) cuts -> segment_swept_element k p cuts build un = Some r ->
  tiles 0 (map s_range (r_segments r)) 1 /\ neighbours [] (r_segments r) /\ NoDup (map s_id (r_segments r)) /\ Forall (fun x => s_parent x = p_id p) (r_segments r).
Proof.
  intros HC H. unfold segment_swept_element in H. rewrite ne_match in H by (intros ->; discriminate).
  destruct (negb _); [discriminate|]. destruct (p_solid p) as [sol|]; [|discriminate].
  destruct (cut_loop _ _ _ _ _ _ _) as [s|] eqn:E; [|discriminate]. injection H as <-.
  assert (B : Forall (fun c => 0 < cp_t c < 1) (sort_cuts cuts)) by (eapply Permutation_Forall; [apply sort_perm|exact HC]).
  destruct (loop_inv k p build un (sort_cuts cuts) 0 (State [] [] [] 0 sol None 0 false) s) as [I1 I2].
  - repeat split; cbn; auto; [constructor|]. intros x [].
  - apply sort_asc. eapply Forall_impl; [|exact HC]. cbv beta. cbn [start_t]. intros; lra.
  - exact E.
  - eapply Forall_impl; [|exact B]. cbv beta. intros; lra.
  - cbn. lra.
  - cbn [Nat.add] in I1. unfold finish. cbn [r_segments].
    pose proof (snoc_step p _ s (add_mate (seg_id (p_id p) (length (sort_cuts cuts)))) (Segment (seg_id (p_id p) (length (sort_cuts cuts))) (remaining s) (p_id p) (start_t s, 1) (next_has s)
      (if next_has s then Male else match prev s with Some q => match find_id q (segs s) with Some o => if is_male (s_type o) then Female else NoConnector | None => NoConnector end | None => NoConnector end)
      (match prev s with Some q => [q] | None => [] end)) 1 I1) as K.
    cbn [s_id s_mates s_range s_parent] in K. destruct K as (K1 & K2 & [K3 _] & K4); auto.
Qed.

(** number of segments when no cut fails *)
Lemma update_len q f (l : list segment) : length (update_id q f l) = length l.
Proof. induction l; cbn; [reflexivity|]. destruct (String.eqb (s_id a) q); cbn; congruence. Qed.
Lemma loop_count (k : kit S C) p build un : (forall s pl, split k s pl <> SplitFails) -> forall l i s s', cut_loop k p build un i l s = Some s' -> length (segs s') = (length (segs s) + length l)%nat.
Proof.
  intros NF. induction l as [|c r IH]; intros i s s' H; cbn in H; [injection H as <-; cbn; lia|].
  destruct (cut_step k p build un i c s) as [s1|] eqn:E; [|discriminate]. rewrite (IH _ _ _ H). cbn [length].
  enough (length (segs s1) = Datatypes.S (length (segs s))) by lia. clear H. unfold cut_step in E.
  destruct (compute_cut_plane (p_spine p) (cp_t c)) as [pl| | | | |]; try discriminate.
  specialize (NF (remaining s) pl). destruct (split k (remaining s) pl); [|contradiction|discriminate].
  destruct (do_connector k p build un c a b _ _); [|discriminate]. injection E as <-. cbn [segs]. rewrite app_length. cbn.
  destruct (prev s); rewrite ?update_len; lia.
Qed.
Lemma count_ok (k : kit S C) p cuts build un r : (forall s pl, split k s pl <> SplitFails) -> segment_swept_element k p cuts build un = Some r ->
  length (r_segments r) = Datatypes.S (length cuts).
Proof.
  intros NF H. unfold segment_swept_element in H. rewrite ne_match in H by (intros ->; discriminate).
  destruct (negb _); [discriminate|]. destruct (p_solid p) as [sol|]; [|discriminate].
  destruct (cut_loop _ _ _ _ _ _ _) as [s|] eqn:E; [|discriminate]. injection H as <-.
  apply (loop_count _ _ _ _ NF) in E. cbn in E. unfold finish. cbn [r_segments]. rewrite app_length. cbn.
  rewrite <- (Permutation_length (sort_perm cuts)) in E. destruct (prev s); rewrite ?update_len; lia.
Qed.

(** tabs when nothing fails *)
Definition never_fails (k : kit S C) : Prop :=
  (forall s pl, exists a b, split k s pl = SplitOk a b) /\ (forall w h sp t wall len cl, build_connector k w h sp t wall len cl <> None) /\ (forall s c, unite k s c <> None).
Lemma update_tabs q f (l : list segment) : (forall o, s_tab (f o) = s_tab o) -> map s_tab (update_id q f l) = map s_tab l.
Proof. intros F. induction l; cbn; [reflexivity|]. destruct (String.eqb (s_id a) q); cbn; [rewrite F|]; congruence. Qed.
Lemma loop_tabs (k : kit S C) p w : never_fails k -> active true p = Some w -> forall l, Forall (fun c => cut_ok c = true) l -> forall i s s',
  cut_loop k p true true i l s = Some s' -> map s_tab (segs s') ++ [next_has s'] = map s_tab (segs s) ++ tabs (next_has s) l.
Proof.
  intros (NS & NB & NU) AC. induction l as [|c r IH]; intros OK i s s' H; cbn in H; [injection H as <-; reflexivity|].
  inversion OK; subst. destruct (cut_step k p true true i c s) as [s1|] eqn:E; [|discriminate]. rewrite (IH H3 _ _ _ H). clear H IH. cbn [tabs].
  unfold cut_step in E. destruct (compute_cut_plane (p_spine p) (cp_t c)) as [pl| | | | |]; try discriminate.
  destruct (NS (remaining s) pl) as (a & b & ES). rewrite ES in E. unfold do_connector in E. rewrite AC in E. destruct w as [[w h] wall]. cbn [andb] in E.
  unfold cut_ok in H2. apply andb_true_iff in H2. destruct H2 as [_ WOK].
  assert (G : exists j, Some s1 = Some (State (match prev s with Some q => update_id q (fun o => let o := add_mate (seg_id (p_id p) i) o in if is_male (j_type j) && is_none (s_type o) then set_type Female o else o) (segs s) | None => segs s end ++
       [Segment (seg_id (p_id p) i) (j_seg j) (p_id p) (start_t s, cp_t c) (j_tab j) (j_type j) (match prev s with Some q => [q] | None => [] end)])
       (conns s ++ j_conns j) (dset String.eqb (seg_id (p_id p) i) (match prev s with Some q => [q] | None => [] end) (graph s)) (warns s + j_warns j) (j_rest j) (Some (seg_id (p_id p) i)) (cp_t c) (j_next j)) /\
       j_tab j = (next_has s || String.eqb (cp_with c) "a") /\ j_next j = String.eqb (cp_with c) "b").
  { destruct (String.eqb (cp_with c) "none") eqn:EN; cbn [negb] in E.
    - eexists. split; [symmetry; exact E|]. cbn. apply String.eqb_eq in EN. rewrite EN. cbn. rewrite orb_false_r. auto.
    - specialize (NB w h (p_spine p) (cp_t c) wall (k_length (connector_spec (p_id p) (cp_t c) w h (cp_clear c))) (cp_clear c)).
      destruct (build_connector k w h _ _ _ _ _) as [cs|]; [|contradiction].
      destruct (String.eqb (cp_with c) "a") eqn:EA.
      + specialize (NU a cs). destruct (unite k a cs); [|contradiction]. eexists. split; [symmetry; exact E|]. cbn. apply String.eqb_eq in EA. rewrite EA. cbn. rewrite orb_true_r. auto.
      +
        rewrite orb_false_r in WOK. cbn [orb] in WOK. rewrite WOK in *. specialize (NU b cs). destruct (unite k b cs); [|contradiction].
        eexists. split; [symmetry; exact E|]. cbn. rewrite orb_false_r. auto. }
  destruct G as (j & G & T1 & T2). injection G as ->. cbn [segs next_has]. rewrite map_app. cbn [map s_tab]. rewrite T1, T2, <- app_assoc. cbn [app].
  destruct (prev s); [rewrite update_tabs; [reflexivity|]|reflexivity]. intros o. cbv zeta. destruct (_ && _); reflexivity.
Qed.
Lemma tabs_ok (k : kit S C) p cuts r w : never_fails k -> active true p = Some w -> Forall (fun c => cut_ok c = true) cuts ->
  segment_swept_element k p cuts true true = Some r -> map s_tab (r_segments r) = tabs false (sort_cuts cuts).
Proof.
  intros NF AC OK H. unfold segment_swept_element in H. rewrite ne_match in H by (intros ->; discriminate).
  destruct (negb _); [discriminate|]. destruct (p_solid p) as [sol|]; [|discriminate].
  destruct (cut_loop _ _ _ _ _ _ _) as [s|] eqn:E; [|discriminate]. injection H as <-.
  apply (loop_tabs _ _ _ NF AC) in E; [|eapply Permutation_Forall; [apply sort_perm|exact OK]]. cbn in E. rewrite <- E. unfold finish. cbn [r_segments]. rewrite map_app. cbn [map s_tab].
  destruct (prev s); [rewrite update_tabs; reflexivity|reflexivity].
Qed.

(** the connector length of a cut point is not looked at *)
Lemma insert_same c c' l l' : same_but_length c c' -> Forall2 same_but_length l l' -> Forall2 same_but_length (insert_cut c l) (insert_cut c' l').
Proof.
  intros H. induction 1 as [|d d' r r' D R IH]; cbn; [constructor; [exact H|constructor]|].
  pose proof H as (_ & T & _). pose proof D as (_ & T' & _). rewrite T, T'. destruct (_ || _); constructor; auto.
Qed.
Lemma sort_same l l' : Forall2 same_but_length l l' -> Forall2 same_but_length (sort_cuts l) (sort_cuts l').
Proof.
  unfold sort_cuts. assert (G : Forall2 same_but_length [] []) by constructor. revert G. generalize (@nil cutpoint) at 1 3 as a. generalize (@nil cutpoint) as b.
  intros b a G H. revert a b G. induction H as [|c c' r r' D R IH]; intros a b G; cbn; [exact G|]. apply IH, insert_same; assumption.
Qed.
Lemma loop_same (k : kit S C) p build un l l' : Forall2 same_but_length l l' -> forall i s, cut_loop k p build un i l s = cut_loop k p build un i l' s.
Proof.
  induction 1 as [|c c' r r' D R IH]; intros i s; cbn; [reflexivity|].
  assert (E : cut_step k p build un i c s = cut_step k p build un i c' s).
  { destruct D as (_ & T & L & W). unfold cut_step, do_connector. rewrite T, L, W. reflexivity. }
  rewrite E. destruct (cut_step k p build un i c' s); [apply IH|reflexivity].
Qed.
Lemma length_ignored (k : kit S C) p build un l l' : Forall2 same_but_length l l' -> segment_swept_element k p l build un = segment_swept_element k p l' build un.
Proof.
  intros H. unfold segment_swept_element. pose proof (sort_same _ _ H) as G.
  destruct H as [|c c' r r' D R]; [reflexivity|]. set (m := sort_cuts (c :: r)) in *. set (m' := sort_cuts (c' :: r')) in *.
  assert (E : forallb (fun c => String.eqb (cp_element c) (p_id p)) m = forallb (fun c => String.eqb (cp_element c) (p_id p)) m').
  { clear -G. induction G as [|d d' s s' D R IH]; cbn; [reflexivity|]. destruct D as (D & _). rewrite D, IH. reflexivity. }
  rewrite E. destruct (negb _); [reflexivity|]. destruct (p_solid p); [|reflexivity]. rewrite (loop_same _ _ _ _ _ _ G).
  replace (length m') with (length m); [reflexivity|]. clear -G. induction G; cbn; congruence.
Qed.
End seg.

(** ** material *)
Section exact.
Context {C : Type}.
Variable k : kit (vec -> Prop) C.
Hypothesis Hk : split k = exact_split.
Definition covers (l : list (segment (vec -> Prop))) (x : vec) : Prop := exists s, In s l /\ s_solid s x.
Lemma covers_app l m x : covers (l ++ m) x <-> covers l x \/ covers m x.
Proof.
  unfold covers. split.
  - intros (s & I & H). apply in_app_or in I. destruct I; [left|right]; eauto.
  - intros [(s & I & H)|(s & I & H)]; exists s; (split; [apply in_or_app; auto|exact H]).
Qed.
Lemma covers_update q f l x : (forall o, s_solid (f o) = s_solid o) -> covers (update_id q f l) x <-> covers l x.
Proof.
  intros F. induction l as [|s r IH]; cbn [update_id]; [reflexivity|].
  change (s :: r) with ([s] ++ r). destruct (String.eqb (s_id s) q).
  - change (f s :: r) with ([f s] ++ r). rewrite !covers_app. unfold covers at 1 3. split; (intros [(o & [<-|[]] & H)|H]; [left|right; exact H]); eexists; (split; [left; reflexivity|]); rewrite F in *; exact H.
  - change (s :: update_id q f r) with ([s] ++ update_id q f r). rewrite !covers_app, IH. reflexivity.
Qed.
Lemma step_cover p un i c s s' x : cut_step k p false un i c s = Some s' ->
  (covers (segs s') x \/ remaining s' x) <-> (covers (segs s) x \/ remaining s x).
Proof.
  unfold cut_step. destruct (compute_cut_plane (p_spine p) (cp_t c)) as [pl| | | | |]; try discriminate. rewrite Hk. unfold exact_split.
  unfold do_connector. replace (active false p) with (@None (R * R * R)) by (unfold active; destruct (p_dims p) as [[w h]|], (p_wall p); reflexivity).
  intros [= <-]. cbn [segs remaining j_seg j_rest]. rewrite covers_app.
  assert (U : covers (match prev s with Some q => update_id q (fun o => let o0 := add_mate (seg_id (p_id p) i) o in if is_male (if next_has s then Male else NoConnector) && is_none (s_type o0) then set_type Female o0 else o0) (segs s) | None => segs s end) x <-> covers (segs s) x).
  { destruct (prev s); [apply covers_update; intros o; cbv zeta; destruct (_ && _); reflexivity|reflexivity]. }
  cbn [j_type j_tab] in *. rewrite U. unfold covers at 2. split.
  - intros [[H|(o & [<-|[]] & H)]|H]; [left; exact H| |]; cbn [s_solid] in *; tauto.
  - intros [H|H]; [auto|]. destruct (Rle_dec (dot (psub x (fst pl)) (snd pl)) 0) as [L|L].
    + left. right. eexists. split; [left; reflexivity|]. cbn. auto.
    + right. split; [exact H|lra].
Qed.
Lemma loop_cover p un l x : forall i s s', cut_loop k p false un i l s = Some s' -> (covers (segs s') x \/ remaining s' x) <-> (covers (segs s) x \/ remaining s x).
Proof.
  induction l as [|c r IH]; intros i s s' H; cbn in H; [injection H as <-; reflexivity|].
  destruct (cut_step k p false un i c s) as [s1|] eqn:E; [|discriminate]. rewrite (IH _ _ _ H). apply (step_cover _ _ _ _ _ _ _ E).
Qed.
Lemma material_ok p cuts un r sol x : p_solid p = Some sol -> segment_swept_element k p cuts false un = Some r ->
  sol x <-> exists s, In s (r_segments r) /\ s_solid s x.
Proof.
  intros PS H. unfold segment_swept_element in H. rewrite ne_match in H by (intros ->; discriminate).
  destruct (negb _); [discriminate|]. rewrite PS in H.
  destruct (cut_loop _ _ _ _ _ _ _) as [s|] eqn:E; [|discriminate]. injection H as <-.
  pose proof (loop_cover _ _ _ x _ _ _ E) as K. cbn [segs remaining] in K. unfold finish. cbn [r_segments]. fold (covers (match prev s with
         | Some q => update_id q (add_mate (seg_id (p_id p) (length (sort_cuts cuts)))) (segs s) | None => segs s end ++ [Segment (seg_id (p_id p) (length (sort_cuts cuts))) (remaining s) (p_id p) (start_t s, 1) (next_has s)
            (if next_has s then Male else match prev s with Some q => match find_id q (segs s) with Some o => if is_male (s_type o) then Female else NoConnector | None => NoConnector end | None => NoConnector end)
            match prev s with Some q => [q] | None => [] end]) x).
  rewrite covers_app. assert (U : covers (match prev s with Some q => update_id q (add_mate (seg_id (p_id p) (length (sort_cuts cuts)))) (segs s) | None => segs s end) x <-> covers (segs s) x).
  { destruct (prev s); [apply covers_update; reflexivity|reflexivity]. }
  rewrite U. unfold covers at 2. cbn [In]. unfold covers at 2 in K. cbn [In] in K. split.
  - intros H. assert (Q : covers (segs s) x \/ remaining s x) by (apply K; auto). destruct Q as [Q|Q]; [left; exact Q|right; eexists; split; [left; reflexivity|exact Q]].
  - intros [H|(o & [<-|[]] & H)]; [destruct (proj1 K (or_introl H)) as [(o & [] & _)|Q]; exact Q|]. destruct (proj1 K (or_intror H)) as [(o & [] & _)|Q]; exact Q.
Qed.
End exact.
