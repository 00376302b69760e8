(** Cuts of rings that avoid holes. *)
From Coq Require Import Reals List Bool ZArith Permutation Sorted Lra Lia.
From Verif Require Import Xform_Model Xform_Proofs Path_Model Path_Proofs2 Manu_Model.
Import ListNotations.
Open Scope R_scope.
Open Scope list_scope.

Lemma reqb_iff a b : Reqb a b = true <-> a = b.
Proof. unfold Reqb. destruct (Req_EM_T a b); split; congruence || auto. Qed.
(** strictly increasing from a bound *)
Fixpoint rising (a : R) (l : list R) : Prop := match l with [] => True | c :: r => a < c /\ rising c r end.
Lemma rising_low l : forall a b, b <= a -> rising a l -> rising b l.
Proof. destruct l as [|c r]; cbn; intros a b L H; [exact I|]. destruct H. split; [lra|assumption]. Qed.
Lemma rising_in l : forall a x, rising a l -> In x l -> a < x.
Proof. induction l as [|c r IH]; intros a x H I; [destruct I|]. destruct H as [H1 H2]. destruct I as [<-|I]; [exact H1|]. specialize (IH _ _ H2 I). lra. Qed.
Lemma insert_set_rising c l : forall a, a < c -> rising a l -> rising a (insert_set c l).
Proof.
  induction l as [|d r IH]; intros a A H; cbn; [auto|]. destruct H as [H1 H2]. destruct (Reqb c d) eqn:E; [cbn; auto|].
  destruct (Rltb c d) eqn:L; [apply Rltb_true in L; cbn; auto|]. cbn. split; [exact H1|]. apply IH; [|exact H2].
  apply Rltb_false in L. destruct (Req_dec c d) as [Q|Q]; [apply (reqb_iff c d) in Q; congruence|lra].
Qed.
Lemma insert_set_in c l x : In x (insert_set c l) <-> x = c \/ In x l.
Proof.
  induction l as [|d r IH]; cbn; [intuition|]. destruct (Reqb c d) eqn:E; [apply reqb_iff in E; subst; cbn; intuition|].
  destruct (Rltb c d); cbn; [intuition|]. rewrite IH. intuition.
Qed.
Lemma sort_set_acc l : forall acc a, Forall (fun c => a < c) l -> rising a acc ->
  rising a (fold_left (fun acc c => insert_set c acc) l acc) /\ (forall x, In x (fold_left (fun acc c => insert_set c acc) l acc) <-> In x l \/ In x acc).
Proof.
  induction l as [|c r IH]; intros acc a H R; cbn; [split; [exact R|intuition]|]. inversion H; subst.
  destruct (IH (insert_set c acc) a) as [A B]; [assumption|apply insert_set_rising; assumption|]. split; [exact A|].
  intros x. rewrite B, insert_set_in. intuition.
Qed.
Lemma sort_set_ok l a : Forall (fun c => a < c) l -> rising a (sort_set l) /\ forall x, In x (sort_set l) <-> In x l.
Proof. intros H. destruct (sort_set_acc l [] a H I) as [A B]. split; [exact A|]. intros x. unfold sort_set. rewrite B. cbn. intuition. Qed.

(** ** validity *)
Lemma zone_sound c h d : 0 <= d -> 0 < c < 1 -> zone_allows c (h - d, h + d) = true -> forall k : Z, d <= Rabs (c - h - IZR k).
Proof.
  intros D C V k. unfold zone_allows in V. cbn [fst snd] in V.
  assert (G : forall m : Z, IZR m + d <= c - h <= IZR m + 1 - d -> d <= Rabs (c - h - IZR k)).
  { intros m [G1 G2]. destruct (Z_le_gt_dec k m) as [L|L].
    - apply IZR_le in L. rewrite Rabs_right by lra. lra.
    - assert (L' : (m + 1 <= k)%Z) by lia. apply IZR_le in L'. rewrite plus_IZR in L'. rewrite Rabs_left1 by lra. lra. }
  destruct (Rltb (h - d) 0) eqn:E1; [|destruct (Rltb 1 (h + d)) eqn:E2].
  - apply negb_true_iff, orb_false_iff in V. destruct V as [V1 V2]. apply Rltb_false in V1, V2. apply (G 0%Z). cbn. lra.
  - apply negb_true_iff, orb_false_iff in V. destruct V as [V1 V2]. apply Rltb_false in V1, V2. apply (G (-1)%Z). cbn. lra.
  - apply Rltb_false in E1, E2. apply negb_true_iff, andb_false_iff in V. destruct V as [V|V]; apply rleb_false in V; [apply (G (-1)%Z)|apply (G 0%Z)]; cbn; lra.
Qed.
Lemma cut_valid_sound circ mind holes c : 0 < circ -> 0 <= mind -> 0 < c < 1 -> cut_valid (zones circ mind holes) c = true ->
  forall a, In a holes -> forall k : Z, mind <= circ * Rabs (c - a / 360 - IZR k).
Proof.
  intros P D C V a I k. unfold cut_valid in V. rewrite forallb_forall in V.
  specialize (V (a / 360 - mind / circ, a / 360 + mind / circ)). 
  assert (0 <= mind / circ) by (apply Rmult_le_pos; [lra|left; apply Rinv_0_lt_compat, P]).
  assert (K : mind / circ <= Rabs (c - a / 360 - IZR k)).
  { apply zone_sound; auto. apply V. unfold zones. apply in_map_iff. exists a. auto. }
  apply (Rmult_le_compat_l circ) in K; [|lra]. replace (circ * (mind / circ)) with mind in K by (field; lra). exact K.
Qed.

(** ** search *)
Lemma search_ok zs a n : forall i c, 0 < a < 1 -> search zs a i n = Some c -> 0 < c < 1 /\ cut_valid zs c = true.
Proof.
  induction n as [|n IH]; intros i c A H; [discriminate|]. cbn [search] in H.
  assert (O : 0 <= INR i / 1000 * (1 / 2)) by (pose proof (pos_INR i); lra).
  set (off := INR i / 1000 * (1 / 2)) in *. clearbody off.
  destruct (Rltb (a + off) 1 && cut_valid zs (a + off)) eqn:E1.
  { injection H as <-. apply andb_true_iff in E1. destruct E1 as [E1 E2]. apply Rltb_true in E1. split; [lra|exact E2]. }
  destruct (Rltb 0 (a - off) && cut_valid zs (a - off)) eqn:E2.
  { injection H as <-. apply andb_true_iff in E2. destruct E2 as [E2 E3]. apply Rltb_true in E2. split; [lra|exact E3]. }
  apply (IH _ _ A H).
Qed.
Lemma nearest_ok zs a c : 0 < a < 1 -> nearest zs a = Some c -> 0 < c < 1 /\ cut_valid zs c = true.
Proof. intros A H. unfold nearest in H. destruct (cut_valid zs a) eqn:E; [injection H as <-; auto|]. revert H. generalize 1000%nat as n. intros n H. apply (search_ok _ _ _ _ _ A H). Qed.
Definition fine (zs : list (R * R)) (c : R) : Prop := 0 < c < 1 /\ cut_valid zs c = true.
Lemma all_nearest_ok zs l : forall t, Forall (fun a => 0 < a < 1) l -> all_nearest zs l = Some t -> Forall (fine zs) t.
Proof.
  induction l as [|a r IH]; intros t F H; cbn [all_nearest] in H; [injection H as <-; constructor|]. inversion F; subst.
  destruct (nearest zs a) as [c|] eqn:E; [|discriminate]. destruct (all_nearest zs r) as [t'|]; [|discriminate]. injection H as <-.
  constructor; [apply (nearest_ok _ _ _ H2 E)|apply IH; auto].
Qed.
Lemma candidates_ok zs l : rising 0 (candidates zs l) /\ Forall (fine zs) (candidates zs l).
Proof.
  unfold candidates. set (m := _ ++ _). clearbody m. destruct (sort_set_ok (filter (fun c => Rltb 0 c && Rltb c 1 && cut_valid zs c) m) 0) as [A B].
  - apply Forall_forall. intros x I. apply filter_In in I. destruct I as [_ I]. apply andb_true_iff in I. destruct I as [I _]. apply andb_true_iff in I. destruct I as [I _]. apply Rltb_true, I.
  - split; [exact A|]. apply Forall_forall. intros x I. apply B, filter_In in I. destruct I as [_ I]. apply andb_true_iff in I. destruct I as [I1 I3]. apply andb_true_iff in I1.
    destruct I1 as [I1 I2]. apply Rltb_true in I1, I2. split; [lra|exact I3].
Qed.
Lemma combinations_ok (P : R -> Prop) l : forall n a c, rising a l -> Forall P l -> In c (combinations n l) -> rising a c /\ Forall P c /\ length c = n.
Proof.
  induction l as [|x r IH]; intros n a c R F I.
  - destruct n; cbn in I; [|destruct I]. destruct I as [<-|[]]. repeat split; constructor.
  - destruct n as [|n]; cbn [combinations] in I; [destruct I as [<-|[]]; repeat split; constructor|].
    destruct R as [R1 R2]. inversion F; subst. apply in_app_or in I. destruct I as [I|I].
    + apply in_map_iff in I. destruct I as (d & <- & I). destruct (IH n x d R2 H2 I) as (A & B & C). cbn. auto.
    + destruct (IH (S n) x c R2 H2 I) as (A & B & C). split; [apply (rising_low _ x); [lra|exact A]|auto].
Qed.
Lemma best_in l : forall b v c, fold_left better l b = Some (v, c) -> In c l \/ exists w, b = Some (w, c).
Proof.
  induction l as [|x r IH]; intros b v c H; cbn in H; [right; eauto|].
  destruct (IH _ _ _ H) as [I|[w E]]; [left; right; exact I|].
  unfold better in E. destruct b as [[u y]|]; [destruct (Rltb (variance x) u)|]; injection E; intros; subst; auto; [left; left; reflexivity|right; eauto|left; left; reflexivity].
Qed.
Lemma ideal_at n i : (2 <= n)%nat -> nth i (ideal_cuts n) 0 = (if (i <? n - 1)%nat then INR (S i) / INR n else 0).
Proof.
  intros N. unfold ideal_cuts. destruct (i <? n - 1)%nat eqn:E.
  - apply Nat.ltb_lt in E. rewrite (nth_indep _ 0 (1 / INR n * INR (S 0))) by (rewrite map_length, seq_length; exact E).
    rewrite (map_nth (fun i => 1 / INR n * INR (S i))), seq_nth by exact E. cbn [Nat.add]. unfold Rdiv. ring.
  - apply Nat.ltb_ge in E. apply nth_overflow. rewrite map_length, seq_length. exact E.
Qed.
Lemma ideal_len n : length (ideal_cuts n) = (n - 1)%nat. Proof. unfold ideal_cuts. rewrite map_length, seq_length. reflexivity. Qed.
Lemma ideal_rising n : (2 <= n)%nat -> rising 0 (ideal_cuts n) /\ Forall (fun a => 0 < a < 1) (ideal_cuts n).
Proof.
  intros N. assert (P : 0 < INR n) by (apply lt_0_INR; lia). assert (Q : 0 < 1 / INR n) by (apply Rdiv_lt_0_compat; lra). split.
  - unfold ideal_cuts. assert (G : forall m k, rising (1 / INR n * INR k) (map (fun i => 1 / INR n * INR (S i)) (seq k m))).
    { induction m as [|m IH]; intros k; cbn [seq map rising]; [exact I|]. split; [rewrite S_INR; nra|apply IH]. }
    specialize (G (n - 1)%nat 0%nat). cbn [INR] in G. rewrite Rmult_0_r in G. exact G.
  - apply Forall_forall. intros x I. unfold ideal_cuts in I. apply in_map_iff in I. destruct I as (i & <- & I). apply in_seq in I.
    assert (L : INR (S i) < INR n) by (apply lt_INR; lia). assert (0 < INR (S i)) by (apply lt_0_INR; lia). split; [nra|].
    apply (Rmult_lt_reg_l (INR n)); [exact P|]. replace (INR n * (1 / INR n * INR (S i))) with (INR (S i)) by (field; lra). lra.
Qed.
Lemma ring_cuts_ok circ max_len holes mind target :
  let n := num_segments circ max_len target in let l := ring_cuts circ max_len holes mind target in let zs := zones circ mind holes in
  length l = (n - 1)%nat /\ rising 0 l /\ Forall (fun c => 0 < c < 1) l /\ (Forall (fine zs) l \/ l = ideal_cuts n) /\
  (forallb (cut_valid zs) (ideal_cuts n) = true -> l = ideal_cuts n).
Proof.
  intros n l zs. unfold l, ring_cuts. fold n. fold zs. clearbody zs. destruct (n <? 2)%nat eqn:E.
  { apply Nat.ltb_lt in E. assert (ID : ideal_cuts n = []) by (unfold ideal_cuts; replace (n - 1)%nat with 0%nat by lia; reflexivity).
    rewrite ID. repeat split; try constructor; auto. cbn. lia. }
  apply Nat.ltb_ge in E. clear l. destruct (ideal_rising n E) as [IR IF].
  assert (IOK : length (ideal_cuts n) = (n - 1)%nat /\ rising 0 (ideal_cuts n) /\ Forall (fun c => 0 < c < 1) (ideal_cuts n) /\ (Forall (fine zs) (ideal_cuts n) \/ ideal_cuts n = ideal_cuts n)).
  { split; [apply ideal_len|]. auto. }
  destruct (forallb (cut_valid zs) (ideal_cuts n)) eqn:EV; [repeat split; auto; apply IOK|].
  assert (FIN : forall c, Forall (fine zs) c -> Forall (fun c => 0 < c < 1) c) by (intros c; apply Forall_impl; intros x [X _]; exact X).
  assert (W : forall l, (length l = (n - 1)%nat /\ rising 0 l /\ Forall (fun c => 0 < c < 1) l /\ (Forall (fine zs) l \/ l = ideal_cuts n)) ->
     length l = (n - 1)%nat /\ rising 0 l /\ Forall (fun c => 0 < c < 1) l /\ (Forall (fine zs) l \/ l = ideal_cuts n) /\ (false = true -> l = ideal_cuts n)).
  { intros l (A & B & C & D). repeat split; auto. discriminate. }
  apply W. clear W EV.
  set (fb := if (length (candidates zs (ideal_cuts n)) <? n - 1)%nat then ideal_cuts n else _).
  assert (FB : length fb = (n - 1)%nat /\ rising 0 fb /\ Forall (fun c => 0 < c < 1) fb /\ (Forall (fine zs) fb \/ fb = ideal_cuts n)).
  { unfold fb. destruct (_ <? _)%nat; [exact IOK|]. destruct (fold_left better _ None) as [[v c]|] eqn:EB; [|exact IOK].
    destruct c as [|c0 c]; [exact IOK|]. apply best_in in EB. destruct EB as [EB|[w EB]]; [|discriminate].
    destruct (candidates_ok zs (ideal_cuts n)) as [CA CB]. destruct (combinations_ok (fine zs) _ _ 0 _ CA CB EB) as (A & B & C). auto. }
  clearbody fb. destruct (all_nearest zs (ideal_cuts n)) as [t|] eqn:EN; [|exact FB].
  cbv zeta. destruct (length (sort_set t) =? n - 1)%nat eqn:EL; [|exact FB]. apply Nat.eqb_eq in EL.
  pose proof (all_nearest_ok _ _ _ IF EN) as TF. destruct (sort_set_ok t 0) as [SA SB].
  { eapply Forall_impl; [|apply FIN, TF]. cbv beta. intros; lra. }
  assert (SF : Forall (fine zs) (sort_set t)) by (rewrite Forall_forall in *; intros x I; apply TF, SB, I). auto.
Qed.

(** a search that misses up to i and hits above *)
Lemma search_hits zs a c : forall m i n, (m < n)%nat -> (forall j, (j < m)%nat -> cut_valid zs (a + INR (i + j) / 1000 * (1 / 2)) = false /\ cut_valid zs (a - INR (i + j) / 1000 * (1 / 2)) = false) ->
  c = a + INR (i + m) / 1000 * (1 / 2) -> c < 1 -> cut_valid zs c = true -> search zs a i n = Some c.
Proof.
  induction m as [|m IH]; intros i n L F E C V; (destruct n as [|n]; [lia|]); cbn [search].
  - rewrite Nat.add_0_r in E. rewrite <- E. replace (Rltb c 1) with true by (symmetry; apply Rltb_true, C). rewrite V. reflexivity.
  - destruct (F 0%nat) as [F1 F2]; [lia|]. rewrite Nat.add_0_r in F1, F2. rewrite F1, F2, !andb_false_r. apply IH; auto; [lia| |].
    + intros j J. replace (S i + j)%nat with (i + S j)%nat by lia. apply F. lia.
    + replace (S i + m)%nat with (i + S m)%nat by lia. exact E.
Qed.
Lemma search_none zs a : forall n i, (forall c, cut_valid zs c = false) -> search zs a i n = None.
Proof. induction n as [|n IH]; intros i F; cbn [search]; [reflexivity|]. rewrite !F, !andb_false_r. apply IH, F. Qed.
Lemma ceil_nat k x : INR k - 1 < x <= INR k -> ceil x = k.
Proof.
  intros H. unfold ceil. assert (E : Int_part (- x) = (- Z.of_nat k)%Z).
  { unfold Int_part. rewrite <- (up_tech (- x) (- Z.of_nat k)); [lia| |]; rewrite ?plus_IZR, ?opp_IZR, <- ?INR_IZR_INZ; lra. }
  rewrite E. lia.
Qed.
