(** Properties of yapcad/manufacturing/{data,connectors,segmentation,rings}.py (C258-C275). *)
From Coq Require Import String Reals List Bool ZArith Lra Lia.
From Verif Require Import Dict Xform_Model Xform_Proofs Path_Model Path_Spec Path_Proofs Path_Proofs2 Path_Props Manu_Model Manu_Spec Manu_Proofs Manu_Proofs2 Manu_Proofs3.
Import ListNotations.
Open Scope string_scope.
Open Scope R_scope.
Open Scope list_scope.

(** a straight beam along x; splitting, building and uniting never fail *)
Definition beam : list seg := [Line (v3 0 0 0) (v3 10 0 0)].
Definition tokens : kit Datatypes.unit Datatypes.unit := Kit (fun _ _ => SplitOk tt tt) (fun _ _ _ _ _ _ _ => Some tt) (fun _ _ => Some tt).
Definition prov : provenance Datatypes.unit := Provenance "e" beam (Some 1) (Some (10, 10)) (Some tt).
Definition cut (t : R) (w : string) : cutpoint := CutPoint "e" t None (2 / 10) w.
Lemma beam_good : Forall good beam. Proof. repeat constructor. Qed.
Lemma beam_plane t : 0 <= t <= 1 -> exists pl, compute_cut_plane beam t = Ok pl.
Proof.
  intros T. destruct (c250_evaluate beam 0 t beam_good I) as (q & d & E & _); [cbn; lia|exact T|]. replace ((INR 0 + t) / INR (List.length beam)) with t in E by (cbn; field). exists (q, d). exact E.
Qed.
Lemma prov_active : active true prov = Some (10, 10, 1).
Proof. unfold active, prov. cbn [p_dims p_wall]. unfold Reqb. repeat (destruct (Req_EM_T _ _); [exfalso; lra|]). reflexivity. Qed.
Lemma never_fails_tokens : never_fails tokens.
Proof. split; [|split]; intros; cbn; [exists tt, tt; reflexivity|discriminate|discriminate]. Qed.
Lemma one_cut t w : 0 < t < 1 -> cut_loop tokens prov true true 0 [cut t w] (State [] [] [] 0 tt None 0 false) =
  match do_connector tokens prov true true (cut t w) tt tt NoConnector false with
  | Some j => Some (State [Segment "e_seg_0" tt "e" (0, t) (j_tab j) (j_type j) []] (j_conns j) [("e_seg_0", [])] (j_warns j) tt (Some "e_seg_0") t (j_next j)) | None => None end.
Proof.
  intros T. destruct (beam_plane t) as [pl E]; [lra|]. unfold cut_loop, cut_step. cbn [p_spine prov cp_t cut]. rewrite E. cbn [tokens split remaining next_has].
  destruct (do_connector _ _ _ _ _ _ _ _) as [j|]; [|reflexivity]. destruct (j_rest j). destruct (j_seg j). reflexivity.
Qed.

(** C258: the segments' parameter ranges run from 0 to 1 without gap or overlap, each segment
    mates with its neighbours and nothing else, identifiers are distinct, the parent is the
    element; with n cuts that all succeed there are n + 1 segments.  Any kernel, any failures. *)
Theorem c258_segments S C (k : kit S C) p cuts build un r : Forall (fun c => 0 < cp_t c < 1) cuts -> segment_swept_element k p cuts build un = Some r ->
  tiles 0 (map s_range (r_segments r)) 1 /\ neighbours [] (r_segments r) /\ NoDup (map s_id (r_segments r)) /\ Forall (fun x => s_parent x = p_id p) (r_segments r).
Proof. exact (result_ok k p cuts build un r). Qed.
Print Assumptions c258_segments.
Theorem c258_count S C (k : kit S C) p cuts build un r : (forall s pl, split k s pl <> SplitFails) -> segment_swept_element k p cuts build un = Some r ->
  List.length (r_segments r) = Datatypes.S (List.length cuts).
Proof. exact (count_ok k p cuts build un r). Qed.
Print Assumptions c258_count.
Lemma single t w : 0 < t < 1 -> w = "a" \/ w = "none" -> exists r, segment_swept_element tokens prov [cut t w] true true = Some r /\
  map s_id (r_segments r) = ["e_seg_0"; "e_seg_1"] /\ map s_mates (r_segments r) = [["e_seg_1"]; ["e_seg_0"]] /\ map s_range (r_segments r) = [(0, t); (t, 1)] /\
  r_graph r = [("e_seg_0", []); ("e_seg_1", ["e_seg_0"])].
Proof.
  intros T W. unfold segment_swept_element. change (sort_cuts [cut t w]) with [cut t w]. cbn [forallb cut cp_element prov p_id String.eqb Ascii.eqb Bool.eqb negb andb p_solid].
  rewrite one_cut by exact T. unfold do_connector. rewrite prov_active. cbn [cut cp_with]. destruct W as [-> | ->]; cbn; eexists; (split; [reflexivity|]); repeat split.
Qed.
Example c258_nonvacuous : exists r, segment_swept_element tokens prov [cut (3 / 10) "a"] true true = Some r /\ List.length (r_segments r) = 2%nat.
Proof. destruct (single (3 / 10) "a") as (r & E & _); [lra|auto|]. exists r. split; [exact E|]. apply (c258_count _ _ tokens prov _ true true r) in E; [exact E|discriminate]. Qed.

(** C259: when nothing fails, a segment has a connector tab exactly if its upper joint was
    given to side "a" or its lower joint to side "b". *)
Theorem c259_tabs S C (k : kit S C) p cuts r w : never_fails k -> active true p = Some w -> Forall (fun c => cut_ok c = true) cuts ->
  segment_swept_element k p cuts true true = Some r -> map s_tab (r_segments r) = tabs false (sort_cuts cuts).
Proof. exact (tabs_ok k p cuts r w). Qed.
Print Assumptions c259_tabs.
Example c259_nonvacuous : exists r, segment_swept_element tokens prov [cut (3 / 10) "a"] true true = Some r /\ map s_tab (r_segments r) = [true; false].
Proof.
  destruct (single (3 / 10) "a") as (r & E & _); [lra|auto|]. exists r. split; [exact E|].
  rewrite (c259_tabs _ _ tokens prov [cut (3 / 10) "a"] r _ never_fails_tokens prov_active); [reflexivity| |exact E].
  repeat constructor. unfold cut_ok, cut. cbn [cp_t cp_with]. rewrite !(proj2 (Rltb_true _ _)) by lra. reflexivity.
Qed.

(** C260 REFUTED: assembly_graph maps every segment to the segments it mates with: the entry
    of a segment lists its predecessor only. *)
Theorem c260_graph_refuted : exists r, segment_swept_element tokens prov [cut (1 / 2) "a"] true true = Some r /\
  exists s, In s (r_segments r) /\ s_mates s = ["e_seg_1"] /\ dget String.eqb (s_id s) (r_graph r) = Some [].
Proof.
  destruct (single (1 / 2) "a") as (r & E & I & M & _ & G); [lra|auto|]. exists r. split; [exact E|]. destruct (r_segments r) as [|s l]; [discriminate|]. exists s.
  cbn [map] in I, M. split; [left; reflexivity|]. split; [congruence|]. replace (s_id s) with "e_seg_0" by congruence. rewrite G. reflexivity.
Qed.
Print Assumptions c260_graph_refuted.

(** C261 REFUTED: connector_type: "female" is for a segment that receives a tab: here the only
    joint of the last segment has a separate connector. *)
Theorem c261_type_refuted : exists r, segment_swept_element tokens prov [cut (3 / 10) "b"; cut (6 / 10) "none"] true true = Some r /\
  map s_type (r_segments r) = [Female; Male; Female] /\ map k_center (r_connectors r) = [6 / 10].
Proof.
  unfold segment_swept_element. replace (sort_cuts [cut (3 / 10) "b"; cut (6 / 10) "none"]) with [cut (3 / 10) "b"; cut (6 / 10) "none"].
  2:{ unfold sort_cuts. cbn [fold_left insert_cut cut cp_t]. rewrite (proj2 (Rltb_true (3 / 10) (6 / 10))) by lra. reflexivity. }
  cbn [forallb cut cp_element prov p_id String.eqb Ascii.eqb Bool.eqb negb andb p_solid].
  destruct (beam_plane (3 / 10)) as [p1 E1]; [lra|]. destruct (beam_plane (6 / 10)) as [p2 E2]; [lra|].
  unfold cut_loop, cut_step. cbn [prov p_spine cut cp_t]. rewrite E1. cbn [tokens split remaining next_has]. unfold do_connector. rewrite prov_active.
  cbn [andb negb String.eqb Ascii.eqb Bool.eqb cp_with cp_t cut build_connector unite tokens]. rewrite E2. cbn -[connector_spec].
  eexists. split; [reflexivity|]. split; reflexivity.
Qed.
Print Assumptions c261_type_refuted.

(** C262 REFUTED: CutPoint.connector_length overrides the connector's length: it is never
    looked at, and the length is three times the larger side of the profile. *)
Theorem c262_length_refuted S C (k : kit S C) p build un l l' : Forall2 same_but_length l l' -> segment_swept_element k p l build un = segment_swept_element k p l' build un.
Proof. exact (length_ignored k p build un l l'). Qed.
Print Assumptions c262_length_refuted.
Theorem c262_length_used_refuted e t w h clear : k_length (connector_spec e t w h clear) = 3 * Rmax w h.
Proof. reflexivity. Qed.
Print Assumptions c262_length_used_refuted.

(** C263 REFUTED: connectors have unique identifiers. *)
Theorem c263_ids_refuted w h clear : k_id (connector_spec "e" (101 / 1000) w h clear) = "e_conn_10" /\ k_id (connector_spec "e" (105 / 1000) w h clear) = "e_conn_10".
Proof.
  unfold connector_spec, connector_id. cbn [k_id].
  rewrite (trunc_unique (101 / 1000 * 100) 10), (trunc_unique (105 / 1000 * 100) 10) by (cbn; lra). split; reflexivity.
Qed.
Print Assumptions c263_ids_refuted.

(** C264: with exact cuts and no connectors the segments together are the solid: no material
    is lost or added. *)
Theorem c264_material C (k : kit (vec -> Prop) C) p cuts un r sol x : split k = exact_split -> p_solid p = Some sol -> segment_swept_element k p cuts false un = Some r ->
  sol x <-> exists s, In s (r_segments r) /\ s_solid s x.
Proof. intros H. exact (material_ok k H p cuts un r sol x). Qed.
Print Assumptions c264_material.
Example c264_nonvacuous : let k := Kit exact_split (fun _ _ _ _ _ _ _ => Some tt) (fun s _ => Some s) in
  exists r, segment_swept_element k (Provenance "e" beam None None (Some (fun x => 0 <= vx x <= 10))) [cut (1 / 2) "a"] false false = Some r /\ List.length (r_segments r) = 2%nat.
Proof.
  intros k. destruct (beam_plane (1 / 2)) as [pl E]; [lra|]. unfold segment_swept_element. change (sort_cuts [cut (1 / 2) "a"]) with [cut (1 / 2) "a"].
  cbn [forallb cut cp_element p_id String.eqb Ascii.eqb Bool.eqb negb andb p_solid]. unfold cut_loop, cut_step. cbn [p_spine cut cp_t]. rewrite E. cbn. eexists. split; reflexivity.
Qed.

(** C265: compute_optimal_cuts: no cuts for a short path; otherwise valid cut points at i/n, and
    on a path of equal segments every piece is shorter than the maximum, with at most one
    segment more than needed. *)
Theorem c265_short e p m : path_length p <= m -> optimal_cuts e p m = [].
Proof. intros H. unfold optimal_cuts. rewrite (proj2 (rleb_true _ _) H). reflexivity. Qed.
Print Assumptions c265_short.
Theorem c265_cuts e p m : 0 < m -> m < path_length p ->
  exists n, (2 <= n)%nat /\ path_length p < INR n * m /\ (INR n - 1) * m <= path_length p /\
    map cp_t (optimal_cuts e p m) = map (fun i => INR i / INR n) (List.seq 1 (n - 1)) /\
    Forall (fun c => make_cut (cp_element c) (cp_t c) (cp_length c) (cp_clear c) (cp_with c) = Ok c /\ cp_element c = e) (optimal_cuts e p m).
Proof.
  intros M L. destruct (optimal_shape e p m M L) as (n & N & A & B & C & D). exists n. split; [exact N|]. split; [lra|]. split; [exact B|]. split; [exact C|].
  eapply Forall_impl; [|exact D]. cbv beta. intros c [H E]. split; [|exact E]. unfold make_cut. destruct c as [e' t l cl w]. cbn [cp_element cp_t cp_length cp_clear cp_with] in *. rewrite H. reflexivity.
Qed.
Print Assumptions c265_cuts.
Theorem c265_pieces e p m l : Forall good p -> Forall (fun g => has_length g l) p -> p <> [] -> 0 < m -> m < path_length p ->
  let ts := 0 :: map cp_t (optimal_cuts e p m) ++ [1] in
  forall i, (Datatypes.S i < List.length ts)%nat -> exists q, extract p (nth i ts 0) (nth (Datatypes.S i) ts 0) = Ok q /\ path_length q < m.
Proof.
  intros G H N M L ts i I. destruct (c265_cuts e p m M L) as (n & N2 & A & _ & C & _). unfold ts in *. rewrite C in *.
  assert (P : 0 < INR n) by (apply lt_0_INR; lia).
  assert (LEN : List.length (0 :: map (fun i => INR i / INR n) (List.seq 1 (n - 1)) ++ [1]) = Datatypes.S n) by (cbn [List.length]; rewrite app_length, map_length, seq_length; cbn; lia).
  rewrite LEN in I.
  assert (V : forall j, (j <= n)%nat -> nth j (0 :: map (fun i => INR i / INR n) (List.seq 1 (n - 1)) ++ [1]) 0 = INR j / INR n).
  { intros j J. destruct j as [|j]; cbn [nth]; [cbn; unfold Rdiv; ring|]. destruct (Nat.eq_dec j (n - 1)) as [->|NE].
    - rewrite app_nth2 by (rewrite map_length, seq_length; lia). rewrite map_length, seq_length, Nat.sub_diag. cbn [nth]. replace (Datatypes.S (n - 1)) with n by lia. field. lra.
    - rewrite app_nth1 by (rewrite map_length, seq_length; lia). rewrite (nth_indep _ 0 ((fun i => INR i / INR n) 0%nat)) by (rewrite map_length, seq_length; lia).
      rewrite (map_nth (fun i => INR i / INR n)), seq_nth by lia. reflexivity. }
  rewrite !V by lia. rewrite S_INR. assert (IL : INR i + 1 <= INR n) by (rewrite <- S_INR; apply le_INR; lia). pose proof (pos_INR i).
  destruct (even_cut p l (INR i / INR n) ((INR i + 1) / INR n) G H N) as (q & E & PL).
  - apply Rmult_le_pos; [lra|left; apply Rinv_0_lt_compat, P].
  - unfold Rdiv. apply Rmult_lt_compat_r; [apply Rinv_0_lt_compat, P|lra].
  - apply (Rmult_le_reg_r (INR n)); [exact P|]. unfold Rdiv. rewrite Rmult_assoc, Rinv_l by lra. lra.
  - exists q. split; [exact E|]. rewrite PL. replace ((INR i + 1) / INR n - INR i / INR n) with (/ INR n) by (field; lra).
    apply (Rmult_lt_reg_l (INR n)); [exact P|]. rewrite <- Rmult_assoc, Rinv_r by lra. lra.
Qed.
Print Assumptions c265_pieces.
Example c265_nonvacuous : path_length beam = 10 /\ Forall (fun g => has_length g 10) beam.
Proof.
  assert (E : mag (psub (v3 10 0 0) (v3 0 0 0)) = 10) by (apply mag_of; [lra|]; unfold dot, psub, v3; cbn; ring).
  split; [rewrite path_length_total; unfold total, beam; cbn [fold_right seg_length]; rewrite E; ring|]. repeat constructor. cbn [has_length]. symmetry. apply mag_of; [lra|]. unfold dot, sub, v3. cbn. ring.
Qed.

(** two straight pieces of lengths 1 and 9 *)
Definition stub : list seg := [Line (v3 0 0 0) (v3 1 0 0); Line (v3 1 0 0) (v3 10 0 0)].
Lemma stub_good : Forall good stub. Proof. repeat constructor. Qed.
Lemma stub_lengths : seg_length (sg stub 0) = 1 /\ seg_length (sg stub 1) = 9.
Proof. split; unfold sg, stub; cbn [nth seg_length]; apply mag_of; try lra; unfold dot, psub, v3; cbn; ring. Qed.
Lemma stub_length : path_length stub = 10.
Proof. destruct stub_lengths as [A B]. rewrite path_length_total. unfold total, stub. cbn [fold_right]. unfold sg, stub in A, B. cbn [nth] in A, B. rewrite A, B. ring. Qed.
Lemma stub_cut a b : 0 <= a -> a < b -> b <= 1 -> exists q, extract stub a b = Ok q /\ path_length q = overlap (a * 2) (b * 2) 0 * 1 + overlap (a * 2) (b * 2) 1 * 9.
Proof.
  intros A B C. destruct (length_of_cut stub a b stub_good) as (q & E & L); try assumption; [discriminate|]. exists q. split; [exact E|]. rewrite L.
  destruct stub_lengths as [S0 S1]. change (List.length stub) with 2%nat. replace (INR 2) with 2 by (cbn; lra). cbn [wsum]. rewrite S0, S1. ring.
Qed.
(** C266 REFUTED: pieces between the optimal cuts are at most max_segment_length long. *)
Theorem c266_uneven_refuted : map cp_t (optimal_cuts "e" stub 5) = [1 / 3; 2 / 3] /\ exists q, extract stub (2 / 3) 1 = Ok q /\ path_length q = 6.
Proof.
  split.
  - unfold optimal_cuts. rewrite stub_length. rewrite (proj2 (rleb_false 10 5)) by lra. rewrite (trunc_unique (10 / 5) 2) by (cbn; lra). cbn [Nat.sub List.seq map cp_t]. cbn [INR]. f_equal; [field|f_equal; field].
  - destruct (stub_cut (2 / 3) 1) as (q & E & L); try lra. exists q. split; [exact E|]. rewrite L. unfold overlap, lo, hi. cbn [INR].
    rewrite (Rmin_right (1 * 2) (0 + 1)), (Rmax_left (2 / 3 * 2) 0), (Rmin_left (1 * 2) (1 + 1)), (Rmax_left (2 / 3 * 2) 1) by lra.
    rewrite Rmax_left by lra. rewrite Rmax_right by lra. lra.
Qed.
Print Assumptions c266_uneven_refuted.

(** C267: the connector's profile is the inner void less the clearance on every side, and is
    refused exactly when nothing is left. *)
Theorem c267_profile w h wall clear : 0 <= wall -> 0 <= clear ->
  (forall w' h', connector_profile w h wall clear = Ok (w', h') <-> (w' = w - 2 * wall - 2 * clear /\ h' = h - 2 * wall - 2 * clear /\ 0 < w' /\ 0 < h')) /\
  (connector_profile w h wall clear = ValueError <-> w <= 2 * wall + 2 * clear \/ h <= 2 * wall + 2 * clear).
Proof.
  intros W C. unfold connector_profile, shrink. cbv zeta.
  destruct (Rleb (w - 2 * wall) 0 || Rleb (h - 2 * wall) 0) eqn:E.
  { apply orb_true_iff in E. assert (X : w - 2 * wall <= 0 \/ h - 2 * wall <= 0) by (destruct E as [E|E]; apply rleb_true in E; auto). split.
    - intros w' h'. split; [discriminate|]. intros (-> & -> & A & B). exfalso. lra.
    - split; [intros _; lra|reflexivity]. }
  apply orb_false_iff in E. destruct E as [E1 E2]. apply rleb_false in E1, E2.
  destruct (Rleb (w - 2 * wall - 2 * clear) 0 || Rleb (h - 2 * wall - 2 * clear) 0) eqn:E.
  - apply orb_true_iff in E. assert (X : w - 2 * wall - 2 * clear <= 0 \/ h - 2 * wall - 2 * clear <= 0) by (destruct E as [E|E]; apply rleb_true in E; auto). split.
    + intros w' h'. split; [discriminate|]. intros (-> & -> & A & B). exfalso. lra.
    + split; [intros _; lra|reflexivity].
  - apply orb_false_iff in E. destruct E as [E3 E4]. apply rleb_false in E3, E4. split.
    + intros w' h'. split; [intros [= <- <-]; auto|intros (-> & -> & _); reflexivity].
    + split; [discriminate|intros; exfalso; lra].
Qed.
Print Assumptions c267_profile.
Example c267_nonvacuous : connector_profile 20 30 2 (1 / 2) = Ok (15, 25).
Proof. apply c267_profile; lra. Qed.

(** C268: on a path of equal segments an interior connector runs along the path, contains the
    cut, is connector_length long and extends equally to both sides when it fits, and stops at
    the ends of the path when it does not. *)
Theorem c268_centred p l t len : Forall good p -> Forall (fun g => has_length g l) p -> p <> [] -> tiny10 <= path_length p -> 0 < t < 1 -> 0 < len ->
  len / 2 <= t * path_length p -> len / 2 <= (1 - t) * path_length p ->
  exists q a b q1 q2, connector_spine p t len = Ok q /\ 0 <= a < t /\ t < b <= 1 /\ extract p a b = Ok q /\ path_length q = len /\
    extract p a t = Ok q1 /\ extract p t b = Ok q2 /\ path_length q1 = len / 2 /\ path_length q2 = len / 2.
Proof. exact (centred p l t len). Qed.
Print Assumptions c268_centred.
Theorem c268_ends p l t len : Forall good p -> Forall (fun g => has_length g l) p -> p <> [] -> tiny10 <= path_length p -> 0 < t < 1 -> 0 < len ->
  let a := Rmax 0 (t - len / 2 / path_length p) in let b := Rmin 1 (t + len / 2 / path_length p) in
  0 <= a < t /\ t < b <= 1 /\ connector_spine p t len = extract p a b.
Proof. exact (spine_even p l t len). Qed.
Print Assumptions c268_ends.
Example c268_nonvacuous : exists q, connector_spine beam (1 / 2) 4 = Ok q /\ path_length q = 4.
Proof.
  destruct c265_nonvacuous as [L H]. destruct (c268_centred beam 10 (1 / 2) 4 beam_good H) as (q & a & b & q1 & q2 & E & _ & _ & _ & P & _); try (rewrite ?L; unfold tiny10; lra); [discriminate|]. exists q. auto.
Qed.
(** C269 REFUTED: the same for any path: the connector made for the cut at the end of the first
    piece is a fifth of its length and does not reach the cut. *)
Theorem c269_uneven_refuted : (exists d, compute_cut_plane stub (1 / 2) = Ok (v3 1 0 0, d)) /\
  exists q, connector_spine stub (1 / 2) 1 = Ok q /\ path_length q = 2 / 10 /\ forall v, passes q 0 1 v -> vx v <= 3 / 10.
Proof.
  split.
  - destruct (c250_evaluate stub 1 0 stub_good) as (q & d & E & A); [repeat split|cbn; lia|lra|]. exists d. unfold compute_cut_plane.
    replace ((INR 1 + 0) / INR (List.length stub)) with (1 / 2) in E by (cbn; field). rewrite E. do 2 f_equal. cbn in A. rewrite A. unfold v3. f_equal; ring.
  - destruct (stub_cut 0 (1 / 2)) as (q0 & E0 & L0); try lra.
    assert (P : parameter_to_length stub (1 / 2) = Ok 1).
    { unfold parameter_to_length. rewrite E0, L0. f_equal. unfold overlap, lo, hi. cbn [INR].
      rewrite (Rmin_left (1 / 2 * 2) (0 + 1)), (Rmax_left (0 * 2) 0), (Rmin_left (1 / 2 * 2) (1 + 1)), (Rmax_right (0 * 2) 1) by lra. rewrite Rmax_right, Rmax_left by lra. lra. }
    assert (T : forall s, 0 <= s <= 10 -> length_to_parameter stub s = s / 10) by (intros s Hs; rewrite to_parameter; rewrite stub_length; unfold tiny10; try lra; reflexivity).
    destruct (stub_cut (5 / 100) (15 / 100)) as (q & E & L); try lra. exists q.
    split; [|split].
    + unfold connector_spine. rewrite P, stub_length. rewrite Rmax_right, Rmin_right by lra. rewrite !T by lra. replace ((1 - 1 / 2) / 10) with (5 / 100) by field. replace ((1 + 1 / 2) / 10) with (15 / 100) by field. exact E.
    + rewrite L. unfold overlap, lo, hi. cbn [INR].
      rewrite (Rmin_left (15 / 100 * 2) (0 + 1)), (Rmax_left (5 / 100 * 2) 0), (Rmin_left (15 / 100 * 2) (1 + 1)), (Rmax_right (5 / 100 * 2) 1) by lra. rewrite Rmax_right, Rmax_left by lra. lra.
    + intros v V. destruct (c252_sub_path stub (5 / 100) (15 / 100) stub_good) as (q' & E' & _ & _ & _ & PV & _); try lra; [repeat split|discriminate|]. assert (q' = q) by congruence. subst q'.
      apply PV in V. destruct V as (t & Ht & d & Ev).
      destruct (c250_evaluate stub 0 (2 * t) stub_good) as (w & d' & Ew & A); [repeat split|cbn; lia|lra|]. replace ((INR 0 + 2 * t) / INR (List.length stub)) with t in Ew by (cbn; field).
      assert (v = w) by congruence. subst w. cbn in A. rewrite A. cbn. lra.
Qed.
Print Assumptions c269_uneven_refuted.

(** C270: a terminal connector is a straight tab of the given length that continues the path
    beyond the chosen end, along its (unit) tangent there. *)
Theorem c270_terminal p (at_end : bool) len : Forall good p -> joined p -> p <> [] ->
  exists q d, evaluate p (if at_end then 1 else 0) = Ok (q, d) /\ q = (if at_end then seg_end (last p Other) else seg_start (hd Other p)) /\ mag d = 1 /\
    terminal_spine p at_end len = Ok [Line (mkv (vx q) (vy q) (vz q) 0)
      (if at_end then mkv (vx q + len * vx d) (vy q + len * vy d) (vz q + len * vz d) 0 else mkv (vx q - len * vx d) (vy q - len * vy d) (vz q - len * vz d) 0)].
Proof.
  intros G J N. destruct (c250_ends p G J N) as [[d0 E0] [d1 E1]]. destruct at_end; eexists; eexists; (split; [eassumption|]); (split; [reflexivity|]).
  - split; [apply (evaluate_unit _ _ _ _ E1)|]. apply (terminal_ok p true len _ _ E1).
  - split; [apply (evaluate_unit _ _ _ _ E0)|]. rewrite (terminal_ok p false len _ _ E0). cbv zeta. do 4 f_equal; ring.
Qed.
Print Assumptions c270_terminal.
Example c270_nonvacuous : exists x, terminal_spine beam true 5 = Ok x.
Proof. destruct (c270_terminal beam true 5 beam_good I) as (q & d & _ & _ & _ & E); [discriminate|]. eexists. exact E. Qed.

(** C271: ring spines are closed gapless polygons of n equal sides whose corners lie on the
    circle; attachment points lie on that circle, with the unit direction to the centre, and the
    attachment at 360 i / n degrees is corner i. *)
Theorem c271_ring r c deg ax n : 0 <= r -> (0 < n)%nat ->
  let p := create_ring_spine r c deg ax n in let a := if Rltb (1 / 1000) (Rabs deg) then deg * PI / 180 else 0 in
  Forall good p /\ joined p /\ List.length p = n /\ seg_end (last p Other) = seg_start (hd Other p) /\
  Forall (fun g => has_length g (2 * r * sin (PI / INR n))) p /\
  Forall (fun g => on_ring c (ring_normal ax a) r (seg_start g) /\ on_ring c (ring_normal ax a) r (seg_end g)) p.
Proof.
  intros R N p a. split; [apply ring_good|]. split; [apply ring_joined|]. split; [apply ring_count|]. split; [|split; [apply ring_lengths; assumption|]].
  - assert (L : last p Other = nth (n - 1) p Other).
    { assert (LN : List.length p = n) by apply ring_count. destruct p as [|g q] eqn:E using rev_ind; [cbn in LN; lia|]. rewrite last_last. rewrite app_length in LN. cbn in LN.
      rewrite app_nth2 by lia. replace (n - 1 - List.length q)%nat with 0%nat by lia. reflexivity. }
    assert (F : hd Other p = nth 0 p Other) by (destruct p; reflexivity). rewrite L, F. unfold p. rewrite !ring_nth by lia. cbn [seg_end seg_start]. replace (Datatypes.S (n - 1)) with n by lia.
    unfold vertex. rewrite ring_period by exact N. reflexivity.
  - unfold p. rewrite spine_vertices. apply Forall_forall. intros g I. apply in_map_iff in I. destruct I as (i & <- & _). split; apply vertex_on, R.
Qed.
Print Assumptions c271_ring.
Theorem c271_attachment r at_deg c deg ax : 0 <= r -> flat3 c ->
  let '(q, d) := attachment r at_deg c deg ax in
  on_ring c (ring_normal ax (if Rltb (1 / 1000) (Rabs deg) then deg * PI / 180 else 0)) r q /\ mag d = 1 /\ mkv (vx q + r * vx d) (vy q + r * vy d) (vz q + r * vz d) 0 = c.
Proof.
  intros R W. pose proof (attachment_ok r at_deg c deg ax R W) as H. destruct (attachment r at_deg c deg ax) as [q d]. destruct H as (A & B & D). split; [exact A|]. split; [exact B|].
  transitivity (padd q (pscale d r)); [|exact D]. unfold padd, pscale. cbn [vx vy vz]. f_equal; ring.
Qed.
Print Assumptions c271_attachment.
Theorem c271_corner r c deg ax n i : (i < n)%nat -> fst (attachment r (360 * INR i / INR n) c deg ax) = seg_start (nth i (create_ring_spine r c deg ax n) Other).
Proof. intros L. rewrite ring_nth by exact L. apply attachment_vertex. lia. Qed.
Print Assumptions c271_corner.

Example c271_nonvacuous : let p := create_ring_spine 5 (v3 1 2 3) 30 AxX 6 in joined p /\ List.length p = 6%nat.
Proof. destruct (c271_ring 5 (v3 1 2 3) 30 AxX 6) as (_ & J & L & _); [lra|lia|]. split; assumption. Qed.

(** C272 REFUTED: the pieces of a closed ring cover the ring: a square ring cut at 3/4 loses
    everything outside its first side. *)
Lemma side : create_ring_spine 1 (v3 0 0 0) 0 AxZ 4 = [Line (v3 1 0 0) (v3 0 1 0); Line (v3 0 1 0) (v3 (-1) 0 0); Line (v3 (-1) 0 0) (v3 0 (-1) 0); Line (v3 0 (-1) 0) (v3 1 0 0)].
Proof.
  rewrite spine_vertices. cbn [List.seq map]. unfold vertex, ring_vertex, tilt_angle. rewrite Rabs_R0, (proj2 (Rltb_false (1 / 1000) 0)) by lra.
  replace (INR 0 * (2 * PI / INR 4)) with 0 by (cbn; field). replace (INR 1 * (2 * PI / INR 4)) with (PI / 2) by (cbn; field). replace (INR 2 * (2 * PI / INR 4)) with PI by (cbn; field).
  replace (INR 3 * (2 * PI / INR 4)) with (3 * (PI / 2)) by (cbn; field). replace (INR 4 * (2 * PI / INR 4)) with (2 * PI) by (cbn; field).
  rewrite cos_2PI, sin_2PI, cos_3PI2, sin_3PI2, cos_PI, sin_PI, cos_PI2, sin_PI2, cos_0, sin_0. unfold rot, padd, v3. cbn [vx vy vz]. rewrite cos_0, sin_0.
  repeat (f_equal; try ring).
Qed.
Theorem c272_ring_refuted (solid : vec -> Prop) : exists a b, segment_closed_ring solid (create_ring_spine 1 (v3 0 0 0) 0 AxZ 4) [3 / 4] = Some [a; b] /\
  forall x y z, 1 < x + y -> ~ a (v3 x y z) /\ ~ b (v3 x y z).
Proof.
  rewrite side. set (p := [_; _; _; _]).
  assert (G : Forall good p) by (repeat constructor). assert (J : joined p) by (repeat split).
  assert (M : forall a b, a * a + b * b = 2 -> mag (v3 a b 0) = sqrt 2) by (intros a b H; unfold mag, v3; cbn [vx vy vz]; f_equal; lra).
  assert (S1 : 1 < sqrt 2) by (rewrite <- sqrt_1 at 1; apply sqrt_lt_1; lra).
  assert (PN : forall a b, a * a + b * b = 2 -> pnorm (v3 a b 0) = v3 (a / sqrt 2) (b / sqrt 2) 0).
  { intros a b H. rewrite pnorm_big by (rewrite (M a b H); unfold tiny10; lra). rewrite (M a b H). unfold v3. cbn [vx vy vz]. f_equal. field. lra. }
  assert (T0 : compute_cut_plane p 0 = Ok (v3 1 0 0, v3 (-1 / sqrt 2) (1 / sqrt 2) 0)).
  { unfold compute_cut_plane. pose proof (evaluate_in p 0 0) as EV. replace ((INR 0 + 0) / INR (List.length p)) with 0 in EV by (cbn; field). rewrite EV by (cbn; lia || lra). clear EV. cbn [p nth eval_seg]. unfold eval_line. do 2 f_equal.
    - unfold lerp, v3. cbn. f_equal; ring.
    - rewrite <- PN by lra. f_equal. unfold psub, v3. cbn. f_equal; ring. }
  assert (T1 : compute_cut_plane p 1 = Ok (v3 1 0 0, v3 (1 / sqrt 2) (1 / sqrt 2) 0)).
  { unfold compute_cut_plane. rewrite evaluate_end by discriminate. cbn [p nth eval_seg List.length Nat.sub]. unfold eval_line. do 2 f_equal.
    - unfold lerp, v3. cbn. f_equal; ring.
    - rewrite <- PN by lra. f_equal. unfold psub, v3. cbn. f_equal; ring. }
  assert (TC : compute_cut_plane p (3 / 4) = Ok (v3 0 (-1) 0, v3 (1 / sqrt 2) (1 / sqrt 2) 0)).
  { unfold compute_cut_plane. pose proof (evaluate_in p 3 0) as EV. replace ((INR 3 + 0) / INR (List.length p)) with (3 / 4) in EV by (cbn; field). rewrite EV by (cbn; lia || lra). clear EV. cbn [p nth eval_seg]. unfold eval_line. do 2 f_equal.
    - unfold lerp, v3. cbn. f_equal; ring.
    - rewrite <- PN by lra. f_equal. unfold psub, v3. cbn. f_equal; ring. }
  clearbody p. unfold segment_closed_ring. cbn [fold_left insert_r forallb]. rewrite (proj2 (rleb_false (3 / 4) 0)), (proj2 (rleb_false 1 (3 / 4))) by lra. cbn [orb negb andb ring_ranges map].
  unfold ring_piece. cbn [fst snd]. rewrite T0, TC, T1. cbn [all_some]. eexists. eexists. split; [reflexivity|].
  assert (IV : 0 < / sqrt 2) by (apply Rinv_0_lt_compat; lra).
  intros x y z H. split; intros (_ & _ & K); unfold keep_below, dot, psub, v3 in K; cbn [fst snd vx vy vz] in K; unfold Rdiv in K; nra.
Qed.
Print Assumptions c272_ring_refuted.

(** C273: compute_ring_cuts_avoiding_holes gives one cut less than segments, increasing and
    inside (0, 1), and either every cut keeps the distance from every hole (measured around the
    ring) or the cuts are exactly the evenly spaced ones; evenly spaced cuts that are allowed
    are the ones returned. *)
Definition evenly (n : nat) : list R := map (fun i => INR (Datatypes.S i) / INR n) (List.seq 0 (n - 1)).
Lemma evenly_ideal n : ideal_cuts n = evenly n.
Proof. unfold ideal_cuts, evenly. apply map_ext. intros i. unfold Rdiv. ring. Qed.
Theorem c273_cuts circ max_len holes mind target : 0 < circ -> 0 <= mind ->
  let n := num_segments circ max_len target in let l := ring_cuts circ max_len holes mind target in
  List.length l = (n - 1)%nat /\ increasing 0 l /\ Forall (fun c => 0 < c < 1) l /\
  ((forall c a (k : Z), In c l -> In a holes -> mind <= circ * Rabs (c - a / 360 - IZR k)) \/ l = evenly n).
Proof.
  intros P D n l. destruct (ring_cuts_ok circ max_len holes mind target) as (A & B & C & E & _). fold n in A, E. fold l in A, B, C, E. split; [exact A|]. split; [exact B|]. split; [exact C|].
  destruct E as [E|E]; [left|right; rewrite <- evenly_ideal; exact E]. intros c a k I Ia. rewrite Forall_forall in E. destruct (E c I) as [E1 E2]. exact (cut_valid_sound circ mind holes c P D E1 E2 a Ia k).
Qed.
Print Assumptions c273_cuts.
Theorem c273_segments circ max_len : 0 < max_len -> 0 < circ -> let n := num_segments circ max_len None in (1 <= n)%nat /\ (INR n - 1) * max_len < circ <= INR n * max_len.
Proof.
  intros M C n. unfold n, num_segments. assert (Q : 0 < circ / max_len) by (apply Rdiv_lt_0_compat; lra).
  destruct (base_Int_part (- (circ / max_len))) as [B1 B2]. set (z := Int_part (- (circ / max_len))) in *.
  assert (Z : (- z >= 1)%Z) by (assert (z < 0)%Z by (apply lt_IZR; lra); lia). assert (E : INR (ceil (circ / max_len)) = - IZR z).
  { unfold ceil. fold z. rewrite INR_IZR_INZ, Z2Nat.id by lia. apply opp_IZR. }
  split; [unfold ceil; fold z; lia|]. rewrite E. assert (EQ : circ / max_len * max_len = circ) by (field; lra). split; nra.
Qed.
Print Assumptions c273_segments.
Theorem c273_even_when_allowed circ max_len holes mind target : 0 < circ -> 0 <= mind ->
  let n := num_segments circ max_len target in
  (forall c a (k : Z), In c (evenly n) -> In a holes -> mind < circ * Rabs (c - a / 360 - IZR k)) ->
  (forall a, In a holes -> 0 <= a <= 360) ->
  ring_cuts circ max_len holes mind target = evenly n.
Proof.
  intros P D n H HA. destruct (ring_cuts_ok circ max_len holes mind target) as (_ & _ & _ & _ & E). fold n in E. rewrite <- evenly_ideal. apply E. clear E.
  apply forallb_forall. intros c I. unfold cut_valid. apply forallb_forall. intros z Iz. unfold zones in Iz. apply in_map_iff in Iz. destruct Iz as (a & <- & Ia).
  rewrite evenly_ideal in I. specialize (HA a Ia). pose proof (H c a 0%Z I Ia) as H0. pose proof (H c a 1%Z I Ia) as H1. pose proof (H c a (-1)%Z I Ia) as H2.
  assert (CI : 0 < c < 1).
  { destruct (le_lt_dec 2 n) as [N2|N2]; [|unfold evenly in I; replace (n - 1)%nat with 0%nat in I by lia; destruct I]. rewrite <- evenly_ideal in I. destruct (ideal_rising n N2) as [_ F]. rewrite Forall_forall in F. apply F, I. }
  set (d := mind / circ). assert (ED : d * circ = mind) by (unfold d; field; lra). assert (D0 : 0 <= d) by (unfold d; apply Rmult_le_pos; [lra|left; apply Rinv_0_lt_compat, P]).
  set (h := a / 360) in *. assert (HH : 0 <= h <= 1) by (unfold h; lra).
  assert (K0 : d < Rabs (c - h - IZR 0)) by (apply (Rmult_lt_reg_r circ); lra). assert (K1 : d < Rabs (c - h - IZR 1)) by (apply (Rmult_lt_reg_r circ); lra). assert (K2 : d < Rabs (c - h - IZR (-1))) by (apply (Rmult_lt_reg_r circ); lra).
  clearbody d h. clear - K0 K1 K2 HH CI D0. cbn [IZR] in *. unfold zone_allows. cbn [fst snd].
  unfold Rabs in *. destruct (Rcase_abs (c - h - 0)), (Rcase_abs (c - h - 1)), (Rcase_abs (c - h - -1)); try lra;
  (destruct (Rltb (h - d) 0) eqn:E1; [apply Rltb_true in E1|apply Rltb_false in E1; destruct (Rltb 1 (h + d)) eqn:E2; [apply Rltb_true in E2|apply Rltb_false in E2]]); apply negb_true_iff;
  solve [apply orb_false_iff; split; apply Rltb_false; lra | apply andb_false_iff; left; apply rleb_false; lra | apply andb_false_iff; right; apply rleb_false; lra].
Qed.
Print Assumptions c273_even_when_allowed.

Example c273_nonvacuous : ring_cuts 100 50 [90] 5 (Some 2%nat) = evenly 2 /\ evenly 2 = [1 / 2].
Proof.
  split; [|unfold evenly; cbn; f_equal; field]. apply (c273_even_when_allowed 100 50 [90] 5 (Some 2%nat)); try lra.
  - intros c a k I [<-|[]]. cbn in I. destruct I as [<-|[]]. replace (1 / (1 + 1) - 90 / 360 - IZR k) with (1 / 4 - IZR k) by field.
    destruct (Z_le_gt_dec k 0) as [L|L]; [apply IZR_le in L; rewrite Rabs_right; lra|]. assert (L' : (1 <= k)%Z) by lia. apply IZR_le in L'. rewrite Rabs_left1; lra.
  - intros a [<-|[]]. lra.
Qed.

(** C274 REFUTED: the cuts avoid the holes: when no place is far enough the even cuts are
    returned, here right through the hole. *)
Theorem c274_hits_hole_refuted : ring_cuts 100 50 [180] 60 None = [1 / 2] /\ 1 / 2 = 180 / 360.
Proof.
  split; [|lra]. unfold ring_cuts. replace (num_segments 100 50 None) with 2%nat by (symmetry; unfold num_segments; apply ceil_nat; cbn; lra). cbn [Nat.ltb Nat.leb].
  assert (V : forall c, cut_valid (zones 100 60 [180]) c = false).
  { intros c. unfold cut_valid, zones. cbn [map forallb]. rewrite andb_true_r. unfold zone_allows. cbn [fst snd]. rewrite (proj2 (Rltb_true (180 / 360 - 60 / 100) 0)) by lra. apply negb_false_iff.
    destruct (Rltb c (180 / 360 + 60 / 100)) eqn:E; [reflexivity|]. apply Rltb_false in E. cbn [orb]. apply Rltb_true. lra. }
  unfold ideal_cuts. cbn [Nat.sub List.seq map]. cbn [forallb]. rewrite V. cbn [andb all_nearest]. unfold nearest. rewrite V.
  rewrite (search_none (zones 100 60 [180]) _ 1000 0 V). unfold candidates. rewrite (filter_ext _ (fun _ => false)) by (intros; rewrite V, andb_false_r; reflexivity).
  assert (F : forall l : list R, filter (fun _ => false) l = []) by (induction l; auto). rewrite F. cbn. f_equal. field.
Qed.
Print Assumptions c274_hits_hole_refuted.
(** C275 REFUTED: no segment is longer than max_segment_length: moving a cut away from a hole
    lengthens a segment. *)
Theorem c275_too_long_refuted : ring_cuts 100 50 [180] 5 None = [11010 / 20000] /\ 50 < 100 * (11010 / 20000 - 0).
Proof.
  split; [|lra]. unfold ring_cuts. replace (num_segments 100 50 None) with 2%nat by (symmetry; unfold num_segments; apply ceil_nat; cbn; lra). cbn [Nat.ltb Nat.leb].
  assert (V : forall c, cut_valid (zones 100 5 [180]) c = negb (Rleb (45 / 100) c && Rleb c (55 / 100))).
  { intros c. unfold cut_valid, zones. cbn [map forallb]. rewrite andb_true_r. unfold zone_allows. cbn [fst snd]. rewrite (proj2 (Rltb_false (180 / 360 - 5 / 100) 0)), (proj2 (Rltb_false 1 (180 / 360 + 5 / 100))) by lra.
    replace (180 / 360 - 5 / 100) with (45 / 100) by field. replace (180 / 360 + 5 / 100) with (55 / 100) by field. reflexivity. }
  assert (B : forall c, 45 / 100 <= c <= 55 / 100 -> cut_valid (zones 100 5 [180]) c = false) by (intros c H; rewrite V, (proj2 (rleb_true _ _)), (proj2 (rleb_true _ _)) by lra; reflexivity).
  assert (W : forall c, 55 / 100 < c -> cut_valid (zones 100 5 [180]) c = true) by (intros c H; rewrite V, (proj2 (rleb_false c _)), andb_false_r by lra; reflexivity).
  assert (S : nearest (zones 100 5 [180]) (1 / INR 2 * INR 1) = Some (11010 / 20000)).
  { replace (1 / INR 2 * INR 1) with (1 / 2) by (cbn; field). unfold nearest. rewrite (B (1 / 2)) by lra. apply (search_hits _ _ _ 101); [lia| | |lra|apply W; lra].
    - intros j J. assert (0 <= INR (0 + j) <= 100) by (split; [apply pos_INR|]; replace 100 with (INR 100) by (rewrite INR_IZR_INZ; reflexivity); apply le_INR; lia). split; apply B; lra.
    - cbn [Nat.add]. replace (INR 101) with 101 by (rewrite INR_IZR_INZ; reflexivity). field. }
  unfold ideal_cuts. cbn [Nat.sub List.seq map forallb]. rewrite (B (1 / INR 2 * INR 1)) by (cbn; lra). cbn [andb all_nearest]. rewrite S. reflexivity.
Qed.
Print Assumptions c275_too_long_refuted.
