(** Which interfaces fit, how far they reach, and what the summary counts. *)
From Coq Require Import Reals String List Bool Lia Lra.
From Verif Require Import Dict Coll_Model Coll_Spec Coll_Proofs Coll_Proofs2 Coll_Proofs3 Coll_Props.
Import ListNotations.
Open Scope R_scope.
Open Scope list_scope.

(** C306.  Gears mesh with gears of the same module (to 0.1 %) and pressure angle (to half a degree);
    an internal thread takes an external one of the same diameter and pitch (to 0.1 %); nothing else. *)
Theorem c306_gears_fit : forall user i j m n pa w h b, kind_data i = Gear m n pa w h b ->
  (compatible user i j = true <->
   exists m' n' pa' w' h' b', kind_data j = Gear m' n' pa' w' h' b' /\ Rabs (m - m') <= m / 1000 /\ Rabs (pa - pa') <= 1 / 2).
Proof.
  intros user i j m n pa w h b E. unfold compatible. rewrite E. destruct (kind_data j) as [m' n' pa' w' h' b'|? ? ? ? ?|? ? ?].
  - rewrite andb_true_iff, !negb_true_iff, !lt_false. split.
    + intros [A B]. exists m', n', pa', w', h', b'. split; [reflexivity|]. split; lra.
    + intros (? & ? & ? & ? & ? & ? & [= <- <- <- <- <- <-] & A & B). split; lra.
  - split; [discriminate|]. intros (? & ? & ? & ? & ? & ? & X & _). discriminate.
  - split; [discriminate|]. intros (? & ? & ? & ? & ? & ? & X & _). discriminate.
Qed.
Print Assumptions c306_gears_fit.
Theorem c306_threads_fit : forall user i j p d k l int, kind_data i = Thread p d k l int ->
  (compatible user i j = true <->
   exists p' d' k' l', kind_data j = Thread p' d' k' l' (negb int) /\ Rabs (d - d') <= d / 1000 /\ Rabs (p - p') <= p / 1000).
Proof.
  intros user i j p d k l int E. unfold compatible. rewrite E. destruct (kind_data j) as [? ? ? ? ? ?|p' d' k' l' int'|? ? ?].
  - split; [discriminate|]. intros (? & ? & ? & ? & X & _). discriminate.
  - rewrite !andb_true_iff, !negb_true_iff, !lt_false. split.
    + intros [[I A] B]. exists p', d', k', l'. split; [|split; lra]. destruct int, int'; try discriminate I; reflexivity.
    + intros (? & ? & ? & ? & [= <- <- <- <- ->] & A & B). split; [split|]; try lra. destruct int; reflexivity.
  - split; [discriminate|]. intros (? & ? & ? & ? & X & _). discriminate.
Qed.
Print Assumptions c306_threads_fit.
(** The search lists the registered interfaces that fit, in order of registration, never one of the same name. *)
Theorem c306_search : forall user H xs o, no_mutation xs ->
  (forall o', In o' (find_compatible user H o (after H xs)) <->
    In o' (registered H xs) /\ name (H o') <> name (H o) /\ compatible user (H o) (H o') = true) /\
  NoDup (find_compatible user H o (after H xs)).
Proof.
  intros user H xs o M. pose proof (after_ok H xs M) as O. destruct (c35_lookups_agree H xs M) as (A & N & _). unfold find_compatible. rewrite A. split.
  - intros o'. rewrite filter_In, andb_true_iff, negb_true_iff, String.eqb_neq. tauto.
  - apply NoDup_filter. exact (NoDup_map_inv _ _ N).
Qed.
Print Assumptions c306_search.
(** How far an interface reaches about its axis: a gear to the tips of its teeth, a thread to its major diameter. *)
Theorem c306_gear_reach : forall i m n pa w h b u q, kind_data i = Gear m n pa w h b ->
  (in_cylinder (center i) u (fst (bounding_cylinder i)) (snd (bounding_cylinder i)) q <->
   Rabs (dot (sub q (center i)) u) <= w / 2 /\ norm (sub (sub q (center i)) (scale (dot (sub q (center i)) u) u)) <= m * (n + 2) / 2).
Proof.
  intros i m n pa w h b u q E. unfold bounding_cylinder, in_cylinder. rewrite E. cbn [fst snd]. unfold outside_diameter, pitch_diameter.
  replace ((m * n + 2 * m) / 2) with (m * (n + 2) / 2) by field. tauto.
Qed.
Print Assumptions c306_gear_reach.
Theorem c306_thread_reach : forall i p d k l int u q, kind_data i = Thread p d k l int ->
  (in_cylinder (center i) u (fst (bounding_cylinder i)) (snd (bounding_cylinder i)) q <->
   Rabs (dot (sub q (center i)) u) <= l / 2 /\ norm (sub (sub q (center i)) (scale (dot (sub q (center i)) u) u)) <= d / 2).
Proof. intros i p d k l int u q E. unfold bounding_cylinder, in_cylinder. rewrite E. cbn [fst snd]. tauto. Qed.
Print Assumptions c306_thread_reach.
(** A screw in its hole, on one axis, turned in by any length: the overlap is excused, whatever else the two parts carry that does not meet. *)
Theorem c306_screw_in_hole : forall user H xs a b u, no_mutation xs -> In a (registered H xs) -> In b (registered H xs) ->
  dot u u = 1 -> axis (H a) = u -> axis (H b) = u ->
  (exists p d k l, kind_data (H a) = Thread p d k l false /\ exists k' l', kind_data (H b) = Thread p d k' l' true /\ 0 < p /\ 0 < d /\
    exists t, center (H b) = (let '(x, y, z) := center (H a) in let '(v, w, s) := u in (x + t * v, y + t * w, z + t * s)) /\ Rabs t < l / 2 + l' / 2) ->
  (forall a' b', meet H (registered H xs) (part_name (H a)) (part_name (H b)) a' b' -> a' = a /\ b' = b) ->
  exists results, check_overlap user H (part_name (H a)) (part_name (H b)) (after H xs) = ROk (true, results).
Proof.
  intros user H xs a b u M Ia Ib U Aa Ab (p & d & k & l & Ka & k' & l' & Kb & Pp & Pd & t & Ec & Ht) Only.
  destruct (c35_verdict user H xs (part_name (H a)) (part_name (H b)) M) as (v & rs & E & V).
  assert (C : compatible user (H a) (H b) = true).
  { apply (c306_threads_fit user (H a) (H b) p d k l false Ka). exists p, d, k', l'. split; [exact Kb|]. rewrite !Rminus_diag_eq, Rabs_R0 by reflexivity. lra. }
  assert (Ov : overlaps (1 / 10) (H a) (H b) = true).
  { unfold overlaps, bounding_cylinder. rewrite Ka, Kb, Aa, Ab.
    assert (N : norm u = 1) by (unfold norm; rewrite U; apply sqrt_1).
    assert (Un : unit_axis u = u).
    { unfold unit_axis. rewrite N. destruct (lt _ _); [|reflexivity]. destruct u as [[v1 v2] v3']. cbn [scale]. apply v3; field. }
    rewrite Un, U, Rabs_R1, (proj2 (lt_false 1 (99 / 100))) by lra.
    destruct (center (H a)) as [[x y] z]. destruct u as [[v1 v2] v3']. rewrite Ec. cbn [sub dot scale] in *.
    assert (D : (x + t * v1 - x) * v1 + (y + t * v2 - y) * v2 + (z + t * v3' - z) * v3' = t).
    { transitivity (t * (v1 * v1 + v2 * v2 + v3' * v3')); [ring|]. rewrite U. ring. }
    rewrite D, (proj2 (lt_true _ _)) by lra. cbn [andb]. apply lt_true. unfold norm. cbn [dot].
    match goal with |- sqrt ?e < _ => replace e with 0 by ring end. rewrite sqrt_0. lra. }
  assert (Mt : meet H (registered H xs) (part_name (H a)) (part_name (H b)) a b) by (unfold meet; auto).
  exists rs. rewrite E. f_equal. f_equal. apply V. split; [exists a, b; auto|]. intros a' b' X. destruct (Only a' b' X) as [-> ->]. exact C.
Qed.
Print Assumptions c306_screw_in_hole.
Definition H2 : heap := fun o =>
  match o with
  | 0%nat => Iface "bolt" "SCREW" (0, 0, 5) (0, 0, 1) (Thread 1 6 ISO_METRIC 10 false)
  | 1%nat => Iface "hole" "PLATE" (0, 0, 0) (0, 0, 1) (Thread 1 6 ISO_METRIC 8 true)
  | _ => Iface "g" "PLATE" (90, 0, 0) (0, 0, 1) (Gear 1 20 20 10 0 0)
  end.
Definition history2 : list op := [Register 0%nat; RegisterMany [1; 2]%nat].
Example c306_nonvacuous : no_mutation history2 /\ registered H2 history2 = [0; 1; 2]%nat /\
  (forall user, compatible user (H2 0%nat) (H2 1%nat) = true /\ compatible user (H2 0%nat) (H2 0%nat) = false /\ compatible user (H2 2%nat) (H2 1%nat) = false) /\
  center (H2 1%nat) = (let '(x, y, z) := center (H2 0%nat) in let '(v, w, s) := (0, 0, 1) in (x + -5 * v, y + -5 * w, z + -5 * s)) /\ Rabs (-5) < 10 / 2 + 8 / 2 /\
  (forall a' b', meet H2 (registered H2 history2) "SCREW" "PLATE" a' b' -> a' = 0%nat /\ b' = 1%nat).
Proof.
  split; [intros o p Hin; cbn in Hin; repeat destruct Hin as [Hin|Hin]; try discriminate Hin; exact Hin|]. split; [reflexivity|]. split.
  { intros user. split; [|split; reflexivity]. apply (c306_threads_fit user (H2 0%nat) (H2 1%nat) 1 6 ISO_METRIC 10 false eq_refl).
    exists 1, 6, ISO_METRIC, 8. split; [reflexivity|]. rewrite !Rminus_diag_eq, Rabs_R0 by reflexivity. lra. }
  split; [cbn; apply v3; ring|]. split; [rewrite Rabs_left; lra|].
  change (registered H2 history2) with [0; 1; 2]%nat. intros a' b' (Ha & Hb & Pa & Pb & Ov). cbn in Ha, Hb.
  destruct Ha as [<-|[<-|[<-|[]]]]; try discriminate Pa. destruct Hb as [<-|[<-|[<-|[]]]]; try discriminate Pb; auto. exfalso.
  revert Ov. unfold overlaps. cbn [bounding_cylinder kind_data H2 axis center].
  assert (N : norm (0, 0, 1) = 1) by (unfold norm; cbn [dot]; replace (0 * 0 + 0 * 0 + 1 * 1) with 1 by ring; apply sqrt_1).
  assert (Un : unit_axis (0, 0, 1) = (0, 0, 1)) by (unfold unit_axis; rewrite N; destruct (lt _ _); auto; cbn [scale]; apply v3; field).
  rewrite Un. cbn [dot sub scale]. replace (0 * 0 + 0 * 0 + 1 * 1) with 1 by ring. rewrite Rabs_R1, (proj2 (lt_false 1 (99 / 100))) by lra.
  intros Ov. apply andb_true_iff in Ov as [_ Ov]. apply lt_true in Ov. revert Ov. apply Rle_not_lt. unfold norm, outside_diameter, pitch_diameter. cbn [dot].
  apply Rle_trans with (sqrt (Rsqr 90)); [rewrite sqrt_Rsqr by lra; lra|]. apply sqrt_le_1_alt. unfold Rsqr. lra.
Qed.

(** C109, continued: failures are counted over all pairs, and expected overlaps are the collisions that fit. *)
Theorem c109_summary_failures : forall rs, let s := collision_summary rs in
  detection_failures s = length (filter failed rs) /\ collisions_detected s = length (filter collides rs) /\
  (forall a b, In (a, b) (interface_pairs s) <-> exists x, In x rs /\ (part_a x, part_b x) = (a, b) /\ collides x = true /\ compatible_interface x = true).
Proof.
  intros rs. cbn [collision_summary detection_failures collisions_detected interface_pairs]. split; [reflexivity|]. split; [reflexivity|]. intros a b. split.
  - intros Hin. apply in_map_iff in Hin as (x & E & Hx). apply filter_In in Hx as [Hx Er]. apply filter_In in Hx as [Hx C]. unfold is_interface_overlap in Er.
    apply andb_true_iff in Er as [_ K]. exists x. auto.
  - intros (x & Hx & E & C & K). apply in_map_iff. exists x. split; auto. apply filter_In. split; [apply filter_In; auto|]. unfold is_interface_overlap. rewrite C, K. reflexivity.
Qed.
Print Assumptions c109_summary_failures.
