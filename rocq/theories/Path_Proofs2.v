From Coq Require Import Reals List Bool ZArith Lra Lia.
From Verif Require Import Xform_Model Xform_Proofs Path_Model Path_Spec Path_Proofs.
Import ListNotations.
Open Scope R_scope.

Lemma trunc_spec x : 0 <= x -> INR (trunc x) <= x < INR (trunc x) + 1.
Proof.
  intros H. destruct (base_Int_part x) as [B1 B2]. unfold trunc.
  assert (0 <= Int_part x)%Z.
  { apply Z.le_ngt. intros L. assert (Int_part x <= -1)%Z by lia. apply IZR_le in H0. simpl in H0. lra. }
  rewrite INR_IZR_INZ, Z2Nat.id by assumption. lra.
Qed.
Lemma trunc_unique x i : INR i <= x < INR i + 1 -> trunc x = i.
Proof.
  intros H. pose proof (pos_INR i). destruct (trunc_spec x) as [A B]; [lra|].
  destruct (Nat.lt_trichotomy (trunc x) i) as [L|[E|L]]; [|exact E|].
  - apply le_INR in L. rewrite S_INR in L. lra.
  - apply le_INR in L. rewrite S_INR in L. lra.
Qed.
Lemma clamp_id t : 0 <= t <= 1 -> clamp t = t.
Proof. intros H. unfold clamp. rewrite Rmin_right, Rmax_right by lra || (rewrite Rmin_right; lra). reflexivity. Qed.
Lemma clamp_range t : 0 <= clamp t <= 1.
Proof. unfold clamp. pose proof (Rmin_l 1 t). split; [apply Rmax_l|apply Rmax_lub; lra]. Qed.

Lemma rleb_true a b : Rleb a b = true <-> a <= b. Proof. unfold Rleb. destruct (Rle_dec a b); split; congruence || lra || auto. Qed.
Lemma rleb_false a b : Rleb a b = false <-> b < a. Proof. unfold Rleb. destruct (Rle_dec a b); split; congruence || lra || auto. Qed.

Lemma ne_match {A B} (p : list A) (x y : B) : p <> [] -> match p with [] => x | _ :: _ => y end = y.
Proof. destruct p; [contradiction|reflexivity]. Qed.
Lemma evaluate_in p i u : (i < length p)%nat -> 0 <= u < 1 ->
  evaluate p ((INR i + u) / INR (length p)) = eval_seg (nth i p Other) u.
Proof.
  intros L U. assert (N : 0 < INR (length p)) by (apply lt_0_INR; lia).
  assert (LE : INR i + 1 <= INR (length p)) by (rewrite <- S_INR; apply le_INR; lia).
  pose proof (pos_INR i).
  assert (T : 0 <= (INR i + u) / INR (length p) < 1).
  { split; [apply Rmult_le_pos; [lra|left; apply Rinv_0_lt_compat, N]|]. apply (Rmult_lt_reg_r (INR (length p))); [exact N|]. unfold Rdiv. rewrite Rmult_assoc, Rinv_l by lra. lra. }
  assert (S : (INR i + u) / INR (length p) * INR (length p) = INR i + u) by (field; lra).
  unfold evaluate. destruct p as [|g r]; [cbn in L; lia|]. set (p := g :: r) in *. rewrite clamp_id by lra.
  unfold locate. replace (Rleb 1 ((INR i + u) / INR (length p))) with false by (symmetry; apply rleb_false; lra).
  rewrite S. rewrite (trunc_unique _ i) by lra. f_equal. lra.
Qed.
Lemma evaluate_end p : p <> [] -> evaluate p 1 = eval_seg (nth (length p - 1) p Other) 1.
Proof.
  intros H. unfold evaluate. destruct p as [|g r]; [contradiction|]. rewrite clamp_id by lra. unfold locate.
  replace (Rleb 1 1) with true by (symmetry; apply rleb_true; lra). reflexivity.
Qed.
Lemma eval_pt g u : good g -> exists d, eval_seg g u = Ok (pt g u, d).
Proof.
  destruct g as [s e|c s e n|]; intros G; [| |destruct G]; unfold pt; cbn [eval_seg].
  - unfold eval_line. eauto.
  - destruct (eval_arc c s e n u) as [q d]. eauto.
Qed.

Fixpoint wsum (w : nat -> R) k m : R := match m with O => 0 | S m => w k + wsum w (S k) m end.
Lemma wsum_ext w v k m : (forall i, (k <= i < k + m)%nat -> w i = v i) -> wsum w k m = wsum v k m.
Proof. revert k. induction m as [|m IH]; intros k H; cbn; [reflexivity|]. rewrite H by lia. rewrite (IH (S k)); [reflexivity|]. intros i Hi. apply H. lia. Qed.
Lemma wsum_add w v k m : wsum (fun i => w i + v i) k m = wsum w k m + wsum v k m.
Proof. revert k. induction m as [|m IH]; intros k; cbn; [ring|]. rewrite IH. ring. Qed.
Section path.
Variable p : list seg.
Hypothesis Hg : Forall good p.
Let n := length p.
Definition sg (i : nat) : seg := nth i p Other.
Lemma sg_good i : (i < n)%nat -> good (sg i).
Proof. intros H. unfold sg. rewrite Forall_forall in Hg. apply Hg, nth_In, H. Qed.

Lemma joined_nth q i : joined q -> (S i < length q)%nat -> seg_end (nth i q Other) = seg_start (nth (S i) q Other).
Proof.
  revert i. induction q as [|g r IH]; intros i J L; [cbn in L; lia|].
  destruct r as [|h r]; [cbn in L; lia|]. destruct J as [J1 J2]. destruct i as [|i]; [exact J1|].
  cbn [nth]. apply (IH i J2). cbn [length] in *. lia.
Qed.
Hypothesis Hj : joined p.
Lemma sg_next i : (S i < n)%nat -> pt (sg i) 1 = pt (sg (S i)) 0.
Proof. intros H. rewrite pt_1, pt_0 by (apply sg_good; lia). apply joined_nth; assumption. Qed.

(** the path as a map from [0, n] *)
Definition pos (z : R) : vec := let i := Nat.min (trunc z) (n - 1) in pt (sg i) (z - INR i).
Lemma pos_at i u : (i < n)%nat -> 0 <= u <= 1 -> pos (INR i + u) = pt (sg i) u.
Proof.
  intros L U. unfold pos. pose proof (pos_INR i).
  destruct (Rlt_dec u 1) as [U1|U1].
  - rewrite (trunc_unique _ i) by lra. replace (Nat.min i (n - 1)) with i by lia. f_equal. lra.
  - assert (u = 1) by lra. subst u. rewrite (trunc_unique _ (S i)) by (rewrite S_INR; lra).
    destruct (Nat.eq_dec (S i) n) as [E|E].
    + replace (Nat.min (S i) (n - 1)) with i by lia. f_equal. lra.
    + replace (Nat.min (S i) (n - 1)) with (S i) by lia. rewrite S_INR. replace (INR i + 1 - (INR i + 1)) with 0 by ring. symmetry. apply sg_next. lia.
Qed.
Lemma split_pos z : 0 <= z <= INR n -> (0 < n)%nat -> exists i u, (i < n)%nat /\ 0 <= u <= 1 /\ z = INR i + u /\ (z < INR n -> u < 1).
Proof.
  intros H N. destruct (Rlt_dec z (INR n)) as [L|L].
  - destruct (trunc_spec z) as [A B]; [lra|]. exists (trunc z), (z - INR (trunc z)). repeat split; try lra. apply INR_lt. lra.
  - exists (n - 1)%nat, 1. repeat split; try lia; try lra. assert (z = INR n) by lra. rewrite minus_INR by lia. cbn. lra.
Qed.
Lemma evaluate_pos t : p <> [] -> 0 <= t <= 1 -> exists d, evaluate p t = Ok (pos (t * INR n), d).
Proof.
  intros P T. assert (N : (0 < n)%nat) by (unfold n; destruct p; [contradiction|cbn; lia]).
  assert (NP : 0 < INR n) by (apply lt_0_INR; exact N).
  destruct (Rlt_dec t 1) as [L|L].
  - destruct (split_pos (t * INR n)) as (i & u & A & B & C & D); [split; nra|exact N|].
    assert (U1 : u < 1) by (apply D; nra).
    assert (E : t = (INR i + u) / INR (length p)) by (rewrite <- C; fold n; field; lra).
    rewrite C, pos_at by assumption. rewrite E, evaluate_in by (assumption || lra). apply eval_pt, sg_good, A.
  - assert (t = 1) by lra. subst t. rewrite evaluate_end by exact P. fold n.
    replace (1 * INR n) with (INR (n - 1) + 1) by (rewrite minus_INR by lia; cbn; lra).
    rewrite pos_at by (lia || lra). apply eval_pt, sg_good. lia.
Qed.
Lemma passes_iff a b q : p <> [] -> 0 <= a -> b <= 1 ->
  (passes p a b q <-> exists z, a * INR n <= z <= b * INR n /\ q = pos z).
Proof.
  intros P A B. assert (NP : 0 < INR n) by (apply lt_0_INR; unfold n; destruct p; [contradiction|cbn; lia]). split.
  - intros (t & T & d & E). destruct (evaluate_pos t P) as [d' E']; [lra|]. rewrite E' in E. injection E as <- <-.
    exists (t * INR n). split; [split; apply Rmult_le_compat_r; lra|reflexivity].
  - intros (z & Z & ->). exists (z / INR n). assert (EZ : z / INR n * INR n = z) by (field; lra).
    assert (a <= z / INR n <= b).
    { split; [apply (Rmult_le_reg_r (INR n))|apply (Rmult_le_reg_r (INR n))]; rewrite ?EZ; lra. }
    split; [assumption|]. destruct (evaluate_pos (z / INR n) P) as [d' E']; [lra|]. rewrite EZ in E'. eauto.
Qed.

(** ** cutting *)
Definition lo x i := Rmax x (INR i) - INR i.
Definition hi y i := Rmin y (INR i + 1) - INR i.
Definition slice x y i : list seg := if Rleb (hi y i) (lo x i) then [] else cut_seg (sg i) (lo x i) (hi y i).
Definition slices x y k m := flat_map (slice x y) (seq k m).

Lemma flat_map_ext_in {A B} (f g : A -> list B) l : (forall a, In a l -> f a = g a) -> flat_map f l = flat_map g l.
Proof. induction l; intros H; cbn; [reflexivity|]. rewrite H, IHl by (intros; try apply H; cbn; auto). reflexivity. Qed.
Lemma flat_map_nil {A B} (f : A -> list B) l : (forall a, In a l -> f a = []) -> flat_map f l = [].
Proof. induction l; intros H; cbn; [reflexivity|]. rewrite H, IHl by (intros; try apply H; cbn; auto). reflexivity. Qed.
Lemma slice_none x y i : Rmin y (INR i + 1) <= Rmax x (INR i) -> slice x y i = [].
Proof. intros H. unfold slice, lo, hi. replace (Rleb _ _) with true; [reflexivity|]. symmetry. apply rleb_true. lra. Qed.

Lemma extract_slices a b : p <> [] -> 0 <= a -> a < b -> b <= 1 -> extract p a b = Ok (slices (a * INR n) (b * INR n) 0 n).
Proof using.
  clear Hj Hg.
  intros P A AB B. assert (N : (0 < n)%nat) by (unfold n; destruct p; [contradiction|cbn; lia]).
  assert (NP : 0 < INR n) by (apply lt_0_INR; exact N).
  unfold extract. replace (Rleb b a) with false by (symmetry; apply rleb_false; lra). rewrite !clamp_id by lra.
  rewrite (ne_match p) by exact P. fold n.
  set (x := a * INR n). set (y := b * INR n).
  assert (X : 0 <= x < y /\ y <= INR n) by (unfold x, y; repeat split; nra). destruct X as [[X0 XY] YN].
  destruct (trunc_spec x X0) as [T1 T2]. destruct (trunc_spec y) as [T3 T4]; [lra|].
  set (i0 := trunc x) in *. set (j1 := trunc y) in *.
  assert (I0 : (i0 < n)%nat) by (apply INR_lt; lra).
  assert (J1 : (j1 <= n)%nat) by (apply INR_le; lra).
  assert (I0J : (i0 <= j1)%nat) by (assert (INR i0 < INR (S j1)) by (rewrite S_INR; lra); apply INR_lt in H; lia).
  set (i1 := Nat.min j1 (n - 1)). assert (I01 : (i0 <= i1)%nat) by lia. assert (I1 : (i1 < n)%nat) by lia.
  replace (Nat.ltb i1 n) with true by (symmetry; apply Nat.ltb_lt; exact I1). f_equal.
  unfold slices.
  assert (SQ : seq 0 n = seq 0 i0 ++ seq i0 (S i1 - i0) ++ seq (i0 + (S i1 - i0)) (n - S i1)).
  { rewrite <- (seq_app (S i1 - i0) (n - S i1) i0). change i0 with (0 + i0)%nat at 2. rewrite <- seq_app. f_equal. lia. }
  rewrite SQ, !flat_map_app.
  rewrite (flat_map_nil (slice x y) (seq 0 i0)); [rewrite app_nil_l|].
  2:{ intros i Hi. apply in_seq in Hi. apply slice_none. assert (INR i + 1 <= INR i0) by (rewrite <- S_INR; apply le_INR; lia). pose proof (Rmin_r y (INR i + 1)). pose proof (Rmax_l x (INR i)). lra. }
  rewrite (flat_map_nil (slice x y) (seq (i0 + (S i1 - i0)) _)); [rewrite app_nil_r|].
  2:{ intros i Hi. apply in_seq in Hi. apply slice_none. assert (y <= INR i).
      { destruct (Nat.eq_dec j1 n) as [Ne|Ne]; [lia|]. assert (INR j1 + 1 <= INR i) by (rewrite <- S_INR; apply le_INR; lia). lra. }
      pose proof (Rmin_l y (INR i + 1)). pose proof (Rmax_r x (INR i)). lra. }
  apply flat_map_ext_in. intros i Hi. apply in_seq in Hi. unfold slice. fold (sg i).
  assert (EL : (if Nat.eqb i i0 then x - INR i0 else 0) = lo x i).
  { unfold lo. destruct (Nat.eqb_spec i i0) as [->|Ne]; [rewrite Rmax_left by lra; reflexivity|].
    assert (INR i0 + 1 <= INR i) by (rewrite <- S_INR; apply le_INR; lia). rewrite Rmax_right by lra. ring. }
  assert (EH : (if Nat.eqb i i1 then y - INR i1 else 1) = hi y i).
  { unfold hi. destruct (Nat.eqb_spec i i1) as [->|Ne].
    - unfold i1. destruct (Nat.eq_dec j1 n) as [E|E].
      + rewrite E in *. replace (Nat.min n (n - 1)) with (n - 1)%nat by lia. rewrite minus_INR by lia. cbn [INR]. assert (y = INR n) by lra. rewrite Rmin_left by lra. reflexivity.
      + replace (Nat.min j1 (n - 1)) with j1 by lia. rewrite Rmin_left by lra. reflexivity.
    - assert (INR i + 1 <= INR i1) by (rewrite <- S_INR; apply le_INR; lia). assert (INR i1 <= INR j1) by (apply le_INR; lia). rewrite Rmin_right by lra. ring. }
  rewrite EL, EH. reflexivity.
Qed.

Lemma lohi x y i : 0 <= lo x i /\ hi y i <= 1.
Proof. unfold lo, hi. pose proof (Rmax_r x (INR i)). pose proof (Rmin_r y (INR i + 1)). lra. Qed.
Lemma slice_cases x y i : (i < n)%nat ->
  (hi y i <= lo x i /\ slice x y i = []) \/
  (lo x i < hi y i /\ exists g, slice x y i = [g] /\ good g /\ (forall u, pt g u = pt (sg i) (lo x i + u * (hi y i - lo x i))) /\
     seg_length g = (hi y i - lo x i) * seg_length (sg i)).
Proof.
  intros L. destruct (lohi x y i) as [A B]. unfold slice. destruct (Rleb (hi y i) (lo x i)) eqn:E; [apply rleb_true in E|apply rleb_false in E].
  - left. auto.
  - right. split; [exact E|]. apply cut_ok; auto. apply sg_good, L.
Qed.
Lemma slices_good x y k m : (k + m <= n)%nat -> Forall good (slices x y k m).
Proof.
  intros L. apply Forall_forall. intros g Hin. unfold slices in Hin. apply in_flat_map in Hin. destruct Hin as (i & Hi & Hin). apply in_seq in Hi.
  destruct (slice_cases x y i) as [[_ E]|(_ & g' & E & G & _)]; [lia|rewrite E in Hin; destruct Hin|]. rewrite E in Hin. destruct Hin as [<-|[]]. exact G.
Qed.
(** lengths *)
Definition total (q : list seg) : R := fold_right (fun g t => seg_length g + t) 0 q.
Lemma fold_len q a : fold_left (fun t g => t + seg_length g) q a = a + total q.
Proof. revert a. induction q as [|g r IH]; intros a; cbn [fold_left]; [unfold total; cbn; ring|]. rewrite IH. change (total (g :: r)) with (seg_length g + total r). ring. Qed.
Lemma path_length_total q : path_length q = total q. Proof. unfold path_length. rewrite fold_len. ring. Qed.
Lemma total_app q r : total (q ++ r) = total q + total r.
Proof. induction q as [|g q IH]; [unfold total; cbn; ring|]. change (total ((g :: q) ++ r)) with (seg_length g + total (q ++ r)). change (total (g :: q)) with (seg_length g + total q). rewrite IH. ring. Qed.
Definition overlap x y i : R := Rmax 0 (hi y i - lo x i).
Lemma total_slice x y i : (i < n)%nat -> total (slice x y i) = overlap x y i * seg_length (sg i).
Proof.
  intros L. unfold overlap. destruct (slice_cases x y i L) as [[H E]|(H & g & E & _ & _ & G)]; rewrite E; cbn [total fold_right].
  - rewrite Rmax_left by lra. ring.
  - rewrite Rmax_right by lra. rewrite G. ring.
Qed.
Lemma total_slices x y k m : (k + m <= n)%nat -> total (slices x y k m) = wsum (fun i => overlap x y i * seg_length (sg i)) k m.
Proof.
  revert k. induction m as [|m IH]; intros k L; [reflexivity|]. change (slices x y k (S m)) with (slice x y k ++ slices x y (S k) m). rewrite total_app, IH by lia. rewrite total_slice by lia. reflexivity.
Qed.
Lemma overlap_add x y z i : x <= y <= z -> overlap x y i + overlap y z i = overlap x z i.
Proof.
  intros H. unfold overlap, lo, hi, Rmax, Rmin. pose proof (pos_INR i).
  destruct (Rle_dec y (INR i + 1)), (Rle_dec x (INR i)), (Rle_dec z (INR i + 1)), (Rle_dec y (INR i));
  repeat match goal with |- context [Rle_dec ?a ?b] => destruct (Rle_dec a b) end; lra.
Qed.
Lemma overlap_full i : (i < n)%nat -> overlap 0 (INR n) i = 1.
Proof.
  intros H. assert (INR i + 1 <= INR n) by (rewrite <- S_INR; apply le_INR; lia). pose proof (pos_INR i).
  unfold overlap, lo, hi. rewrite (Rmax_right 0 (INR i)), (Rmin_right (INR n)) by lra. rewrite Rmax_right by lra. ring.
Qed.
End path.

Lemma wsum_total p k q : (forall i, nth i q Other = nth (k + i) p Other) -> wsum (fun i => seg_length (sg p i)) k (length q) = total q.
Proof.
  revert k. induction q as [|g r IH]; intros k H; [reflexivity|]. change (total (g :: r)) with (seg_length g + total r). cbn [length wsum]. f_equal.
  - unfold sg. specialize (H 0%nat). cbn in H. rewrite Nat.add_0_r in H. congruence.
  - apply IH. intros i. specialize (H (S i)). cbn in H. rewrite H. f_equal. lia.
Qed.
Lemma length_of_cut p a b : Forall good p -> p <> [] -> 0 <= a -> a < b -> b <= 1 ->
  exists q, extract p a b = Ok q /\ path_length q = wsum (fun i => overlap (a * INR (length p)) (b * INR (length p)) i * seg_length (sg p i)) 0 (length p).
Proof.
  intros G P A AB B. eexists. split; [apply extract_slices; assumption|]. rewrite path_length_total. apply total_slices; auto.
Qed.
Lemma length_whole p : Forall good p -> p <> [] -> exists q, extract p 0 1 = Ok q /\ path_length q = path_length p.
Proof.
  intros G P. destruct (length_of_cut p 0 1 G P) as (q & E & L); try lra. exists q. split; [exact E|]. rewrite L, Rmult_0_l, Rmult_1_l, path_length_total.
  rewrite (wsum_ext _ (fun i => seg_length (sg p i))); [apply wsum_total; intros; reflexivity|].
  intros i Hi. rewrite overlap_full by (assumption || lia). ring.
Qed.
Lemma length_adds p a b c : Forall good p -> p <> [] -> 0 <= a -> a < b -> b < c -> c <= 1 ->
  exists q1 q2 q, extract p a b = Ok q1 /\ extract p b c = Ok q2 /\ extract p a c = Ok q /\ path_length q1 + path_length q2 = path_length q.
Proof.
  intros G P A AB BC C.
  destruct (length_of_cut p a b G P) as (q1 & E1 & L1); try lra. destruct (length_of_cut p b c G P) as (q2 & E2 & L2); try lra.
  destruct (length_of_cut p a c G P) as (q & E & L); try lra. exists q1, q2, q. repeat split; try assumption.
  rewrite L1, L2, L, <- wsum_add. apply wsum_ext. intros i _.
  rewrite <- (overlap_add (a * INR (length p)) (b * INR (length p)) (c * INR (length p)) i); [ring|].
  assert (0 < INR (length p)) by (apply lt_0_INR; destruct p; [contradiction|cbn; lia]). split; nra.
Qed.
