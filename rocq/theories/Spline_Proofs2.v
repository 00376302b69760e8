(** Cox-de Boor basis functions: support, sign, partition of unity, ends. *)
From Coq Require Import Reals List Bool ZArith Lia Lra.
From Verif Require Import Xform_Model Spline_Model Spline_Spec.
Import ListNotations.
Open Scope R_scope.

(** The recursion over an arbitrary family of base values. *)
Fixpoint coxb (b : nat -> R) (k : nat -> R) (i p : nat) (u : R) : R :=
  match p with
  | O => b i
  | S q => frac (u - k i) (k (i + p)%nat - k i) * coxb b k i q u
         + frac (k (S (i + p)) - u) (k (S (i + p)) - k (S i)) * coxb b k (S i) q u
  end.

Definition half_open (k : nat -> R) (u : R) (i : nat) : R :=
  if Rle_dec (k i) u then if Rlt_dec u (k (S i)) then 1 else 0 else 0.

Lemma cox_coxb k p : forall i u, cox k i p u = coxb (half_open k u) k i p u.
Proof.
  induction p as [|q IH]; intros i u; [reflexivity|].
  cbn [cox coxb]. now rewrite !IH.
Qed.

Lemma coxb_ext b b' k p : forall i u,
  (forall j, (i <= j <= i + p)%nat -> b j = b' j) -> coxb b k i p u = coxb b' k i p u.
Proof.
  induction p as [|q IH]; intros i u H; cbn [coxb].
  - apply H; lia.
  - rewrite (IH i), (IH (S i)); [reflexivity| |]; intros; apply H; lia.
Qed.

Lemma frac_0 a b : b = 0 -> frac a b = 0.
Proof. intros ->. unfold frac. destruct (Req_EM_T 0 0); [reflexivity|congruence]. Qed.
Lemma frac_n a b : b <> 0 -> frac a b = a / b.
Proof. intros H. unfold frac. destruct (Req_EM_T b 0); [contradiction|reflexivity]. Qed.
Lemma frac_num0 b : frac 0 b = 0.
Proof. unfold frac. destruct (Req_EM_T b 0); [reflexivity|]. unfold Rdiv. ring. Qed.
Lemma frac_nonneg a b : 0 <= a -> 0 <= b -> 0 <= frac a b.
Proof.
  intros Ha Hb. unfold frac. destruct (Req_EM_T b 0); [lra|].
  apply Rmult_le_pos; [assumption|]. apply Rlt_le, Rinv_0_lt_compat. lra.
Qed.

Section Knots.
  Variables (k : nat -> R) (n p : nat).
  Hypothesis K : clamped k n p.
  Hypothesis NP : (p < n)%nat.

  Lemma knots_le i j : (i <= j)%nat -> (j <= n + p)%nat -> k i <= k j.
  Proof.
    destruct K as (M & _). intros H. induction H as [|j H IH]; intros Hj; [lra|].
    apply Rle_trans with (k j); [apply IH; lia|]. apply M. lia.
  Qed.

  Lemma knots_start i : (i <= p)%nat -> k i = k 0%nat.
  Proof. apply K. Qed.
  Lemma knots_end i : (n <= i)%nat -> (i <= n + p)%nat -> k i = k n.
  Proof. intros; apply K; lia. Qed.

  Lemma cox_below : forall q i u, (i + q < n + p)%nat -> u < k i -> cox k i q u = 0.
  Proof.
    induction q as [|q IH]; intros i u Hi Hu; cbn [cox].
    - destruct (Rle_dec (k i) u); [lra|reflexivity].
    - rewrite (IH i), (IH (S i)); [ring|lia| |lia|assumption].
      apply Rlt_le_trans with (k i); [assumption|]. apply knots_le; lia.
  Qed.

  Lemma cox_above : forall q i u, (i + q < n + p)%nat -> k (S (i + q)) <= u -> cox k i q u = 0.
  Proof.
    induction q as [|q IH]; intros i u Hi Hu; cbn [cox].
    - rewrite Nat.add_0_r in Hu.
      destruct (Rle_dec (k i) u); [|reflexivity]. destruct (Rlt_dec u (k (S i))); [lra|reflexivity].
    - rewrite (IH i), (IH (S i)); [ring|lia| |lia|].
      + replace (S (S i + q)) with (S (i + S q)) by lia. assumption.
      + apply Rle_trans with (k (S (i + S q))); [apply knots_le; lia|assumption].
  Qed.

  (** Local support, in one statement. *)
  Lemma cox_support q i u : (i + q < n + p)%nat -> cox k i q u <> 0 -> k i <= u < k (S (i + q)).
  Proof.
    intros Hi H. split.
    - destruct (Rle_lt_dec (k i) u) as [L|L]; [assumption|]. contradict H. now apply cox_below.
    - destruct (Rlt_le_dec u (k (S (i + q)))) as [L|L]; [assumption|]. contradict H. now apply cox_above.
  Qed.

  Lemma cox_nonneg : forall q i u, (i + q < n + p)%nat -> 0 <= cox k i q u.
  Proof.
    induction q as [|q IH]; intros i u Hi; cbn [cox].
    - destruct (Rle_dec (k i) u); [|lra]. destruct (Rlt_dec u (k (S i))); lra.
    - assert (P1 : 0 <= frac (u - k i) (k (i + S q)%nat - k i) * cox k i q u).
      { destruct (Req_EM_T (cox k i q u) 0) as [->|N]; [lra|].
        apply cox_support in N; [|lia]. apply Rmult_le_pos; [|apply IH; lia].
        apply frac_nonneg; [lra|]. assert (k i <= k (i + S q)%nat) by (apply knots_le; lia). lra. }
      assert (P2 : 0 <= frac (k (S (i + S q)) - u) (k (S (i + S q)) - k (S i)) * cox k (S i) q u).
      { destruct (Req_EM_T (cox k (S i) q u) 0) as [->|N]; [lra|].
        apply cox_support in N; [|lia]. apply Rmult_le_pos; [|apply IH; lia].
        replace (S (i + S q)) with (S (S i + q)) by lia.
        apply frac_nonneg; [lra|].
        assert (k (S i) <= k (S (S i + q))) by (apply knots_le; lia). lra. }
      lra.
  Qed.

  (** One span contains u. *)
  Lemma half_open_total u : forall m, (m <= n + p)%nat -> k 0%nat <= u ->
    total (half_open k u) m = if Rlt_dec u (k m) then 1 else 0.
  Proof.
    induction m as [|m IH]; intros Hm Hu; cbn [total].
    - destruct (Rlt_dec u (k 0%nat)); lra.
    - rewrite IH by (lia || assumption). unfold half_open.
      assert (k m <= k (S m)) by (apply knots_le; lia).
      destruct (Rlt_dec u (k m)); destruct (Rle_dec (k m) u); destruct (Rlt_dec u (k (S m))); lra.
  Qed.

  Lemma total_ext w w' m : (forall i, (i < m)%nat -> w i = w' i) -> total w m = total w' m.
  Proof.
    induction m as [|m IH]; intros H; cbn [total]; [reflexivity|].
    rewrite IH, (H m); auto with arith.
  Qed.

  Lemma cox_total q u : (q <= p)%nat -> k 0%nat <= u -> u < k n ->
    total (fun i => cox k i q u) (n + p - q) = 1.
  Proof.
    induction q as [|q IH]; intros Hq Hu1 Hu2.
    - rewrite Nat.sub_0_r.
      change (total (half_open k u) (n + p) = 1).
      rewrite half_open_total by (lia || assumption).
      rewrite (knots_end (n + p)) by lia. destruct (Rlt_dec u (k n)); [reflexivity|lra].
    - set (c := fun i => cox k i q u) in *.
      set (L := fun i => frac (u - k i) (k (i + S q)%nat - k i)).
      assert (G : forall M, (M <= n + p - S q)%nat ->
        total (fun i => cox k i (S q) u) M = total c (S M) - (1 - L 0%nat) * c 0%nat - L M * c M).
      { induction M as [|M IHM]; intros HM.
        - cbn [total]. ring.
        - transitivity (total (fun i => cox k i (S q) u) M + cox k M (S q) u); [reflexivity|].
          rewrite IHM by lia.
          assert (E : frac (k (S (M + S q)) - u) (k (S (M + S q)) - k (S M)) * c (S M)
                      = c (S M) - L (S M) * c (S M)).
          { unfold L. replace (S M + S q)%nat with (S (M + S q)) by lia.
            destruct (Req_EM_T (c (S M)) 0) as [->|Nz]; [ring|].
            apply cox_support in Nz; [|lia].
            replace (S (S M + q)) with (S (M + S q)) in Nz by lia.
            rewrite !frac_n by lra. field. lra. }
          change (cox k M (S q) u) with (L M * c M + frac (k (S (M + S q)) - u) (k (S (M + S q)) - k (S M)) * c (S M)).
          rewrite E. cbn [total]. ring. }
      rewrite G by lia.
      replace (S (n + p - S q)) with (n + p - q)%nat by lia.
      rewrite IH by (lia || assumption).
      assert (c 0%nat = 0) as ->.
      { apply cox_above; [lia|]. cbn [Nat.add]. rewrite knots_start by lia. assumption. }
      assert (c (n + p - S q)%nat = 0) as ->.
      { apply cox_below; [lia|]. rewrite knots_end by lia. assumption. }
      ring.
  Qed.

  (** At the first knot only the first basis function is non-zero. *)
  Lemma cox_first : forall q i, (q <= p)%nat -> (i + q < n + p)%nat ->
    cox k i q (k 0%nat) = if Nat.eqb (i + q) p then 1 else 0.
  Proof.
    assert (S1 : k 0%nat < k (S p)).
    { destruct K as (_ & E & _ & L & _). rewrite <- (E p) by lia. assumption. }
    assert (LATE : forall i, (p < i)%nat -> (i <= n + p)%nat -> k 0%nat < k i).
    { intros i H1 H2. apply Rlt_le_trans with (k (S p)); [assumption|]. apply knots_le; lia. }
    induction q as [|q IH]; intros i Hq Hi; cbn [cox].
    - rewrite Nat.add_0_r. destruct (Nat.eqb_spec i p) as [E|E].
      + subst i. rewrite (knots_start p) by lia.
        destruct (Rle_dec (k 0%nat) (k 0%nat)); [|lra]. destruct (Rlt_dec (k 0%nat) (k (S p))); [reflexivity|lra].
      + destruct (le_lt_dec i p) as [L|L].
        * rewrite (knots_start (S i)) by lia.
          destruct (Rle_dec (k i) (k 0%nat)); [|reflexivity]. destruct (Rlt_dec (k 0%nat) (k 0%nat)); [lra|reflexivity].
        * specialize (LATE i L ltac:(lia)). destruct (Rle_dec (k i) (k 0%nat)); [lra|reflexivity].
    - assert (E1 : frac (k 0%nat - k i) (k (i + S q)%nat - k i) * cox k i q (k 0%nat) = 0).
      { destruct (le_lt_dec i p) as [L|L].
        - rewrite (knots_start i) by lia. rewrite Rminus_diag_eq by reflexivity. rewrite frac_num0. ring.
        - rewrite cox_below; [ring|lia|]. apply LATE; lia. }
      rewrite E1, IH by lia. rewrite Rplus_0_l.
      replace (i + S q)%nat with (S (i + q)) by lia. cbn [Nat.add].
      destruct (Nat.eqb_spec (S (i + q)) p) as [E|E]; [|ring].
      rewrite (knots_start (S i)) by lia.
      rewrite frac_n.
      + rewrite E. field. lra.
      + rewrite E. lra.
  Qed.

  (** At the last knot, for any base values that pick out the last non-empty span. *)
  Lemma coxb_last b : (forall i, (i < n)%nat -> b i = if Nat.eqb i (n - 1) then 1 else 0) ->
    forall q i, (q <= p)%nat -> (i < n)%nat -> coxb b k i q (k n) = if Nat.eqb i (n - 1) then 1 else 0.
  Proof.
    intros B. assert (LT : k (n - 1)%nat < k n) by apply K.
    induction q as [|q IH]; intros i Hq Hi; cbn [coxb]; [now apply B|].
    rewrite IH by lia.
    destruct (Nat.eqb_spec i (n - 1)) as [E|E].
    - subst i. rewrite (knots_end (n - 1 + S q)), (knots_end (S (n - 1 + S q))) by lia.
      rewrite (Rminus_diag_eq (k n) (k n)) by reflexivity. rewrite frac_num0.
      rewrite frac_n by lra. field. lra.
    - rewrite (IH (S i)) by lia. destruct (Nat.eqb_spec (S i) (n - 1)) as [E'|E'].
      + rewrite (knots_end (S (i + S q))) by lia.
        rewrite (Rminus_diag_eq (k n) (k n)) by reflexivity. rewrite frac_num0. ring.
      + ring.
  Qed.
End Knots.

(** * Combinations *)
Lemma weighted_ext f w w' pts : forall i,
  (forall j, (i <= j < i + length pts)%nat -> w j = w' j) -> weighted f w i pts = weighted f w' i pts.
Proof.
  induction pts as [|p r IH]; intros i H; cbn [weighted]; [reflexivity|].
  rewrite (H i), (IH (S i)); [reflexivity| |]; intros; try apply H; cbn [length] in *; lia.
Qed.

Lemma total_app w m : total w (S m) = w 0%nat + total (fun i => w (S i)) m.
Proof. induction m as [|m IH]; cbn [total] in *; [ring|]. rewrite IH. ring. Qed.

Lemma weighted_one w pts : forall i, weighted (fun _ => 1) w i pts = total (fun j => w (i + j)%nat) (length pts).
Proof.
  induction pts as [|p r IH]; intros i; [reflexivity|].
  cbn [weighted length]. rewrite total_app, IH, Nat.add_0_r, Rmult_1_r. f_equal.
  apply total_ext. intros j _. f_equal. lia.
Qed.

Lemma combination_le f w pts d : forall i,
  (forall j, (i <= j < i + length pts)%nat -> 0 <= w j) -> (forall p, In p pts -> f p <= d) ->
  weighted f w i pts <= d * weighted (fun _ => 1) w i pts.
Proof.
  induction pts as [|p r IH]; intros i H F; cbn [weighted]; [lra|].
  specialize (IH (S i)).
  assert (0 <= w i) by (apply H; cbn; lia).
  assert (f p <= d) by (apply F; now left).
  assert (weighted f w (S i) r <= d * weighted (fun _ => 1) w (S i) r).
  { apply IH; [intros; apply H; cbn [length] in *; lia|intros; apply F; now right]. }
  nra.
Qed.

Lemma weighted_lin a b c w pts : forall i,
  weighted (fun p => a * vx p + b * vy p + c * vz p) w i pts
  = a * weighted vx w i pts + b * weighted vy w i pts + c * weighted vz w i pts.
Proof. induction pts as [|p r IH]; intros i; cbn [weighted]; [ring|]. rewrite IH. ring. Qed.

Lemma combination_hull q w pts :
  is_combination q w pts -> (forall i, (i < length pts)%nat -> 0 <= w i) ->
  total w (length pts) = 1 -> in_hull pts q.
Proof.
  intros (X & Y & Z) P T a b c d H.
  rewrite X, Y, Z, <- weighted_lin.
  rewrite <- (Rmult_1_r d), <- T.
  replace (total w (length pts)) with (weighted (fun _ => 1) w 0 pts)
    by (rewrite weighted_one; apply total_ext; reflexivity).
  apply combination_le; [|assumption]. intros j Hj. apply P. lia.
Qed.

Lemma weighted_zero f w pts : forall i,
  (forall j, (i <= j < i + length pts)%nat -> w j = 0) -> weighted f w i pts = 0.
Proof.
  induction pts as [|p r IH]; intros i H; cbn [weighted]; [reflexivity|].
  rewrite (H i), (IH (S i)); [ring| |]; intros; try apply H; cbn [length] in *; lia.
Qed.

Lemma weighted_app f w l : forall i r,
  weighted f w i (l ++ r) = weighted f w i l + weighted f w (i + length l) r.
Proof.
  induction l as [|p l IH]; intros i r; cbn [weighted app length]; [rewrite Nat.add_0_r; ring|].
  rewrite IH. replace (i + S (length l))%nat with (S i + length l)%nat by lia. ring.
Qed.
