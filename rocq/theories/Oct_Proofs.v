From Coq Require Import Reals List Bool Arith Permutation Lra Lia.
From Verif Require Import Xform_Model Xform_Proofs Oct_Model Oct_Spec.
Import ListNotations.
Open Scope R_scope.
Open Scope list_scope.

(** ** Boxes *)
Lemma intHV_iff h0 h1 y x w0 w1 : intHV h0 h1 y x w0 w1 = true <-> ((h0 <= x <= h1 \/ h1 <= x <= h0) /\ (w0 <= y <= w1 \/ w1 <= y <= w0)).
Proof.
  unfold intHV. destruct (Rltb h1 h0) eqn:A; [apply Rltb_true in A|apply Rltb_false in A]; cbn [fst snd];
  (destruct (Rltb w1 w0) eqn:B; [apply Rltb_true in B|apply Rltb_false in B]);
  repeat match goal with |- context [Rltb ?a ?b] => let H := fresh "H" in destruct (Rltb a b) eqn:H; [apply Rltb_true in H|apply Rltb_false in H]; cbn [orb] end; cbn [fst snd]; split; intros X; try discriminate X; try lra; try reflexivity.
Qed.
Definition meet2 (a0 a1 b0 b1 : R) : Prop := a0 <= b1 /\ b0 <= a1.
Definition int2 (a0 a1 c0 c1 b0 b1 d0 d1 : R) : bool :=
  if (Rgeb a0 b0 && Rleb a1 b1 && Rgeb c0 d0 && Rleb c1 d1) || (Rgeb b0 a0 && Rleb b1 a1 && Rgeb d0 c0 && Rleb d1 c1) then true else
  intHV a0 a1 c0 b1 d0 d1 || intHV a0 a1 c0 b0 d1 d0 || intHV a1 a0 c1 b1 d0 d1 || intHV a1 a0 c1 b0 d1 d0 ||
  intHV b0 b1 d0 a1 c0 c1 || intHV b0 b1 d0 a0 c1 c0 || intHV b1 b0 d1 a1 c0 c1 || intHV b1 b0 d1 a0 c1 c0.
Lemma int2D_int2 b1 b2 p : int2D b1 b2 p = int2 (fst_axis p (lo b1)) (fst_axis p (hi b1)) (snd_axis p (lo b1)) (snd_axis p (hi b1)) (fst_axis p (lo b2)) (fst_axis p (hi b2)) (snd_axis p (lo b2)) (snd_axis p (hi b2)).
Proof.
  unfold int2D, int2. set (a0 := fst_axis p (lo b1)). set (a1 := fst_axis p (hi b1)). set (c0 := snd_axis p (lo b1)). set (c1 := snd_axis p (hi b1)).
  set (e0 := fst_axis p (lo b2)). set (e1 := fst_axis p (hi b2)). set (d0 := snd_axis p (lo b2)). set (d1 := snd_axis p (hi b2)). cbn [fst snd].
  replace (a0 + (a1 - a0)) with a1 by ring. replace (a0 + (a1 - a0) + 0) with a1 by ring. replace (c0 + 0) with c0 by ring. replace (c0 + (c1 - c0)) with c1 by ring.
  replace (e0 + (e1 - e0)) with e1 by ring. replace (d0 + 0) with d0 by ring. replace (d0 + (d1 - d0)) with d1 by ring.
  replace (a1 + 0) with a1 by ring. replace (a0 + 0) with a0 by ring. replace (e1 + 0) with e1 by ring. replace (e0 + 0) with e0 by ring. reflexivity.
Qed.
Lemma int2_iff a0 a1 c0 c1 b0 b1 d0 d1 : a0 <= a1 -> c0 <= c1 -> b0 <= b1 -> d0 <= d1 -> (int2 a0 a1 c0 c1 b0 b1 d0 d1 = true <-> meet2 a0 a1 b0 b1 /\ meet2 c0 c1 d0 d1).
Proof.
  intros A C B D. unfold int2, meet2, Rgeb. split.
  - destruct (_ || _) eqn:E.
    + intros _. apply orb_true_iff in E. rewrite !andb_true_iff, !Rleb_true in E. lra.
    + rewrite !orb_true_iff, !intHV_iff. clear E. lra.
  - intros [I J]. destruct (_ || _) eqn:E; auto. apply not_true_iff_false in E. rewrite orb_true_iff, !andb_true_iff, !Rleb_true in E.
    rewrite !orb_true_iff, !intHV_iff.
    destruct (Rle_dec a0 b0) as [P1|P1]; destruct (Rle_dec b1 a1) as [P2|P2]; destruct (Rle_dec d0 c0) as [P3|P3]; destruct (Rle_dec c1 d1) as [P4|P4];
      apply Decidable.not_or in E as [E1 E2] || idtac.
    all: try (exfalso; lra).
    all: try lra.
Qed.
