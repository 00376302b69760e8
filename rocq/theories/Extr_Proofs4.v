(** Walls, and the extruded solid. *)
From Coq Require Import Reals List Bool ZArith Lra Lia Permutation Arith.
From Verif Require Import Xform_Model Xform_Proofs Fig_Model Fig_Proofs Solid_Model Solid_Spec Solid_Proofs Solid_Proofs2 Solid_Proofs3 Solid_Proofs5 Solid_Proofs6
  Prim_Model Prim_Lab Extr_Model Extr_Spec Extr_Proofs Extr_Proofs2 Extr_Proofs3.
Import ListNotations.
Open Scope R_scope.

Lemma set_nth_length {A} (l : list A) k a : length (set_nth l k a) = length l.
Proof. revert k. induction l as [|b l IH]; intros [|k]; cbn; auto. Qed.
Lemma set_nth_same {A} (l : list A) k a : (k < length l)%nat -> nth_error (set_nth l k a) k = Some a.
Proof. revert k. induction l as [|b l IH]; intros [|k] H; cbn in *; try lia; auto. apply IH. lia. Qed.
Lemma set_nth_other {A} (l : list A) k j a : j <> k -> nth_error (set_nth l k a) j = nth_error l j.
Proof. revert k j. induction l as [|b l IH]; intros [|k] [|j] H; cbn; try congruence; auto. Qed.
Lemma set_nth_forall {A} (P : A -> Prop) l k a : P a -> Forall P l -> Forall P (set_nth l k a).
Proof. intros Ha H. revert k. induction H as [|b l Hb H IH]; intros [|k]; cbn; constructor; auto. Qed.
Lemma pyset_val {A} (l : list A) i a : (0 <= i < Z.of_nat (length l))%Z -> pyset l i a = Val (set_nth l (Z.to_nat i) a).
Proof.
  intros H. unfold pyset. destruct (Z.ltb_spec i 0); [lia|]. destruct (Z.ltb_spec i 0); [lia|].
  destruct (Z.leb_spec (Z.of_nat (length l)) i); [lia|]. reflexivity.
Qed.

Section Walls.
  Variables (B : list vec) (t : vec).
  Let n := Z.of_nat (length B).
  Let V := B ++ map (moved t) B.
  Definition wnormal (x : Z * Z * Z) : vec :=
    let '(j0, j1, j2) := x in
    let c := cross (sub (pos B j2) (pos B j0)) t in mkv (vx c * (1 / mag c)) (vy c * (1 / mag c)) (vz c * (1 / mag c)) 0.
  Definition put (ns : list vec) (x : Z * Z * Z) : list vec :=
    let '(j0, j1, j2) := x in set_nth (set_nth ns (Z.to_nat j1) (wnormal x)) (Z.to_nat (j1 + n)) (wnormal x).
  Definition ok (x : Z * Z * Z) : Prop :=
    let '(j0, j1, j2) := x in (0 <= j0 < n)%Z /\ (0 <= j1 < n)%Z /\ (0 <= j2 < n)%Z /\
      epsilon <= mag (edge_normal (sub (pos B j2) (pos B j0)) t).
  Lemma V_length : Z.of_nat (length V) = (n + n)%Z.
  Proof. unfold V, n. rewrite app_length, map_length. lia. Qed.
  Lemma put_length ns x : length (put ns x) = length ns.
  Proof. destruct x as [[j0 j1] j2]. unfold put. rewrite !set_nth_length. reflexivity. Qed.
  Lemma wall_val ns fs x : length ns = length V -> ok x ->
    wall V n (ns, fs) x = Val (put ns x, fs ++ wall_faces n (snd (fst x), snd x)).
  Proof.
    intros HL. destruct x as [[j0 j1] j2]. intros (H0 & H1 & H2 & Hm). unfold wall. cbn [fst snd].
    pose proof V_length as LV.
    rewrite (pos_get V j0), (pos_get V j2), (pos_get V (j2 + n)) by lia. cbn [obind].
    unfold V. rewrite !pos_low by (fold n; lia). unfold n at 1. rewrite pos_high by (fold n; lia).
    set (p := pos B j0) in *. set (r := pos B j2) in *. unfold tri2p0n.
    assert (E : cross (sub r p) (sub (moved t r) r) = cross (sub r p) t).
    { unfold cross, sub, moved; cbn [vx vy vz]. apply mkv_eq; ring. }
    rewrite E. change (mag (edge_normal (sub r p) t)) with (mag (cross (sub r p) t)) in Hm.
    replace (Rltb (mag (cross (sub r p) t)) epsilon) with false by (symmetry; apply Rltb_false; exact Hm).
    rewrite pyset_val by (rewrite HL; lia). cbn [obind]. rewrite pyset_val by (rewrite set_nth_length, HL; lia). cbn [obind].
    do 3 f_equal.
  Qed.
  Lemma walls_val xs ns fs : length ns = length V -> (forall x, In x xs -> ok x) ->
    walls V n xs (ns, fs) = Val (fold_left put xs ns, fs ++ flat_map (fun x => wall_faces n (snd (fst x), snd x)) xs).
  Proof.
    revert ns fs. induction xs as [|x xs IH]; intros ns fs HL H; [cbn; rewrite app_nil_r; reflexivity|].
    cbn [walls]. rewrite wall_val by (auto; apply H; left; reflexivity). cbn [obind]. rewrite IH; [|rewrite put_length; auto|intros; apply H; right; auto].
    cbn [fold_left flat_map]. rewrite app_assoc. reflexivity.
  Qed.
  Lemma puts_length xs ns : length (fold_left put xs ns) = length ns.
  Proof. revert ns. induction xs as [|x xs IH]; intros ns; [reflexivity|]. cbn [fold_left]. rewrite IH. apply put_length. Qed.
  Lemma puts_w xs ns : Forall (fun m => vw m = 0) ns -> Forall (fun m => vw m = 0) (fold_left put xs ns).
  Proof.
    revert ns. induction xs as [|x xs IH]; intros ns H; [exact H|]. cbn [fold_left]. apply IH. destruct x as [[j0 j1] j2].
    unfold put. apply set_nth_forall; [reflexivity|]. apply set_nth_forall; [reflexivity|exact H].
  Qed.
  Lemma puts_other xs ns k : (forall x, In x xs -> ok x) ->
    (forall x, In x xs -> k <> snd (fst x) /\ k <> snd (fst x) + n)%Z -> (0 <= k)%Z ->
    nth_error (fold_left put xs ns) (Z.to_nat k) = nth_error ns (Z.to_nat k).
  Proof.
    revert ns. induction xs as [|x xs IH]; intros ns O H Hk; [reflexivity|]. cbn [fold_left]. rewrite IH; auto.
    - pose proof (H x (or_introl eq_refl)) as D. pose proof (O x (or_introl eq_refl)) as K. destruct x as [[j0 j1] j2]. cbn [fst snd] in D.
      destruct K as (K0 & K1 & K2 & _). unfold put. rewrite !set_nth_other; [reflexivity|lia|lia].
    - intros; apply O; right; auto.
    - intros; apply H; right; auto.
  Qed.
  Lemma puts_in xs ns x : length ns = length V -> (forall x, In x xs -> ok x) -> NoDup (map (fun x => snd (fst x)) xs) -> In x xs ->
    nth_error (fold_left put xs ns) (Z.to_nat (snd (fst x))) = Some (wnormal x) /\
    nth_error (fold_left put xs ns) (Z.to_nat (snd (fst x) + n)) = Some (wnormal x).
  Proof.
    revert ns. induction xs as [|y xs IH]; intros ns HL O N Hx; [destruct Hx|]. cbn [map] in N. apply NoDup_cons_iff in N as [N1 N2].
    cbn [fold_left]. destruct Hx as [->|Hx]; [|apply IH; auto; [rewrite put_length; auto|intros; apply O; right; auto]].
    pose proof (O x (or_introl eq_refl)) as K. pose proof V_length as LV.
    assert (D : forall z, In z xs -> (snd (fst z) <> snd (fst x))).
    { intros z Hz E. apply N1. rewrite <- E. apply in_map_iff. exists z. auto. }
    assert (OX : forall z, In z xs -> ok z) by (intros; apply O; right; auto).
    assert (R : forall z, In z xs -> (0 <= snd (fst z) < n)%Z).
    { intros z Hz. specialize (OX z Hz). destruct z as [[a b] c]. destruct OX as (_ & H & _). exact H. }
    assert (RX : (0 <= snd (fst x) < n)%Z) by (destruct x as [[a b] c]; destruct K as (_ & H & _); exact H).
    split; (rewrite puts_other; [|exact OX| |lia]).
    - destruct x as [[j0 j1] j2]. unfold put. cbn [fst snd] in *. rewrite set_nth_other by lia. rewrite set_nth_same; [reflexivity|lia].
    - intros z Hz. specialize (D z Hz). specialize (R z Hz). lia.
    - destruct x as [[j0 j1] j2]. unfold put. cbn [fst snd] in *. rewrite set_nth_same; [reflexivity|rewrite set_nth_length; lia].
    - intros z Hz. specialize (D z Hz). specialize (R z Hz). lia.
  Qed.
  Lemma wnormal_spec j0 j1 j2 : ok (j0, j1, j2) -> wall_normal t (pos B j0) (pos B j2) (wnormal (j0, j1, j2)).
  Proof.
    intros (_ & _ & _ & Hm). unfold wnormal. set (c := cross (sub (pos B j2) (pos B j0)) t).
    change (epsilon <= mag c) in Hm. pose proof eps_pos as He. assert (H0 : 0 < mag c) by lra.
    split; [reflexivity|]. split.
    - unfold dot3; cbn [vx vy vz]. pose proof (mag_sqr c) as Q.
      replace (vx c * (1 / mag c) * (vx c * (1 / mag c)) + vy c * (1 / mag c) * (vy c * (1 / mag c)) + vz c * (1 / mag c) * (vz c * (1 / mag c)))
        with ((vx c * vx c + vy c * vy c + vz c * vz c) / (mag c * mag c)) by (field; lra).
      rewrite <- Q. field. lra.
    - exists (1 / mag c). split; [apply Rdiv_lt_0_compat; lra|]. unfold scaled. change (vx (edge_normal (sub (pos B j2) (pos B j0)) t)) with (vx c).
      change (vy (edge_normal (sub (pos B j2) (pos B j0)) t)) with (vy c). change (vz (edge_normal (sub (pos B j2) (pos B j0)) t)) with (vz c).
      apply mkv_eq; ring.
  Qed.
End Walls.
