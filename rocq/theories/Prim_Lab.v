(** Proof tool: triangle meshes over labels.  A mesh is given by triangles of
    labels and a position for each label; orientation and closedness are decided
    on the labels. *)
From Coq Require Import Reals List Bool ZArith Lra Lia Permutation Arith.
From Verif Require Import Xform_Model Xform_Proofs Fig_Model Solid_Model Solid_Spec Solid_Proofs Solid_Proofs2 Solid_Proofs3.
Import ListNotations.
Open Scope R_scope.

Section Labels.
  Context {L : Type}.
  Definition ltri := (L * L * L)%type.
  Definition lsides (t : ltri) : list (L * L) := let '(a, b, c) := t in [(a, b); (b, c); (c, a)].
  Definition lback (e : L * L) : L * L := (snd e, fst e).
  Definition lall (ts : list ltri) : list (L * L) := flat_map lsides ts.
  Definition lorient (ts : list ltri) : Prop := Permutation (lall ts) (map lback (lall ts)).
  Definition at_pos (pos : L -> vec) (t : ltri) : tri := let '(a, b, c) := t in (pos a, pos b, pos c).
  Definition side_pos (pos : L -> vec) (e : L * L) : vec * vec := (pos (fst e), pos (snd e)).
  Definition label (ts : list ltri) (a : L) : Prop := exists b, In (a, b) (lall ts).

  Lemma sides_pos pos ts : all_sides (map (at_pos pos) ts) = map (side_pos pos) (lall ts).
  Proof.
    unfold all_sides, lall. induction ts as [|[[a b] c] ts IH]; [reflexivity|].
    cbn [map flat_map at_pos sides lsides]. rewrite map_app, IH. reflexivity.
  Qed.
  Lemma orient_pos pos ts : lorient ts -> oriented (map (at_pos pos) ts).
  Proof.
    unfold lorient, oriented. intros H. rewrite sides_pos, map_map.
    apply (Permutation_trans (Permutation_map (side_pos pos) H)). rewrite map_map. apply Permutation_refl.
  Qed.
  Lemma corner_pos pos ts p : corner (map (at_pos pos) ts) p -> exists a, label ts a /\ p = pos a.
  Proof.
    intros [q H]. rewrite sides_pos in H. apply in_map_iff in H as ([a b] & E & H). exists a. split; [exists b; exact H|].
    unfold side_pos in E; cbn [fst snd] in E. congruence.
  Qed.
  Lemma label_snd ts a b : lorient ts -> In (a, b) (lall ts) -> label ts b.
  Proof.
    intros H Hi. exists a. apply (Permutation_in _ (Permutation_sym H)).
    apply in_map_iff. exists (a, b). auto.
  Qed.
  Lemma separated_pos pos ts : (forall a b, label ts a -> label ts b -> a = b \/ 2 * epsilon < dist (pos a) (pos b)) ->
    separated (map (at_pos pos) ts).
  Proof.
    intros H p q Hp Hq. apply corner_pos in Hp as (a & Ha & ->). apply corner_pos in Hq as (b & Hb & ->).
    destruct (H a b Ha Hb) as [->|H']; auto.
  Qed.
  (** Oriented, no directed side twice, no side from a corner to itself: closed. *)
  Lemma tight_vec ts : oriented ts -> NoDup (all_sides ts) -> (forall p, ~ In (p, p) (all_sides ts)) -> watertight ts.
  Proof.
    intros Ho Hn Hl p q H.
    assert (H' : In (q, p) (all_sides ts)).
    { apply (Permutation_in _ (Permutation_sym Ho)). apply in_map_iff. exists (p, q). auto. }
    assert (Hpq : p <> q) by (intros ->; exact (Hl q H)).
    revert H H' Hn. clear Ho Hl. induction (all_sides ts) as [|e l IH]; intros H H' Hn; [destruct H|].
    apply NoDup_cons_iff in Hn as [Hn1 Hn2].
    assert (NO : forall l, ~ In (p, q) l -> ~ In (q, p) l -> counted (joins p q) l 0).
    { clear. induction l as [|a l IH]; intros A B; [constructor|]. apply c_no; [|apply IH; intros X; [apply A|apply B]; right; exact X].
      intros [->| ->]; [apply A|apply B]; left; reflexivity. }
    assert (ONE : forall x y l, joins p q (x, y) -> In (x, y) l -> ~ In (y, x) l -> NoDup l -> counted (joins p q) l 1).
    { clear - NO Hpq. intros x y l J. assert (J' : joins p q (y, x)) by (destruct J as [J|J]; injection J as -> ->; [right|left]; reflexivity).
      assert (J2 : forall a, joins p q a -> a = (x, y) \/ a = (y, x)).
      { intros a [->| ->]; destruct J as [J|J]; injection J as -> ->; auto. }
      induction l as [|a l IH]; intros A B N; [destruct A|]. apply NoDup_cons_iff in N as [N1 N2].
      destruct A as [->|A].
      - apply c_yes; [exact J|]. apply NO; intros X.
        + destruct (J2 (p, q) (or_introl eq_refl)) as [E|E]; rewrite E in X; [exact (N1 X)|apply B; right; exact X].
        + destruct (J2 (q, p) (or_intror eq_refl)) as [E|E]; rewrite E in X; [exact (N1 X)|apply B; right; exact X].
      - apply c_no; [|apply IH; auto; intros X; apply B; right; exact X].
        intros Ja. destruct (J2 a Ja) as [->| ->]; [exact (N1 A)|apply B; left; reflexivity]. }
    destruct H as [->|H].
    - destruct H' as [H'|H']; [congruence|]. apply c_yes; [left; reflexivity|]. apply (ONE q p); auto. right; reflexivity.
    - destruct H' as [->|H'].
      + apply c_yes; [right; reflexivity|]. apply (ONE p q); auto. left; reflexivity.
      + apply c_no; [|apply IH; auto]. intros [->| ->]; auto.
  Qed.
  Lemma tight_pos pos ts : lorient ts -> NoDup (lall ts) -> (forall a, ~ In (a, a) (lall ts)) ->
    (forall a b, label ts a -> label ts b -> pos a = pos b -> a = b) -> watertight (map (at_pos pos) ts).
  Proof.
    intros Ho Hn Hl Hi. apply tight_vec; [apply orient_pos; auto| |].
    - rewrite sides_pos.
      assert (G : forall l, incl l (lall ts) -> NoDup l -> NoDup (map (side_pos pos) l)).
      { induction l as [|[a b] l IH]; intros Hc N; [constructor|]. apply NoDup_cons_iff in N as [N1 N2].
        cbn [map]. constructor; [|apply IH; auto; intros x Hx; apply Hc; right; exact Hx].
        intros X. apply in_map_iff in X as ([a' b'] & E & X). unfold side_pos in E; cbn [fst snd] in E.
        assert (E1 : pos a' = pos a) by congruence. assert (E2 : pos b' = pos b) by congruence.
        assert (In (a, b) (lall ts)) by (apply Hc; left; reflexivity).
        assert (In (a', b') (lall ts)) by (apply Hc; right; exact X).
        apply N1. rewrite <- (Hi a' a), <- (Hi b' b); auto; try (eapply label_snd; eauto; fail); eexists; eauto. }
      apply G; auto. intros x; auto.
    - intros p H. rewrite sides_pos in H. apply in_map_iff in H as ([a b] & E & H). unfold side_pos in E; cbn [fst snd] in E.
      assert (pos a = pos b) by congruence. apply (Hl a).
      rewrite <- (Hi a b) in H; auto; [eexists; eauto|eapply label_snd; eauto].
  Qed.
  (** Separation gives injectivity. *)
  Lemma sep_inj (pos : L -> vec) ts : (forall a b, label ts a -> label ts b -> a = b \/ 2 * epsilon < dist (pos a) (pos b)) ->
    forall a b, label ts a -> label ts b -> pos a = pos b -> a = b.
  Proof.
    intros H a b Ha Hb E. destruct (H a b Ha Hb) as [->|H']; auto. rewrite E in H'.
    assert (dist (pos b) (pos b) = 0).
    { unfold dist, mag, sub; cbn [vx vy vz]. rewrite <- sqrt_0. f_equal. ring. }
    unfold epsilon in H'. lra.
  Qed.
  Lemma lab_sides ts b : label ts b <-> exists t, In t ts /\ let '(p, q, r) := t in b = p \/ b = q \/ b = r.
  Proof.
    unfold label, lall. split.
    - intros [c H]. apply in_flat_map in H as ([[p q] r] & Ht & H). exists (p, q, r). split; [exact Ht|].
      cbn [lsides] in H. destruct H as [H|[H|[H|[]]]]; injection H as -> ->; auto.
    - intros ([[p q] r] & Ht & H).
      destruct H as [->|[->| ->]]; eexists; apply in_flat_map; exists (p, q, r); (split; [exact Ht|]); cbn [lsides].
      + left; reflexivity.
      + right; left; reflexivity.
      + right; right; left; reflexivity.
  Qed.
End Labels.
Arguments ltri L : clear implicits.

(** Families of sides indexed by a cyclic range. *)
Lemma flat_map_cons_perm {A B} (f : A -> B) (g : A -> list B) l :
  Permutation (flat_map (fun i => f i :: g i) l) (map f l ++ flat_map g l).
Proof.
  induction l as [|a l IH]; [apply Permutation_refl|]. cbn [flat_map map app].
  apply perm_skip. rewrite IH. rewrite !app_assoc. apply Permutation_app_tail. apply Permutation_app_comm.
Qed.
Lemma flat_map_nil {A B} (l : list A) : flat_map (fun _ => @nil B) l = [].
Proof. induction l; auto. Qed.
Lemma cyc_seq n : (0 < n)%nat -> Permutation (map (fun i => S i mod n)%nat (seq 0 n)) (seq 0 n).
Proof.
  intros Hn. destruct n as [|m]; [lia|]. rewrite seq_S at 1. rewrite map_app. cbn [map Nat.add].
  rewrite Nat.mod_same by lia. cbn [seq].
  assert (E : map (fun i => S i mod S m)%nat (seq 0 m) = seq 1 m).
  { rewrite <- seq_shift. apply map_ext_in. intros i Hi. apply in_seq in Hi. apply Nat.mod_small. lia. }
  rewrite E. apply Permutation_sym. apply Permutation_cons_append.
Qed.
Lemma cyc_map {B} (h : nat -> B) n : (0 < n)%nat ->
  Permutation (map (fun i => h (S i mod n)%nat) (seq 0 n)) (map h (seq 0 n)).
Proof. intros Hn. rewrite <- (map_map (fun i => S i mod n)%nat h). apply Permutation_map, cyc_seq; auto. Qed.

(** Counting, to compare two permutations of families. *)
Lemma perm_count {A} (dec : forall x y : A, {x = y} + {x <> y}) l m :
  (forall e, count_occ dec l e = count_occ dec m e) -> Permutation l m.
Proof. apply Permutation_count_occ. Qed.
Lemma count_perm {A} (dec : forall x y : A, {x = y} + {x <> y}) l m e :
  Permutation l m -> count_occ dec l e = count_occ dec m e.
Proof. intros H. apply (Permutation_count_occ dec); exact H. Qed.
Lemma count_cons_fun {A B} (dec : forall x y : B, {x = y} + {x <> y}) (f : A -> B) (g : A -> list B) l e :
  count_occ dec (flat_map (fun i => f i :: g i) l) e = (count_occ dec (map f l) e + count_occ dec (flat_map g l) e)%nat.
Proof. rewrite (count_perm dec _ _ e (flat_map_cons_perm f g l)). apply count_occ_app. Qed.
Lemma count_cyc {B} (dec : forall x y : B, {x = y} + {x <> y}) (h : nat -> B) n e : (0 < n)%nat ->
  count_occ dec (map (fun i => h (S i mod n)%nat) (seq 0 n)) e = count_occ dec (map h (seq 0 n)) e.
Proof. intros Hn. apply count_perm, cyc_map; auto. Qed.
Lemma flat_map_map {A B C} (f : A -> B) (g : B -> list C) l : flat_map g (map f l) = flat_map (fun a => g (f a)) l.
Proof. induction l as [|a l IH]; [reflexivity|]. cbn [map flat_map]. rewrite IH. reflexivity. Qed.
Lemma map_flat_map {A B C} (f : B -> C) (g : A -> list B) l : map f (flat_map g l) = flat_map (fun a => map f (g a)) l.
Proof. induction l as [|a l IH]; [reflexivity|]. cbn [map flat_map]. rewrite map_app, IH. reflexivity. Qed.
Lemma flat_map_flat {A B C} (f : A -> list B) (g : B -> list C) l : flat_map g (flat_map f l) = flat_map (fun a => flat_map g (f a)) l.
Proof. induction l as [|a l IH]; [reflexivity|]. cbn [flat_map]. rewrite flat_map_app, IH. reflexivity. Qed.
Lemma flat_map_perm {A B} (f : A -> list B) l m : Permutation l m -> Permutation (flat_map f l) (flat_map f m).
Proof. intros H. apply Permutation_flat_map; exact H. Qed.
