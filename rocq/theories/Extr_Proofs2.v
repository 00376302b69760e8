(** The mesh of an extrusion over vertex numbers: oriented, no side twice. *)
From Coq Require Import Reals List Bool ZArith Lia Permutation Arith.
From Verif Require Import Xform_Model Fig_Model Solid_Model Solid_Spec Prim_Model Prim_Lab Extr_Model Extr_Spec Extr_Proofs.
Import ListNotations.
Local Open Scope Z_scope.

Definition up (n : Z) (e : Z * Z) : Z * Z := (fst e + n, snd e + n).
Definition up_face (n : Z) (f : face) : face := let '(a, b, c) := f in (a + n, b + n, c + n).
Definition wall_faces (n : Z) (e : Z * Z) : list face :=
  let '(a, b) := e in [(a, b, b + n); (a, b + n, a + n)].
Definition ext_faces (n : Z) (F : list face) (L : list (Z * Z)) : list face :=
  map swap_face F ++ flat_map (wall_faces n) L ++ map (up_face n) F.
Definition diag (n : Z) (e : Z * Z) : Z * Z := (snd e + n, fst e).
Definition rise_b (n : Z) (e : Z * Z) : Z * Z := (snd e, snd e + n).
Definition rise_a (n : Z) (e : Z * Z) : Z * Z := (fst e, fst e + n).

Definition zz_dec (x y : Z * Z) : {x = y} + {x <> y}.
Proof. repeat decide equality. Defined.
Definition hit (x e : Z * Z) : nat := if zz_dec x e then 1%nat else 0%nat.
Lemma count_hit x l e : count_occ zz_dec (x :: l) e = (hit x e + count_occ zz_dec l e)%nat.
Proof. unfold hit. cbn [count_occ]. destruct (zz_dec x e); reflexivity. Qed.
Lemma lall_app (F G : list face) : lall (F ++ G) = lall F ++ lall G.
Proof. apply flat_map_app. Qed.
Lemma lall_swap F : Permutation (lall (map swap_face F)) (map lback (lall F)).
Proof.
  induction F as [|[[a b] c] F IH]; [apply Permutation_refl|].
  change (lall (map swap_face ((a, b, c) :: F))) with ([(a, c); (c, b); (b, a)] ++ lall (map swap_face F)).
  change (lall ((a, b, c) :: F)) with ([(a, b); (b, c); (c, a)] ++ lall F). rewrite map_app. apply Permutation_app; [|exact IH].
  cbn [map lback fst snd]. apply (Permutation_rev [(a, c); (c, b); (b, a)]).
Qed.
Lemma lall_up n F : lall (map (up_face n) F) = map (up n) (lall F).
Proof.
  induction F as [|[[a b] c] F IH]; [reflexivity|].
  change (lall (map (up_face n) ((a, b, c) :: F))) with ([(a+n, b+n); (b+n, c+n); (c+n, a+n)] ++ lall (map (up_face n) F)).
  change (lall ((a, b, c) :: F)) with ([(a, b); (b, c); (c, a)] ++ lall F). rewrite map_app, IH. reflexivity.
Qed.
Lemma lall_walls n L : Permutation (lall (flat_map (wall_faces n) L))
  (L ++ map lback (map (up n) L) ++ (map (rise_b n) L ++ map lback (map (rise_a n) L)) ++ (map (diag n) L ++ map lback (map (diag n) L))).
Proof.
  induction L as [|[a b] L IH]; [apply Permutation_refl|].
  change (lall (flat_map (wall_faces n) ((a, b) :: L))) with
    ([(a, b); (b, b+n); (b+n, a); (a, b+n); (b+n, a+n); (a+n, a)] ++ lall (flat_map (wall_faces n) L)).
  rewrite IH. apply (perm_count zz_dec). intros e.
  cbn [map]. unfold up, rise_b, rise_a, diag, lback. cbn [fst snd].
  repeat (rewrite count_occ_app || rewrite count_hit || (progress cbn [app])). cbn [count_occ]. lia.
Qed.

Section Mesh.
  Variables (n : Z) (F : list face) (loops : list (list Z)) (inner : list (Z * Z)).
  Let L := flat_map round loops.
  Hypothesis HS : Permutation (lall F) (L ++ inner).
  Hypothesis HI : balanced inner.

  Lemma map_fst_L : map fst L = concat loops.
  Proof. unfold L. clear. induction loops as [|l ls IH]; [reflexivity|]. cbn [flat_map concat]. rewrite map_app, round_fst, IH. reflexivity. Qed.
  Lemma map_snd_L : Permutation (map snd L) (concat loops).
  Proof.
    unfold L. clear. induction loops as [|l ls IH]; [apply Permutation_refl|]. cbn [flat_map concat]. rewrite map_app.
    apply Permutation_app; [apply round_snd|exact IH].
  Qed.
  Lemma rises : Permutation (map (rise_b n) L) (map (rise_a n) L).
  Proof.
    rewrite <- (map_map snd (fun b => (b, b + n)) L : map (fun b => (b, b + n)) (map snd L) = map (rise_b n) L).
    rewrite <- (map_map fst (fun b => (b, b + n)) L : map (fun b => (b, b + n)) (map fst L) = map (rise_a n) L).
    apply Permutation_map. rewrite map_snd_L, map_fst_L. apply Permutation_refl.
  Qed.
  Lemma ext_lorient : lorient (ext_faces n F L).
  Proof.
    unfold lorient, ext_faces. fold (balanced (lall (map swap_face F ++ flat_map (wall_faces n) L ++ map (up_face n) F))).
    rewrite !lall_app. eapply balanced_perm.
    { apply Permutation_sym. rewrite lall_swap, lall_up, lall_walls, rises. rewrite HS. rewrite !map_app.
      instantiate (1 := (L ++ map lback L) ++ (map (up n) L ++ map lback (map (up n) L)) ++
        (map (rise_a n) L ++ map lback (map (rise_a n) L)) ++ (map (diag n) L ++ map lback (map (diag n) L)) ++ (map lback inner ++ map (up n) inner)).
      apply (perm_count zz_dec). intros e. rewrite !count_occ_app. lia. }
    apply balanced_app; [apply balanced_pair|]. apply balanced_app; [apply balanced_pair|]. apply balanced_app; [apply balanced_pair|].
    apply balanced_app; [apply balanced_pair|]. apply balanced_app; [apply balanced_back; exact HI|].
    apply (balanced_map (fun a => a + n)). exact HI.
  Qed.

  Hypothesis Hr : forall i j, In (i, j) (lall F) -> 0 <= i < n /\ i <> j.
  Hypothesis Hd : NoDup (lall F).
  Hypothesis Hc : NoDup (concat loops).
  Hypothesis H3 : forall l, In l loops -> (3 <= length l)%nat.

  Lemma L_in e : In e L -> In e (lall F).
  Proof. intros H. apply (Permutation_in _ (Permutation_sym HS)). apply in_or_app. left; exact H. Qed.
  Lemma F_range i j : In (i, j) (lall F) -> 0 <= i < n /\ 0 <= j < n /\ i <> j.
  Proof.
    intros H. destruct (Hr i j H) as [A B]. split; [exact A|]. split; [|exact B].
    unfold lall in H. apply in_flat_map in H as ([[a b] c] & Hf & H). cbn [lsides] in H.
    assert (I : forall k, In (j, k) (lsides (a, b, c)) -> 0 <= j < n).
    { intros k Hk. apply (Hr j k). apply in_flat_map. exists (a, b, c). auto. }
    cbn [lsides In] in I. destruct H as [H|[H|[H|[]]]]; injection H as -> ->; eapply I; eauto.
  Qed.
  Lemma round_nth {A} (l : list A) i x y : nth_error (round l) i = Some (x, y) ->
    (i < length l)%nat /\ nth_error l i = Some x /\ nth_error l (S i mod length l) = Some y.
  Proof.
    intros H. assert (Hi : (i < length l)%nat) by (rewrite <- round_length; apply nth_error_Some; rewrite H; discriminate).
    split; [exact Hi|]. destruct l as [|a r]; [cbn in Hi; lia|]. unfold round in H. rewrite combine_nth_error in H.
    destruct (nth_error (a :: r) i) as [u|] eqn:E1; [|discriminate]. destruct (nth_error (r ++ [a]) i) as [w|] eqn:E2; [|discriminate].
    injection H as -> ->. split; [reflexivity|]. cbn [length] in Hi. destruct (Nat.eq_dec i (length r)) as [->|Ni].
    - rewrite nth_error_app2, Nat.sub_diag in E2 by lia. cbn [length]. rewrite Nat.mod_same by lia. exact E2.
    - rewrite nth_error_app1 in E2 by lia. cbn [length]. rewrite Nat.mod_small by lia. exact E2.
  Qed.
  Lemma concat_unique {A} (ls : list (list A)) l1 l2 x : NoDup (concat ls) -> In l1 ls -> In l2 ls -> In x l1 -> In x l2 -> l1 = l2.
  Proof.
    clear. induction ls as [|l ls IH]; intros N A1 A2 X1 X2; [destruct A1|]. cbn [concat] in N.
    assert (D : forall m, In m ls -> In x l -> In x m -> False).
    { intros m Hm Hx Hxm. clear IH A1 A2. revert N Hx. induction l as [|y l IH']; intros N Hx; [destruct Hx|].
      cbn [app] in N. apply NoDup_cons_iff in N as [N1 N2]. destruct Hx as [->|Hx]; [|auto].
      apply N1. apply in_or_app. right. apply in_concat. exists m. auto. }
    assert (N' : NoDup (concat ls)).
    { clear - N. induction l as [|y l IH']; [exact N|]. cbn [app] in N. apply NoDup_cons_iff in N as [_ N]. auto. }
    destruct A1 as [->|A1], A2 as [->|A2]; auto; exfalso; eapply D; eauto.
  Qed.
  Lemma concat_nodup {A} (ls : list (list A)) l : NoDup (concat ls) -> In l ls -> NoDup l.
  Proof.
    clear. induction ls as [|m ls IH]; intros N H; [destruct H|]. cbn [concat] in N. destruct H as [->|H].
    - clear - N. induction l as [|y l IH']; [constructor|]. cbn [app] in N. apply NoDup_cons_iff in N as [N1 N]. constructor; [|auto].
      intros X. apply N1. apply in_or_app. left. exact X.
    - apply IH; auto. clear - N. induction m as [|y l IH']; [exact N|]. cbn [app] in N. apply NoDup_cons_iff in N as [_ N]. auto.
  Qed.
  Lemma no_two_cycle x y : In (x, y) L -> In (y, x) L -> False.
  Proof.
    intros A B. unfold L in A, B. apply in_flat_map in A as (l & Hl & A). apply in_flat_map in B as (l' & Hl' & B).
    assert (l' = l).
    { apply (concat_unique loops l' l x); auto; [exact (proj2 (round_in _ _ _ B))|exact (proj1 (round_in _ _ _ A))]. }
    subst l'. pose proof (concat_nodup _ _ Hc Hl) as N. pose proof (H3 l Hl) as H.
    apply In_nth_error in A as [i A]. apply In_nth_error in B as [j B].
    apply round_nth in A as (Ai & A1 & A2). apply round_nth in B as (Bi & B1 & B2).
    pose proof (proj1 (NoDup_nth_error l) N) as U.
    assert (J : (S i mod length l)%nat = j) by (apply U; [apply Nat.mod_upper_bound; lia|congruence]).
    assert (I : (S j mod length l)%nat = i) by (apply U; [apply Nat.mod_upper_bound; lia|congruence]).
    destruct (Nat.eq_dec (S i) (length l)) as [E|E].
    - rewrite E, Nat.mod_same in J by lia. subst j. rewrite Nat.mod_small in I by lia. lia.
    - rewrite (Nat.mod_small (S i)) in J by lia. destruct (Nat.eq_dec (S j) (length l)) as [E'|E'].
      + rewrite E', Nat.mod_same in I by lia. lia.
      + rewrite Nat.mod_small in I by lia. lia.
  Qed.
  Lemma nodup_LI : NoDup (L ++ inner).
  Proof. eapply Permutation_NoDup; [exact HS|exact Hd]. Qed.
  Lemma nodup_app_disj {A} (l m : list A) x : NoDup (l ++ m) -> In x l -> In x m -> False.
  Proof.
    clear. induction l as [|y l IH]; intros N H1 H2; [destruct H1|]. cbn [app] in N. apply NoDup_cons_iff in N as [N1 N].
    destruct H1 as [->|H1]; [apply N1, in_or_app; right; exact H2|auto].
  Qed.
  Lemma L_not_back e : In e L -> In e (map lback (lall F)) -> False.
  Proof.
    intros A B. apply in_map_iff in B as ([y x] & <- & B). cbn [lback fst snd] in A.
    apply (Permutation_in _ HS) in B. apply in_app_or in B as [B|B]; [exact (no_two_cycle _ _ A B)|].
    assert (B' : In (x, y) inner).
    { apply (Permutation_in _ (Permutation_sym HI)). apply in_map_iff. exists (y, x). auto. }
    eapply nodup_app_disj; [exact nodup_LI|exact A|exact B'].
  Qed.
  Lemma nodup_disj {A} (l m : list A) : NoDup l -> NoDup m -> (forall x, In x l -> In x m -> False) -> NoDup (l ++ m).
  Proof.
    clear. induction l as [|y l IH]; intros N M D; [exact M|]. apply NoDup_cons_iff in N as [N1 N]. cbn [app]. constructor.
    - intros X. apply in_app_or in X as [X|X]; [exact (N1 X)|]. apply (D y); [left; reflexivity|exact X].
    - apply IH; auto. intros x A1 A2. apply (D x); [right; exact A1|exact A2].
  Qed.
  Lemma nodup_L : NoDup L.
  Proof.
    pose proof nodup_LI as N. clear - N. induction L as [|y l IH]; [constructor|]. cbn [app] in N. apply NoDup_cons_iff in N as [N1 N].
    constructor; [|auto]. intros X. apply N1, in_or_app. left. exact X.
  Qed.
  Lemma nodup_map_inj {A B} (f : A -> B) l : (forall x y, In x l -> In y l -> f x = f y -> x = y) -> NoDup l -> NoDup (map f l).
  Proof.
    clear. induction l as [|a l IH]; intros J N; [constructor|]. apply NoDup_cons_iff in N as [N1 N]. cbn [map]. constructor.
    - intros X. apply in_map_iff in X as (b & E & X). apply N1. rewrite (J a b); auto; [left; reflexivity|right; exact X].
    - apply IH; auto. intros x y Hx Hy. apply J; right; auto.
  Qed.
  Lemma inj_fst e e' : In e L -> In e' L -> fst e = fst e' -> e = e'.
  Proof.
    intros A B E. assert (N : NoDup (map fst L)) by (rewrite map_fst_L; exact Hc).
    apply In_nth_error in A as [i A]. apply In_nth_error in B as [j B].
    assert (i = j).
    { apply (proj1 (NoDup_nth_error (map fst L)) N); [rewrite map_length; apply nth_error_Some; congruence|].
      rewrite !nth_error_map, A, B. cbn. congruence. }
    congruence.
  Qed.
  Lemma inj_snd e e' : In e L -> In e' L -> snd e = snd e' -> e = e'.
  Proof.
    intros A B E. assert (N : NoDup (map snd L)) by (eapply Permutation_NoDup; [apply Permutation_sym, map_snd_L|exact Hc]).
    apply In_nth_error in A as [i A]. apply In_nth_error in B as [j B].
    assert (i = j).
    { apply (proj1 (NoDup_nth_error (map snd L)) N); [rewrite map_length; apply nth_error_Some; congruence|].
      rewrite !nth_error_map, A, B. cbn. congruence. }
    congruence.
  Qed.
  Lemma nodup_back (E : list (Z * Z)) : NoDup E -> NoDup (map lback E).
  Proof. clear. intros N. apply nodup_map_inj; auto. intros [a b] [c d] _ _ H. unfold lback in H; cbn in H. congruence. Qed.
  Lemma nodup_up (E : list (Z * Z)) : NoDup E -> NoDup (map (up n) E).
  Proof. clear. intros N. apply nodup_map_inj; auto. intros [a b] [c d] _ _ H. unfold up in H; cbn in H. injection H as H H'. f_equal; lia. Qed.
  Lemma L_range e : In e L -> 0 <= fst e < n /\ 0 <= snd e < n /\ fst e <> snd e.
  Proof. intros H. destruct e as [a b]. apply (F_range a b). apply L_in. exact H. Qed.
  Lemma ext_parts : Permutation (lall (ext_faces n F L))
    ((map lback (lall F) ++ L) ++ (map (up n) (lall F) ++ map lback (map (up n) L)) ++
     (map (rise_a n) L ++ map lback (map (diag n) L)) ++ (map lback (map (rise_a n) L) ++ map (diag n) L)).
  Proof.
    unfold ext_faces. rewrite !lall_app, lall_swap, lall_up, lall_walls, rises.
    apply (perm_count zz_dec). intros e. rewrite !count_occ_app. lia.
  Qed.
  Lemma in_lback (E : list (Z * Z)) a b : In (a, b) (map lback E) <-> In (b, a) E.
  Proof.
    clear. split; intros H.
    - apply in_map_iff in H as ([x y] & H & X). unfold lback in H; cbn in H. injection H as -> ->. exact X.
    - apply in_map_iff. exists (b, a). auto.
  Qed.
  Lemma in_up (E : list (Z * Z)) a b : In (a, b) (map (up n) E) -> In (a - n, b - n) E.
  Proof.
    clear. intros H. apply in_map_iff in H as ([x y] & H & X). unfold up in H; cbn in H. injection H as <- <-.
    replace (x + n - n) with x by lia. replace (y + n - n) with y by lia. exact X.
  Qed.
  Lemma kind1 a b : In (a, b) (map lback (lall F) ++ L) -> (a < n /\ b < n) /\ a <> b.
  Proof.
    intros H. apply in_app_or in H as [H|H]; [apply (proj1 (in_lback _ _ _)) in H; apply F_range in H; lia|].
    apply L_range in H; cbn in H. lia.
  Qed.
  Lemma kind2 a b : In (a, b) (map (up n) (lall F) ++ map lback (map (up n) L)) -> (n <= a /\ n <= b) /\ a <> b.
  Proof.
    intros H. apply in_app_or in H as [H|H].
    - apply in_up in H. apply F_range in H. lia.
    - apply (proj1 (in_lback _ _ _)) in H. apply in_up in H. apply L_range in H; cbn in H. lia.
  Qed.
  Lemma kind3 a b : In (a, b) (map (rise_a n) L ++ map lback (map (diag n) L)) -> a < n /\ n <= b.
  Proof.
    intros H. apply in_app_or in H as [H|H].
    - apply in_map_iff in H as (e & E & H). apply L_range in H. unfold rise_a in E. injection E as <- <-. lia.
    - apply (proj1 (in_lback _ _ _)) in H. apply in_map_iff in H as (e & E & H). apply L_range in H. unfold diag in E. injection E as <- <-. lia.
  Qed.
  Lemma kind4 a b : In (a, b) (map lback (map (rise_a n) L) ++ map (diag n) L) -> n <= a /\ b < n.
  Proof.
    intros H. apply in_app_or in H as [H|H].
    - apply (proj1 (in_lback _ _ _)) in H. apply in_map_iff in H as (e & E & H). apply L_range in H. unfold rise_a in E. injection E as <- <-. lia.
    - apply in_map_iff in H as (e & E & H). apply L_range in H. unfold diag in E. injection E as <- <-. lia.
  Qed.
  Lemma rise_diag a b : In (a, b) (map (rise_a n) L) -> In (b, a) (map (diag n) L) -> False.
  Proof.
    intros A B. apply in_map_iff in A as (e & E & A). apply in_map_iff in B as (e' & E' & B).
    unfold rise_a in E. unfold diag in E'. injection E as <- <-. injection E' as E1 E2. apply L_range in B. lia.
  Qed.
  Lemma nodup_rise : NoDup (map (rise_a n) L).
  Proof. apply nodup_map_inj; [|apply nodup_L]. intros x y Hx Hy E. unfold rise_a in E. injection E as E _. apply inj_fst; auto. Qed.
  Lemma nodup_diag : NoDup (map (diag n) L).
  Proof. apply nodup_map_inj; [|apply nodup_L]. intros x y Hx Hy E. unfold diag in E. injection E as _ E. apply inj_fst; auto. Qed.
  Lemma ext_nodup : NoDup (lall (ext_faces n F L)).
  Proof.
    eapply Permutation_NoDup; [apply Permutation_sym, ext_parts|].
    apply nodup_disj; [|apply nodup_disj; [|apply nodup_disj|]|].
    - apply nodup_disj; [apply nodup_back, Hd|apply nodup_L|]. intros x A B. eapply L_not_back; eauto.
    - apply nodup_disj; [apply nodup_up, Hd|apply nodup_back, nodup_up, nodup_L|]. intros [a b] A B.
      apply in_up in A. apply (proj1 (in_lback _ _ _)) in B. apply in_up in B. eapply L_not_back; [exact B|]. apply (proj2 (in_lback _ _ _)). exact A.
    - apply nodup_disj; [apply nodup_rise|apply nodup_back, nodup_diag|]. intros [a b] A B. apply (proj1 (in_lback _ _ _)) in B. eapply rise_diag; eauto.
    - apply nodup_disj; [apply nodup_back, nodup_rise|apply nodup_diag|]. intros [a b] A B. apply (proj1 (in_lback _ _ _)) in A. eapply rise_diag; eauto.
    - intros [a b] A B. apply kind3 in A. apply kind4 in B. lia.
    - intros [a b] A B. apply kind2 in A. apply in_app_or in B as [B|B]; [apply kind3 in B|apply kind4 in B]; lia.
    - intros [a b] A B. apply kind1 in A. apply in_app_or in B as [B|B]; [apply kind2 in B; lia|].
      apply in_app_or in B as [B|B]; [apply kind3 in B|apply kind4 in B]; lia.
  Qed.
  Lemma ext_noloop a : ~ In (a, a) (lall (ext_faces n F L)).
  Proof.
    intros H. apply (Permutation_in _ ext_parts) in H.
    apply in_app_or in H as [H|H]; [apply kind1 in H; lia|]. apply in_app_or in H as [H|H]; [apply kind2 in H; lia|].
    apply in_app_or in H as [H|H]; [apply kind3 in H|apply kind4 in H]; lia.
  Qed.
  Lemma ext_label a : label (ext_faces n F L) a -> 0 <= a < n + n.
  Proof.
    intros [b H]. apply (Permutation_in _ ext_parts) in H. repeat (apply in_app_or in H; destruct H as [H|H]).
    - apply (proj1 (in_lback _ _ _)) in H. apply F_range in H. lia.
    - apply L_range in H; cbn in H; lia.
    - apply in_up in H. apply F_range in H. lia.
    - apply (proj1 (in_lback _ _ _)) in H. apply in_up in H. apply L_range in H; cbn in H; lia.
    - apply in_map_iff in H as (e & E & H). apply L_range in H. unfold rise_a in E. injection E as <- <-. lia.
    - apply (proj1 (in_lback _ _ _)) in H. apply in_map_iff in H as (e & E & H). apply L_range in H. unfold diag in E. injection E as <- <-. lia.
    - apply (proj1 (in_lback _ _ _)) in H. apply in_map_iff in H as (e & E & H). apply L_range in H. unfold rise_a in E. injection E as <- <-. lia.
    - apply in_map_iff in H as (e & E & H). apply L_range in H. unfold diag in E. injection E as <- <-. lia.
  Qed.
End Mesh.
