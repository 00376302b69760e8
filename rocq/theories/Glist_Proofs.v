From Coq Require Import Reals List Bool Lra Lia Psatz.
From Verif Require Import Xform_Model Xform_Proofs Fig_Model Fig_Proofs Fig_Proofs2 Isect_Model Isect_Spec
  Isect_Proofs Isect_Proofs2 Isect_Proofs3 Glist_Model Glist_Spec.
Import ListNotations.
Open Scope R_scope.

(** ** walking along a list of pieces *)
Section Path.
  Context {A X : Type} (len : A -> R) (smp : A -> R -> X) (none : X).
  Definition tot (gs : list A) : R := fold_right (fun g s => len g + s) 0 gs.
  Fixpoint path (gs : list A) (s : R) : X :=
    match gs with
    | [] => none
    | g :: r => match r with [] => smp g (s / len g) | _ => if Rleb s (len g) then smp g (s / len g) else path r (s - len g) end
    end.
  Lemma tot_nonneg gs : Forall (fun g => 0 < len g) gs -> 0 <= tot gs.
  Proof. induction 1; cbn; unfold tot in *; lra. Qed.
  Lemma tot_pos gs : Forall (fun g => 0 < len g) gs -> gs <> [] -> 0 < tot gs.
  Proof. intros H N. destruct H as [|g gs H1 H2]; [congruence|]. cbn. pose proof (tot_nonneg gs H2). unfold tot in *. lra. Qed.
  Lemma tot_app a b : tot (a ++ b) = tot a + tot b.
  Proof. unfold tot. induction a as [|x a IH]; cbn [app fold_right]; [lra|]. rewrite IH. lra. Qed.
  Lemma path_cons g r s : 0 < len g -> (r = [] \/ s <= len g) -> path (g :: r) s = smp g (s / len g).
  Proof.
    intros H [->|C]; [reflexivity|]. cbn [path]. destruct r; [reflexivity|]. rewrite (proj2 (Rleb_true _ _)) by lra. reflexivity.
  Qed.
  Lemma path_skip g r s : r <> [] -> len g < s -> path (g :: r) s = path r (s - len g).
  Proof. intros N H. cbn [path]. destruct r; [congruence|]. rewrite (proj2 (Rleb_false _ _)) by lra. reflexivity. Qed.
  (** the place at distance [s] is a fraction [t] along some element *)
  Lemma path_place gs s : Forall (fun g => 0 < len g) gs -> gs <> [] -> 0 <= s <= tot gs ->
    exists pre g post t, gs = pre ++ g :: post /\ 0 <= t <= 1 /\ path gs s = smp g t /\ s = tot pre + t * len g.
  Proof.
    intros F N. revert s N. induction F as [|g r Hg Hr IH]; intros s N S; [congruence|]. cbn in S. fold (tot r) in S.
    destruct (Rle_dec s (len g)) as [Q|Q].
    - exists [], g, r, (s / len g). split; [reflexivity|]. split; [split; [apply Rmult_le_pos; [lra|left; apply Rinv_0_lt_compat; lra]|]|].
      + apply Rmult_le_reg_r with (len g); [lra|]. unfold Rdiv. rewrite Rmult_assoc, Rinv_l by lra. lra.
      + split; [apply path_cons; auto|]. cbn. field. lra.
    - destruct r as [|h r']; [cbn in S; lra|]. destruct (IH (s - len g)) as (pre & x & post & t & E & T & P & D); [discriminate|lra|].
      exists (g :: pre), x, post, t. rewrite E. split; [reflexivity|]. split; [exact T|]. split.
      + rewrite <- E, path_skip; [exact P|discriminate|lra].
      + cbn. fold (tot pre). lra.
  Qed.
End Path.

(** ** the loop of segmentgeomlist *)
Section Slice.
  Context {A X : Type} (len : A -> R) (smp : A -> R -> X) (none : X) (seg : A -> R -> R -> A) (good : A -> Prop).
  Hypothesis good_len : forall g, good g -> epsilon <= len g.
  Hypothesis seg_len : forall g x y, good g -> 0 <= x -> x < y -> y <= 1 -> len (seg g x y) = (y - x) * len g.
  Hypothesis seg_smp : forall g x y t, good g -> 0 <= x -> x < y -> y <= 1 -> smp (seg g x y) t = smp g (x + t * (y - x)).
  Notation loop := (seg_loop (fun g => Ok (len g)) (fun g x y => Ok (seg g x y))).
  Notation tot := (tot len). Notation path := (path len smp none).
  Lemma eps_pos : 0 < epsilon. Proof. unfold epsilon. lra. Qed.
  Lemma good_pos g : good g -> 0 < len g. Proof. intros H. pose proof (good_len g H). pose proof eps_pos. lra. Qed.
  Lemma good_all gs : Forall good gs -> Forall (fun g => 0 < len g) gs.
  Proof. intros H. eapply Forall_impl; [|exact H]. exact good_pos. Qed.
  Definition jointA (gs : list A) (s : R) := exists pre post, gs = pre ++ post /\ pre <> [] /\ post <> [] /\ s = tot pre.
  Lemma joint_tail g r s : ~ jointA (g :: r) s -> ~ jointA r (s - len g).
  Proof.
    intros N (pre & post & E & H1 & H2 & D). apply N. exists (g :: pre), post. split; [cbn; congruence|]. split; [discriminate|]. split; [exact H2|].
    cbn. fold (tot pre). lra.
  Qed.
  Lemma joint_head g h r s : ~ jointA (g :: h :: r) s -> s <> len g.
  Proof. intros N E. apply N. exists [g], (h :: r). split; [reflexivity|]. split; [discriminate|]. split; [discriminate|]. cbn. lra. Qed.
  (** the middle and end *)
  Lemma loop_started gs : forall dst1 dst2 d, Forall good gs -> gs <> [] -> dst1 <= d -> d < dst2 -> dst2 - d <= tot gs -> ~ jointA gs (dst2 - d) ->
    exists gs', loop dst1 dst2 gs d true = Ok gs' /\ gs' <> [] /\ Forall (fun g => 0 < len g) gs' /\ tot gs' = dst2 - d /\
      forall s, 0 <= s <= dst2 - d -> path gs' s = path gs s.
  Proof.
    induction gs as [|g r IH]; intros dst1 dst2 d F N D1 D2 T J; [congruence|]. inversion F as [|g0 r0 Fg Fr]; subst.
    pose proof (good_pos g Fg) as Gp. pose proof (good_len g Fg) as Gl. cbn [seg_loop bind]. rewrite (proj2 (Rltb_false (len g) epsilon)) by lra.
    rewrite (proj2 (Rleb_true dst1 (d + len g))) by lra. cbn [negb]. cbn in T. fold (tot r) in T.
    destruct (Rleb dst2 (d + len g)) eqn:C; [apply Rleb_true in C|apply Rleb_false in C].
    - set (y := 1 - (d + len g - dst2) / len g). assert (Y : y * len g = dst2 - d) by (unfold y; field; lra).
      assert (Y0 : 0 < y) by nra. assert (Y1 : y <= 1) by nra.
      assert (LS : len (seg g 0 y) = dst2 - d) by (rewrite seg_len by (auto; lra); lra).
      eexists. split; [reflexivity|]. split; [discriminate|]. split; [constructor; [lra|constructor]|]. split; [cbn; lra|].
      intros s S. rewrite (path_cons len smp none (seg g 0 y) []) by (first [lra|auto]). rewrite seg_smp, LS by (auto; lra). rewrite (path_cons len smp none g r) by (auto; right; lra). f_equal.
      replace (dst2 - d) with (y * len g) by lra. field. split; lra.
    - destruct r as [|h r']; [cbn in T; lra|]. destruct (IH dst1 dst2 (d + len g)) as (gs' & E & N' & P & L & Q); auto; try lra.
      + discriminate.
      + replace (dst2 - (d + len g)) with (dst2 - d - len g) by ring. apply joint_tail, J.
      + rewrite E. cbn [bind]. eexists. split; [reflexivity|]. split; [discriminate|]. split; [constructor; [lra|exact P]|].
        split; [cbn; fold (tot gs'); lra|]. intros s S. destruct (Rle_dec s (len g)) as [K|K].
        * rewrite !path_cons by (auto; lra). reflexivity.
        * rewrite !path_skip by (first [discriminate|assumption|lra]). apply Q. lra.
  Qed.
  Lemma loop_fresh gs : forall dst1 dst2 d, Forall good gs -> gs <> [] -> d <= dst1 -> dst1 < dst2 -> dst2 - d <= tot gs ->
    ~ jointA gs (dst1 - d) -> ~ jointA gs (dst2 - d) ->
    exists gs', loop dst1 dst2 gs d false = Ok gs' /\ gs' <> [] /\ Forall (fun g => 0 < len g) gs' /\ tot gs' = dst2 - dst1 /\
      forall s, 0 <= s <= dst2 - dst1 -> path gs' s = path gs (dst1 - d + s).
  Proof.
    induction gs as [|g r IH]; intros dst1 dst2 d F N D1 D2 T J1 J2; [congruence|]. inversion F as [|g0 r0 Fg Fr]; subst.
    pose proof (good_pos g Fg) as Gp. pose proof (good_len g Fg) as Gl. cbn [seg_loop bind]. rewrite (proj2 (Rltb_false (len g) epsilon)) by lra.
    cbn in T. fold (tot r) in T. destruct (Rleb dst1 (d + len g)) eqn:B; [apply Rleb_true in B|apply Rleb_false in B].
    - cbn [negb]. cbv zeta. set (x := 1 - (d + len g - dst1) / len g). assert (Xe : x * len g = dst1 - d) by (unfold x; field; lra).
      assert (X0 : 0 <= x) by nra. destruct (Rltb dst2 (d + len g)) eqn:C; [apply Rltb_true in C|apply Rltb_false in C].
      + set (y := 1 - (d + len g - dst2) / len g). assert (Y : y * len g = dst2 - d) by (unfold y; field; lra).
        assert (Y1 : y <= 1) by nra. assert (XY : x < y) by nra.
        assert (LS : len (seg g x y) = dst2 - dst1) by (rewrite seg_len by (auto; lra); lra).
        eexists. split; [reflexivity|]. split; [discriminate|]. split; [constructor; [lra|constructor]|]. split; [cbn; lra|].
        intros s S. rewrite (path_cons len smp none (seg g x y) []) by (first [lra|auto]). rewrite seg_smp, LS by (auto; lra). rewrite (path_cons len smp none g r) by (auto; right; lra). f_equal.
        replace (dst2 - dst1) with ((y - x) * len g) by lra. replace (dst1 - d) with (x * len g) by lra. field. split; lra.
      + assert (NE : r <> [] -> dst1 - d < len g). { intros K. destruct r as [|h r']; [congruence|]. pose proof (joint_head _ _ _ _ J1). lra. }
        assert (XL : x < 1). { destruct r as [|h r']; [cbn in T; nra|]. specialize (NE ltac:(discriminate)). nra. }
        assert (LS : len (seg g x 1) = len g - (dst1 - d)) by (rewrite seg_len by (auto; lra); lra).
        assert (HD : forall s, 0 <= s <= len g - (dst1 - d) -> smp (seg g x 1) (s / len (seg g x 1)) = smp g ((dst1 - d + s) / len g)).
        { intros s S. rewrite seg_smp, LS by (auto; lra). f_equal. replace (len g - (dst1 - d)) with ((1 - x) * len g) by lra. replace (dst1 - d) with (x * len g) by lra. field. split; lra. }
        destruct r as [|h r'].
        * cbn [seg_loop bind]. cbn in T. eexists. split; [reflexivity|]. split; [discriminate|]. split; [constructor; [nra|constructor]|]. split; [cbn; lra|].
          intros s S. rewrite !path_cons by (first [lra|nra|auto]). apply HD. lra.
        * specialize (NE ltac:(discriminate)). pose proof (joint_head _ _ _ _ J2) as NJ.
          destruct (loop_started (h :: r') dst1 dst2 (d + len g)) as (gs' & E & N' & P & L & Q); auto; try lra.
          { discriminate. } { replace (dst2 - (d + len g)) with (dst2 - d - len g) by ring. apply joint_tail, J2. }
          rewrite E. cbn [bind]. eexists. split; [reflexivity|]. split; [discriminate|]. split; [constructor; [lra|exact P]|].
          split; [cbn; fold (tot gs'); lra|]. intros s S. destruct (Rle_dec s (len g - (dst1 - d))) as [K|K].
          { rewrite path_cons by (first [lra|right; lra]). rewrite path_cons by (first [lra|right; lra]). apply HD. lra. }
          { rewrite (path_skip len smp none (seg g x 1)), (path_skip len smp none g) by (first [discriminate|assumption|lra]). rewrite LS, Q by lra. f_equal. lra. }
    - destruct r as [|h r']; [cbn in T; lra|]. destruct (IH dst1 dst2 (d + len g)) as (gs' & E & N' & P & L & Q); auto; try lra.
      + discriminate.
      + replace (dst1 - (d + len g)) with (dst1 - d - len g) by ring. apply joint_tail, J1.
      + replace (dst2 - (d + len g)) with (dst2 - d - len g) by ring. apply joint_tail, J2.
      + exists gs'. split; [exact E|]. split; [exact N'|]. split; [exact P|]. split; [exact L|].
        intros s S. rewrite Q by lra. rewrite (path_skip len smp none g) by (first [discriminate|lra]). f_equal. lra.
  Qed.
End Slice.
