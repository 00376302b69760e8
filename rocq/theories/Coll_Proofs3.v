From Coq Require Import Reals String Ascii List Bool Lia Lra Psatz.
From Verif Require Import Dict Coll_Model Coll_Spec Coll_Proofs Coll_Proofs2.
Import ListNotations.
Open Scope R_scope.
Open Scope list_scope.

(** ** decimal is injective *)
Open Scope nat_scope.
Fixpoint strval (s : string) (n : nat) : nat := match s with EmptyString => n | String c r => strval r (10 * n + (nat_of_ascii c - 48)) end.
Lemma decimal_aux_val f : forall n acc, n < f -> strval (decimal_aux f n acc) 0 = strval acc n.
Proof.
  assert (D : forall k, k < 10 -> nat_of_ascii (ascii_of_nat (48 + k)) - 48 = k).
  { intros k Hk. rewrite nat_ascii_embedding by lia. lia. }
  induction f as [|f IH]; intros n acc Hn; [lia|]. cbn [decimal_aux]. pose proof (Nat.mod_upper_bound n 10 ltac:(lia)) as Hm. destruct (Nat.ltb_spec n 10) as [L|L].
  - cbn [strval]. rewrite D by exact Hm. rewrite Nat.mod_small by exact L. reflexivity.
  - rewrite IH. 2:{ pose proof (Nat.div_lt n 10 ltac:(lia) ltac:(lia)). lia. }
    cbn [strval]. rewrite D by exact Hm. f_equal. pose proof (Nat.div_mod n 10 ltac:(lia)). lia.
Qed.
Lemma decimal_inj a b : decimal a = decimal b -> a = b.
Proof. intros E. unfold decimal in E. pose proof (decimal_aux_val (S a) a "" ltac:(lia)) as A. pose proof (decimal_aux_val (S b) b "" ltac:(lia)) as B. cbn [strval] in *. rewrite E in A. congruence. Qed.
Lemma append_inj (g a b : string) : (g ++ a = g ++ b)%string -> a = b.
Proof. induction g as [|c g IH]; cbn; auto. intros E. injection E as E. auto. Qed.
Lemma append_inj_r (a b e : string) : (a ++ e = b ++ e)%string -> a = b.
Proof.
  assert (L : forall x y, String.length (x ++ y)%string = String.length x + String.length y) by (induction x; intros; cbn; auto).
  revert b. induction a as [|c a IH]; intros [|d b] E; cbn in E; auto.
  - assert (X : String.length e = S (String.length b + String.length e)) by (rewrite <- L; rewrite E at 1; reflexivity). lia.
  - assert (X : S (String.length a + String.length e) = String.length e) by (rewrite <- L; rewrite <- E at 2; reflexivity). lia.
  - injection E as -> E. f_equal. apply IH, E.
Qed.
Open Scope R_scope.

Section Gearbox.
  Variables (g : string) (m sun pl ring w pa z : R) (num : nat).
  Definition default : iface := Iface "" "" (0, 0, 0) (0, 0, 0) (User CUSTOM 0 0).
  Definition box : heap := fun o => nth o (planetary g m sun pl ring w num pa z) default.
  Lemma box_planet i : (i < num)%nat -> box (2 + i)%nat = planet g m sun pl w pa z num i.
  Proof.
    intros L. unfold box, planetary. cbn [nth Nat.add]. rewrite nth_indep with (d' := planet g m sun pl w pa z num 0%nat) by (rewrite map_length, seq_length; exact L).
    rewrite map_nth, seq_nth by exact L. reflexivity.
  Qed.
  Lemma box_gear o : (o < 2 + num)%nat -> exists nm p n c, box o = gear nm p m n pa w c.
  Proof.
    intros L. destruct o as [|[|o]]; [unfold box, planetary; cbn; eauto|unfold box, planetary; cbn; eauto|]. change (S (S o)) with (2 + o)%nat. rewrite box_planet by lia. unfold planet. eauto.
  Qed.
  Lemma names_distinct : NoDup (map (fun o => name (box o)) (seq 0%nat (2 + num)%nat)).
  Proof.
    cbn [seq map Nat.add]. change (name (box 0%nat)) with (g ++ "_sun_teeth")%string. change (name (box 1%nat)) with (g ++ "_ring_teeth")%string.
    assert (P : forall o, In o (seq 2 num) -> exists i, name (box o) = (g ++ "_planet_" ++ decimal (S i) ++ "_teeth")%string /\ o = (2 + i)%nat).
    { intros o Ho. apply in_seq in Ho. exists (o - 2)%nat. replace o with (2 + (o - 2))%nat at 1 by lia. rewrite box_planet by lia. split; [reflexivity|lia]. }
    constructor; [|constructor].
    - intros [E|Hin]; [apply append_inj in E; discriminate|]. apply in_map_iff in Hin as (o & E & Ho). destruct (P o Ho) as (i & E' & _). rewrite E' in E. apply append_inj in E. discriminate.
    - intros Hin. apply in_map_iff in Hin as (o & E & Ho). destruct (P o Ho) as (i & E' & _). rewrite E' in E. apply append_inj in E. discriminate.
    - assert (Q : forall l, NoDup l -> (forall o, In o l -> In o (seq 2 num)) -> NoDup (map (fun o => name (box o)) l)).
      { induction l as [|o l IH]; intros N S; cbn [map]; [constructor|]. inversion N; subst. constructor.
        - intros Hin. apply in_map_iff in Hin as (o' & E & Ho'). destruct (P o (S o (or_introl eq_refl))) as (i & E1 & ->). destruct (P o' (S o' (or_intror Ho'))) as (i' & E2 & ->).
          rewrite E1, E2 in E. apply append_inj in E. apply append_inj in E. apply append_inj_r in E. apply decimal_inj in E. injection E as ->. contradiction.
        - apply IH; auto. intros o' Ho'. apply S. right. exact Ho'. }
      apply Q; auto. apply seq_NoDup.
  Qed.
  Lemma register_many_fresh H os : forall r l, ok H r l -> NoDup (map (fun o => name (H o)) (l ++ os)) -> snd (register_many H os r) = ROk tt /\ ok H (fst (register_many H os r)) (l ++ os).
  Proof.
    induction os as [|o os IH]; intros r l O N; cbn [register_many]; [rewrite app_nil_r; auto|].
    destruct (register_ok H o r l O) as [E O']. cbn [effect] in O'.
    assert (X : existsb (named H (name (H o))) l = false).
    { apply not_true_iff_false. intros X. apply existsb_exists in X as (x & Hx & En). unfold named in En. apply String.eqb_eq in En.
      rewrite map_app in N. cbn [map] in N. apply NoDup_remove_2 in N. apply N. apply in_or_app. left. rewrite <- En. apply (in_map (fun o => name (H o))). exact Hx. }
    rewrite X in *. rewrite E. replace (l ++ o :: os) with ((l ++ [o]) ++ os) in * by (rewrite <- app_assoc; reflexivity). apply IH; auto.
  Qed.
  Lemma box_ok : snd (register_many box (seq 0%nat (2 + num)%nat) empty) = ROk tt /\ ok box (fst (register_many box (seq 0%nat (2 + num)%nat) empty)) (seq 0%nat (2 + num)%nat).
  Proof. apply (register_many_fresh box (seq 0%nat (2 + num)%nat) empty []); [apply ok_empty|apply names_distinct]. Qed.
  Lemma box_compatible user a b : 0 <= m -> (a < 2 + num)%nat -> (b < 2 + num)%nat -> compatible user (box a) (box b) = true.
  Proof.
    intros M La Lb. destruct (box_gear a La) as (? & ? & ? & ? & ->). destruct (box_gear b Lb) as (? & ? & ? & ? & ->). cbn [compatible kind_data gear].
    replace (m - m) with 0 by ring. replace (pa - pa) with 0 by ring. rewrite Rabs_R0, !(proj2 (lt_false _ _)) by lra. reflexivity.
  Qed.
  Lemma orbit_norm i : (0 < num)%nat -> norm (sub (center (planet g m sun pl w pa z num i)) (0, 0, z)) = Rabs ((sun + pl) * m / 2).
  Proof.
    intros L. cbn [planet gear center]. unfold norm. rewrite <- sqrt_Rsqr_abs. f_equal. cbn.
    set (t := 2 * PI * INR i / INR num). pose proof (sin2_cos2 t) as S. unfold Rsqr in *. set (o := (sun + pl) * m / 2).
    replace ((o * cos t - 0) * (o * cos t - 0) + (o * sin t - 0) * (o * sin t - 0) + (z - z) * (z - z)) with (o * o * (sin t * sin t + cos t * cos t)) by ring.
    rewrite S. ring.
  Qed.
  Lemma z_parallel i j : axis i = (0, 0, 1) -> axis j = (0, 0, 1) ->
    overlaps (1 / 10) i j = lt (Rabs (dot (sub (center j) (center i)) (0, 0, 1))) (snd (bounding_cylinder i) / 2 + snd (bounding_cylinder j) / 2 + 1 / 10) &&
      lt (norm (sub (sub (center j) (center i)) (scale (dot (sub (center j) (center i)) (0, 0, 1)) (0, 0, 1)))) (fst (bounding_cylinder i) + fst (bounding_cylinder j) + 1 / 10).
  Proof.
    intros Ei Ej. unfold overlaps. rewrite Ei, Ej. destruct (bounding_cylinder i), (bounding_cylinder j). cbn [fst snd].
    assert (U : unit_axis (0, 0, 1) = (0, 0, 1)).
    { unfold unit_axis. replace (norm (0, 0, 1)) with 1 by (unfold norm; cbn; replace (0 * 0 + 0 * 0 + 1 * 1) with 1 by ring; symmetry; apply sqrt_1).
      destruct (lt _ _); auto. cbn. apply v3; field. }
    rewrite U. cbn [dot]. replace (0 * 0 + 0 * 0 + 1 * 1) with 1 by ring. rewrite Rabs_R1. rewrite (proj2 (lt_false _ _)) by lra. reflexivity.
  Qed.
  Lemma sun_planet_overlap i : 0 < m -> 0 <= sun -> 0 <= pl -> 0 <= w -> (i < num)%nat -> overlaps (1 / 10) (box 0%nat) (box (2 + i)%nat) = true.
  Proof.
    intros M S P W L. rewrite box_planet by exact L. change (box 0%nat) with (gear (g ++ "_sun_teeth") (g ++ "_SUN_GEAR") m sun pa w (0, 0, z)).
    rewrite z_parallel by reflexivity. apply andb_true_iff. rewrite !lt_true.
    change (center (gear (g ++ "_sun_teeth") (g ++ "_SUN_GEAR") m sun pa w (0, 0, z))) with (0, 0, z).
    assert (D : dot (sub (center (planet g m sun pl w pa z num i)) (0, 0, z)) (0, 0, 1) = 0) by (cbn; ring). rewrite D.
    assert (Q : sub (sub (center (planet g m sun pl w pa z num i)) (0, 0, z)) (scale 0 (0, 0, 1)) = sub (center (planet g m sun pl w pa z num i)) (0, 0, z)) by (cbn; apply v3; ring).
    rewrite Q, orbit_norm by lia. cbn [bounding_cylinder kind_data gear planet fst snd]. unfold outside_diameter, pitch_diameter.
    rewrite Rabs_R0, Rabs_right by (apply Rle_ge; assert (0 <= (sun + pl) * m) by (apply Rmult_le_pos; lra); lra). split; [lra|nra].
  Qed.
End Gearbox.
