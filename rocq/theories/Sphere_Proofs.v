(** addVertex and the hash. *)
From Coq Require Import Reals List Bool ZArith Lra Lia Permutation Sorted.
From Verif Require Import Xform_Model Xform_Proofs Fig_Model Fig_Proofs Fig_Proofs2 Solid_Model Solid_Spec Prim_Model Dict Sphere_Model Sphere_Spec.
Import ListNotations.
Open Scope R_scope.

Lemma num_eqb_spec a b : num_eqb a b = true <-> a = b.
Proof.
  destruct a as [a1 a2], b as [b1 b2]. unfold num_eqb. cbn [fst snd]. rewrite andb_true_iff, eqb_true_iff, Z.eqb_eq.
  split; [intros [-> ->]; reflexivity|intros [= -> ->]; auto].
Qed.
Lemma key_eqb_spec a b : key_eqb a b = true <-> a = b.
Proof.
  destruct a as [[a1 a2] a3], b as [[b1 b2] b3]. unfold key_eqb. cbn [fst snd]. rewrite !andb_true_iff, !num_eqb_spec.
  split; [intros [[-> ->] ->]; reflexivity|intros [= -> -> ->]; auto].
Qed.

Definition inc (l : list nat) : Prop := StronglySorted lt l.
Definition hash_ok (H : vhash) : Prop := forall k l, dget key_eqb k H = Some l -> inc l.

Definition hit (nv : vec) (vs : list vec) (i : nat) : Prop := exists v, nth_error vs i = Some v /\ vclose nv v = true.
Definition miss (nv : vec) (vs : list vec) (i : nat) : Prop := forall v, nth_error vs i = Some v -> vclose nv v = false.
Lemma probe_spec nv vs inds : forall acc,
  match probe nv vs inds acc with
  | inl i => exists l1 l2, inds = l1 ++ i :: l2 /\ (forall j, In j l1 -> miss nv vs j) /\ hit nv vs i
  | inr r => r = rev acc ++ filter (fun i => Nat.ltb i (length vs)) inds /\ (forall j, In j inds -> miss nv vs j)
  end.
Proof.
  induction inds as [|i rest IH]; intros acc; cbn [probe].
  - split; [rewrite app_nil_r; reflexivity|intros j []].
  - destruct (nth_error vs i) as [v|] eqn:E.
    + destruct (vclose nv v) eqn:C.
      * exists [], rest. split; [reflexivity|]. split; [intros j []|]. exists v. auto.
      * assert (Mi : miss nv vs i) by (intros v' Hv; congruence).
        specialize (IH (i :: acc)). destruct (probe nv vs rest (i :: acc)) as [j|r].
        -- destruct IH as (l1 & l2 & -> & A & B). exists (i :: l1), l2. split; [reflexivity|]. split; [|exact B].
           intros k [<-|Hk]; auto.
        -- destruct IH as [-> A]. split; [|intros k [<-|Hk]; auto].
           cbn [filter rev]. assert (L : (i < length vs)%nat) by (apply nth_error_Some; congruence).
           apply Nat.ltb_lt in L. rewrite L, <- app_assoc. reflexivity.
    + assert (Mi : miss nv vs i) by (intros v' Hv; congruence).
      specialize (IH acc). destruct (probe nv vs rest acc) as [j|r].
      * destruct IH as (l1 & l2 & -> & A & B). exists (i :: l1), l2. split; [reflexivity|]. split; [|exact B].
        intros k [<-|Hk]; auto.
      * destruct IH as [-> A]. split; [|intros k [<-|Hk]; auto].
        cbn [filter]. apply nth_error_None in E. apply Nat.ltb_ge in E. rewrite E. reflexivity.
Qed.
Lemma vclose_refl v : vclose v v = true.
Proof.
  unfold vclose, close, mag, sub. cbn [vx vy vz]. replace (_ * _ + _ * _ + _ * _) with 0 by ring. rewrite sqrt_0.
  unfold Rltb. destruct (Rlt_dec _ _) as [|n]; [reflexivity|]. exfalso. apply n. rewrite Rminus_0_r, Rabs_R0. unfold epsilon. lra.
Qed.

Lemma inc_snoc l n : inc l -> Forall (fun i => (i < n)%nat) l -> inc (l ++ [n]).
Proof.
  induction l as [|a l IH]; intros I F; cbn [app]; [repeat constructor|].
  inversion I as [|? ? I1 I2]; subst. inversion F as [|? ? F1 F2]; subst. constructor; [apply IH; auto|].
  apply Forall_app. split; [exact I2|constructor; [exact F1|constructor]].
Qed.
Lemma inc_filter f l : inc l -> inc (filter f l).
Proof.
  induction l as [|a l IH]; intros I; cbn [filter]; [constructor|]. inversion I as [|? ? I1 I2]; subst.
  destruct (f a); [|auto]. constructor; [apply IH; exact I1|]. rewrite Forall_forall in I2. apply Forall_forall. intros x Hx. apply filter_In in Hx as [Hx _]. apply I2. exact Hx.
Qed.
Lemma filter_lt_Forall n l : Forall (fun i => (i < n)%nat) (filter (fun i => Nat.ltb i n) l).
Proof. apply Forall_forall. intros x Hx. apply filter_In in Hx as [_ Hx]. apply Nat.ltb_lt. exact Hx. Qed.
Lemma inc_before l1 i l2 j : inc (l1 ++ i :: l2) -> In j l1 -> (j < i)%nat.
Proof.
  induction l1 as [|a l1 IH]; intros I Hj; [destruct Hj|]. cbn [app] in I. inversion I as [|? ? I1 I2]; subst.
  destruct Hj as [<-|Hj]; [|auto]. rewrite Forall_forall in I2. apply I2. apply in_or_app. right. left. reflexivity.
Qed.

(** nv is filed: looking it up gives i, now and later *)
Definition filed (vs : list vec) (H : vhash) (nv : vec) (i : nat) : Prop :=
  exists l1 l2, dget key_eqb (vkey nv) H = Some (l1 ++ i :: l2) /\ (forall j, In j l1 -> miss nv vs j) /\ hit nv vs i.
Lemma hit_lt nv vs i : hit nv vs i -> (i < length vs)%nat.
Proof. intros (v & E & _). apply nth_error_Some. congruence. Qed.
Lemma hit_app nv vs ws i : hit nv vs i -> hit nv (vs ++ ws) i.
Proof. intros (v & E & C). exists v. split; [|exact C]. rewrite nth_error_app1; [exact E|apply nth_error_Some; congruence]. Qed.
Lemma filed_unique vs H nv i j : filed vs H nv i -> filed vs H nv j -> i = j.
Proof.
  intros (l1 & l2 & E & M & Hi) (l1' & l2' & E' & M' & Hj). rewrite E in E'.
  assert (Q : l1 ++ i :: l2 = l1' ++ j :: l2') by congruence. clear E E'.
  revert l1' Q M'. induction l1 as [|a l1 IH]; intros l1' Q M'.
  - destruct l1' as [|b l1']; cbn [app] in Q; [congruence|]. injection Q as -> Q. destruct Hi as (v & Ev & Cv).
    rewrite (M' b (or_introl eq_refl) v Ev) in Cv. discriminate.
  - destruct l1' as [|b l1']; cbn [app] in Q.
    + injection Q as -> Q. destruct Hj as (v & Ev & Cv). rewrite (M j (or_introl eq_refl) v Ev) in Cv. discriminate.
    + injection Q as -> Q. apply (IH (fun k Hk => M k (or_intror Hk)) l1' Q (fun k Hk => M' k (or_intror Hk))).
Qed.

Lemma addVertex_spec nv nn vs ns H i m' H' : hash_ok H -> addVertex nv nn (vs, ns) H = (i, m', H') ->
  hash_ok H' /\ filed (fst m') H' nv i /\
  (m' = (vs, ns) \/ m' = (vs ++ [nv], ns ++ [nn]) /\ i = length vs) /\
  (forall p j, filed vs H p j -> filed (fst m') H' p j).
Proof.
  intros OK E. unfold addVertex in E.
  assert (APP : forall valid, inc valid -> Forall (fun i => (i < length vs)%nat) valid -> (forall j, In j valid -> miss nv vs j) ->
     (forall p j, filed vs H p j -> vkey p = vkey nv -> exists l1 l2, valid = l1 ++ j :: l2 /\ (forall k, In k l1 -> miss p vs k)) ->
     let H' := dset key_eqb (vkey nv) (valid ++ [length vs]) H in
     hash_ok H' /\ filed (vs ++ [nv]) H' nv (length vs) /\ (forall p j, filed vs H p j -> filed (vs ++ [nv]) H' p j)).
  { intros valid I F M P H1. assert (LT : forall k, In k valid -> (k < length vs)%nat) by (apply Forall_forall; exact F).
    split; [|split].
    - intros k l. unfold H1. rewrite (dget_set _ key_eqb_spec). destruct (key_eqb k (vkey nv)); [|apply OK].
      intros Q. assert (l = valid ++ [length vs]) as -> by congruence. apply inc_snoc; auto.
    - exists valid, []. split; [unfold H1; apply (dget_set_same _ key_eqb_spec)|]. split.
      + intros j Hj v Hv. rewrite nth_error_app1 in Hv by auto. apply (M j Hj v Hv).
      + exists nv. split; [|apply vclose_refl]. rewrite nth_error_app2, Nat.sub_diag by lia. reflexivity.
    - intros p j Fp. pose proof Fp as (l1 & l2 & G & Mp & Hp). pose proof (hit_lt _ _ _ Hp) as Lj.
      destruct (key_eqb (vkey p) (vkey nv)) eqn:K.
      + apply key_eqb_spec in K. destruct (P p j Fp K) as (k1 & k2 & -> & Mk). exists k1, (k2 ++ [length vs]).
        split; [unfold H1; rewrite K, (dget_set_same _ key_eqb_spec), <- app_assoc; reflexivity|]. split; [|apply hit_app; exact Hp].
        intros k Hk v Hv. rewrite nth_error_app1 in Hv; [apply (Mk k Hk v Hv)|]. apply LT. apply in_or_app. auto.
      + exists l1, l2. split; [unfold H1; rewrite (dget_set _ key_eqb_spec), K; exact G|]. split; [|apply hit_app; exact Hp].
        intros k Hk v Hv. pose proof (inc_before _ _ _ _ (OK _ _ G) Hk) as Lk. rewrite nth_error_app1 in Hv by lia. apply (Mp k Hk v Hv). }
  destruct (dget key_eqb (vkey nv) H) as [inds|] eqn:G.
  - pose proof (probe_spec nv vs inds []) as PS. destruct (probe nv vs inds []) as [k|valid] eqn:P.
    + assert (k = i /\ m' = (vs, ns) /\ H' = H) as (-> & -> & ->) by (split; [|split]; congruence). cbn [fst].
      destruct PS as (l1 & l2 & -> & M & Hi). split; [exact OK|]. split; [exists l1, l2; auto|]. split; [auto|auto].
    + destruct PS as [-> M]. cbn [rev app] in E.
      assert (i = length vs /\ m' = (vs ++ [nv], ns ++ [nn])) as [-> ->] by (split; congruence).
      destruct (APP (filter (fun i => Nat.ltb i (length vs)) inds)) as (A & B & C).
      * apply inc_filter. apply (OK _ _ G).
      * apply filter_lt_Forall.
      * intros j Hj. apply filter_In in Hj as [Hj _]. auto.
      * intros p j Fp K. pose proof Fp as (l1 & l2 & G' & Mp & Hp). rewrite K, G in G'. assert (inds = l1 ++ j :: l2) as -> by congruence.
        exists (filter (fun i => Nat.ltb i (length vs)) l1), (filter (fun i => Nat.ltb i (length vs)) l2).
        split; [|intros k Hk; apply filter_In in Hk as [Hk _]; auto].
        rewrite filter_app. cbn [filter]. pose proof (hit_lt _ _ _ Hp) as Lj. apply Nat.ltb_lt in Lj. rewrite Lj. reflexivity.
      * assert (H' = dset key_eqb (vkey nv) (filter (fun i => Nat.ltb i (length vs)) inds ++ [length vs]) H) as -> by congruence.
        cbn [fst]. split; [exact A|]. split; [exact B|]. split; [right; auto|exact C].
  - assert (i = length vs /\ m' = (vs ++ [nv], ns ++ [nn]) /\ H' = dset key_eqb (vkey nv) ([] ++ [length vs]) H) as (-> & -> & ->) by (split; [|split]; cbn [app]; congruence).
    destruct (APP []) as (A & B & C); [constructor|constructor|intros j []| |].
    + intros p j (l1 & l2 & G' & _) K. rewrite K, G in G'. discriminate.
    + cbn [fst]. split; [exact A|]. split; [exact B|]. split; [right; auto|exact C].
Qed.
Lemma history_ok H : hash_history H -> hash_ok H.
Proof.
  induction 1 as [|nv nn [vs ns] H i m' H' HH IH E]; [intros k l; discriminate|]. apply (addVertex_spec _ _ _ _ _ _ _ _ IH E).
Qed.
