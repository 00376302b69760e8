From Coq Require Import List Arith Bool Lia.
From Verif Require Import Cycle_Model Cycle_Spec.
Import ListNotations.

Lemma mem_In x l : mem x l = true <-> In x l.
Proof.
  unfold mem. rewrite existsb_exists. split.
  - intros (y & Hy & E). apply Nat.eqb_eq in E. subst. auto.
  - intros H. exists x. split; auto. apply Nat.eqb_refl.
Qed.
Lemma mem_not x l : mem x l = false <-> ~ In x l.
Proof. rewrite <- mem_In. destruct (mem x l); intuition congruence. Qed.
Lemma index_In x l : In x l -> exists i, index x l = Some i /\ exists r, skipn i l = x :: r.
Proof.
  induction l as [|y l IH]; intros H; [destruct H|]. simpl. destruct (Nat.eqb_spec y x) as [-> | Hne].
  - exists 0. split; auto. exists l. reflexivity.
  - destruct H as [H|H]; [congruence|]. destruct (IH H) as (i & E & r & Hr). rewrite E. exists (S i). split; [reflexivity|]. simpl. eauto.
Qed.

Section G.
  Variable g : nat -> list nat.
  Definition calls (a b : nat) : Prop := In b (g a).
  Lemma walk_skipn n l : walk calls l -> walk calls (skipn n l).
  Proof.
    revert l; induction n as [|n IH]; intros l H; [exact H|]. destruct l as [|x l]; [exact I|]. simpl. apply IH.
    destruct l; [exact I|]. apply H.
  Qed.
  (** finished nodes, last finished first: every callee is further down *)
  Fixpoint topo (fin : list nat) : Prop :=
    match fin with [] => True | x :: r => (forall y, calls x y -> In y r) /\ topo r end.
  (** rank of a node: number of nodes below *)
  Fixpoint rank (fin : list nat) (x : nat) : nat :=
    match fin with [] => 0 | y :: r => if Nat.eq_dec x y then S (length r) else rank r x end.
  Lemma rank_le fin x : rank fin x <= length fin.
  Proof. induction fin as [|y r IH]; simpl; [lia|]. destruct (Nat.eq_dec x y); lia. Qed.
  Lemma rank_edge fin x y : NoDup fin -> topo fin -> In x fin -> calls x y -> In y fin /\ rank fin y < rank fin x.
  Proof.
    induction fin as [|z r IH]; intros Hnd Ht Hx He; [destruct Hx|]. inversion Hnd; subst. destruct Ht as [Hz Ht].
    simpl. destruct (Nat.eq_dec x z) as [-> | Hxz].
    - pose proof (Hz _ He) as Hy. split; auto. destruct (Nat.eq_dec y z) as [-> | _]; [contradiction|]. pose proof (rank_le r y). lia.
    - destruct Hx as [Hx|Hx]; [congruence|]. destruct (IH H2 Ht Hx He) as [Hy Hr]. split; auto.
      destruct (Nat.eq_dec y z) as [-> | _]; [contradiction|]. exact Hr.
  Qed.
  Lemma rank_walk fin l : NoDup fin -> topo fin -> forall x, In x fin -> walk calls (x :: l) ->
    forall y, In y l -> rank fin y < rank fin x.
  Proof.
    intros Hnd Ht. induction l as [|z l IH]; intros x Hx Hw y Hy; [destruct Hy|].
    destruct Hw as [Hxz Hw]. destruct (rank_edge fin x z Hnd Ht Hx Hxz) as [Hz Hr].
    destruct Hy as [<- | Hy]; [exact Hr|]. specialize (IH z Hz Hw y Hy). lia.
  Qed.
  Lemma topo_acyclic fin l : NoDup fin -> topo fin -> is_cycle calls l -> forall x, In x l -> In x fin -> False.
  Proof.
    intros Hnd Ht (Hw & a & m & ->) x Hx Hfin.
    (* all nodes on the cycle after x are in fin; use start a: rotate *)
    assert (forall k x, walk calls (x :: k) -> In x fin -> forall y, In y k -> In y fin) as Hreach.
    { induction k as [|z k IH]; intros u Hu Huf y Hy; [destruct Hy|]. destruct Hu as [Huz Hu].
      destruct (rank_edge fin u z Hnd Ht Huf Huz) as [Hz _]. destruct Hy as [<- | Hy]; eauto. }
    assert (In a fin) as Ha.
    { destruct Hx as [<- | Hx]; [exact Hfin|].
      apply in_split in Hx as (p & q & Hpq).
      assert (walk calls (x :: q)) as Hwx.
      { pose proof (walk_skipn (length (a :: p)) _ Hw) as Hs. rewrite Hpq in Hs.
        change (a :: p ++ x :: q) with ((a :: p) ++ x :: q) in Hs. rewrite skipn_app, skipn_all, Nat.sub_diag in Hs. exact Hs. }
      destruct q as [|z q] using rev_ind; [apply app_inj_tail in Hpq as [_ ->]; exact Hfin|clear IHq].
      rewrite app_comm_cons, app_assoc in Hpq. apply app_inj_tail in Hpq as [_ ->].
      eapply Hreach; [exact Hwx|exact Hfin|]. apply in_or_app. right. left. reflexivity. }
    assert (In a (m ++ [a])) as Hin by (apply in_or_app; right; left; reflexivity).
    pose proof (rank_walk fin (m ++ [a]) Hnd Ht a Ha Hw a Hin). lia.
  Qed.

  (** ** The search *)
  Variable U : list nat.
  Hypothesis HU : forall a b, calls a b -> In b U.
  Definition unvisited (v : list nat) : nat := length (filter (fun x => negb (mem x v)) (nodup Nat.eq_dec U)).
  Lemma filter_len_le {A} (f h : A -> bool) l : (forall x, f x = true -> h x = true) -> length (filter f l) <= length (filter h l).
  Proof.
    intros H. induction l as [|x l IH]; simpl; [lia|]. destruct (f x) eqn:E; [rewrite (H _ E); simpl; lia|].
    destruct (h x); simpl; lia.
  Qed.
  Lemma unvisited_mono v v' : incl v v' -> unvisited v' <= unvisited v.
  Proof.
    intros H. apply filter_len_le. intros x Hx. apply negb_true_iff in Hx. apply negb_true_iff.
    apply mem_not in Hx. apply mem_not. intros Hi. apply Hx, H, Hi.
  Qed.
  Lemma unvisited_cons x v : In x U -> ~ In x v -> unvisited (x :: v) < unvisited v.
  Proof.
    intros Hx Hv. unfold unvisited.
    assert (In x (nodup Nat.eq_dec U)) as Hin by (apply nodup_In; auto).
    assert (NoDup (nodup Nat.eq_dec U)) as Hnd by apply NoDup_nodup.
    induction (nodup Nat.eq_dec U) as [|y l IH]; [destruct Hin|]. inversion Hnd; subst.
    cbn [filter]. destruct Hin as [-> | Hin].
    - assert (mem x (x :: v) = true) as -> by (apply mem_In; left; auto).
      assert (mem x v = false) as -> by (apply mem_not; auto). cbn [negb length].
      assert (length (filter (fun z => negb (mem z (x :: v))) l) <= length (filter (fun z => negb (mem z v)) l)); [|lia].
      apply filter_len_le. intros z Hz. apply negb_true_iff in Hz. apply negb_true_iff. apply mem_not in Hz. apply mem_not.
      intros Hi; apply Hz; right; auto.
    - specialize (IH Hin H2).
      assert (mem y (x :: v) = mem y v) as ->.
      { assert (y <> x) by congruence. simpl. destruct (Nat.eqb_spec y x); [contradiction|]. reflexivity. }
      destruct (negb (mem y v)); cbn [length]; lia.
  Qed.

  (** Between calls: the stack is the path, everything visited is on it or finished. *)
  Record Inv (s : dfs_st) : Prop := MkInv {
    i_path : NoDup (path s);
    i_walk : walk calls (path s);
    i_stack : forall x, In x (rec_stack s) <-> In x (path s);
    i_sub : incl (path s) (visited s);
    i_cyc : Forall (is_cycle calls) (cycles s) }.
  Definition Top (s : dfs_st) : Prop :=
    cycles s = [] -> exists fin, NoDup fin /\ topo fin /\ (forall x, In x (visited s) <-> In x fin \/ In x (path s)) /\
      (forall x, In x fin -> ~ In x (path s)).
  Definition ext (s s' : dfs_st) : Prop :=
    path s' = path s /\ incl (visited s) (visited s') /\ (exists l, cycles s' = cycles s ++ l).
  Lemma ext_refl s : ext s s.
  Proof. repeat split; auto; [apply incl_refl|]. exists []. rewrite app_nil_r. auto. Qed.
  Lemma ext_trans a b c : ext a b -> ext b c -> ext a c.
  Proof.
    intros (P1 & V1 & l1 & C1) (P2 & V2 & l2 & C2). repeat split; [congruence|eapply incl_tran; eauto|].
    exists (l1 ++ l2). rewrite C2, C1, app_assoc. reflexivity.
  Qed.
  (** node may be searched: the last of the path calls it *)
  Definition next (s : dfs_st) (x : nat) : Prop := walk calls (path s ++ [x]).

  Definition Done (x : nat) (s : dfs_st) : Prop := In x (visited s) /\ (cycles s = [] -> ~ In x (path s)).
  Lemma Done_ext x s s' : ext s s' -> Done x s -> Done x s'.
  Proof.
    intros (P & V & l & C) [H1 H2]. split; [auto|]. intros Hn. rewrite P. apply H2. rewrite C in Hn. destruct (cycles s); auto. discriminate.
  Qed.
  Lemma for_each_spec f l : forall s (P : dfs_st -> Prop),
    P s -> (forall x s0, In x l -> P s0 -> exists s1, f x s0 = Some s1 /\ ext s0 s1 /\ P s1 /\ Done x s1) ->
    exists s', for_each f l s = Some s' /\ ext s s' /\ P s' /\ (forall x, In x l -> Done x s').
  Proof.
    induction l as [|x l IH]; intros s P Hs H; simpl.
    - exists s. split; [reflexivity|]. split; [apply ext_refl|]. split; auto. intros x [].
    - destruct (H x s (or_introl eq_refl) Hs) as (s1 & E1 & X1 & P1 & V1). rewrite E1.
      destruct (IH s1 P P1) as (s2 & E2 & X2 & P2 & V2).
      { intros y s0 Hy. apply H. right; auto. }
      exists s2. split; auto. split; [eapply ext_trans; eauto|]. split; auto. intros y [<- | Hy]; auto.
      eapply Done_ext; eauto.
  Qed.
  Lemma pop_last l (x : nat) : pop (l ++ [x]) = l.
  Proof. apply removelast_last. Qed.
  Lemma NoDup_snoc (l : list nat) x : NoDup l -> ~ In x l -> NoDup (l ++ [x]).
  Proof.
    induction 1 as [|y l Hy Hl IH]; intros Hx; simpl; [constructor; [auto|constructor]|].
    constructor; [|apply IH; intros H; apply Hx; right; auto]. rewrite in_app_iff. intros [H|[-> | []]]; [auto|].
    apply Hx. left; auto.
  Qed.
  Lemma walk_snoc l x y : walk calls (l ++ [x]) -> calls x y -> walk calls ((l ++ [x]) ++ [y]).
  Proof.
    induction l as [|a l IH]; simpl; [auto|]. intros H Hc. destruct l as [|b l]; simpl in *; [tauto|].
    split; [tauto|]. apply IH; tauto.
  Qed.
  Lemma In_remove x y l : In y (set_remove x l) <-> In y l /\ y <> x.
  Proof. unfold set_remove. rewrite filter_In, negb_true_iff, Nat.eqb_neq. tauto. Qed.

  Lemma find_ok fuel : forall x s, In x U -> Inv s -> Top s -> next s x -> unvisited (visited s) < fuel ->
    exists s', find_cycles g fuel x s = Some s' /\ ext s s' /\ (Inv s' /\ Top s') /\ Done x s'.
  Proof.
    induction fuel as [|k IH]; intros x s HxU HI HT Hn Hf; [lia|]. cbn [find_cycles].
    destruct (mem x (rec_stack s)) eqn:E1.
    - apply mem_In in E1. apply (i_stack _ HI) in E1. destruct (index_In _ _ E1) as (i & Ei & r & Hr). rewrite Ei.
      eexists. split; [reflexivity|]. split; [repeat split; simpl; [apply incl_refl|eauto]|].
      assert (is_cycle calls (skipn i (path s) ++ [x])) as Hc.
      { split; [|rewrite Hr; exists x, r; reflexivity].
        assert (i <= length (path s)) as Hi.
        { apply Nat.nlt_ge. intros Hlt. rewrite skipn_all2 in Hr by lia. discriminate. }
        replace (skipn i (path s) ++ [x]) with (skipn i (path s ++ [x])).
        - apply walk_skipn. exact Hn.
        - rewrite skipn_app. replace (i - length (path s)) with 0 by lia. reflexivity. }
      split; [split|split].
      + destruct HI. constructor; simpl; auto. apply Forall_app. auto.
      + intros Hnil. simpl in Hnil. destruct (cycles s); discriminate.
      + simpl. apply (i_sub _ HI). exact E1.
      + simpl. intros Hnil. destruct (cycles s); discriminate.
    - apply mem_not in E1. assert (~ In x (path s)) as Hnp by (rewrite <- (i_stack _ HI); exact E1).
      destruct (mem x (visited s)) eqn:E2.
      + apply mem_In in E2. exists s. split; [reflexivity|]. split; [apply ext_refl|]. split; [auto|]. split; auto.
      + apply mem_not in E2.
        set (s0 := DfsSt (x :: visited s) (x :: rec_stack s) (path s ++ [x]) (cycles s)).
        assert (Inv s0) as HI0.
        { destruct HI. constructor; simpl; auto.
          - apply NoDup_snoc; auto.
          - intros y. simpl. rewrite in_app_iff. simpl. rewrite i_stack0. tauto.
          - intros y Hy. apply in_app_iff in Hy as [Hy|[<- | []]]; [right; auto|left; auto]. }
        assert (Top s0) as HT0.
        { intros Hnil. destruct (HT Hnil) as (fin & F1 & F2 & F3 & F4). exists fin. split; auto. split; auto. simpl. split.
          - intros y. rewrite in_app_iff. simpl. rewrite F3. tauto.
          - intros y Hy Hp. apply in_app_iff in Hp as [Hp|[<- | []]]; [eapply F4; eauto|]. apply E2. apply F3. auto. }
        destruct (for_each_spec (find_cycles g k) (g x) s0
                    (fun t => Inv t /\ Top t /\ path t = path s ++ [x] /\ incl (x :: visited s) (visited t)))
          as (s1 & Es1 & X1 & (I1 & T1 & P1 & V1) & D1).
        { split; auto. split; auto. split; [reflexivity|apply incl_refl]. }
        { intros y t Hy (It & Tt & Pt & Vt).
          destruct (IH y t) as (t' & Et & Xt & [It' Tt'] & Dt); auto.
          - eapply HU. exact Hy.
          - unfold next. rewrite Pt. apply walk_snoc; [exact Hn|exact Hy].
          - pose proof (unvisited_mono _ _ Vt). pose proof (unvisited_cons x (visited s) HxU E2). lia.
          - exists t'. split; [exact Et|]. split; [exact Xt|]. split; [|exact Dt]. destruct Xt as (Xp & Xv & _).
            split; [auto|]. split; [auto|]. split; [congruence|]. eapply incl_tran; eauto. }
        rewrite Es1. eexists. split; [reflexivity|].
        destruct X1 as (_ & _ & l1 & C1). simpl in C1.
        split; [|split; [split|]].
        * split; [simpl; rewrite P1; apply pop_last|]. split; [intros y Hy; apply V1; right; auto|]. exists l1. exact C1.
        * destruct HI, I1. constructor; simpl; rewrite ?P1, ?pop_last; auto.
          -- intros y. rewrite In_remove, i_stack1, P1, in_app_iff. simpl. split; [|].
             ++ intros [[Hy|[Hy|[]]] Hne]; congruence.
             ++ intros Hy. split; auto. intros ->. auto.
          -- intros y Hy. apply V1. right. auto.
        * intros Hnil. simpl in Hnil. destruct (T1 Hnil) as (fin & F1 & F2 & F3 & F4). exists (x :: fin). simpl.
          rewrite P1, pop_last in *. split; [|split; [split; auto|split]].
          -- constructor; auto. intros Hx. apply (F4 _ Hx). apply in_or_app. right. left. auto.
          -- intros y Hy. destruct (D1 y Hy) as [Dv Dp]. specialize (Dp Hnil). apply F3 in Dv as [Dv|Dv]; [auto|]. rewrite P1 in Dp. contradiction.
          -- intros y. rewrite F3, in_app_iff. simpl. tauto.
          -- intros y [<- | Hy]; auto. intros Hp. apply (F4 _ Hy). apply in_or_app. auto.
        * split; simpl; [apply V1; left; auto|]. intros _. rewrite P1, pop_last. exact Hnp.
  Qed.
End G.

Lemma check_ok g roots : (forall a b, In b (g a) -> In b roots) ->
  exists cyc, check_recursion g roots = Some cyc /\ Forall (is_cycle (calls g)) cyc /\
    (cyc = [] <-> ~ recursive (calls g)).
Proof.
  intros HU. unfold check_recursion.
  assert (forall v, unvisited roots v < S (S (length roots))) as Hfuel.
  { intros v. unfold unvisited. pose proof (filter_len_le (fun x => negb (mem x v)) (fun _ => true) (nodup Nat.eq_dec roots)) as H.
    assert (length (filter (fun _ : nat => true) (nodup Nat.eq_dec roots)) <= length roots) as H2.
    { clear. induction roots as [|x l IH]; simpl; [lia|]. destruct (in_dec Nat.eq_dec x l); simpl; lia. }
    specialize (H (fun _ _ => eq_refl)). lia. }
  destruct (for_each_spec (start g (S (S (length roots)))) roots (DfsSt [] [] [] [])
              (fun t => Inv g t /\ Top g t /\ path t = [])) as (s & E & _ & (HI & HT & HP) & HD).
  - split; [|split; [|reflexivity]].
    + constructor; simpl; auto; [constructor|tauto|intros x []].
    + intros _. exists []. split; [constructor|]. split; [exact I|]. simpl. split; tauto.
  - intros x s0 Hx (I0 & T0 & P0). unfold start. destruct (mem x (visited s0)) eqn:Em.
    + apply mem_In in Em. exists s0. split; auto. split; [apply ext_refl|]. split; auto. split; auto. rewrite P0. auto.
    + replace (DfsSt (visited s0) (rec_stack s0) [] (cycles s0)) with s0 by (destruct s0; simpl in *; congruence).
      destruct (find_ok g roots HU (S (S (length roots))) x s0 Hx I0 T0) as (s1 & E1 & X1 & [I1 T1] & D1).
      * unfold next. rewrite P0. exact I.
      * apply Hfuel.
      * rewrite E1. exists s1. split; auto. split; auto. split; [|exact D1]. split; auto. split; auto. destruct X1 as [X1 _]. congruence.
  - rewrite E. exists (cycles s). split; [reflexivity|]. split; [apply (i_cyc _ _ HI)|]. split.
    + intros Hnil [l Hl]. destruct (HT Hnil) as (fin & F1 & F2 & F3 & F4).
      pose proof Hl as (Hw & a & m & ->).
      assert (In a roots) as Ha.
      { clear - Hw HU. revert Hw. generalize a at 1. induction m as [|b m IH]; intros c Hw; simpl in Hw.
        - apply (HU c). apply Hw.
        - destruct Hw as [_ Hw]. apply (IH b). exact Hw. }
      destruct (HD a Ha) as [Hv _]. apply F3 in Hv as [Hv|Hv]; [|rewrite HP in Hv; destruct Hv].
      eapply (topo_acyclic g fin); eauto. left. reflexivity.
    + intros Hno. destruct (cycles s) as [|c cs] eqn:Ec; auto. exfalso. apply Hno. exists c.
      pose proof (i_cyc _ _ HI) as Hc. rewrite Ec in Hc. inversion Hc. auto.
Qed.
