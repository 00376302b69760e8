From Coq Require Import Reals List Bool Arith Permutation Lra Lia.
From Verif Require Import Xform_Model Xform_Proofs Oct_Model Oct_Spec Oct_Proofs.
Import ListNotations.
Open Scope R_scope.
Open Scope list_scope.

Definition meets (th : bool) (b c : box) : Prop :=
  meet2 (vx (lo b)) (vx (hi b)) (vx (lo c)) (vx (hi c)) /\ meet2 (vy (lo b)) (vy (hi b)) (vy (lo c)) (vy (hi c)) /\
  (th = true -> meet2 (vz (lo b)) (vz (hi b)) (vz (lo c)) (vz (hi c))).
Lemma boxoverlap2_iff b c th : proper th b -> proper th c -> (boxoverlap2 b c th = true <-> meets th b c).
Proof.
  intros (Bx & By & Bz) (Cx & Cy & Cz). unfold boxoverlap2, meets.
  assert (XY' : int2D b c XY = true <-> meet2 (vx (lo b)) (vx (hi b)) (vx (lo c)) (vx (hi c)) /\ meet2 (vy (lo b)) (vy (hi b)) (vy (lo c)) (vy (hi c))) by (rewrite int2D_int2; apply int2_iff; assumption).
  destruct th; cbn [negb orb andb].
  - specialize (Bz eq_refl). specialize (Cz eq_refl).
    assert (YZ' : int2D b c YZ = true <-> meet2 (vy (lo b)) (vy (hi b)) (vy (lo c)) (vy (hi c)) /\ meet2 (vz (lo b)) (vz (hi b)) (vz (lo c)) (vz (hi c))) by (rewrite int2D_int2; apply int2_iff; assumption).
    assert (XZ' : int2D b c XZ = true <-> meet2 (vx (lo b)) (vx (hi b)) (vx (lo c)) (vx (hi c)) /\ meet2 (vz (lo b)) (vz (hi b)) (vz (lo c)) (vz (hi c))) by (rewrite int2D_int2; apply int2_iff; assumption).
    match goal with |- context [if ?x then false else _] => destruct x eqn:E1 end.
    + apply orb_true_iff in E1. rewrite !andb_true_iff, !Rltb_true in E1. unfold meet2. split; [discriminate|]. intros (X & Y & Z). exfalso. lra.
    + match goal with |- context [if ?x then true else _] => destruct x eqn:E2 end.
      * apply orb_true_iff in E2. unfold Rgeb in E2. rewrite !andb_true_iff, !Rleb_true in E2. unfold meet2. split; auto. intros _. clear XY' YZ' XZ' E1. lra.
      * rewrite !andb_true_iff, XY', YZ', XZ'. tauto.
  - rewrite !andb_true_r.
    match goal with |- context [if ?x then false else _] => destruct x eqn:E1 end.
    + apply orb_true_iff in E1. rewrite !andb_true_iff, !Rltb_true in E1. unfold meet2. split; [discriminate|]. intros (X & Y & Z). exfalso. lra.
    + match goal with |- context [if ?x then true else _] => destruct x eqn:E2 end.
      * apply orb_true_iff in E2. unfold Rgeb in E2. rewrite !andb_true_iff, !Rleb_true in E2. unfold meet2. split; auto. intros _. clear XY' E1. split; [lra|]. split; [lra|discriminate].
      * rewrite XY'. split; [intros [X Y]; split; auto; split; auto; discriminate|tauto].
Qed.
Lemma inside_proper th b p : inside th b p -> proper th b.
Proof. intros (X & Y & Z). unfold proper. split; [lra|]. split; [lra|]. intros T. specialize (Z T). lra. Qed.
Lemma meets_overlap th b c : proper th b -> proper th c -> (meets th b c <-> overlap th b c).
Proof.
  intros (Bx & By & Bz) (Cx & Cy & Cz). split.
  - intros (X & Y & Z). exists (mkv (Rmax (vx (lo b)) (vx (lo c))) (Rmax (vy (lo b)) (vy (lo c))) (Rmax (vz (lo b)) (vz (lo c))) 1). unfold meet2, inside in *. cbn [vx vy vz].
    unfold Rmax. destruct (Rle_dec (vx (lo b)) (vx (lo c))), (Rle_dec (vy (lo b)) (vy (lo c))); (split; (split; [lra|]; split; [lra|]; intros T; specialize (Bz T); specialize (Cz T); specialize (Z T); destruct (Rle_dec (vz (lo b)) (vz (lo c))); lra)).
  - intros (p & (X & Y & Z) & (X' & Y' & Z')). unfold meets, meet2. split; [lra|]. split; [lra|]. intros T. specialize (Z T). specialize (Z' T). lra.
Qed.
Lemma overlap_true th b c p : inside th b p -> inside th c p -> boxoverlap2 b c th = true.
Proof.
  intros B C. pose proof (inside_proper _ _ _ B) as PB. pose proof (inside_proper _ _ _ C) as PC. apply boxoverlap2_iff; auto. apply meets_overlap; auto. exists p. auto.
Qed.
Lemma boxoverlap2_spec th b c : proper th b -> proper th c -> (boxoverlap2 b c th = true <-> overlap th b c).
Proof. intros B C. rewrite boxoverlap2_iff by auto. apply meets_overlap; auto. Qed.

(** ** Children *)
Lemma quarter_child b c z0 z1 p (e : box) th : inside false b p -> inside false e p -> (th = true -> z0 <= vz p <= z1) ->
  exists j b', nth_error (quarter b c z0 z1) j = Some b' /\ inside th b' p /\ In j (bbox2quad e e c) /\ (j < 4)%nat.
Proof.
  intros (X & Y & _) (X' & Y' & Z') Hz. unfold bbox2quad. rewrite (overlap_true false e e p) by (unfold inside; auto). cbn [negb].
  assert (K : forall j b', nth_error (quarter b c z0 z1) j = Some b' -> vx (lo b') <= vx p <= vx (hi b') -> vy (lo b') <= vy p <= vy (hi b') -> vz (lo b') = z0 -> vz (hi b') = z1 -> inside th b' p).
  { intros j b' _ Hx Hy L H. unfold inside. rewrite L, H. auto. }
  destruct (Rlt_dec (vx p) (vx c)) as [Px|Px]; destruct (Rlt_dec (vy p) (vy c)) as [Py|Py].
  - exists 2%nat, (Box (point (vx (lo b)) (vy (lo b)) z0) (point (vx c) (vy c) z1)). split; [reflexivity|]. split; [apply (K 2%nat); auto; cbn; lra|]. split; [|lia].
    apply in_or_app. left. assert (A : Rltb (vx (lo e)) (vx c) = true) by (apply Rltb_true; lra). assert (B : Rltb (vy (lo e)) (vy c) = true) by (apply Rltb_true; lra). rewrite A, B. left. reflexivity.
  - exists 1%nat, (Box (point (vx (lo b)) (vy c) z0) (point (vx c) (vy (hi b)) z1)). split; [reflexivity|]. split; [apply (K 1%nat); auto; cbn; lra|]. split; [|lia].
    apply in_or_app. left. assert (A : Rltb (vx (lo e)) (vx c) = true) by (apply Rltb_true; lra). assert (B : Rgeb (vy (hi e)) (vy c) = true) by (apply Rleb_true; lra). rewrite A, B. apply in_or_app. right. left. reflexivity.
  - exists 3%nat, (Box (point (vx c) (vy (lo b)) z0) (point (vx (hi b)) (vy c) z1)). split; [reflexivity|]. split; [apply (K 3%nat); auto; cbn; lra|]. split; [|lia].
    apply in_or_app. right. assert (A : Rgeb (vx (hi e)) (vx c) = true) by (apply Rleb_true; lra). assert (B : Rltb (vy (lo e)) (vy c) = true) by (apply Rltb_true; lra). rewrite A, B. left. reflexivity.
  - exists 0%nat, (Box (point (vx c) (vy c) z0) (point (vx (hi b)) (vy (hi b)) z1)). split; [reflexivity|]. split; [apply (K 0%nat); auto; cbn; lra|]. split; [|lia].
    apply in_or_app. right. assert (A : Rgeb (vx (hi e)) (vx c) = true) by (apply Rleb_true; lra). assert (B : Rgeb (vy (hi e)) (vy c) = true) by (apply Rleb_true; lra). rewrite A, B. apply in_or_app. right. left. reflexivity.
Qed.
Lemma inside_2d th b p : inside th b p -> inside false b p.
Proof. intros (X & Y & _). split; auto. split; auto. discriminate. Qed.
Definition assigned (th : bool) (c : vec) (e : box) : list nat := if th then bbox2oct e e c else bbox2quad e e c.
Lemma child b c th boxes p e : box2boxes b c th = Some boxes -> inside th b p -> inside th e p ->
  exists j b', nth_error boxes j = Some (b', boxmid b') /\ inside th b' p /\ In j (assigned th c e).
Proof.
  unfold box2boxes. destruct (negb (isinsidebbox b c)); [discriminate|]. match goal with |- context [if ?x then None else _] => destruct x end; [discriminate|].
  intros H B E. assert (Eb : boxes = map (fun x => (x, boxmid x)) (if th then quarter b c (vz (lo b)) (vz c) ++ quarter b c (vz c) (vz (hi b)) else quarter b c 0 0)) by congruence.
  rewrite Eb. clear H Eb. destruct th; unfold assigned.
  - destruct B as (Bx & By & Bz). specialize (Bz eq_refl). pose proof E as (_ & _ & Ez). specialize (Ez eq_refl).
    assert (B2 : inside false b p) by (split; auto; split; auto; discriminate). unfold bbox2oct. rewrite (overlap_true true e e p) by auto. cbn [negb].
    destruct (Rlt_dec (vz p) (vz c)) as [Pz|Pz].
    + destruct (quarter_child b c (vz (lo b)) (vz c) p e true B2 (inside_2d _ _ _ E)) as (j & b' & N & I & A & L); [intros _; lra|].
      exists j, b'. split; [|split; auto].
      * rewrite nth_error_map, nth_error_app1 by (exact L). rewrite N. reflexivity.
      * apply in_or_app. left. assert (Z : Rltb (vz (lo e)) (vz c) = true) by (apply Rltb_true; lra). rewrite Z. exact A.
    + destruct (quarter_child b c (vz c) (vz (hi b)) p e true B2 (inside_2d _ _ _ E)) as (j & b' & N & I & A & L); [intros _; lra|].
      exists (j + 4)%nat, b'. split; [|split; auto].
      * rewrite nth_error_map, nth_error_app2 by (cbn; lia). change (length (quarter b c (vz (lo b)) (vz c))) with 4%nat. replace (j + 4 - 4)%nat with j by lia. rewrite N. reflexivity.
      * apply in_or_app. right. assert (Z : Rgeb (vz (hi e)) (vz c) = true) by (apply Rleb_true; lra). rewrite Z. apply in_map_iff. exists j. auto.
  - destruct (quarter_child b c 0 0 p e false B E) as (j & b' & N & I & A & L); [discriminate|]. exists j, b'. split; auto. rewrite nth_error_map, N. reflexivity.
Qed.

(** ** Trees *)
Lemma all_nth {A B} (f : A -> option B) l r : all (map f l) = Some r -> forall i a, nth_error l i = Some a -> exists b, f a = Some b /\ nth_error r i = Some b.
Proof.
  revert r. induction l as [|x l IH]; intros r; cbn [map all].
  - intros [= <-] [|i] a H; discriminate H.
  - destruct (f x) as [b|] eqn:F; [|discriminate]. destruct (all (map f l)) as [r'|]; [|discriminate]. intros [= <-] [|i] a; cbn [nth_error].
    + intros [= <-]. eauto.
    + apply IH. reflexivity.
Qed.
Lemma all_length {A B} (f : A -> option B) l r : all (map f l) = Some r -> length r = length l.
Proof.
  revert r. induction l as [|x l IH]; intros r; cbn [map all]; [intros [= <-]; auto|]. destruct (f x); [|discriminate]. destruct (all (map f l)); [|discriminate]. intros [= <-]. cbn. rewrite IH; auto.
Qed.
Lemma all_some {A B} (f : A -> option B) l : (forall a, In a l -> exists b, f a = Some b) -> exists r, all (map f l) = Some r.
Proof.
  induction l as [|a l IH]; intros H; cbn [map all]; eauto. destruct (H a (or_introl eq_refl)) as [b ->]. destruct IH as [r ->]; eauto. intros x Hx. apply H. right. exact Hx.
Qed.
Lemma nth_combine_seq {A} (l : list A) : forall s i a, nth_error l i = Some a -> nth_error (combine (seq s (length l)) l) i = Some ((s + i)%nat, a).
Proof.
  induction l as [|x l IH]; intros s [|i] a; cbn [nth_error length seq combine]; try discriminate.
  - intros [= <-]. rewrite Nat.add_0_r. reflexivity.
  - intros H. rewrite (IH (S s) i a H). f_equal. f_equal. lia.
Qed.
Lemma find_branch th boxes q ts t : In t ts -> incl (find th boxes q t) (find th boxes q (Branch ts)).
Proof.
  intros H i Hi. cbn [find]. induction ts as [|x ts IH]; [contradiction H|]. destruct H as [->|H]; apply in_or_app; auto.
Qed.
Lemma build_finds th md boxes q : forall k b c es t, build th md k b c es = Some t -> forall i e p, In (i, e) es -> nth_error boxes i = Some (i, e) ->
  inside th b p -> inside th e p -> inside th q p -> In i (find th boxes q t).
Proof.
  assert (Lf : forall b c (es : list (nat * box)) i e p, In (i, e) es -> nth_error boxes i = Some (i, e) -> inside th b p -> inside th e p -> inside th q p -> In i (find th boxes q (Leaf b c (map fst es)))).
  { intros b c es i e p I N B E Q. cbn [find]. rewrite (overlap_true th b q p) by auto. apply filter_In. split; [apply in_map_iff; exists (i, e); auto|]. rewrite N. apply (overlap_true th q e p); auto. }
  induction k as [|k IH]; intros b c es t H i e p I N B E Q.
  - destruct es as [|x es]; [contradiction I|]. remember (x :: es) as l. assert (Ht : t = Leaf b c (map fst l)).
    { cbn [build] in H. rewrite Heql in H |- *. destruct (length (x :: es) <=? _)%nat; congruence. }
    subst t. eapply Lf; eauto.
  - destruct es as [|x es]; [contradiction I|]. remember (x :: es) as l. assert (Hb : build th md (S k) b c l =
      (if (length l <=? (if th then 8 else 4))%nat then Some (Leaf b c (map fst l)) else
       if Rltb (vx (hi b) - vx (lo b)) md || Rltb (vy (hi b) - vy (lo b)) md || (th && Rltb (vz (hi b) - vz (lo b)) md) then Some (Leaf b c (map fst l)) else
       match box2boxes b c th with
       | None => None
       | Some bs => match all (map (fun jb => build th md k (fst (snd jb)) (snd (snd jb)) (filter (fun e => existsb (Nat.eqb (fst jb)) (assigned th c (snd e))) l)) (combine (seq 0 (length bs)) bs)) with
                    | Some ts => Some (Branch ts) | None => None end
       end)) by (rewrite Heql; reflexivity).
    rewrite Hb in H. clear Hb Heql. destruct (length l <=? _)%nat.
    { injection H as <-. eapply Lf; eauto. }
    match type of H with (if ?x then _ else _) = _ => destruct x end.
    { injection H as <-. eapply Lf; eauto. }
    destruct (box2boxes b c th) as [bs|] eqn:Bx; [|discriminate H].
    match type of H with context [all ?l] => destruct (all l) as [ts|] eqn:Al end; [|discriminate H]. injection H as <-.
    destruct (child b c th bs p e Bx B E) as (j & b' & Nj & I' & As).
    pose proof (nth_combine_seq bs 0 j _ Nj) as Nc. destruct (all_nth _ _ _ Al j _ Nc) as (t' & Bt & Nt). cbn [fst snd Nat.add] in Bt.
    apply (find_branch th boxes q ts t'); [eapply nth_error_In; eauto|]. eapply IH; [exact Bt| |exact N|exact I'|exact E|exact Q].
    apply filter_In. split; [exact I|]. apply existsb_exists. exists j. split; [exact As|]. apply Nat.eqb_refl.
Qed.
Section TreeInd.
  Variable P : tree -> Prop.
  Hypothesis He : P Empty.
  Hypothesis Hl : forall b c is, P (Leaf b c is).
  Hypothesis Hb : forall ts, Forall P ts -> P (Branch ts).
  Fixpoint tree_rect' (t : tree) : P t :=
    match t with
    | Empty => He
    | Leaf b c is => Hl b c is
    | Branch ts => Hb ts ((fix go l := match l return Forall P l with [] => Forall_nil P | x :: l => Forall_cons x (tree_rect' x) (go l) end) ts)
    end.
End TreeInd.
Lemma find_sound th boxes q t : forall i, In i (find th boxes q t) -> exists j b, nth_error boxes i = Some (j, b) /\ boxoverlap2 q b th = true.
Proof.
  induction t as [|b c is|ts IH] using tree_rect'; intros i Hi; cbn [find] in Hi.
  - contradiction Hi.
  - destruct (boxoverlap2 b q th); [|contradiction Hi]. apply filter_In in Hi as [_ Hi]. destruct (nth_error boxes i) as [[j b']|]; [|discriminate Hi]. eauto.
  - induction IH as [|t ts Ht _ IHts]; [contradiction Hi|]. apply in_app_or in Hi as [Hi|Hi]; auto.
Qed.
(** building fails only on a centre outside its box *)
Lemma mid_inside b : vx (lo b) <= vx (hi b) -> vy (lo b) <= vy (hi b) -> vz (lo b) <= vz (hi b) -> isinsidebbox b (boxmid b) = true.
Proof. intros X Y Z. unfold isinsidebbox, boxmid, scale3, add, Rgeb. cbn [vx vy vz]. rewrite !andb_true_iff, !Rleb_true. lra. Qed.
Lemma isinside_iff b p : isinsidebbox b p = true <-> inside true b p.
Proof. unfold isinsidebbox, inside, Rgeb. rewrite !andb_true_iff, !Rleb_true. split; [intros H; repeat split; try intros _; lra|intros (X & Y & Z); specialize (Z eq_refl); lra]. Qed.
Lemma build_total th md : epsilon <= md -> forall k b c es, isinsidebbox b c = true -> exists t, build th md k b c es = Some t.
Proof.
  intros M. induction k as [|k IH]; intros b c es C; (destruct es as [|x es]; [cbn; eauto|]).
  - cbn [build]. destruct (_ <=? _)%nat; eauto.
  - cbn [build]. destruct (_ <=? _)%nat; eauto. match goal with |- context [if ?x then Some (Leaf _ _ _) else _] => destruct x eqn:D end; eauto.
    assert (Bs : exists bs, box2boxes b c th = Some bs /\ forall b' m, In (b', m) bs -> isinsidebbox b' m = true).
    { unfold box2boxes. rewrite C. cbn [negb]. apply isinside_iff in C as (X & Y & Z). specialize (Z eq_refl).
      apply orb_false_iff in D as [D Dz]. apply orb_false_iff in D as [Dx Dy]. apply Rltb_false in Dx, Dy.
      replace (Rltb (vx (hi b) - vx (lo b)) epsilon) with false by (symmetry; apply Rltb_false; lra). replace (Rltb (vy (hi b) - vy (lo b)) epsilon) with false by (symmetry; apply Rltb_false; lra).
      assert (Tz : th && Rltb (vz (hi b) - vz (lo b)) epsilon = false).
      { destruct th; auto. cbn [andb] in *. apply Rltb_false in Dz. apply Rltb_false. lra. }
      rewrite Tz. cbn [orb]. eexists. split; [reflexivity|]. intros b' m H. apply in_map_iff in H as (b0 & E & H). injection E as <- <-.
      destruct th; cbn in H; decompose [or] H; try contradiction; subst; apply mid_inside; cbn; lra. }
    destruct Bs as (bs & -> & Hm).
    match goal with |- context [all (map ?f ?l)] => destruct (all_some f l) as [ts E] end.
    + intros [j [b' m]] H. cbn [fst snd]. apply IH. apply in_combine_r in H. apply Hm, H.
    + cbn zeta. rewrite E. eauto.
Qed.
