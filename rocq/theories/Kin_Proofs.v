From Coq Require Import List String Bool Arith Lia Permutation.
From Verif Require Import Dict Kin_Model Kin_Spec.
Import ListNotations.
Open Scope list_scope.

Lemma seq_spec a b : String.eqb a b = true <-> a = b.
Proof. apply String.eqb_eq. Qed.
Lemma seqb_refl a : String.eqb a a = true. Proof. apply String.eqb_refl. Qed.
Lemma seqb_neq a b : a <> b -> String.eqb a b = false. Proof. apply String.eqb_neq. Qed.

Section P.
  Context {K : kin}.
  Implicit Types (c : chain K) (p : part K).

  Definition sk c n : option (part K) := option_map invalidate_cache (get_part c n).
  Record same c c' : Prop := {
    same_sk : forall n, sk c n = sk c' n;
    same_children : c_children c = c_children c';
    same_keys : keys (c_parts c) = keys (c_parts c');
    same_name : c_name c = c_name c' }.
  Lemma same_refl c : same c c. Proof. split; auto. Qed.
  Lemma same_sym c c' : same c c' -> same c' c. Proof. intros [A B C D]. split; auto. Qed.
  Lemma same_trans a b c : same a b -> same b c -> same a c.
  Proof. intros [A B C D] [A' B' C' D']. split; intros; congruence. Qed.

  Lemma get_set c n p m : get_part (set_part c n p) m = if String.eqb m n then Some p else get_part c m.
  Proof. apply (dget_set String.eqb seq_spec). Qed.
  Lemma get_set_same c n p : get_part (set_part c n p) n = Some p.
  Proof. rewrite get_set, seqb_refl. reflexivity. Qed.
  Lemma get_set_other c n p m : m <> n -> get_part (set_part c n p) m = get_part c m.
  Proof. intros H. rewrite get_set, seqb_neq; auto. Qed.
  Lemma keys_set_part c n p p0 : get_part c n = Some p0 -> keys (c_parts (set_part c n p)) = keys (c_parts c).
  Proof.
    intros H. simpl. rewrite (keys_set String.eqb). unfold dmem. unfold get_part in H. rewrite H. reflexivity.
  Qed.
  Lemma get_key c n p : get_part c n = Some p -> In n (keys (c_parts c)).
  Proof. intros H. apply (dget_some_key String.eqb seq_spec). exists p. exact H. Qed.
  Lemma key_get c n : In n (keys (c_parts c)) -> exists p, get_part c n = Some p.
  Proof. intros H. apply (dget_some_key String.eqb seq_spec) in H. exact H. Qed.

  Lemma inv_same_fields p p' : invalidate_cache p = invalidate_cache p' ->
    p_name p = p_name p' /\ p_parent p = p_parent p' /\ p_pframe p = p_pframe p' /\
    p_joint p = p_joint p' /\ p_frames p = p_frames p' /\ p_meta p = p_meta p'.
  Proof. unfold invalidate_cache. intros H. injection H. intros. repeat split; assumption. Qed.
  Lemma fields_inv p p' : same_part p p' -> invalidate_cache p = invalidate_cache p'.
  Proof.
    intros (A & B & C & D & E & F). destruct p, p'; simpl in *; subst; reflexivity.
  Qed.
  Lemma same_get c c' n p : same c c' -> get_part c n = Some p ->
    exists p', get_part c' n = Some p' /\ same_part p p'.
  Proof.
    intros H Hg. pose proof (same_sk _ _ H n) as E. unfold sk in E. rewrite Hg in E. simpl in E.
    destruct (get_part c' n) as [p'|]; [|discriminate]. exists p'. split; auto.
    injection E. intros. repeat split; assumption.
  Qed.
  Lemma same_part_trans p1 p2 p3 : same_part p1 p2 -> same_part p2 p3 -> same_part p1 p3.
  Proof. unfold same_part. intuition congruence. Qed.
  Lemma same_set c n p p' : get_part c n = Some p -> same_part p p' -> same c (set_part c n p').
  Proof.
    intros H E. split; auto.
    - intros m. unfold sk. rewrite get_set. destruct (String.eqb m n) eqn:Em; auto.
      apply seq_spec in Em. subst. rewrite H. simpl. f_equal. apply fields_inv. exact E.
    - symmetry. eapply keys_set_part; eauto.
  Qed.

  (** paths *)
  Lemma ff_same p p' f : p_frames p = p_frames p' -> frame_factor p f = frame_factor p' f.
  Proof. unfold frame_factor. intros ->. reflexivity. Qed.
  Lemma path_same c c' n f l : same c c' -> path c n f l -> path c' n f l.
  Proof.
    intros H. induction 1 as [f p Hp|n f p q l Hn Hp Hq Hl IH].
    - destruct (same_get _ _ _ _ H Hp) as (p' & Hp' & E). rewrite (ff_same p p') by apply E.
      constructor. exact Hp'.
    - destruct (same_get _ _ _ _ H Hp) as (p' & Hp' & E1 & E2 & E3 & E4 & E5 & E6).
      rewrite (ff_same p p') by assumption. rewrite E4.
      eapply path_part with (q:=q); [exact Hn|exact Hp'|congruence|rewrite <- E3; exact IH].
  Qed.
  Lemma path_fun c n f l : path c n f l -> forall l', path c n f l' -> l = l'.
  Proof.
    induction 1 as [f p Hp|n f p q l Hn Hp Hq Hl IH]; intros l' H'; inversion H' as [f' p' Hp' |n' f' p' q' l2 Hn' Hp' Hq' Hl']; subst; try congruence.
    assert (p' = p) by congruence. subst p'. assert (q' = q) by congruence. subst q'.
    rewrite (IH _ Hl'). reflexivity.
  Qed.
  Lemma path_part_exists c n f l : path c n f l -> exists p, get_part c n = Some p.
  Proof. destruct 1; eauto. Qed.
  Lemma product_app l (t : T K) : product (l ++ [t]) = mul K (product l) t.
  Proof. unfold product. rewrite fold_left_app. reflexivity. Qed.
  Lemma path_frame c n f l : path c n ORIGIN l -> forall p, get_part c n = Some p ->
    path c n f (l ++ frame_factor p f).
  Proof.
    intros H p Hp. inversion H as [f' p' Hp' |n' f' p' q' l2 Hn' Hp' Hq' Hl']; subst.
    - assert (p' = p) by congruence. subst p'. change (frame_factor p ORIGIN) with (@nil (T K)). simpl.
      constructor. exact Hp.
    - assert (p' = p) by congruence. subst p'. change (frame_factor p ORIGIN) with (@nil (T K)).
      rewrite app_nil_r, <- app_assoc. econstructor; eauto.
  Qed.
  Lemma at_frame_product p l f :
    at_frame p (product l) f = product (l ++ frame_factor p f).
  Proof.
    unfold at_frame, frame_factor. destruct (String.eqb f ORIGIN); [rewrite app_nil_r; auto|].
    destruct (dget String.eqb f (p_frames p)); [rewrite product_app|rewrite app_nil_r]; auto.
  Qed.

  (** structure *)
  Record Struct c (r : string -> nat) : Prop := {
    st_nodup : NoDup (keys (c_parts c));
    st_datum : exists d, get_part c DATUM = Some d;
    st_names : forall n p, get_part c n = Some p -> p_name p = n;
    st_rank : forall n p, get_part c n = Some p -> r n < List.length (c_parts c);
    st_parent : forall n p, n <> DATUM -> get_part c n = Some p ->
       exists q pq, p_parent p = Some q /\ get_part c q = Some pq /\ r q < r n /\
                    dmem String.eqb (p_pframe p) (p_frames pq) = true;
    st_frames : forall n p, get_part c n = Some p -> dmem String.eqb ORIGIN (p_frames p) = true;
    st_ch1 : forall n p q, n <> DATUM -> get_part c n = Some p -> p_parent p = Some q ->
       In n (get_children c q);
    st_ch2 : forall m q, In m (get_children c q) -> exists p, get_part c m = Some p /\
       p_parent p = Some q /\ m <> DATUM;
    st_ch3 : forall q, NoDup (get_children c q) }.
  Definition Cache c : Prop := forall n p, get_part c n = Some p -> p_dirty p = false ->
    exists l, p_world p = Some (product l) /\ path c n ORIGIN l.

  Lemma len_keys (A : Type) (d : list (string * A)) : List.length (keys d) = List.length d.
  Proof. apply map_length. Qed.
  Lemma struct_same c c' r : same c c' -> Struct c r -> Struct c' r.
  Proof.
    intros H [N D Na Rk Pa Fr C1 C2 C3]. pose proof (same_sym _ _ H) as H'.
    assert (Hlen : List.length (c_parts c') = List.length (c_parts c)).
    { rewrite <- !len_keys. rewrite (same_keys _ _ H). reflexivity. }
    assert (Hch : forall q, get_children c' q = get_children c q).
    { intros q. unfold get_children. rewrite (same_children _ _ H). reflexivity. }
    split.
    - rewrite <- (same_keys _ _ H). exact N.
    - destruct D as [d D]. destruct (same_get _ _ _ _ H D) as (d' & ? & _). eauto.
    - intros n p Hp. destruct (same_get _ _ _ _ H' Hp) as (p' & Hp' & E). rewrite (proj1 E). eauto.
    - intros n p Hp. destruct (same_get _ _ _ _ H' Hp) as (p' & Hp' & E). rewrite Hlen. eauto.
    - intros n p Hn Hp. destruct (same_get _ _ _ _ H' Hp) as (p' & Hp' & E1 & E2 & E3 & _).
      destruct (Pa n p' Hn Hp') as (q & pq & A & B & C & E). destruct (same_get _ _ _ _ H B) as (pq' & B' & F).
      exists q, pq'. repeat split; auto; try congruence.
      rewrite E3. destruct F as (_ & _ & _ & _ & F & _). rewrite <- F. exact E.
    - intros n p Hp. destruct (same_get _ _ _ _ H' Hp) as (p' & Hp' & _ & _ & _ & _ & E & _). rewrite E. eauto.
    - intros n p q Hn Hp Hq. destruct (same_get _ _ _ _ H' Hp) as (p' & Hp' & E1 & E2 & _). rewrite Hch.
      eapply C1; eauto. congruence.
    - intros m q. rewrite Hch. intros Hm. destruct (C2 _ _ Hm) as (p & Hp & E & Hd).
      destruct (same_get _ _ _ _ H Hp) as (p' & Hp' & E1 & E2 & _). exists p'. repeat split; auto; congruence.
    - intros q. rewrite Hch. apply C3.
  Qed.
  Lemma path_total c r : Struct c r -> forall k n p f, r n < k -> get_part c n = Some p -> exists l, path c n f l.
  Proof.
    intros S. induction k as [|k IH]; intros n p f Hk Hp; [lia|].
    destruct (String.eqb n DATUM) eqn:E.
    - apply seq_spec in E. subst. eexists. constructor. eauto.
    - apply String.eqb_neq in E. destruct (st_parent _ _ S n p E Hp) as (q & pq & A & B & C & _).
      destruct (IH q pq (p_pframe p)) as [l Hl]; [lia|auto|]. eexists. econstructor; eauto.
  Qed.

  Lemma same_cached p t : same_part p (set_cached p t).
  Proof. repeat split. Qed.
  Lemma same_inval p : same_part p (invalidate_cache p).
  Proof. repeat split. Qed.

  Lemma world_ok c0 r : Struct c0 r -> forall k c n f p, same c0 c -> r n < k -> get_part c n = Some p ->
    exists c' w, world k c n f = KOk (c', w) /\ same c0 c' /\
      (Cache c -> Cache c' /\ exists l, path c0 n f l /\ w = product l).
  Proof.
    intros S. induction k as [|k IH]; intros c n f p Hs Hk Hp; [lia|].
    pose proof (struct_same _ _ _ Hs S) as Sc.
    simpl. rewrite Hp. pose proof (st_names _ _ Sc n p Hp) as Hnm.
    assert (Step : exists c1 p1, (if p_dirty p then
                 match p_parent p, String.eqb (p_name p) DATUM with
                 | None, _ | _, true => KOk (set_part c n (set_cached p (one K)))
                 | Some q, false =>
                     kbind (world k c q (p_pframe p)) (fun '(c1, pw) =>
                     KOk (set_part c1 n (set_cached p (mul K pw (jtf K (p_joint p))))))
                 end
               else KOk c) = KOk c1 /\ same c0 c1 /\ get_part c1 n = Some p1 /\ same_part p p1 /\
               (Cache c -> Cache c1 /\ exists l, get_cached p1 = Some (product l) /\ path c0 n ORIGIN l)).
    { destruct (p_dirty p) eqn:Dp.
      - rewrite Hnm. clear Hnm. destruct (String.eqb n DATUM) eqn:En.
        + apply seq_spec in En. subst n.
          assert (Hs1 : same c0 (set_part c DATUM (set_cached p (one K)))).
          { eapply same_trans; [exact Hs|]. eapply same_set; eauto. apply same_cached. }
          exists (set_part c DATUM (set_cached p (one K))), (set_cached p (one K)).
          split; [destruct (p_parent p); reflexivity|]. split; [exact Hs1|].
          split; [apply get_set_same|]. split; [apply same_cached|].
          intros HC. assert (P0 : path c0 DATUM ORIGIN []).
          { eapply path_same; [apply same_sym; exact Hs|]. apply (path_root _ _ ORIGIN p Hp). }
          split.
          * intros m pm. rewrite get_set. destruct (String.eqb m DATUM) eqn:Em.
            -- apply seq_spec in Em. subst m. intros E Hd. injection E as <-. exists []. split; [reflexivity|].
               eapply path_same; [exact Hs1|exact P0].
            -- intros E Hd. destruct (HC _ _ E Hd) as (l & A & B). exists l. split; auto.
               eapply path_same; [|exact B]. eapply same_trans; [apply same_sym; exact Hs|exact Hs1].
          * exists []. split; [reflexivity|exact P0].
        + apply String.eqb_neq in En.
          destruct (st_parent _ _ Sc n p En Hp) as (q & pq & A & B & C & _). rewrite A.
          destruct (IH c q (p_pframe p) pq Hs) as (c1 & w & E & Hs1 & HC1); [lia|auto|].
          rewrite E. simpl. destruct (same_get _ _ _ _ (same_trans _ _ _ (same_sym _ _ Hs) Hs1) Hp) as (p1 & Hp1 & E1).
          set (x := mul K w (jtf K (p_joint p))).
          assert (E2 : same_part p1 (set_cached p x)).
          { destruct E1 as (?&?&?&?&?&?). repeat split; simpl; congruence. }
          assert (Hs2 : same c0 (set_part c1 n (set_cached p x))).
          { eapply same_trans; [exact Hs1|]. eapply same_set; eauto. }
          exists (set_part c1 n (set_cached p x)), (set_cached p x).
          split; [reflexivity|]. split; [exact Hs2|]. split; [apply get_set_same|]. split; [apply same_cached|].
          intros HC. destruct (HC1 HC) as (HC1' & l & Pl & Wl).
          assert (P1 : path c0 n ORIGIN (l ++ [jtf K (p_joint p)])).
          { destruct (same_get _ _ _ _ (same_sym _ _ Hs) Hp) as (p0 & Hp0 & F1 & F2 & F3 & F4 & F5 & F6).
            rewrite F3 in Pl. rewrite F4. rewrite <- (app_nil_r (l ++ _)). rewrite <- app_assoc.
            change (@nil (T K)) with (frame_factor p0 ORIGIN). econstructor; eauto; congruence. }
          assert (X : x = product (l ++ [jtf K (p_joint p)])).
          { rewrite product_app. unfold x. rewrite Wl. reflexivity. }
          split.
          * intros m pm. rewrite get_set. destruct (String.eqb m n) eqn:Em.
            -- apply seq_spec in Em. subst m. intros Ee Hd. injection Ee as <-.
               exists (l ++ [jtf K (p_joint p)]). split; [simpl; congruence|].
               eapply path_same; [exact Hs2|exact P1].
            -- intros Ee Hd. destruct (HC1' _ _ Ee Hd) as (l' & A' & B'). exists l'. split; auto.
               eapply path_same; [|exact B']. eapply same_trans; [apply same_sym; exact Hs1|exact Hs2].
          * exists (l ++ [jtf K (p_joint p)]). split; [unfold get_cached; simpl; congruence|exact P1].
      - exists c, p. split; [reflexivity|]. split; [exact Hs|]. split; [exact Hp|]. split; [repeat split|]. intros HC. split; auto.
        destruct (HC _ _ Hp Dp) as (l & A & B). exists l. unfold get_cached. rewrite Dp. split; auto.
        eapply path_same; [apply same_sym; exact Hs|exact B]. }
    destruct Step as (c1 & p1 & -> & Hs1 & Hp1 & Esp & HC1). simpl. rewrite Hp1.
    eexists c1, _. split; [reflexivity|]. split; [exact Hs1|].
    intros HC. destruct (HC1 HC) as (HC1' & l & A & B). split; auto. rewrite A.
    exists (l ++ frame_factor p1 f). split; [|apply at_frame_product].
    destruct (same_get _ _ _ _ (same_sym _ _ Hs) Hp) as (p0 & Hp0 & F).
    rewrite (ff_same p1 p0); [eapply path_frame; eauto|].
    destruct F as (_&_&_&_&F&_). destruct Esp as (_&_&_&_&G&_). congruence.
  Qed.

  (** invalidation *)
  Inductive below c (n : string) : string -> Prop :=
  | below_refl : below c n n
  | below_step ch m : In ch (get_children c n) -> below c ch m -> below c n m.
  Lemma below_right c n q m : below c n q -> In m (get_children c q) -> below c n m.
  Proof.
    induction 1 as [|n ch q H1 H2 IH]; intros Hm.
    - eapply below_step; [exact Hm|constructor].
    - eapply below_step; [exact H1|auto].
  Qed.
  Lemma children_same c c' q : same c c' -> get_children c' q = get_children c q.
  Proof. intros H. unfold get_children. rewrite (same_children _ _ H). reflexivity. Qed.
  Lemma below_same c c' n m : same c c' -> below c n m -> below c' n m.
  Proof.
    intros H. induction 1; [constructor|]. econstructor; eauto. rewrite (children_same _ _ _ H). auto.
  Qed.

  Lemma below_set c x px n m : below c n m -> below (set_part c x px) n m.
  Proof. induction 1; [constructor|econstructor; eauto]. Qed.
  Definition inval_post c (roots : string -> Prop) c' : Prop :=
    same c c' /\ forall m p', get_part c' m = Some p' ->
      p_dirty p' = true \/ (get_part c m = Some p' /\ forall x, roots x -> ~ below c x m).
  Lemma inval_fold k (IH : forall c n r, Struct c r -> List.length (c_parts c) <= r n + k -> (exists p, get_part c n = Some p) ->
        exists c', invalidate_subtree k c n = KOk c' /\ inval_post c (eq n) c') :
    forall ls c r, Struct c r ->
      (forall x, In x ls -> (exists p, get_part c x = Some p) /\ List.length (c_parts c) <= r x + k) ->
      exists c', fold_left (fun r ch => kbind r (fun c => invalidate_subtree k c ch)) ls (KOk c) = KOk c' /\
        inval_post c (fun x => In x ls) c'.
  Proof.
    induction ls as [|x ls IHl]; intros c r S H.
    - exists c. split; [reflexivity|]. split; [apply same_refl|]. intros m p' Hm. right. split; auto.
    - destruct (H x (or_introl eq_refl)) as (Hx & Hlen).
      destruct (IH c x r S Hlen Hx) as (c1 & E1 & Hs1 & P1).
      simpl. rewrite E1.
      assert (S1 := struct_same _ _ _ Hs1 S).
      assert (Hl : List.length (c_parts c1) = List.length (c_parts c)).
      { rewrite <- !len_keys. rewrite (same_keys _ _ Hs1). reflexivity. }
      destruct (IHl c1 r S1) as (c2 & E2 & Hs2 & P2).
      { intros y Hy. destruct (H y (or_intror Hy)) as ((py & Hpy) & Hlen').
        destruct (same_get _ _ _ _ Hs1 Hpy) as (py' & Hpy' & _). rewrite Hl. eauto. }
      exists c2. split; [exact E2|]. split; [eapply same_trans; eauto|].
      intros m p' Hm. destruct (P2 m p' Hm) as [?|(A & B)]; [auto|].
      destruct (P1 m p' A) as [?|(A' & B')]; [auto|]. right. split; auto.
      intros y [Hy|Hy]; [subst; auto|]. intros Hb. apply (B y Hy). eapply below_same; eauto.
  Qed.
  Lemma inval_ok : forall k c n r, Struct c r -> List.length (c_parts c) <= r n + k -> (exists p, get_part c n = Some p) ->
        exists c', invalidate_subtree k c n = KOk c' /\ inval_post c (eq n) c'.
  Proof.
    induction k as [|k IH]; intros c n r S Hlen [p Hp].
    - exfalso. pose proof (st_rank _ _ S n p Hp). lia.
    - simpl. rewrite Hp.
      assert (Hs : same c (set_part c n (invalidate_cache p))) by (eapply same_set; eauto; apply same_inval).
      assert (S1 := struct_same _ _ _ Hs S).
      rewrite (children_same _ _ n Hs).
      assert (Hl : List.length (c_parts (set_part c n (invalidate_cache p))) = List.length (c_parts c)).
      { rewrite <- !len_keys. rewrite <- (same_keys _ _ Hs). reflexivity. }
      destruct (inval_fold k IH (get_children c n) _ r S1) as (c2 & E2 & Hs2 & P2).
      { intros x Hx. destruct (st_ch2 _ _ S _ _ Hx) as (px & Hpx & Hq & Hd).
        destruct (st_parent _ _ S x px Hd Hpx) as (q & pq & A & B & C & _).
        assert (q = n) by congruence. subst q.
        destruct (same_get _ _ _ _ Hs Hpx) as (px' & ? & _). split; eauto. rewrite Hl. lia. }
      exists c2. split; [exact E2|]. split; [eapply same_trans; eauto|].
      intros m p' Hm. destruct (P2 m p' Hm) as [?|(A & B)]; [auto|].
      rewrite get_set in A. destruct (String.eqb m n) eqn:Em.
      + injection A as <-. left. reflexivity.
      + apply String.eqb_neq in Em. right. split; auto. intros x <- Hb. inversion Hb; subst; [congruence|].
        apply (B ch H). eapply below_same; eauto.
  Qed.

  (** set_joint_value *)
  Lemma struct_set_joint c r n p v cl : Struct c r -> get_part c n = Some p ->
    Struct (set_part c n (part_set_joint p v cl)) r.
  Proof.
    intros S Hp. set (p2 := part_set_joint p v cl). destruct S as [N D Na Rk Pa Fr C1 C2 C3].
    assert (Hk := keys_set_part c n p2 p Hp).
    assert (Hl : List.length (c_parts (set_part c n p2)) = List.length (c_parts c)).
    { rewrite <- !len_keys. rewrite Hk. reflexivity. }
    assert (G : forall m pm, get_part (set_part c n p2) m = Some pm -> exists pm0, get_part c m = Some pm0 /\
              p_name pm = p_name pm0 /\ p_parent pm = p_parent pm0 /\ p_pframe pm = p_pframe pm0 /\ p_frames pm = p_frames pm0).
    { intros m pm. rewrite get_set. destruct (String.eqb m n) eqn:E.
      - apply seq_spec in E. subst. intros E. injection E as <-. exists p. repeat split; auto.
      - intros E'. exists pm. repeat split; auto. }
    assert (G' : forall m pm, get_part c m = Some pm -> exists pm0, get_part (set_part c n p2) m = Some pm0 /\
              p_name pm = p_name pm0 /\ p_parent pm = p_parent pm0 /\ p_pframe pm = p_pframe pm0 /\ p_frames pm = p_frames pm0).
    { intros m pm Hm. rewrite get_set. destruct (String.eqb m n) eqn:E.
      - apply seq_spec in E. subst. exists p2. assert (pm = p) by congruence. subst. repeat split; auto.
      - exists pm. repeat split; auto. }
    split.
    - rewrite Hk. exact N.
    - destruct D as [d D]. destruct (G' _ _ D) as (d' & ? & _). eauto.
    - intros m pm Hm. destruct (G _ _ Hm) as (pm0 & A & B & _). rewrite B. eauto.
    - intros m pm Hm. destruct (G _ _ Hm) as (pm0 & A & B & _). rewrite Hl. eauto.
    - intros m pm Hn Hm. destruct (G _ _ Hm) as (pm0 & A & B & B1 & B2 & B3).
      destruct (Pa m pm0 Hn A) as (q & pq & A1 & A2 & A3 & A4).
      destruct (G' _ _ A2) as (pq' & F & _ & _ & _ & F'). exists q, pq'. repeat split; try congruence.
    - intros m pm Hm. destruct (G _ _ Hm) as (pm0 & A & B & B1 & B2 & B3). rewrite B3. eauto.
    - intros m pm q Hn Hm Hq. destruct (G _ _ Hm) as (pm0 & A & B & B1 & B2 & B3). eapply C1; eauto. congruence.
    - intros m q Hm. destruct (C2 _ _ Hm) as (pm & A & B & B1). destruct (G' _ _ A) as (pm' & F & _ & F1 & _).
      exists pm'. repeat split; auto. congruence.
    - exact C3.
  Qed.
  (** paths of parts that are not below [n] do not see a change of [n]'s joint *)
  Lemma path_not_below c r n p v cl m f l : Struct c r -> get_part c n = Some p -> ~ below c n m ->
    path c m f l -> path (set_part c n (part_set_joint p v cl)) m f l.
  Proof.
    intros S Hp Hb HP. induction HP as [f d Hd|m f pm q l Hm Hpm Hq Hl IH].
    - constructor. rewrite get_set_other; auto. intros E. apply Hb. rewrite E. constructor.
    - assert (m <> n) by (intros ->; apply Hb; constructor).
      econstructor; eauto; [rewrite get_set_other; auto|].
      apply IH. intros Hb'. apply Hb. eapply below_right; [exact Hb'|]. eapply st_ch1; eauto.
  Qed.
  Lemma set_joint_ok c r n v cl : Struct c r -> (exists p, get_part c n = Some p) ->
    exists c', set_joint_value c n v cl = KOk c' /\ Struct c' r /\ (Cache c -> Cache c') /\
      exists p, get_part c n = Some p /\ same (set_part c n (part_set_joint p v cl)) c'.
  Proof.
    intros S [p Hp]. unfold set_joint_value. rewrite Hp.
    assert (S1 := struct_set_joint c r n p v cl S Hp).
    assert (Hl : List.length (c_parts (set_part c n (part_set_joint p v cl))) = List.length (c_parts c)).
    { rewrite <- !len_keys. erewrite keys_set_part; eauto. }
    destruct (inval_ok (depth c) _ n r S1) as (c' & E & Hs & P).
    { unfold depth. rewrite Hl. lia. } { exists (part_set_joint p v cl). apply get_set_same. }
    exists c'. split; [exact E|]. split; [eapply struct_same; eauto|]. split; [|exists p; split; auto].
    intros HC m pm Hm Hd. destruct (P m pm Hm) as [A|(A & B)]; [congruence|].
    assert (Hb : ~ below c n m).
    { intros Hb. apply (B n eq_refl). eapply below_set; eauto. }
    assert (m <> n) by (intros ->; apply Hb; constructor).
    rewrite get_set_other in A by auto. destruct (HC _ _ A Hd) as (l & W & Pl). exists l. split; auto.
    eapply path_same; [exact Hs|]. eapply path_not_below; eauto.
  Qed.

  (** add_frame *)
  Lemma struct_add_frame c r n p f t : Struct c r -> get_part c n = Some p ->
    Struct (set_part c n (part_add_frame p f t)) r.
  Proof.
    intros S Hp. set (p2 := part_add_frame p f t). destruct S as [N D Na Rk Pa Fr C1 C2 C3].
    assert (Hk := keys_set_part c n p2 p Hp).
    assert (Hl : List.length (c_parts (set_part c n p2)) = List.length (c_parts c)).
    { rewrite <- !len_keys. rewrite Hk. reflexivity. }
    assert (Mono : forall x, dmem String.eqb x (p_frames p) = true -> dmem String.eqb x (p_frames p2) = true).
    { intros x Hx. apply (dmem_in String.eqb seq_spec). simpl. apply (in_keys_set String.eqb seq_spec). right.
      apply (dmem_in String.eqb seq_spec). exact Hx. }
    assert (G : forall m pm, get_part (set_part c n p2) m = Some pm -> exists pm0, get_part c m = Some pm0 /\
              p_name pm = p_name pm0 /\ p_parent pm = p_parent pm0 /\ p_pframe pm = p_pframe pm0 /\
              forall x, dmem String.eqb x (p_frames pm0) = true -> dmem String.eqb x (p_frames pm) = true).
    { intros m pm. rewrite get_set. destruct (String.eqb m n) eqn:E.
      - apply seq_spec in E. subst. intros E. injection E as <-. exists p. repeat split; auto.
      - intros E'. exists pm. repeat split; auto. }
    assert (G' : forall m pm, get_part c m = Some pm -> exists pm0, get_part (set_part c n p2) m = Some pm0 /\
              p_name pm = p_name pm0 /\ p_parent pm = p_parent pm0 /\ p_pframe pm = p_pframe pm0 /\
              forall x, dmem String.eqb x (p_frames pm) = true -> dmem String.eqb x (p_frames pm0) = true).
    { intros m pm Hm. rewrite get_set. destruct (String.eqb m n) eqn:E.
      - apply seq_spec in E. subst. exists p2. assert (pm = p) by congruence. subst. repeat split; auto.
      - exists pm. repeat split; auto. }
    split.
    - rewrite Hk. exact N.
    - destruct D as [d D]. destruct (G' _ _ D) as (d' & ? & _). eauto.
    - intros m pm Hm. destruct (G _ _ Hm) as (pm0 & A & B & _). rewrite B. eauto.
    - intros m pm Hm. destruct (G _ _ Hm) as (pm0 & A & B & _). rewrite Hl. eauto.
    - intros m pm Hn Hm. destruct (G _ _ Hm) as (pm0 & A & B & B1 & B2 & B3).
      destruct (Pa m pm0 Hn A) as (q & pq & A1 & A2 & A3 & A4).
      destruct (G' _ _ A2) as (pq' & F & _ & _ & _ & F'). exists q, pq'. repeat split; try congruence.
      rewrite B2. apply F'. exact A4.
    - intros m pm Hm. destruct (G _ _ Hm) as (pm0 & A & B & B1 & B2 & B3). eauto.
    - intros m pm q Hn Hm Hq. destruct (G _ _ Hm) as (pm0 & A & B & B1 & B2 & B3). eapply C1; eauto. congruence.
    - intros m q Hm. destruct (C2 _ _ Hm) as (pm & A & B & B1). destruct (G' _ _ A) as (pm' & F & _ & F1 & _).
      exists pm'. repeat split; auto. congruence.
    - exact C3.
  Qed.
  Lemma ff_add_other p f t g : g <> f \/ g = ORIGIN -> frame_factor (part_add_frame p f t) g = frame_factor p g.
  Proof.
    unfold frame_factor. intros [H|H].
    - simpl. rewrite (dget_set_other String.eqb seq_spec) by auto. reflexivity.
    - subst. reflexivity.
  Qed.
  Lemma path_add_frame c n p f t m g l : get_part c n = Some p -> (f = ORIGIN \/ ~ attached c n f) ->
    path c m g l -> (m = n -> g <> f \/ g = ORIGIN) -> path (set_part c n (part_add_frame p f t)) m g l.
  Proof.
    intros Hp Ha HP. induction HP as [g d Hd|m g pm q l Hm Hpm Hq Hl IH]; intros Hg.
    - destruct (String.eqb DATUM n) eqn:E.
      + apply seq_spec in E. assert (d = p) by congruence. subst d. rewrite <- (ff_add_other p f t g (Hg E)).
        constructor. rewrite E. apply get_set_same.
      + apply String.eqb_neq in E. constructor. rewrite get_set_other; auto.
    - assert (IH' : path (set_part c n (part_add_frame p f t)) q (p_pframe pm) l).
      { apply IH. intros ->. destruct (String.eqb (p_pframe pm) f) eqn:E.
        - apply seq_spec in E. destruct Ha as [Ha|Ha]; [right; congruence|]. exfalso. apply Ha.
          exists m, pm. auto.
        - left. apply String.eqb_neq. exact E. }
      destruct (String.eqb m n) eqn:E.
      + apply seq_spec in E. subst m. assert (pm = p) by congruence. subst pm.
        rewrite <- (ff_add_other p f t g (Hg eq_refl)).
        change (jtf K (p_joint p)) with (jtf K (p_joint (part_add_frame p f t))).
        eapply path_part; eauto. apply get_set_same.
      + apply String.eqb_neq in E. eapply path_part; eauto. rewrite get_set_other; auto.
  Qed.
  Lemma cache_add_frame c n p f t : get_part c n = Some p -> (f = ORIGIN \/ ~ attached c n f) ->
    Cache c -> Cache (set_part c n (part_add_frame p f t)).
  Proof.
    intros Hp Ha HC m pm. rewrite get_set. destruct (String.eqb m n) eqn:E.
    - apply seq_spec in E. subst. intros E Hd. injection E as <-. destruct (HC _ _ Hp Hd) as (l & A & B).
      exists l. split; auto. eapply path_add_frame; eauto.
    - intros Hm Hd. destruct (HC _ _ Hm Hd) as (l & A & B). exists l. split; auto.
      eapply path_add_frame; eauto.
  Qed.

  (** add_part *)
  Definition Good c := exists r, Struct c r.
  Lemma add_part_ok c r p c' : Struct c r -> dmem String.eqb ORIGIN (p_frames p) = true ->
    add_part c p = KOk c' ->
    exists r', Struct c' r' /\ (Cache c -> Cache c') /\
      (forall m pm, get_part c m = Some pm -> get_part c' m = Some pm) /\
      get_part c (p_name p) = None /\ keys (c_parts c') = keys (c_parts c) ++ [p_name p] /\ c_name c' = c_name c /\
      exists q pq p', q = match p_parent p with Some q => q | None => DATUM end /\ get_part c q = Some pq /\
        get_part c' (p_name p) = Some p' /\ p_parent p' = Some q /\
        p_pframe p' = (if dmem String.eqb (p_pframe p) (p_frames pq) then p_pframe p else ORIGIN) /\
        p_joint p' = p_joint p /\ p_frames p' = p_frames p /\ p_meta p' = p_meta p /\ p_name p' = p_name p.
  Proof.
    intros S Ho H. unfold add_part in H.
    destruct (dmem String.eqb (p_name p) (c_parts c)) eqn:En; [discriminate|].
    set (q := match p_parent p with Some q => q | None => DATUM end) in *.
    destruct (get_part c q) as [pq|] eqn:Eq; [|discriminate].
    set (pf := if dmem String.eqb (p_pframe p) (p_frames pq) then p_pframe p else ORIGIN) in *.
    set (p' := invalidate_cache _) in H.
    assert (Hnone : get_part c (p_name p) = None).
    { unfold dmem in En. unfold get_part. destruct (dget _ _ _); [discriminate|reflexivity]. }
    assert (Hq : q <> p_name p) by (intros E; rewrite E in Eq; congruence).
    injection H as H.
    assert (Hg : forall m, get_part c' m = if String.eqb m (p_name p) then Some p' else get_part c m).
    { intros m. rewrite <- H. unfold get_part. simpl. apply (dget_set String.eqb seq_spec). }
    assert (Hk : keys (c_parts c') = keys (c_parts c) ++ [p_name p]).
    { rewrite <- H. simpl. rewrite (keys_set String.eqb), En. reflexivity. }
    assert (Hl : List.length (c_parts c') = 1 + List.length (c_parts c)).
    { rewrite <- !len_keys, Hk, app_length. simpl. lia. }
    assert (Hold : forall m pm, get_part c m = Some pm -> get_part c' m = Some pm).
    { intros m pm Hm. rewrite Hg. destruct (String.eqb m (p_name p)) eqn:E; auto.
      apply seq_spec in E. subst. congruence. }
    destruct S as [N D Na Rk Pa Fr C1 C2 C3].
    assert (Hnochild : get_children c (p_name p) = []).
    { destruct (get_children c (p_name p)) as [|x l] eqn:E; auto. exfalso.
      destruct (C2 x (p_name p)) as (px & A & B & B1); [rewrite E; left; auto|].
      destruct (Pa x px B1 A) as (y & py & A1 & A2 & _). congruence. }
    assert (Hch : forall x, get_children c' x =
              if String.eqb x q then get_children c q ++ [p_name p] else get_children c x).
    { intros x. rewrite <- H. unfold get_children. simpl.
      set (ch1 := if dmem String.eqb q (c_children c) then c_children c else dset String.eqb q [] (c_children c)).
      assert (G1 : forall y, match dget String.eqb y ch1 with Some l => l | None => [] end =
                             match dget String.eqb y (c_children c) with Some l => l | None => [] end).
      { intros y. unfold ch1. destruct (dmem String.eqb q (c_children c)) eqn:E; auto.
        rewrite (dget_set String.eqb seq_spec). destruct (String.eqb y q) eqn:E'; auto.
        apply seq_spec in E'. subst y. unfold dmem in E. destruct (dget String.eqb q (c_children c)); [discriminate|reflexivity]. }
      rewrite G1. set (ch2 := dset String.eqb q _ ch1).
      assert (G2 : forall y, match dget String.eqb y ch2 with Some l => l | None => [] end =
         if String.eqb y q then match dget String.eqb q (c_children c) with Some l => l | None => [] end ++ [p_name p]
         else match dget String.eqb y (c_children c) with Some l => l | None => [] end).
      { intros y. unfold ch2. rewrite (dget_set String.eqb seq_spec). destruct (String.eqb y q); auto. }
      destruct (dmem String.eqb (p_name p) ch2) eqn:E.
      - apply G2.
      - rewrite (dget_set String.eqb seq_spec). destruct (String.eqb x (p_name p)) eqn:E'.
        + apply seq_spec in E'. subst x. rewrite (seqb_neq (p_name p) q) by auto.
          unfold get_children in Hnochild. symmetry. exact Hnochild.
        + apply G2. }
    assert (Rkq : r q < List.length (c_parts c)) by eauto.
    set (r' := fun x => if String.eqb x (p_name p) then List.length (c_parts c) else r x).
    assert (Hr' : forall m pm, get_part c m = Some pm -> r' m = r m).
    { intros m pm Hm. unfold r'. rewrite seqb_neq; auto. intros ->. congruence. }
    exists r'. split; [|split; [|split; [exact Hold|split; [exact Hnone|split; [exact Hk|split]]]]].
    - split.
      + rewrite Hk. apply NoDup_app_snoc; auto. intros Hi. apply key_get in Hi. destruct Hi. congruence.
      + destruct D as [d D]. exists d. auto.
      + intros m pm. rewrite Hg. destruct (String.eqb m (p_name p)) eqn:E; [|eauto].
        apply seq_spec in E. intros E'. injection E' as <-. simpl. auto.
      + intros m pm. rewrite Hg, Hl. unfold r'. destruct (String.eqb m (p_name p)) eqn:E; [lia|].
        intros Hm. specialize (Rk _ _ Hm). lia.
      + intros m pm Hn. rewrite Hg. destruct (String.eqb m (p_name p)) eqn:E.
        * apply seq_spec in E. subst m. intros E. injection E as <-. exists q, pq. split; [reflexivity|]. split; [auto|].
          split; [rewrite (Hr' _ _ Eq); unfold r'; rewrite seqb_refl; exact Rkq|]. simpl. unfold pf.
          destruct (dmem String.eqb (p_pframe p) (p_frames pq)) eqn:Ef; eauto.
        * intros Hm. destruct (Pa m pm Hn Hm) as (y & py & A & B & C & F). exists y, py. repeat split; auto.
          rewrite (Hr' _ _ B), (Hr' _ _ Hm). exact C.
      + intros m pm. rewrite Hg. destruct (String.eqb m (p_name p)) eqn:E; [|eauto]. intros E'. injection E' as <-. exact Ho.
      + intros m pm y Hn. rewrite Hg, Hch. destruct (String.eqb m (p_name p)) eqn:E.
        * apply seq_spec in E. subst m. intros E. injection E as <-. simpl. intros E. injection E as <-.
          rewrite seqb_refl. apply in_or_app. right. left. reflexivity.
        * intros Hm Hy. specialize (C1 m pm y Hn Hm Hy). destruct (String.eqb y q) eqn:Ey; auto.
          apply seq_spec in Ey. subst y. apply in_or_app. auto.
      + intros m y. rewrite Hch. destruct (String.eqb y q) eqn:Ey.
        * apply seq_spec in Ey. subst y. intros Hm. apply in_app_or in Hm. destruct Hm as [Hm|[Hm|[]]].
          -- destruct (C2 _ _ Hm) as (pm & A & B & B1). exists pm. auto.
          -- subst m. exists p'. rewrite Hg, seqb_refl. split; [reflexivity|]. split; [reflexivity|].
             intros E. destruct D as [d D]. rewrite <- E in D. congruence.
        * intros Hm. destruct (C2 _ _ Hm) as (pm & A & B & B1). exists pm. auto.
      + intros y. rewrite Hch. destruct (String.eqb y q); auto. apply NoDup_app_snoc; auto.
        intros Hi. destruct (C2 _ _ Hi) as (pm & A & _). congruence.
    - intros HC m pm. rewrite Hg. destruct (String.eqb m (p_name p)) eqn:E.
      + intros E'. injection E' as <-. simpl. discriminate.
      + intros Hm Hd. destruct (HC _ _ Hm Hd) as (l & A & B). exists l. split; auto.
        clear - B Hold. induction B; [constructor; auto|]. econstructor; eauto.
    - rewrite <- H. reflexivity.
    - exists q, pq, p'. split; [reflexivity|]. split; [exact Eq|]. split; [rewrite Hg, seqb_refl; reflexivity|].
      repeat split.
  Qed.
  Lemma add_part_no_rec c p : add_part c p <> KRecursionError.
  Proof. unfold add_part. destruct (dmem _ _ _); [discriminate|]. destruct (get_part _ _); discriminate. Qed.
  Lemma mk_origin n q pf j fr m : dmem String.eqb ORIGIN (p_frames (KinematicPart K n q pf j fr m)) = true.
  Proof.
    unfold KinematicPart. simpl. destruct (dmem String.eqb ORIGIN fr) eqn:E; auto.
    unfold dmem. rewrite (dget_set_same String.eqb seq_spec). reflexivity.
  Qed.

  Lemma new_struct name : Struct (KinematicChain K name) (fun _ => 0) /\ Cache (KinematicChain K name).
  Proof.
    assert (G : forall n p, get_part (KinematicChain K name) n = Some p -> n = DATUM /\
              p = set_cached (KinematicPart K DATUM None ORIGIN (fixedj K "global_joint") [] (nometa K)) (one K)).
    { intros n p. unfold get_part, KinematicChain. cbn [c_parts dget]. destruct (String.eqb n DATUM) eqn:E.
      - intros H. injection H as <-. apply seq_spec in E. auto.
      - discriminate. }
    split; [split|].
    - simpl. constructor; [simpl; tauto|constructor].
    - eexists. reflexivity.
    - intros n p H. destruct (G _ _ H) as (-> & ->). reflexivity.
    - intros. simpl. lia.
    - intros n p Hn H. destruct (G _ _ H). contradiction.
    - intros n p H. destruct (G _ _ H) as (-> & ->). reflexivity.
    - intros n p q Hn H. destruct (G _ _ H). contradiction.
    - intros m q. unfold get_children, KinematicChain. cbn [c_children dget]. destruct (String.eqb q DATUM); simpl; tauto.
    - intros q. unfold get_children, KinematicChain. cbn [c_children dget]. destruct (String.eqb q DATUM); constructor.
    - intros n p H Hd. destruct (G _ _ H) as (-> & ->). exists []. split; [reflexivity|].
      eapply (path_root _ (KinematicChain K name) ORIGIN). reflexivity.
  Qed.

  Lemma op_ok c o r : Struct c r -> exists c' r', apply_op c o = KOk c' /\ Struct c' r' /\
    (careful c o -> Cache c -> Cache c').
  Proof.
    intros S. destruct o as [n q pf j fr m|n v cl|n f|n f t]; unfold apply_op.
    - destruct (add_part c (KinematicPart K n q pf j fr m)) as [c'| |] eqn:E.
      + destruct (add_part_ok c r _ c' S (mk_origin _ _ _ _ _ _) E) as (r' & A & B & _). eauto 6.
      + exists c, r. auto.
      + destruct (add_part_no_rec _ _ E).
    - destruct (get_part c n) as [p|] eqn:Ep.
      + destruct (set_joint_ok c r n v cl S (ex_intro _ p Ep)) as (c' & E & A & B & _). rewrite E. eauto 6.
      + unfold set_joint_value. rewrite Ep. exists c, r. auto.
    - unfold get_world_transform. destruct (get_part c n) as [p|] eqn:Ep.
      + destruct (world_ok c r S (depth c) c n f p (same_refl c)) as (c' & w & E & A & B); auto.
        { unfold depth. pose proof (st_rank _ _ S n p Ep). lia. }
        rewrite E. simpl. exists c', r. split; [reflexivity|]. split; [eapply struct_same; eauto|].
        intros _ HC. apply B. exact HC.
      + unfold depth. simpl. rewrite Ep. exists c, r. auto.
    - unfold add_frame. destruct (get_part c n) as [p|] eqn:Ep; [|exists c, r; auto].
      eexists _, r. split; [reflexivity|]. split; [apply struct_add_frame; auto|].
      intros Hc HC. eapply cache_add_frame; eauto.
  Qed.

  Lemma reachable_good c : reachable c -> Good c.
  Proof.
    induction 1 as [name|c o c' H [r S] E].
    - eexists. apply new_struct.
    - destruct (op_ok c o r S) as (c1 & r1 & E1 & S1 & _). rewrite E1 in E. injection E as <-. exists r1. exact S1.
  Qed.
  Lemma history_reachable c : history c -> reachable c.
  Proof. induction 1; [constructor|econstructor; eauto]. Qed.
  Lemma history_cache c : history c -> Cache c.
  Proof.
    induction 1 as [name|c o c' H IH Hc E].
    - apply new_struct.
    - destruct (reachable_good _ (history_reachable _ H)) as [r S].
      destruct (op_ok c o r S) as (c1 & r1 & E1 & _ & B). rewrite E1 in E. injection E as <-. auto.
  Qed.

  Lemma reachable_no_crash c o : reachable c -> exists c', apply_op c o = KOk c'.
  Proof.
    intros H. destruct (reachable_good _ H) as [r S]. destruct (op_ok c o r S) as (c' & r' & E & _). eauto.
  Qed.
  Lemma query_fresh c n f : history c -> (exists p, get_part c n = Some p) ->
    exists c' w l, get_world_transform c n f = KOk (c', w) /\ path c n f l /\ w = product l.
  Proof.
    intros H [p Hp]. destruct (reachable_good _ (history_reachable _ H)) as [r S].
    destruct (world_ok c r S (depth c) c n f p (same_refl c)) as (c' & w & E & A & B); auto.
    { unfold depth. pose proof (st_rank _ _ S n p Hp). lia. }
    destruct (B (history_cache _ H)) as (_ & l & P1 & P2). eauto 6.
  Qed.
  Lemma query_keeps c n f c' w : reachable c -> get_world_transform c n f = KOk (c', w) ->
    forall m, match get_part c m, get_part c' m with
              | Some p, Some p' => same_part p p' | None, None => True | _, _ => False end.
  Proof.
    intros H E. destruct (reachable_good _ H) as [r S].
    destruct (get_part c n) as [p|] eqn:Hp.
    - destruct (world_ok c r S (depth c) c n f p (same_refl c)) as (c1 & w1 & E1 & A & _); auto.
      { unfold depth. pose proof (st_rank _ _ S n p Hp). lia. }
      unfold get_world_transform in E. rewrite E1 in E. injection E as -> ->.
      intros m. destruct (get_part c m) as [pm|] eqn:Em.
      + destruct (same_get _ _ _ _ A Em) as (pm' & -> & B). exact B.
      + destruct (get_part c' m) as [pm'|] eqn:Em'; auto.
        destruct (same_get _ _ _ _ (same_sym _ _ A) Em') as (? & ? & _). congruence.
    - unfold get_world_transform, depth in E. simpl in E. rewrite Hp in E. discriminate.
  Qed.
  Lemma query_unknown c n f : get_part c n = None -> get_world_transform c n f = KValueError.
  Proof. intros H. unfold get_world_transform, depth. simpl. rewrite H. reflexivity. Qed.

  (** add_part rejects a duplicate name or an unknown parent, and only those *)
  Lemma add_part_errors c p : (exists c', add_part c p = KOk c') <->
    get_part c (p_name p) = None /\
    exists pq, get_part c (match p_parent p with Some q => q | None => DATUM end) = Some pq.
  Proof.
    unfold add_part, dmem, get_part. destruct (dget String.eqb (p_name p) (c_parts c)) eqn:E.
    - split; [intros [? H]; discriminate|intros [H _]; discriminate].
    - destruct (dget String.eqb (match p_parent p with Some q => q | None => DATUM end) (c_parts c)) eqn:E2; split.
      + intros _. split; [reflexivity|eexists; reflexivity].
      + intros _. eexists; reflexivity.
      + intros [? H]; discriminate.
      + intros [_ [? H]]; discriminate.
  Qed.
  (** set_joint_value changes the joint of that part and nothing else *)
  Lemma set_joint_frame c n v cl c' : reachable c -> set_joint_value c n v cl = KOk c' ->
    exists p p', get_part c n = Some p /\ get_part c' n = Some p' /\
      p_joint p' = jset K (p_joint p) v cl /\
      p_parent p' = p_parent p /\ p_pframe p' = p_pframe p /\ p_frames p' = p_frames p /\
      forall m, m <> n -> match get_part c m, get_part c' m with
              | Some p, Some p' => same_part p p' | None, None => True | _, _ => False end.
  Proof.
    intros H E. destruct (reachable_good _ H) as [r S]. destruct (get_part c n) as [p|] eqn:Hp.
    2:{ unfold set_joint_value in E. rewrite Hp in E. discriminate. }
    destruct (set_joint_ok c r n v cl S (ex_intro _ p Hp)) as (c1 & E1 & _ & _ & p0 & Hp0 & Hs).
    rewrite E1 in E. injection E as ->. assert (p0 = p) by congruence. subst p0.
    destruct (same_get _ _ n (part_set_joint p v cl) Hs (get_set_same _ _ _)) as (p' & Hp' & F1 & F2 & F3 & F4 & F5 & F6).
    exists p, p'. simpl in *. repeat split; auto; try congruence.
    intros m Hm. destruct (get_part c m) as [pm|] eqn:Em.
    - destruct (same_get _ _ m pm Hs) as (pm' & -> & B); [rewrite get_set_other; auto|exact B].
    - destruct (get_part c' m) as [pm'|] eqn:Em'; auto.
      destruct (same_get _ _ _ _ (same_sym _ _ Hs) Em') as (? & HH & _). rewrite get_set_other in HH; congruence.
  Qed.
End P.
