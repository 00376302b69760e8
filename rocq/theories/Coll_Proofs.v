From Coq Require Import Reals String List Bool Lia Permutation.
From Verif Require Import Dict Coll_Model Coll_Spec.
Import ListNotations.
Open Scope list_scope.

Lemma itype_spec a b : itype_beq a b = true <-> a = b.
Proof. split; [apply internal_itype_dec_bl|apply internal_itype_dec_lb]. Qed.
Lemma forallb_filter_id {A} (f : A -> bool) l : forallb f l = true -> filter f l = l.
Proof. induction l as [|x l IH]; cbn; auto. intros E. apply andb_true_iff in E as [-> E]. f_equal. auto. Qed.
Section Index.
  Context {K : Type} (eqb : K -> K -> bool) (eqb_spec : forall a b, eqb a b = true <-> a = b) (H : heap) (key : nat -> K).
  Let nm (o : nat) := name (H o).
  Definition select (k : K) (l : list nat) : list nat := filter (fun o => eqb (key o) k) l.
  Definition index_ok (d : list (K * list string)) (l : list nat) : Prop :=
    NoDup (keys d) /\ forall k, dget eqb k d = match select k l with [] => None | os => Some (map nm os) end.
  Lemma eqb_same k : eqb k k = true. Proof. apply eqb_spec; auto. Qed.
  Lemma select_app k l l' : select k (l ++ l') = select k l ++ select k l'. Proof. apply filter_app. Qed.
  Lemma at_key_ok d l k : index_ok d l -> at_key eqb k d = map nm (select k l).
  Proof. intros [_ I]. unfold at_key. rewrite I. destruct (select k l); reflexivity. Qed.
  Lemma index_add d l o : index_ok d l -> index_ok (dset eqb (key o) (at_key eqb (key o) d ++ [nm o]) d) (l ++ [o]).
  Proof.
    intros I. rewrite (at_key_ok d l) by exact I. destruct I as [N I]. split; [apply nodup_set; auto|].
    assert (S1 : forall k, select k [o] = if eqb (key o) k then [o] else []) by reflexivity.
    intros k. rewrite (dget_set _ eqb_spec), select_app, S1. destruct (eqb k (key o)) eqn:E.
    - apply eqb_spec in E. subst k. rewrite eqb_same.
      destruct (select (key o) l ++ [o]) as [|x r] eqn:X; [destruct (select (key o) l); discriminate|].
      rewrite <- X, map_app. reflexivity.
    - destruct (eqb (key o) k) eqn:E'; [apply eqb_spec in E'; subst k; rewrite eqb_same in E; discriminate|].
      rewrite app_nil_r. apply I.
  Qed.
  Lemma lremove_map n os : NoDup (map nm os) -> In n (map nm os) -> lremove n (map nm os) = Some (map nm (filter (fun o => negb (named H n o)) os)).
  Proof.
    unfold named. induction os as [|o os IH]; cbn [map lremove filter In]; intros N Hin; [destruct Hin|]. inversion N; subst.
    fold (nm o). destruct (String.eqb_spec (nm o) n) as [E|E]; cbn [negb].
    - subst n. do 2 f_equal. clear -H2. induction os as [|x os IH]; cbn [filter map In] in *; auto. fold (nm x).
      destruct (String.eqb_spec (nm x) (nm o)) as [X|X]; [rewrite X in H2; tauto|]. cbn [negb]. f_equal. apply IH. tauto.
    - destruct Hin as [Hin|Hin]; [congruence|]. rewrite (IH H3 Hin). reflexivity.
  Qed.
  Lemma filter_comm {A} (f g : A -> bool) l : filter f (filter g l) = filter g (filter f l).
  Proof. induction l as [|x l IH]; cbn; auto. destruct (g x) eqn:G, (f x) eqn:F; cbn; rewrite ?F, ?G; rewrite ?IH; auto. Qed.
  Lemma nodup_select k l : NoDup (map nm l) -> NoDup (map nm (select k l)).
  Proof.
    unfold select. induction l as [|x l IH]; cbn [map filter]; auto. intros N. inversion N; subst. destruct (eqb (key x) k); auto.
    cbn [map]. constructor; auto. intros Hin. apply H2. apply in_map_iff in Hin as (y & Hy & Hin). apply filter_In in Hin as [Hin _].
    rewrite <- Hy. apply in_map. exact Hin.
  Qed.
  Lemma index_del d l o : index_ok d l -> NoDup (map nm l) -> In o l ->
    exists d', unindex eqb (key o) (nm o) d = Some d' /\ index_ok d' (filter (fun o' => negb (named H (nm o) o')) l).
  Proof.
    intros [N I] Nn Hin. assert (Ho : In o (select (key o) l)) by (apply filter_In; split; auto; apply eqb_same).
    assert (Sk : forall k, select k (filter (fun o' => negb (named H (nm o) o')) l) = filter (fun o' => negb (named H (nm o) o')) (select k l)) by (intros; apply filter_comm).
    assert (Ot : forall k, k <> key o -> filter (fun o' => negb (named H (nm o) o')) (select k l) = select k l).
    { intros k Nk. apply forallb_filter_id. apply forallb_forall. intros x Hx. apply filter_In in Hx as [Hx Hk]. apply eqb_spec in Hk.
      unfold named. apply negb_true_iff. destruct (String.eqb_spec (name (H x)) (nm o)) as [E|]; auto. exfalso. apply Nk. rewrite <- Hk. f_equal.
      clear -Nn Hin Hx E. induction l as [|y l IH]; [destruct Hx|]. cbn [map] in Nn. inversion Nn; subst. destruct Hx as [->|Hx], Hin as [->|Hin]; auto.
      - exfalso. apply H2. fold (nm x) in E. rewrite E. apply in_map, Hin.
      - exfalso. apply H2. rewrite <- E. apply (in_map nm). exact Hx. }
    unfold unindex. rewrite I. destruct (select (key o) l) as [|x r] eqn:Es; [destruct Ho|]. rewrite <- Es in *.
    rewrite lremove_map; [|apply nodup_select, Nn|apply in_map; exact Ho].
    destruct (filter (fun o' => negb (named H (nm o) o')) (select (key o) l)) as [|y q] eqn:Ef; cbn [map].
    - eexists. split; [reflexivity|]. split; [apply nodup_del; auto|]. intros k. destruct (eqb k (key o)) eqn:E.
      + apply eqb_spec in E. subst k. rewrite (dget_del_same _ eqb_spec) by exact N. rewrite Sk, Ef. reflexivity.
      + assert (Nk : k <> key o) by (intros ->; rewrite eqb_same in E; discriminate).
        rewrite (dget_del_other _ eqb_spec) by exact Nk. rewrite Sk, (Ot k Nk). apply I.
    - eexists. split; [reflexivity|]. split; [apply nodup_set; auto|]. intros k. rewrite (dget_set _ eqb_spec). destruct (eqb k (key o)) eqn:E.
      + apply eqb_spec in E. subst k. rewrite Sk, Ef. reflexivity.
      + assert (Nk : k <> key o) by (intros ->; rewrite eqb_same in E; discriminate). rewrite Sk, (Ot k Nk). apply I.
  Qed.
End Index.

Section Registry.
  Variable H : heap.
  Definition entries (l : list nat) : list (string * nat) := map (fun o => (name (H o), o)) l.
  Definition ok (r : registry) (l : list nat) : Prop :=
    interfaces r = entries l /\ NoDup (map (fun o => name (H o)) l) /\
    index_ok String.eqb H (fun o => part_name (H o)) (by_part r) l /\ index_ok itype_beq H (fun o => interface_type (H o)) (by_type r) l.
  Lemma ok_empty : ok empty [].
  Proof. repeat split; cbn; constructor. Qed.
  Lemma entries_get n l : dget String.eqb n (entries l) = find (named H n) l.
  Proof.
    induction l as [|o l IH]; cbn [entries map dget find]; auto. unfold named at 1. rewrite String.eqb_sym. destruct (name (H o) =? n)%string; auto.
  Qed.
  Lemma find_exists {A} (f : A -> bool) l : existsb f l = match find f l with Some _ => true | None => false end.
  Proof. induction l as [|x l IH]; cbn; auto. destruct (f x); auto. Qed.
  Lemma entries_set o l : existsb (named H (name (H o))) l = false -> dset String.eqb (name (H o)) o (entries l) = entries (l ++ [o]).
  Proof.
    induction l as [|x l IH]; cbn [existsb entries map dset app]; auto. intros E. apply orb_false_iff in E as [E1 E2]. unfold named in E1.
    rewrite String.eqb_sym in E1. rewrite E1. f_equal. apply IH, E2.
  Qed.
  Lemma entries_del n l : NoDup (map (fun o => name (H o)) l) -> ddel String.eqb n (entries l) = entries (filter (fun o => negb (named H n o)) l).
  Proof.
    unfold named. induction l as [|x l IH]; cbn [entries map ddel filter]; auto. intros N. inversion N; subst. rewrite String.eqb_sym.
    destruct (String.eqb_spec (name (H x)) n) as [E|E]; cbn [negb map].
    - subst n. clear -H2. induction l as [|y l IH]; cbn [entries map filter In] in *; auto.
      destruct (String.eqb_spec (name (H y)) (name (H x))) as [X|X]; [rewrite X in H2; tauto|]. cbn [negb map]. f_equal. apply IH. tauto.
    - f_equal. apply IH, H3.
  Qed.
  Lemma not_named_nodup o l : NoDup (map (fun o => name (H o)) l) -> existsb (named H (name (H o))) l = false -> NoDup (map (fun o => name (H o)) (l ++ [o])).
  Proof.
    intros N E. rewrite map_app. apply NoDup_app_snoc; auto. intros Hin. apply in_map_iff in Hin as (x & Ex & Hx).
    assert (X : existsb (named H (name (H o))) l = true); [|congruence]. apply existsb_exists. exists x. split; auto. unfold named. rewrite Ex. apply String.eqb_refl.
  Qed.
  Lemma register_ok o r l : ok r l -> register H o r = (if existsb (named H (name (H o))) l then (r, RValueError) else (fst (register H o r), ROk tt)) /\
    ok (fst (register H o r)) (effect H l (Register o)).
  Proof.
    intros (E & N & P & T). unfold register, dmem. rewrite E, entries_get. cbn [effect]. rewrite find_exists. destruct (find (named H (name (H o))) l) eqn:F.
    - split; auto. cbn. repeat split; auto; apply P || apply T.
    - split; auto. cbn [fst]. assert (X : existsb (named H (name (H o))) l = false) by (rewrite find_exists, F; auto).
      split; [cbn [interfaces]; apply entries_set, X|]. split; [apply not_named_nodup; auto|]. cbn [by_part by_type]. split.
      + apply (index_add String.eqb String.eqb_eq H (fun o => part_name (H o))). exact P.
      + apply (index_add itype_beq itype_spec H (fun o => interface_type (H o))). exact T.
  Qed.
  Lemma register_many_ok os : forall r l, ok r l -> ok (fst (register_many H os r)) (add_all H os l).
  Proof.
    induction os as [|o os IH]; intros r l O; cbn [register_many add_all]; auto. destruct (register_ok o r l O) as [E O']. cbn [effect] in O'.
    rewrite E. destruct (existsb (named H (name (H o))) l); [exact O|]. apply IH, O'.
  Qed.
  Lemma unregister_ok n r l : ok r l -> unregister H n r = (fst (unregister H n r), ROk (find (named H n) l)) /\ ok (fst (unregister H n r)) (effect H l (Unregister n)).
  Proof.
    intros (E & N & P & T). unfold unregister. rewrite E, entries_get. cbn [effect]. destruct (find (named H n) l) as [o|] eqn:F.
    - apply find_some in F as [Hin Hn]. unfold named in Hn. apply String.eqb_eq in Hn. subst n.
      destruct (index_del String.eqb String.eqb_eq H (fun o => part_name (H o)) _ l o P N Hin) as (bp & -> & P').
      destruct (index_del itype_beq itype_spec H (fun o => interface_type (H o)) _ l o T N Hin) as (bt & -> & T').
      split; auto. cbn [fst]. rewrite entries_del by exact N. repeat split; cbn; auto; try apply P'; try apply T'.
      clear -N. induction l as [|x l IH]; cbn [map filter]; auto. inversion N; subst. destruct (negb _); auto. cbn [map]. constructor; auto.
      intros Hin. apply H2. apply in_map_iff in Hin as (y & Hy & Hin). apply filter_In in Hin as [Hin _]. rewrite <- Hy. apply (in_map (fun o => name (H o))). exact Hin.
    - split; auto. cbn [fst]. rewrite forallb_filter_id; [repeat split; auto; apply P || apply T|]. apply forallb_forall. intros x Hx.
      rewrite (find_none _ _ F x Hx). reflexivity.
  Qed.
  Lemma run_ok xs : forall r l, no_mutation xs -> ok r l -> fst (run xs (H, r)) = H /\ ok (snd (run xs (H, r))) (fold_left (effect H) xs l).
  Proof.
    unfold run. induction xs as [|x xs IH]; intros r l M O; cbn [fold_left]; auto.
    assert (M' : no_mutation xs) by (intros o p Hin; apply (M o p); right; exact Hin).
    destruct x as [o|os|n| |o p]; cbn [step].
    - apply IH; auto. apply register_ok, O.
    - apply IH; auto. apply register_many_ok, O.
    - apply IH; auto. apply unregister_ok, O.
    - apply IH; auto. apply ok_empty.
    - destruct (M o p). left. reflexivity.
  Qed.
  Lemma lookup_ok r l os : ok r l -> (forall o, In o os -> In o l) -> lookup_all r (map (fun o => name (H o)) os) = ROk os.
  Proof.
    intros (E & N & _) S. induction os as [|o os IH]; cbn [map lookup_all]; auto. rewrite E, entries_get.
    assert (F : find (named H (name (H o))) l = Some o).
    { assert (Hin : In o l) by (apply S; left; auto). clear -N Hin. induction l as [|x l IH]; [destruct Hin|]. cbn [map] in N. inversion N; subst. cbn [find].
      unfold named at 1. destruct (String.eqb_spec (name (H x)) (name (H o))) as [X|X].
      - destruct Hin as [->|Hin]; auto. exfalso. apply H2. rewrite X. apply (in_map (fun o => name (H o))). exact Hin.
      - destruct Hin as [->|Hin]; [congruence|auto]. }
    rewrite F, IH; auto. intros o' Hin. apply S. right. exact Hin.
  Qed.
  Lemma for_part_ok r l p : ok r l -> for_part p r = ROk (filter (fun o => String.eqb (part_name (H o)) p) l).
  Proof.
    intros O. unfold for_part. destruct O as (E & N & P & T). rewrite (at_key_ok _ H (fun o => part_name (H o)) _ l) by exact P.
    apply (lookup_ok r l); [repeat split; auto; apply P || apply T|]. intros o Hin. apply filter_In in Hin as [Hin _]. exact Hin.
  Qed.
  Lemma of_type_ok r l ty : ok r l -> of_type ty r = ROk (filter (fun o => itype_beq (interface_type (H o)) ty) l).
  Proof.
    intros O. unfold of_type. destruct O as (E & N & P & T). rewrite (at_key_ok _ H (fun o => interface_type (H o)) _ l) by exact T.
    apply (lookup_ok r l); [repeat split; auto; apply P || apply T|]. intros o Hin. apply filter_In in Hin as [Hin _]. exact Hin.
  Qed.
  Lemma all_parts_ok r l : ok r l -> NoDup (all_parts r) /\ forall p, (In p (all_parts r) <-> exists o, In o l /\ part_name (H o) = p) /\ (has_interfaces p r = true <-> In p (all_parts r)).
  Proof.
    intros (E & N & [NP P] & T). split; [exact NP|]. intros p. unfold all_parts, has_interfaces. fold (keys (by_part r)). rewrite <- (dget_some_key _ String.eqb_eq). rewrite P.
    destruct (select String.eqb (fun o => part_name (H o)) p l) as [|o os] eqn:S; cbn [map length].
    - split; [|split; [discriminate|intros [v X]; discriminate X]]. split; [intros [v X]; discriminate X|]. intros (o & Hin & <-).
      assert (X : In o (select String.eqb (fun o => part_name (H o)) (part_name (H o)) l)) by (apply filter_In; split; auto; apply String.eqb_refl). rewrite S in X. destruct X.
    - split; [|split; [eauto|reflexivity]]. split; [|eauto]. intros _. exists o.
      assert (X : In o (select String.eqb (fun o => part_name (H o)) p l)) by (rewrite S; left; auto). apply filter_In in X as [X Y]. apply String.eqb_eq in Y. auto.
  Qed.
  Lemma all_ok r l : ok r l -> all_interfaces r = l.
  Proof. intros (E & _). unfold all_interfaces, entries in *. rewrite E, map_map. apply map_id. Qed.
  Lemma get_ok r l n : ok r l -> get n r = find (named H n) l.
  Proof. intros (E & _). unfold get. rewrite E. apply entries_get. Qed.

  Variable user : iface -> iface -> bool.
  Lemma check_overlap_ok r l pa pb : ok r l -> exists v results, check_overlap user H pa pb r = ROk (v, results) /\ (v = true <-> fits user H l pa pb).
  Proof.
    intros O. unfold check_overlap. rewrite !(for_part_ok r l) by exact O.
    set (la := filter (fun o => (part_name (H o) =? pa)%string) l). set (lb := filter (fun o => (part_name (H o) =? pb)%string) l).
    assert (Ia : forall a, In a la <-> In a l /\ part_name (H a) = pa) by (intros a; unfold la; rewrite filter_In, String.eqb_eq; tauto).
    assert (Ib : forall a, In a lb <-> In a l /\ part_name (H a) = pb) by (intros a; unfold lb; rewrite filter_In, String.eqb_eq; tauto).
    set (results := flat_map (fun a => map (fun b => compatible user (H a) (H b)) (filter (fun b => overlaps (1 / 10) (H a) (H b)) lb)) la).
    assert (R : forall x, In x results <-> exists a b, meet H l pa pb a b /\ compatible user (H a) (H b) = x).
    { intros x. unfold results. rewrite in_flat_map. split.
      - intros (a & Ha & Hx). apply in_map_iff in Hx as (b & Hx & Hb). apply filter_In in Hb as [Hb Ov]. apply Ia in Ha. apply Ib in Hb. exists a, b. unfold meet. tauto.
      - intros (a & b & (H1 & H2 & H3 & H4 & H5) & Hx). exists a. split; [apply Ia; auto|]. apply in_map_iff. exists b. split; auto. apply filter_In. split; auto. apply Ib; auto. }
    destruct ((match la with [] => true | _ => false end) || (match lb with [] => true | _ => false end)) eqn:Z.
    - do 2 eexists. split; [reflexivity|]. split; [discriminate|]. intros ((a & b & (H1 & H2 & H3 & H4 & H5) & _) & _).
      apply orb_true_iff in Z as [Z|Z]; [destruct la as [|? ?]|destruct lb as [|? ?]]; try discriminate Z; exfalso; [apply (Ia a)|apply (Ib b)]; auto.
    - do 2 eexists. split; [reflexivity|]. fold results. rewrite andb_true_iff, existsb_exists, forallb_forall. unfold fits. split.
      + intros ((x & Hx & ->) & F). split; [apply R in Hx as (a & b & M & C); eauto|]. intros a b M. apply F. apply R. eauto.
      + intros ((a & b & M & C) & F). split; [exists true; split; auto; apply R; eauto|]. intros x Hx. apply R in Hx as (a' & b' & M' & <-). auto.
  Qed.
  Lemma compatible_names_ok r l pa pb : ok r l -> exists ns, compatible_names user H pa pb r = ROk ns /\
    forall n, In n ns <-> fits user H l pa pb /\ exists a b, meet H l pa pb a b /\ compatible user (H a) (H b) = true /\ (n = name (H a) \/ n = name (H b)).
  Proof.
    intros O. unfold compatible_names. destruct (check_overlap_ok r l pa pb O) as (v & results & -> & Hv). destruct v.
    - rewrite !(for_part_ok r l) by exact O. eexists. split; [reflexivity|]. intros n. rewrite in_flat_map. split.
      + intros (a & Ha & Hn). split; [apply Hv; auto|]. apply in_flat_map in Hn as (b & Hb & Hn). apply filter_In in Ha as [Ha Pa]. apply filter_In in Hb as [Hb Pb].
        apply String.eqb_eq in Pa, Pb. destruct (overlaps (1 / 10) (H a) (H b)) eqn:Ov; [|destruct Hn]. destruct (compatible user (H a) (H b)) eqn:C; [|destruct Hn].
        cbn in Hn. exists a, b. unfold meet. intuition.
      + intros (_ & a & b & (H1 & H2 & H3 & H4 & H5) & C & Hn). exists a. split; [apply filter_In; split; auto; apply String.eqb_eq, H3|].
        apply in_flat_map. exists b. split; [apply filter_In; split; auto; apply String.eqb_eq, H4|]. rewrite H5, C. cbn. intuition.
    - eexists. split; [reflexivity|]. intros n. split; [intros []|]. intros [F _]. apply Hv in F. discriminate.
  Qed.
End Registry.
