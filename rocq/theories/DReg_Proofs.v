From Coq Require Import String List Bool Lia Arith.
From Verif Require Import Dict DReg_Model DReg_Spec.
Import ListNotations.
Open Scope list_scope.

Lemma mem_in s l : mem s l = true <-> In s l.
Proof. unfold mem. rewrite existsb_exists. split; [intros (x & H & E); apply String.eqb_eq in E; subst; auto|intros H; exists s; split; auto; apply String.eqb_refl]. Qed.
Lemma length_update {A} i f (l : list A) : length (update i f l) = length l.
Proof. revert i. induction l as [|a l IH]; intros [|i]; cbn; auto. Qed.
Lemma nth_update {A} i j f (l : list A) d : i < length l -> nth j (update i f l) d = if Nat.eqb j i then f (nth i l d) else nth j l d.
Proof. revert i j. induction l as [|a l IH]; intros [|i] [|j] H; cbn in *; auto; try lia. apply IH. lia. Qed.
Lemma mem_add s k (x : list string) : mem s (if mem k x then x else x ++ [k]) = (mem s x || String.eqb s k)%bool.
Proof.
  destruct (mem k x) eqn:E.
  - destruct (String.eqb_spec s k); [subst; rewrite E|]; rewrite ?orb_true_r, ?orb_false_r; auto.
  - unfold mem. rewrite existsb_app. cbn. rewrite orb_false_r. reflexivity.
Qed.

Section Proofs.
  Context {D : Type}.
  Variable disk : list string -> string -> found (D := D).
  Variable s : string.
  Notation state := (state (D := D)).
  Notation getk := (dget String.eqb).
  Definition placed (x : state) (v : view (D := D)) : Prop :=
    match v with
    | Fresh => mem s (loaded x) = false /\ getk s (sources x) = None
    | Nothing => mem s (loaded x) = true /\ getk s (sources x) = None
    | Table ds => mem s (loaded x) = true /\ exists i, getk s (sources x) = Some i /\ datums (object x i) = ds /\ (forall k, In k (part_names (object x i)) -> k = s)
    end.
  Definition apart (x : state) : Prop :=
    NoDup (keys (sources x)) /\ (forall k i, getk k (sources x) = Some i -> i < length (objects x)) /\
    (forall k i, k <> s -> getk k (sources x) = Some i -> ~ In s (part_names (object x i)) /\ getk s (sources x) <> Some i).
  Definition inv (x : state) (p : list string) (v : view (D := D)) : Prop := search_paths x = p /\ apart x /\ placed x v.

  Lemma object_put k o (x : state) i : i < length (objects x) -> object (put k o x) i = object x i.
  Proof. intros H. unfold object, put. cbn. apply app_nth1, H. Qed.
  Lemma object_put_new k o (x : state) : object (put k o x) (length (objects x)) = o.
  Proof. unfold object, put. cbn. rewrite app_nth2, Nat.sub_diag by lia. reflexivity. Qed.
  Lemma getk_put k k' o (x : state) : getk k (sources (put k' o x)) = if String.eqb k k' then Some (length (objects x)) else getk k (sources x).
  Proof. unfold put. cbn. apply (dget_set _ String.eqb_eq). Qed.
  Lemma getk_alias k k' i (x : state) : getk k (sources (alias k' i x)) = if String.eqb k k' then Some i else getk k (sources x).
  Proof. unfold alias. cbn. apply (dget_set _ String.eqb_eq). Qed.

  Lemma inv_loaded k x p v : inv x p v -> k <> s -> inv (add_loaded k x) p v.
  Proof.
    intros (P & A & V) N. split; [exact P|]. split; [exact A|].
    assert (M : mem s (loaded (add_loaded k x)) = mem s (loaded x)).
    { cbn [add_loaded loaded]. rewrite mem_add. destruct (String.eqb_spec s k); [congruence|]. apply orb_false_r. }
    destruct v; cbn [placed] in *; rewrite M; exact V.
  Qed.
  Lemma inv_loaded_same x p v v' : inv x p v -> (v' = match v with Fresh => Nothing | _ => v end) -> inv (add_loaded s x) p v'.
  Proof.
    intros (P & A & V) ->. split; [exact P|]. split; [exact A|].
    assert (M : mem s (loaded (add_loaded s x)) = true) by (cbn [add_loaded loaded]; rewrite mem_add, String.eqb_refl; apply orb_true_r).
    destruct v; cbn [placed] in *; rewrite M; destruct V; auto.
  Qed.
  (** a new object under another name *)
  Lemma inv_put k o x p v : inv x p v -> k <> s -> ~ In s (part_names o) -> inv (put k o x) p v.
  Proof.
    intros (P & (ND & B & O) & V) N Ho. split; [exact P|].
    assert (Ne : String.eqb s k = false) by (apply String.eqb_neq; congruence).
    assert (Gs : getk s (sources (put k o x)) = getk s (sources x)) by (rewrite getk_put, Ne; reflexivity).
    split; [split; [|split]|].
    - apply (nodup_set _ String.eqb_eq), ND.
    - intros k' i. rewrite getk_put. unfold put. cbn. rewrite app_length. cbn. destruct (String.eqb k' k); [intros [= <-]; lia|]. intros H. apply B in H. lia.
    - intros k' i Nk. rewrite Gs, getk_put. destruct (String.eqb k' k).
      + intros [= <-]. rewrite object_put_new. split; auto. intros H. apply B in H. lia.
      + intros H. rewrite object_put by (eapply B; eauto). apply (O k'); auto.
    - destruct v; cbn [placed] in *; rewrite Gs; auto. destruct V as (L & i & Hi & V). split; auto. exists i. rewrite object_put by (eapply B; eauto). auto.
  Qed.
  (** a new object under this name *)
  Lemma inv_put_same o x p v : inv x p v -> (forall k, In k (part_names o) -> k = s) -> inv (add_loaded s (put s o x)) p (Table (datums o)).
  Proof.
    intros (P & (ND & B & O) & V) Ho. split; [exact P|]. split; [split; [|split]|].
    - apply (nodup_set _ String.eqb_eq), ND.
    - intros k' i. cbn [add_loaded sources objects]. rewrite getk_put. unfold put. cbn. rewrite app_length. cbn. destruct (String.eqb k' s); [intros [= <-]; lia|]. intros H. apply B in H. lia.
    - intros k' i Nk. cbn [add_loaded sources objects]. rewrite !getk_put, String.eqb_refl. replace (String.eqb k' s) with false by (symmetry; apply String.eqb_neq; auto).
      intros H. change (object (add_loaded s (put s o x)) i) with (object (put s o x) i). rewrite object_put by (eapply B; eauto). split; [apply (O k'); auto|]. apply B in H. intros [= E]. lia.
    - cbn [placed]. split; [cbn [add_loaded loaded]; rewrite mem_add, String.eqb_refl; apply orb_true_r|]. exists (length (objects x)).
      cbn [add_loaded sources]. rewrite getk_put, String.eqb_refl. change (object (add_loaded s (put s o x))) with (object (put s o x)). rewrite object_put_new. auto.
  Qed.
  (** another name for an object of another name *)
  Lemma inv_alias k k' i x p v : inv x p v -> k <> s -> k' <> s -> getk k' (sources x) = Some i -> inv (alias k i x) p v.
  Proof.
    intros (P & (ND & B & O) & V) N N' Hi. split; [exact P|].
    assert (Ne : String.eqb s k = false) by (apply String.eqb_neq; congruence).
    assert (Gs : getk s (sources (alias k i x)) = getk s (sources x)) by (rewrite getk_alias, Ne; reflexivity).
    split; [split; [|split]|].
    - apply (nodup_set _ String.eqb_eq), ND.
    - intros k1 j. rewrite getk_alias. cbn [alias objects]. destruct (String.eqb k1 k); [intros [= <-]|]; intros; eapply B; eauto.
    - intros k1 j Nk. rewrite Gs, getk_alias. change (object (alias k i x) j) with (object x j). destruct (String.eqb k1 k); [intros [= <-]; apply (O k'); auto|apply (O k1); auto].
    - destruct v; cbn [placed] in *; rewrite Gs; auto.
  Qed.
  Lemma inv_add_datum k n d i x p v : inv x p v -> k <> s -> getk k (sources x) = Some i -> inv (add_datum i n d x) p v.
  Proof.
    intros (P & (ND & B & O) & V) N Hi. pose proof (B _ _ Hi) as L.
    assert (Ob : forall j, object (add_datum i n d x) j = if Nat.eqb j i then Source (dset String.eqb n d (datums (object x i))) (part_names (object x i)) else object x j) by (intros j; unfold object, add_datum; cbn; rewrite nth_update by auto; reflexivity).
    assert (Pn : forall j, part_names (object (add_datum i n d x) j) = part_names (object x j)) by (intros j; rewrite Ob; destruct (Nat.eqb_spec j i); [subst|]; reflexivity).
    split; [exact P|]. split; [split; [exact ND|split]|].
    - intros k' j H. cbn [add_datum objects]. rewrite length_update. eapply B; eauto.
    - intros k' j Nk H. rewrite Pn. apply (O k'); auto.
    - destruct v; cbn [placed] in *; auto. destruct V as (Ld & j & Hj & Ed & Pj). split; [exact Ld|]. exists j. split; [exact Hj|]. rewrite Pn. split; [|exact Pj].
      rewrite Ob. destruct (Nat.eqb_spec j i); [|exact Ed]. subst j. exfalso. destruct (O k i N Hi) as [_ X]. apply X, Hj.
  Qed.
  Lemma inv_add_datum_same n d i x p ds : inv x p (Table ds) -> getk s (sources x) = Some i -> inv (add_datum i n d x) p (Table (dset String.eqb n d ds)).
  Proof.
    intros (P & (ND & B & O) & V) Hi. pose proof (B _ _ Hi) as L.
    assert (Ob : forall j, object (add_datum i n d x) j = if Nat.eqb j i then Source (dset String.eqb n d (datums (object x i))) (part_names (object x i)) else object x j) by (intros j; unfold object, add_datum; cbn; rewrite nth_update by auto; reflexivity).
    assert (Pn : forall j, part_names (object (add_datum i n d x) j) = part_names (object x j)) by (intros j; rewrite Ob; destruct (Nat.eqb_spec j i); [subst|]; reflexivity).
    split; [exact P|]. split; [split; [exact ND|split]|].
    - intros k' j H. cbn [add_datum objects]. rewrite length_update. eapply B; eauto.
    - intros k' j Nk H. rewrite Pn. apply (O k'); auto.
    - cbn [placed] in *. destruct V as (Ld & j & Hj & Ed & Pj). split; [exact Ld|]. exists j. split; [exact Hj|]. rewrite Pn. split; [|exact Pj].
      assert (j = i) by congruence. subst j. rewrite Ob, Nat.eqb_refl. cbn [datums]. rewrite Ed. reflexivity.
  Qed.

  Hypothesis U : unshared disk s.
  Lemma inv_load_other k x p v : inv x p v -> k <> s -> inv (load_source disk k x) p v.
  Proof.
    intros I N. unfold load_source. apply inv_loaded; auto. destruct (disk (search_paths x) k) as [|ds [q|]| | |] eqn:F; try (apply inv_put; auto; fail); auto.
    - unfold part_name_lookup. destruct (find _ (sources x)) as [[k' i]|] eqn:Fd; [|apply inv_put; auto].
      apply find_some in Fd as [Hin Hm]. cbn in Hm. apply mem_in in Hm.
      assert (G : getk k' (sources x) = Some i) by (destruct I as (_ & (ND & _) & _); apply (in_dget _ String.eqb_eq); auto).
      destruct (string_dec k' s) as [->|N'].
      + destruct I as (_ & _ & V). destruct v; cbn in V; try (destruct V as [_ V]; congruence). destruct V as (_ & j & Hj & _ & Pj).
        assert (j = i) by congruence. subst j. apply Pj in Hm. contradiction.
      + apply inv_alias with k'; auto.
    - unfold load_readable. destruct (String.eqb_spec q k) as [->|Nq].
      + apply inv_put; auto. cbn. intuition.
      + assert (Nqs : q <> s) by (intros ->; apply Nq; symmetry; eapply U; eauto).
        apply inv_alias with k; auto; [apply inv_put; auto; cbn; intuition|]. rewrite getk_put, String.eqb_refl. reflexivity.
    - unfold load_readable. apply inv_put; auto. cbn. intuition.
  Qed.
  Lemma inv_load x p : inv x p Fresh -> inv (load_source disk s x) p (on_disk disk p s).
  Proof.
    intros I. assert (P : search_paths x = p) by apply I. unfold load_source, on_disk. rewrite P. destruct (disk p s) as [|ds [q|]| | |] eqn:F.
    - unfold part_name_lookup. destruct (find _ (sources x)) as [[k' i]|] eqn:Fd.
      + exfalso. apply find_some in Fd as [Hin Hm]. cbn in Hm. apply mem_in in Hm. destruct I as (_ & (ND & B & O) & V & G).
        apply (in_dget _ String.eqb_eq) in Hin; auto. destruct (string_dec k' s) as [->|N']; [congruence|]. destruct (O k' i N' Hin). contradiction.
      + apply (inv_put_same (Source [] []) x p Fresh I). intros k [].
    - unfold load_readable. assert (q = s) by (symmetry; eapply U; eauto). subst q. rewrite String.eqb_refl.
      apply (inv_put_same (Source ds [s]) x p Fresh I). cbn. intuition.
    - apply (inv_put_same (Source ds [s]) x p Fresh I). cbn. intuition.
    - apply (inv_put_same (Source [] []) x p Fresh I). intros k [].
    - apply (inv_put_same (Source [] []) x p Fresh I). intros k [].
    - apply inv_loaded_same with Fresh; auto.
  Qed.
  Lemma inv_ensure_other k x p v : inv x p v -> k <> s -> inv (ensure disk k x) p v.
  Proof. intros I N. unfold ensure. destruct (mem k (loaded x)); auto. apply inv_load_other; auto. Qed.
  Lemma inv_ensure x p v : inv x p v -> inv (ensure disk s x) p (touched disk p s v).
  Proof.
    intros I. unfold ensure. destruct v; cbn [touched].
    - destruct I as (P & A & M & G). rewrite M. apply inv_load. exact (conj P (conj A (conj M G))).
    - destruct I as (P & A & M & G). rewrite M. exact (conj P (conj A (conj M G))).
    - assert (M : mem s (loaded x) = true) by apply I. rewrite M. exact I.
  Qed.
  Lemma inv_register x p v k ds : inv x p v -> inv (register_source k ds x) p (if String.eqb k s then Table ds else v).
  Proof.
    intros I. unfold register_source. destruct (String.eqb_spec k s) as [->|N].
    - apply (inv_put_same (Source ds [s]) x p v I). cbn. intuition.
    - apply inv_loaded; auto. apply inv_put; auto. cbn. intuition.
  Qed.
  Lemma inv_step o x p v : inv x p v -> inv (step disk o x) (fst (effect disk s (p, v) o)) (snd (effect disk s (p, v) o)).
  Proof.
    intros I. destruct o as [k ds|k n d|k ds|k n|k|k| |q|]; cbn [step effect fst snd].
    - apply inv_register, I.
    - unfold register_datum. destruct (String.eqb_spec k s) as [->|N].
      + destruct v as [| |ds]; cbn [content].
        * assert (G : getk s (sources x) = None) by apply I. rewrite G. apply (inv_add_datum_same n d (length (objects x)) _ p []).
          -- apply (inv_put_same (Source [] [s]) x p Fresh I). cbn. intuition.
          -- cbn [add_loaded sources]. rewrite getk_put, String.eqb_refl. reflexivity.
        * assert (G : getk s (sources x) = None) by apply I. rewrite G. apply (inv_add_datum_same n d (length (objects x)) _ p []).
          -- apply (inv_put_same (Source [] [s]) x p Nothing I). cbn. intuition.
          -- cbn [add_loaded sources]. rewrite getk_put, String.eqb_refl. reflexivity.
        * assert (G : exists i, getk s (sources x) = Some i) by (destruct I as (_ & _ & _ & i & G & _); eauto). destruct G as [i G]. rewrite G. apply inv_add_datum_same; auto.
      + destruct (getk k (sources x)) eqn:G; [apply inv_add_datum with k; auto|].
        apply inv_add_datum with k; auto; [|cbn [add_loaded sources]; rewrite getk_put, String.eqb_refl; reflexivity].
        apply inv_loaded; auto. apply inv_put; auto. cbn. intuition.
    - unfold register_part. destruct ds; [apply inv_register, I|exact I].
    - cbn [get_datum fst]. destruct (String.eqb_spec k s) as [->|N]; [apply inv_ensure|apply inv_ensure_other]; auto.
    - cbn [get_datums fst]. destruct (String.eqb_spec k s) as [->|N]; [apply inv_ensure|apply inv_ensure_other]; auto.
    - cbn [list_datums fst]. destruct (String.eqb_spec k s) as [->|N]; [apply inv_ensure|apply inv_ensure_other]; auto.
    - exact I.
    - destruct I as (P & A & V). split; [cbn; rewrite P; reflexivity|]. split; [exact A|]. destruct v; exact V.
    - destruct I as (P & A & V). split; [exact P|]. split; [|cbn; auto]. split; [constructor|split]; discriminate.
  Qed.
  Lemma inv_run os : forall x p v, inv x p v -> inv (run disk os x) (fst (fold_left (effect disk s) os (p, v))) (snd (fold_left (effect disk s) os (p, v))).
  Proof.
    unfold run. induction os as [|o os IH]; intros x p v I; cbn [fold_left]; auto. pose proof (inv_step o x p v I) as I'.
    destruct (effect disk s (p, v) o) as [p' v'] eqn:E. cbn [fst snd] in I'. apply IH, I'.
  Qed.
  Lemma inv_empty : inv (empty (D := D)) [] Fresh.
  Proof. split; [reflexivity|]. split; [|split; reflexivity]. split; [constructor|split]; discriminate. Qed.
  Lemma lookup os : let x := run disk os (empty (D := D)) in let v := seen disk s os in
    (forall n, snd (get_datum disk s n x) = getk n (content v)) /\ snd (list_datums disk s x) = keys (content v) /\
    snd (get_datums disk s x) = match v with Table ds => Some ds | _ => None end.
  Proof.
    intros x v. pose proof (inv_run os _ _ _ inv_empty) as I. fold x in I. pose proof (inv_ensure _ _ _ I) as (_ & _ & E).
    assert (Ev : v = touched disk (fst (history disk s os)) s (snd (history disk s os))) by (unfold v, seen; destruct (history disk s os); reflexivity).
    fold (history disk s os) in E. rewrite <- Ev in E. unfold get_datum, list_datums, get_datums. cbn [snd]. destruct v as [| |ds]; cbn [placed content] in E.
    - destruct E as [_ G]. rewrite G. auto.
    - destruct E as [_ G]. rewrite G. auto.
    - destruct E as (_ & i & G & Ed & _). rewrite G, Ed. auto.
  Qed.
End Proofs.
