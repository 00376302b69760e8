(** Edge use and closure of shells. *)
From Coq Require Import String Reals List Bool ZArith Lia Permutation.
From Verif Require Import Dict Xform_Model Fig_Model ASurf_Model Brep_Model Brep_Spec.
Import ListNotations.
Open Scope list_scope.
Open Scope nat_scope.

Lemma sget_sset {V} k k' (v : V) d : sget k (sset k' v d) = if String.eqb k k' then Some v else sget k d.
Proof. apply (dget_set _ String.eqb_eq). Qed.
Lemma sset_keys {V} k (v : V) d : NoDup (keys d) -> NoDup (keys (sset k v d)).
Proof. apply nodup_set. exact String.eqb_eq. Qed.
Lemma sget_in {V} k (v : V) d : sget k d = Some v -> In (k, v) d.
Proof. apply dget_in. exact String.eqb_eq. Qed.
Lemma in_sget {V} k (v : V) d : NoDup (keys d) -> In (k, v) d -> sget k d = Some v.
Proof. intros. apply in_dget; auto. exact String.eqb_eq. Qed.

Lemma count_flat_map {A B} (dec : forall x y : B, {x = y} + {x <> y}) (f : A -> list B) l x :
  count_occ dec (flat_map f l) x = list_sum (map (fun a => count_occ dec (f a) x) l).
Proof. induction l as [|a l IH]; cbn; auto. rewrite count_occ_app, IH. reflexivity. Qed.
Lemma loop_uses_count g lid eid : count_occ string_dec (loop_uses g lid) eid = loop_count g eid lid.
Proof.
  unfold loop_uses, loop_count. destruct (sget lid (loops g)) as [l|]; auto. induction (l_trims l) as [|t ts IH]; cbn; auto.
  rewrite count_occ_app, IH. unfold on_edge. destruct (sget t (trims g)) as [x|]; cbn; auto.
  destruct (string_dec (t_edge x) eid) as [->|N]; [rewrite String.eqb_refl; reflexivity|]. apply String.eqb_neq in N. rewrite N. reflexivity.
Qed.
Lemma face_uses_count g fid f eid : sget fid (faces g) = Some f -> count_occ string_dec (face_uses g f) eid = face_count g eid fid.
Proof. intros E. unfold face_uses, face_count. rewrite E, count_flat_map. f_equal. apply map_ext. intros. apply loop_uses_count. Qed.

Definition users (u : list (string * list string)) (eid : string) : list string := match sget eid u with Some l => l | None => [] end.
Definition proper (u : list (string * list string)) : Prop := NoDup (keys u) /\ forall k, sget k u <> Some [].
Lemma use_users fid u eid k : users (use fid u eid) k = if String.eqb k eid then users u k ++ [fid] else users u k.
Proof. unfold use, users. rewrite sget_sset. destruct (String.eqb_spec k eid) as [->|]; auto. destruct (sget eid u); auto. Qed.
Lemma use_proper fid u eid : proper u -> proper (use fid u eid).
Proof.
  intros [N P]. split; [apply sset_keys, N|]. intros k. unfold use. rewrite sget_sset. destruct (String.eqb k eid); auto.
  destruct (sget eid u) as [[|]|]; discriminate.
Qed.
Lemma use_all fid l : forall u k, users (fold_left (use fid) l u) k = users u k ++ repeat fid (count_occ string_dec l k).
Proof.
  induction l as [|e l IH]; intros u k; cbn [fold_left count_occ]; [rewrite app_nil_r; reflexivity|].
  rewrite IH, use_users. destruct (string_dec e k) as [->|N].
  - rewrite String.eqb_refl, <- app_assoc. reflexivity.
  - assert (X : String.eqb k e = false) by (apply String.eqb_neq; congruence). rewrite X. reflexivity.
Qed.
Lemma use_all_proper fid l : forall u, proper u -> proper (fold_left (use fid) l u).
Proof. induction l as [|e l IH]; intros u P; cbn; auto. apply IH, use_proper, P. Qed.
Lemma use_face_users g fid u k : users (use_face g u fid) k = users u k ++ repeat fid (face_count g k fid).
Proof.
  unfold use_face. destruct (sget fid (faces g)) as [f|] eqn:E; [rewrite use_all, (face_uses_count g fid f k E); reflexivity|].
  unfold face_count. rewrite E. cbn. rewrite app_nil_r. reflexivity.
Qed.
Lemma use_faces g fs : forall u k, users (fold_left (use_face g) fs u) k = users u k ++ flat_map (fun fid => repeat fid (face_count g k fid)) fs.
Proof. induction fs as [|f fs IH]; intros u k; cbn [fold_left flat_map]; [rewrite app_nil_r; reflexivity|]. rewrite IH, use_face_users, <- app_assoc. reflexivity. Qed.
Lemma use_faces_proper g fs : forall u, proper u -> proper (fold_left (use_face g) fs u).
Proof.
  induction fs as [|f fs IH]; intros u P; cbn; auto. apply IH. unfold use_face. destruct (sget f (faces g)); auto. apply use_all_proper, P.
Qed.
Lemma proper_nil : proper []. Proof. split; [constructor|discriminate]. Qed.

Lemma list_sum_perm l l' : Permutation l l' -> list_sum l = list_sum l'.
Proof. unfold list_sum. induction 1; cbn [fold_right]; lia. Qed.
Lemma order_perm order l : set_order order -> Permutation (order l) (nodup string_dec l).
Proof.
  intros O. destruct (O l) as [N I]. apply NoDup_Permutation; auto; [apply NoDup_nodup|]. intros x. rewrite nodup_In. apply I.
Qed.
Lemma flat_repeat_length {A} (f : A -> nat) l : length (flat_map (fun a => repeat a (f a)) l) = list_sum (map f l).
Proof. induction l; cbn; auto. rewrite app_length, repeat_length, IHl. reflexivity. Qed.

Section Fixed.
  Variables (order : list string -> list string) (g : graph) (sid : string) (s : shell).
  Hypotheses (O : set_order order) (E : sget sid (shells g) = Some s).
  Let u := fold_left (use_face g) (order (s_faces s)) [].
  Lemma users_are k : users u k = flat_map (fun fid => repeat fid (face_count g k fid)) (order (s_faces s)).
  Proof. unfold u. rewrite use_faces. reflexivity. Qed.
  Lemma users_count k : length (users u k) = shell_count g k (s_faces s).
  Proof.
    rewrite users_are, flat_repeat_length. unfold shell_count. apply list_sum_perm, Permutation_map, order_perm, O.
  Qed.
  Lemma u_proper : proper u. Proof. apply use_faces_proper, proper_nil. Qed.
  Lemma used_iff k : In k (keys u) <-> shell_count g k (s_faces s) <> 0.
  Proof.
    rewrite <- users_count. unfold users. destruct u_proper as [N P]. split.
    - intros Hin. apply in_map_iff in Hin as ([k' l] & <- & Hin). cbn. rewrite (in_sget _ _ _ N Hin). intros Z. apply length_zero_iff_nil in Z. subst.
      apply (P k'). apply in_sget; auto.
    - intros Z. destruct (sget k u) as [l|] eqn:Q; [|cbn in Z; congruence]. apply sget_in in Q. apply in_map_iff. exists (k, l). auto.
  Qed.
  Lemma select_iff (p : nat -> bool) k : p 0 = false ->
    In k (keys (filter (fun x => p (length (snd x))) u)) <-> p (shell_count g k (s_faces s)) = true.
  Proof.
    intros P0. rewrite <- users_count. destruct u_proper as [N P]. unfold users. split.
    - intros Hin. apply in_map_iff in Hin as ([k' l] & <- & Hin). apply filter_In in Hin as [Hin Hp]. cbn in *. rewrite (in_sget _ _ _ N Hin). exact Hp.
    - destruct (sget k u) as [l|] eqn:Q; [|cbn; congruence]. intros Hp. apply sget_in in Q. apply in_map_iff. exists (k, l). split; auto.
      apply filter_In. auto.
  Qed.
  Lemma filter_keys_nodup {V} (p : string * V -> bool) d : NoDup (keys d) -> NoDup (keys (filter p d)).
  Proof.
    induction d as [|x d IH]; cbn; auto. intros N. inversion N; subst. destruct (p x); auto. cbn. constructor; auto.
    intros Hin. apply H1. apply in_map_iff in Hin as (y & Ey & Hy). apply filter_In in Hy as [Hy _]. apply in_map_iff. exists y. auto.
  Qed.
  Lemma closure_ok : exists c, compute_shell_closure order g sid = Ok c /\
    (c_closed c = true <-> closed_up g (s_faces s)) /\
    (forall k, length (users (c_usage c) k) = shell_count g k (s_faces s)) /\
    (forall k f, count_occ string_dec (users (c_usage c) k) f = if in_dec string_dec f (s_faces s) then face_count g k f else 0) /\
    (forall k, In k (c_boundary c) <-> shell_count g k (s_faces s) = 1) /\ NoDup (c_boundary c) /\
    (forall k, In k (c_nonmanifold c) <-> 2 < shell_count g k (s_faces s)) /\ NoDup (c_nonmanifold c) /\
    (forall vs, NoDup vs -> (forall v, In v vs <-> corner_of g (s_faces s) v) -> c_v c = length vs) /\
    (forall es, NoDup es -> (forall e, In e es <-> shell_count g e (s_faces s) <> 0) -> c_e c = length es) /\
    c_f c = length (nodup string_dec (s_faces s)) /\
    c_euler c = (Z.of_nat (c_v c) - Z.of_nat (c_e c) + Z.of_nat (c_f c))%Z.
  Proof.
    unfold compute_shell_closure, shell_edge_usage. rewrite E. fold u. eexists. split; [reflexivity|].
    cbn [c_closed c_usage c_boundary c_nonmanifold c_euler c_v c_e c_f].
    pose proof (fun k => select_iff (fun n => Nat.eqb n 1) k eq_refl) as B. pose proof (fun k => select_iff (fun n => Nat.ltb 2 n) k eq_refl) as M.
    destruct u_proper as [N P]. split.
    { rewrite andb_true_iff, !Nat.eqb_eq. split.
      - intros [Z1 Z2] k. apply length_zero_iff_nil in Z1, Z2.
        assert (~ shell_count g k (s_faces s) = 1) by (intros X; apply Nat.eqb_eq, B in X; rewrite Z1 in X; exact X).
        assert (~ 2 < shell_count g k (s_faces s)) by (intros X; apply Nat.ltb_lt, M in X; rewrite Z2 in X; exact X). lia.
      - intros C. split; apply length_zero_iff_nil.
        + destruct (keys _) as [|k l] eqn:Q; auto. exfalso. assert (X : In k (k :: l)) by (left; reflexivity). apply B, Nat.eqb_eq in X. destruct (C k); lia.
        + destruct (keys (filter (fun x => (2 <? length (snd x))) u)) as [|k l] eqn:Q; auto. exfalso. assert (X : In k (k :: l)) by (left; reflexivity).
          apply M, Nat.ltb_lt in X. destruct (C k); lia. }
    split; [intros; apply users_count|]. split.
    { intros k f. rewrite users_are. destruct (O (s_faces s)) as [No I]. clear - No I. 
      assert (X : forall l, NoDup l -> count_occ string_dec (flat_map (fun fid => repeat fid (face_count g k fid)) l) f = if in_dec string_dec f l then face_count g k f else 0).
      { induction l as [|a l IH]; intros Nd; auto. inversion Nd; subst. cbn [flat_map]. rewrite count_occ_app, IH by auto.
        destruct (string_dec a f) as [->|Ne].
        - rewrite count_occ_repeat_eq by reflexivity. destruct (in_dec string_dec f l); [contradiction|]. destruct (in_dec string_dec f (f :: l)) as [|n0]; [lia|exfalso; apply n0; left; reflexivity].
        - rewrite count_occ_repeat_neq by congruence. destruct (in_dec string_dec f l) as [i|i], (in_dec string_dec f (a :: l)) as [j|j]; auto; exfalso; [apply j; right; auto|destruct j; [congruence|auto]]. }
      rewrite X by auto. destruct (in_dec string_dec f (order (s_faces s))) as [i|i], (in_dec string_dec f (s_faces s)) as [j|j]; auto; exfalso; [apply j, I, i|apply i, I, j]. }
    split; [intros k; rewrite B, Nat.eqb_eq; tauto|]. split; [apply filter_keys_nodup, N|].
    split; [intros k; rewrite M, Nat.ltb_lt; tauto|]. split; [apply filter_keys_nodup, N|]. split.
    { intros vs Nv Hv. unfold shell_vertices. apply Permutation_length, NoDup_Permutation; auto; [apply NoDup_nodup|].
      intros v. rewrite nodup_In, in_flat_map, Hv. unfold corner_of. split.
      - intros (k & Hk & Hin). apply used_iff in Hk. destruct (sget k (edges g)) as [e|] eqn:Q; [|destruct Hin]. exists k, e. split; auto. split; auto.
        destruct Hin as [X|[X|[]]]; auto.
      - intros (k & e & Hk & Q & X). exists k. split; [apply used_iff, Hk|]. rewrite Q. destruct X as [<-|<-]; cbn; auto. }
    split.
    { intros es Ne He. replace (length u) with (length (keys u)) by apply map_length. apply Permutation_length, NoDup_Permutation; auto.
      intros k. rewrite He. apply used_iff. }
    split; [|reflexivity]. apply Permutation_length, order_perm, O.
  Qed.
End Fixed.

(** When no face has an edge twice, the edges of a closed shell are shared by two faces. *)
Lemma sum_two {A} (f : A -> nat) (l : list A) : NoDup l -> (forall x, f x <= 1) ->
  (list_sum (map f l) = 2 <-> exists a b, a <> b /\ In a l /\ In b l /\ f a = 1 /\ f b = 1 /\ forall c, In c l -> c <> a -> c <> b -> f c = 0).
Proof.
  unfold list_sum. intros N L.
  assert (Z0 : forall l, fold_right Nat.add 0 (map f l) = 0 <-> forall c, In c l -> f c = 0).
  { clear. induction l as [|a l IH]; cbn; [intuition|]. split.
    - intros H c [<-|Hc]; [lia|]. apply IH; [lia|auto].
    - intros H. rewrite (H a) by auto. apply IH. auto. }
  assert (Z1 : forall l, NoDup l -> (fold_right Nat.add 0 (map f l) = 1 <-> exists a, In a l /\ f a = 1 /\ forall c, In c l -> c <> a -> f c = 0)).
  { clear l N. induction l as [|a l IH]; intros N; cbn; [split; [discriminate|intros (x & [] & _)]|]. inversion N; subst. split.
    - intros H. pose proof (L a) as La. destruct (f a) as [|n] eqn:Fa.
      + apply IH in H as (b & Hb & Fb & Hc); auto. exists b. split; auto. split; auto. intros c [<-|Hc'] Nc; auto.
      + assert (n = 0) by lia. subst. exists a. split; auto. split; auto. intros c [<-|Hc] Nc; [congruence|]. apply (proj1 (Z0 l)); [lia|auto].
    - intros (b & [<-|Hb] & Fb & Hc).
      + rewrite Fb. assert (fold_right Nat.add 0 (map f l) = 0) by (apply Z0; intros c Hin; apply Hc; auto; intros ->; contradiction). lia.
      + assert (f a = 0) by (apply Hc; auto; intros ->; contradiction). rewrite H. apply IH; auto. exists b. auto. }
  induction l as [|x l IH]; cbn; [split; [discriminate|intros (a & b & _ & [] & _)]|]. inversion N; subst. split.
  - intros H. pose proof (L x) as Lx. destruct (f x) as [|n] eqn:Fx.
    + apply IH in H as (a & b & Nab & Ha & Hb & Fa & Fb & Hc); auto. exists a, b. repeat split; auto. intros c [<-|Hin] ? ?; auto.
    + assert (n = 0) by lia. subst. assert (H' : fold_right Nat.add 0 (map f l) = 1) by lia. apply Z1 in H' as (b & Hb & Fb & Hc); auto.
      exists x, b. split; [intros ->; contradiction|]. repeat split; auto. intros c [<-|Hin] ? ?; [congruence|auto].
  - intros (a & b & Nab & [<-|Ha] & [<-|Hb] & Fa & Fb & Hc); try congruence.
    + assert (fold_right Nat.add 0 (map f l) = 1); [|lia]. apply Z1; auto. exists b. split; auto. split; auto. intros c Hin Nc. apply Hc; auto. intros ->; contradiction.
    + assert (fold_right Nat.add 0 (map f l) = 1); [|lia]. apply Z1; auto. exists a. split; auto. split; auto. intros c Hin Nc. apply Hc; auto. intros ->; contradiction.
    + assert (f x = 0) by (apply Hc; auto; intros ->; contradiction). rewrite H. apply IH; auto. exists a, b. repeat split; auto.
Qed.
