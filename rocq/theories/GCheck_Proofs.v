From Coq Require Import Reals ZArith List Bool Lra Lia.
From Verif Require Import Dict Xform_Model Xform_Proofs Mesh_Model Mesh_Spec Mesh_Proofs GCheck_Model GCheck_Spec.
Import ListNotations.
Open Scope list_scope.

(** counting *)
Lemma edge_eqb_spec e f : edge_eqb e f = true <-> e = f.
Proof. destruct e, f. unfold edge_eqb. cbn [fst snd]. rewrite andb_true_iff, !Z.eqb_eq. split; [intros [-> ->]; auto|intros [= -> ->]; auto]. Qed.
Lemma key_iff a b x y : edge_key a b = edge_key x y <-> (a, b) = (x, y) \/ (a, b) = (y, x).
Proof.
  unfold edge_key. destruct (a <? b)%Z eqn:E, (x <? y)%Z eqn:F; rewrite ?Z.ltb_lt, ?Z.ltb_ge in *; split; intros X;
    try (injection X as -> ->; auto); try (destruct X as [X|X]; injection X as -> ->); try reflexivity; try lia; try (f_equal; lia).
Qed.
Lemma key_le a b : (fst (edge_key a b) <= snd (edge_key a b))%Z.
Proof. unfold edge_key. destruct (a <? b)%Z eqn:E; rewrite ?Z.ltb_lt, ?Z.ltb_ge in *; cbn; lia. Qed.
Lemma key_sorted x y : (x <= y)%Z -> edge_key x y = (x, y).
Proof. intros L. unfold edge_key. destruct (x <? y)%Z eqn:E; rewrite ?Z.ltb_lt, ?Z.ltb_ge in *; [reflexivity|f_equal; lia]. Qed.
Definition key_of (e : Z * Z) : Z * Z := edge_key (fst e) (snd e).
Definition tally (l : list (Z * Z)) (d : list ((Z * Z) * nat)) := fold_left (fun d e => count_edge (key_of e) d) l d.
Lemma count_face_sides f d : count_face f d = tally (sides f) d.
Proof. destruct f as [|a [|b [|c [|]]]]; reflexivity. Qed.
Lemma counts_tally fs : forall d, fold_left (fun d f => count_face f d) fs d = tally (flat_map sides fs) d.
Proof.
  induction fs as [|f fs IH]; intros d; [reflexivity|]. cbn [fold_left flat_map]. rewrite IH, count_face_sides. unfold tally. rewrite fold_left_app. reflexivity.
Qed.
Definition cnt (d : list ((Z * Z) * nat)) (k : Z * Z) : nat := match dget edge_eqb k d with Some n => n | None => 0%nat end.
Definition occ (k : Z * Z) (l : list (Z * Z)) : nat := length (filter (fun e => edge_eqb (key_of e) k) l).
Lemma cnt_count e d k : cnt (count_edge e d) k = ((if edge_eqb e k then 1 else 0) + cnt d k)%nat.
Proof.
  unfold cnt, count_edge. rewrite (dget_set _ edge_eqb_spec). destruct (edge_eqb k e) eqn:E.
  - apply edge_eqb_spec in E. subst k. rewrite (proj2 (edge_eqb_spec e e) eq_refl). destruct (dget edge_eqb e d); reflexivity.
  - replace (edge_eqb e k) with false; [reflexivity|]. symmetry. destruct (edge_eqb e k) eqn:F; [|reflexivity]. apply edge_eqb_spec in F. subst. rewrite (proj2 (edge_eqb_spec k k) eq_refl) in E. discriminate.
Qed.
Lemma cnt_tally l : forall d k, cnt (tally l d) k = (occ k l + cnt d k)%nat.
Proof.
  induction l as [|e l IH]; intros d k; [reflexivity|]. change (tally (e :: l) d) with (tally l (count_edge (key_of e) d)). rewrite IH, cnt_count. unfold occ. cbn [filter].
  destruct (edge_eqb (key_of e) k); cbn [length]; lia.
Qed.
Definition sound (d : list ((Z * Z) * nat)) : Prop := NoDup (keys d) /\ forall k n, In (k, n) d -> n <> 0%nat /\ (fst k <= snd k)%Z.
Lemma in_set (e : Z * Z) (v : nat) (d : list ((Z * Z) * nat)) k n : In (k, n) (dset edge_eqb e v d) -> (k, n) = (e, v) \/ In (k, n) d.
Proof.
  induction d as [|[k' v'] d IH]; cbn [dset].
  - intros [X|[]]; auto.
  - destruct (edge_eqb e k') eqn:E.
    + apply edge_eqb_spec in E. subst k'. intros [X|X]; auto. right. now right.
    + intros [X|X]; [right; now left|]. destruct (IH X); auto. right. now right.
Qed.
Lemma sound_count e d : (fst e <= snd e)%Z -> sound d -> sound (count_edge e d).
Proof.
  intros L [N P]. split; [apply (nodup_set _ edge_eqb_spec), N|]. unfold count_edge. intros k n I. apply in_set in I as [X|I]; [|exact (P k n I)].
  injection X as -> ->. split; [destruct (dget edge_eqb e d); discriminate|exact L].
Qed.
Lemma sound_tally l : forall d, sound d -> sound (tally l d).
Proof. induction l as [|e l IH]; intros d S; [exact S|]. change (tally (e :: l) d) with (tally l (count_edge (key_of e) d)). apply IH, sound_count; [apply key_le|exact S]. Qed.
Lemma sound_counts fs : sound (edge_counts fs).
Proof. unfold edge_counts. rewrite counts_tally. apply sound_tally. split; [constructor|intros k n []]. Qed.
Lemma joined_occ x y l n : joined x y l n <-> n = occ (edge_key x y) l.
Proof.
  assert (K : forall e, edge_eqb (key_of e) (edge_key x y) = true <-> e = (x, y) \/ e = (y, x)) by (intros [a b]; rewrite edge_eqb_spec; apply key_iff).
  split.
  - induction 1 as [|l n J IH|l n N J IH|e l n N N' J IH]; [reflexivity|..]; unfold occ in *; cbn [filter].
    + rewrite (proj2 (K (x, y))) by auto. cbn [length]. congruence.
    + rewrite (proj2 (K (y, x))) by auto. cbn [length]. congruence.
    + destruct (edge_eqb (key_of e) (edge_key x y)) eqn:E; [|exact IH]. apply K in E as [E|E]; contradiction.
  - intros ->. induction l as [|e l IH]; [constructor|]. unfold occ in *. cbn [filter]. destruct (edge_eqb (key_of e) (edge_key x y)) eqn:E.
    + cbn [length]. apply K in E as [E|E]; subst e; [now constructor|]. destruct (Z.eq_dec x y) as [->|N]; [now apply J_same|now apply J_back].
    + apply J_other; [..|exact IH]; intros ->; [rewrite (proj2 (K (x, y))) in E by auto|rewrite (proj2 (K (y, x))) in E by auto]; discriminate.
Qed.
Lemma used_occ fs x y n : used fs x y n <-> n = cnt (edge_counts fs) (edge_key x y).
Proof. unfold used. rewrite joined_occ. unfold edge_counts. rewrite counts_tally, cnt_tally. unfold cnt. cbn [dget]. rewrite Nat.add_0_r. reflexivity. Qed.
Lemma used_total fs x y : exists n, used fs x y n.
Proof. eexists. apply used_occ. reflexivity. Qed.
Lemma used_det fs x y n n' : used fs x y n -> used fs x y n' -> n = n'.
Proof. rewrite !used_occ. congruence. Qed.
Lemma entry_iff fs x y n : In ((x, y), n) (edge_counts fs) <-> (x <= y)%Z /\ n <> 0%nat /\ used fs x y n.
Proof.
  destruct (sound_counts fs) as [N P]. split.
  - intros I. destruct (P _ _ I) as [Z0 L]. cbn [fst snd] in L. split; [exact L|]. split; [exact Z0|]. apply used_occ. rewrite key_sorted by exact L. unfold cnt. rewrite (in_dget _ edge_eqb_spec _ _ _ N I). reflexivity.
  - intros (L & Z0 & U). apply used_occ in U. rewrite key_sorted in U by exact L. unfold cnt in U. destruct (dget edge_eqb (x, y) (edge_counts fs)) as [m|] eqn:E; [|congruence]. subst m. apply (dget_in _ edge_eqb_spec), E.
Qed.
Lemma selected fs p x y : In (x, y) (map fst (filter (fun en => p (snd en)) (edge_counts fs))) <-> (x <= y)%Z /\ exists n, n <> 0%nat /\ used fs x y n /\ p n = true.
Proof.
  rewrite in_map_iff. split.
  - intros ([k n] & E & I). cbn [fst] in E. subst k. apply filter_In in I as [I B]. cbn [snd] in B. apply entry_iff in I as (L & Z0 & U). split; [exact L|]. exists n. auto.
  - intros (L & n & Z0 & U & B). exists ((x, y), n). split; [reflexivity|]. apply filter_In. split; [apply entry_iff; auto|exact B].
Qed.
Lemma selected_nodup fs p : NoDup (map fst (filter p (edge_counts fs))).
Proof.
  destruct (sound_counts fs) as [N _]. revert N. generalize (edge_counts fs). unfold keys. intros l. induction l as [|a l IH]; cbn [map filter]; intros N; [constructor|]. apply NoDup_cons_iff in N as [NI N].
  destruct (p a); [|auto]. cbn [map]. constructor; [|auto]. intros I. apply NI. apply in_map_iff in I as (b & E & I). apply filter_In in I as [I _]. apply in_map_iff. eauto.
Qed.
Definition boundary fs := map fst (filter (fun en => Nat.eqb (snd en) 1) (edge_counts fs)).
Definition toomany fs := map fst (filter (fun en : (Z * Z) * nat => Nat.ltb 2 (snd en)) (edge_counts fs)).
Lemma boundary_iff fs x y : In (x, y) (boundary fs) <-> (x <= y)%Z /\ used fs x y 1.
Proof.
  unfold boundary. rewrite (selected fs (fun n => Nat.eqb n 1)). split; intros [L X]; (split; [exact L|]).
  - destruct X as (n & _ & U & B). apply Nat.eqb_eq in B. subst n. exact U.
  - exists 1%nat. auto.
Qed.
Lemma toomany_iff fs x y : In (x, y) (toomany fs) <-> (x <= y)%Z /\ exists n, used fs x y n /\ (2 < n)%nat.
Proof.
  unfold toomany. rewrite (selected fs (fun n => Nat.ltb 2 n)). split; intros [L X]; (split; [exact L|]).
  - destruct X as (n & _ & U & B). apply Nat.ltb_lt in B. eauto.
  - destruct X as (n & U & B). exists n. split; [lia|]. split; [exact U|]. apply Nat.ltb_lt, B.
Qed.
Lemma used_sym fs x y n : used fs x y n <-> used fs y x n.
Proof. rewrite !used_occ. replace (edge_key y x) with (edge_key x y); [reflexivity|]. apply key_iff. auto. Qed.
Lemma watertight_warnings s : c_warnings (surface_watertight s) =
  (match boundary (faces s) with [] => [] | _ => [BoundaryEdges (length (boundary (faces s)))] end) ++ (match toomany (faces s) with [] => [] | _ => [TooOften (toomany (faces s))] end).
Proof. reflexivity. Qed.
Lemma watertight_ok s : c_ok (surface_watertight s) = true <-> forall x y n, used (faces s) x y n -> n = 0%nat \/ n = 2%nat.
Proof.
  assert (E : c_ok (surface_watertight s) = true <-> boundary (faces s) = [] /\ toomany (faces s) = []).
  { change (c_ok (surface_watertight s)) with (match c_warnings (surface_watertight s) with [] => true | _ => false end). rewrite watertight_warnings.
    destruct (boundary (faces s)), (toomany (faces s)); cbn; split; auto; try discriminate; intros [? ?]; discriminate. }
  rewrite E. split.
  - intros [B T]. assert (W : forall x y n, (x <= y)%Z -> used (faces s) x y n -> n = 0%nat \/ n = 2%nat).
    { intros x y n L U. destruct (Nat.eq_dec n 1) as [->|N1].
      - exfalso. assert (X : In (x, y) (boundary (faces s))) by (apply boundary_iff; auto). rewrite B in X. exact X.
      - destruct (le_lt_dec n 2) as [L2|L2]; [lia|]. exfalso. assert (X : In (x, y) (toomany (faces s))) by (apply toomany_iff; eauto). rewrite T in X. exact X. }
    intros x y n U. destruct (Z.le_ge_cases x y) as [L|L]; [exact (W x y n L U)|]. apply used_sym in U. exact (W y x n L U).
  - intros W. split.
    + destruct (boundary (faces s)) as [|[x y] b] eqn:B; [reflexivity|]. exfalso. assert (X : In (x, y) (boundary (faces s))) by (rewrite B; now left). apply boundary_iff in X as [_ U]. destruct (W _ _ _ U); discriminate.
    + destruct (toomany (faces s)) as [|[x y] b] eqn:B; [reflexivity|]. exfalso. assert (X : In (x, y) (toomany (faces s))) by (rewrite B; now left). apply toomany_iff in X as (_ & n & U & L). destruct (W _ _ _ U); lia.
Qed.

(** orientation *)
Open Scope R_scope.
Lemma outward_unique n m p q r : outward n p q r -> outward m p q r -> vx n = vx m /\ vy n = vy m /\ vz n = vz m.
Proof.
  set (c := cross (sub q p) (sub r p)).
  assert (K : forall n, outward n p q r -> exists k, 0 < k /\ vx c = k * vx n /\ vy c = k * vy n /\ vz c = k * vz n /\ vx n * vx n + vy n * vy n + vz n * vz n = 1).
  { clear n m. intros n (M & U & V & D). assert (N : vx n * vx n + vy n * vy n + vz n * vz n = 1).
    { unfold mag in M. assert (P : 0 <= vx n * vx n + vy n * vy n + vz n * vz n) by (pose proof (Rle_0_sqr (vx n)); pose proof (Rle_0_sqr (vy n)); pose proof (Rle_0_sqr (vz n)); unfold Rsqr in *; lra).
      rewrite <- (sqrt_sqrt _ P). rewrite M. ring. }
    exists (vx n * vx c + vy n * vy c + vz n * vz c). subst c. unfold det3, dot in *. unfold cross, sub in *. cbn [vx vy vz] in *.
    set (a1 := vx q - vx p) in *. set (a2 := vy q - vy p) in *. set (a3 := vz q - vz p) in *. set (b1 := vx r - vx p) in *. set (b2 := vy r - vy p) in *. set (b3 := vz r - vz p) in *.
    set (x := vx n) in *. set (y := vy n) in *. set (z := vz n) in *. clearbody a1 a2 a3 b1 b2 b3 x y z.
    split; [replace (x * (a2 * b3 - a3 * b2) + y * (a3 * b1 - a1 * b3) + z * (a1 * b2 - a2 * b1)) with (a1 * (b2 * z - b3 * y) - a2 * (b1 * z - b3 * x) + a3 * (b1 * y - b2 * x)) by ring; exact D|].
    assert (CX : (a2 * b3 - a3 * b2) * y - (a3 * b1 - a1 * b3) * x = 0).
    { replace ((a2 * b3 - a3 * b2) * y - (a3 * b1 - a1 * b3) * x) with (b3 * (x * a1 + y * a2 + z * a3) - a3 * (x * b1 + y * b2 + z * b3)) by ring. rewrite U, V. ring. }
    assert (CY : (a2 * b3 - a3 * b2) * z - (a1 * b2 - a2 * b1) * x = 0).
    { replace ((a2 * b3 - a3 * b2) * z - (a1 * b2 - a2 * b1) * x) with (- b2 * (x * a1 + y * a2 + z * a3) + a2 * (x * b1 + y * b2 + z * b3)) by ring. rewrite U, V. ring. }
    assert (CZ : (a3 * b1 - a1 * b3) * z - (a1 * b2 - a2 * b1) * y = 0).
    { replace ((a3 * b1 - a1 * b3) * z - (a1 * b2 - a2 * b1) * y) with (b1 * (x * a1 + y * a2 + z * a3) - a1 * (x * b1 + y * b2 + z * b3)) by ring. rewrite U, V. ring. }
    set (cx := a2 * b3 - a3 * b2) in *. set (cy := a3 * b1 - a1 * b3) in *. set (cz := a1 * b2 - a2 * b1) in *. clearbody cx cy cz.
    split; [|split; [|split; [|exact N]]].
    - replace cx with (cx * (x * x + y * y + z * z)) at 1 by (rewrite N; ring). replace (cx * (x * x + y * y + z * z)) with ((x * cx + y * cy + z * cz) * x + y * (cx * y - cy * x) + z * (cx * z - cz * x)) by ring. rewrite CX, CY. ring.
    - replace cy with (cy * (x * x + y * y + z * z)) at 1 by (rewrite N; ring). replace (cy * (x * x + y * y + z * z)) with ((x * cx + y * cy + z * cz) * y - x * (cx * y - cy * x) + z * (cy * z - cz * y)) by ring. rewrite CX, CZ. ring.
    - replace cz with (cz * (x * x + y * y + z * z)) at 1 by (rewrite N; ring). replace (cz * (x * x + y * y + z * z)) with ((x * cx + y * cy + z * cz) * z - x * (cx * z - cz * x) - y * (cy * z - cz * y)) by ring. rewrite CY, CZ. ring. }
  intros A B. apply K in A as (k & K0 & A1 & A2 & A3 & A4). apply K in B as (j & J0 & B1 & B2 & B3 & B4).
  assert (E : k = j).
  { assert (S : k * k = j * j). { transitivity (vx c * vx c + vy c * vy c + vz c * vz c); [rewrite A1, A2, A3|rewrite B1, B2, B3].
      - replace (k * k) with (k * k * (vx n * vx n + vy n * vy n + vz n * vz n)) by (rewrite A4; ring). ring.
      - replace (j * j) with (j * j * (vx m * vx m + vy m * vy m + vz m * vz m)) by (rewrite B4; ring). ring. }
    apply Rsqr_inj; unfold Rsqr; lra. }
  subst j. repeat split; apply (Rmult_eq_reg_l k); lra.
Qed.
Definition normal_of (verts : list vec) (f : list Z) : option vec :=
  match corners verts f with Some (p, q, r) => triangle_normal p q r | None => None end.
Lemma loop_step verts ref idx f fs : oriented_loop verts ref idx (f :: fs) =
  if (Nat.eqb (length f) 3 && existsb (fun i => match index verts i with None => true | _ => false end) f)%bool then None else
  match normal_of verts f, ref with
  | None, _ => oriented_loop verts ref (S idx) fs
  | Some n, None => oriented_loop verts (Some n) (S idx) fs
  | Some n, Some m => bind (oriented_loop verts ref (S idx) fs) (fun out =>
      Some (fst out, if Rltb (dot m n) (- epsilon) then idx :: snd out else snd out))
  end.
Proof.
  unfold normal_of, corners. destruct f as [|a [|b [|c [|d f]]]]; cbn [map length Nat.eqb andb existsb oriented_loop]; try reflexivity.
  1,2: destruct (index verts a); try destruct (index verts b); reflexivity.
  - destruct (index verts a) as [p|]; [|reflexivity]. destruct (index verts b) as [q|]; [|reflexivity]. destruct (index verts c) as [r|]; [|reflexivity]. reflexivity.
  - destruct (index verts a); [|reflexivity]. destruct (index verts b); [|reflexivity]. destruct (index verts c); [|reflexivity]. destruct (index verts d); reflexivity.
Qed.
Lemma loop_from m verts fs : forall idx out, oriented_loop verts (Some m) idx fs = Some out ->
  fst out = Some m /\ forall i, In i (snd out) <-> exists j f n, i = (idx + j)%nat /\ nth_error fs j = Some f /\ normal_of verts f = Some n /\ dot m n < - epsilon.
Proof.
  induction fs as [|f fs IH]; intros idx out.
  - intros [= <-]. cbn [fst snd]. split; [reflexivity|]. intros i. split; [intros []|]. intros ([|j] & f & n & _ & X & _); discriminate.
  - rewrite loop_step. destruct (_ && _)%bool; [discriminate|]. destruct (normal_of verts f) as [n|] eqn:N.
    + destruct (oriented_loop verts (Some m) (S idx) fs) as [o|] eqn:E; [|discriminate]. cbn [bind]. intros X. apply Some_eq in X. subst out. cbn [fst snd]. destruct (IH _ _ E) as [F I]. split; [exact F|].
      intros i. assert (T : In i (snd o) <-> exists j f' n', i = (idx + S j)%nat /\ nth_error fs j = Some f' /\ normal_of verts f' = Some n' /\ dot m n' < - epsilon).
      { rewrite I. split; intros (j & f' & n' & A & B); exists j, f', n'; (split; [lia|exact B]). }
      destruct (Rltb (dot m n) (- epsilon)) eqn:R; [apply Rltb_true in R|apply Rltb_false in R].
      * cbn [In]. rewrite T. split.
        -- intros [<-|(j & f' & n' & A & B)]; [exists 0%nat, f, n; split; [lia|auto]|exists (S j), f', n'; auto].
        -- intros ([|j] & f' & n' & A & B & C & D); [left; lia|right; exists j, f', n'; auto].
      * rewrite T. split.
        -- intros (j & f' & n' & A & B); exists (S j), f', n'; auto.
        -- intros ([|j] & f' & n' & A & B & C & D); [exfalso|exists j, f', n'; auto]. cbn [nth_error] in B. apply Some_eq in B. subst f'. rewrite N in C. apply Some_eq in C. subst n'. lra.
    + intros E. destruct (IH _ _ E) as [F I]. split; [exact F|]. intros i. rewrite I. split.
      * intros (j & f' & n' & A & B); exists (S j), f', n'. split; [lia|exact B].
      * intros ([|j] & f' & n' & A & B & C & D); [exfalso; cbn [nth_error] in B; apply Some_eq in B; subst f'; congruence|]. exists j, f', n'. split; [lia|auto].
Qed.
Lemma loop_none verts fs : forall idx out, oriented_loop verts None idx fs = Some out ->
  (out = (None, []) /\ forall j f, nth_error fs j = Some f -> normal_of verts f = None) \/
  (exists j0 f0 m, nth_error fs j0 = Some f0 /\ normal_of verts f0 = Some m /\ (forall j f, (j < j0)%nat -> nth_error fs j = Some f -> normal_of verts f = None) /\ fst out = Some m /\
    forall i, In i (snd out) <-> exists j f n, i = (idx + j)%nat /\ (j0 < j)%nat /\ nth_error fs j = Some f /\ normal_of verts f = Some n /\ dot m n < - epsilon).
Proof.
  induction fs as [|f fs IH]; intros idx out.
  - intros [= <-]. left. split; [reflexivity|]. intros [|j] f; discriminate.
  - rewrite loop_step. destruct (_ && _)%bool; [discriminate|]. destruct (normal_of verts f) as [n|] eqn:N; intros E.
    + right. exists 0%nat, f, n. split; [reflexivity|]. split; [exact N|]. split; [intros; lia|]. apply loop_from in E as [F I]. split; [exact F|]. intros i. rewrite I. split.
      * intros (j & f' & n' & A & B); exists (S j), f', n'. split; [lia|]. split; [lia|exact B].
      * intros ([|j] & f' & n' & A & A' & B); [lia|]. exists j, f', n'. split; [lia|exact B].
    + destruct (IH _ _ E) as [[X Y]|(j0 & f0 & m & A & B & C & D & I)].
      * left. split; [exact X|]. intros [|j] f' G; [cbn in G; congruence|exact (Y j f' G)].
      * right. exists (S j0), f0, m. split; [exact A|]. split; [exact B|]. split; [intros [|j] f' L G; [cbn in G; congruence|apply (C j f'); [lia|exact G]]|]. split; [exact D|].
        intros i. rewrite I. split.
        -- intros (j & f' & n' & X & L & Y). exists (S j), f', n'. split; [lia|]. split; [lia|exact Y].
        -- intros ([|j] & f' & n' & X & L & Y); [lia|]. exists j, f', n'. split; [lia|]. split; [lia|exact Y].
Qed.
Lemma loop_raises verts fs : forall ref idx, oriented_loop verts ref idx fs = None <-> exists f i, In f fs /\ length f = 3%nat /\ In i f /\ index verts i = None.
Proof.
  induction fs as [|f fs IH]; intros ref idx.
  - split; [discriminate|]. intros (f & i & [] & _).
  - rewrite loop_step. destruct (Nat.eqb (length f) 3 && existsb (fun i => match index verts i with None => true | _ => false end) f)%bool eqn:B.
    + split; [|reflexivity]. intros _. apply andb_true_iff in B as [L X]. apply Nat.eqb_eq in L. apply existsb_exists in X as (i & I & X). exists f, i. split; [now left|]. split; [exact L|]. split; [exact I|]. destruct (index verts i); [discriminate|reflexivity].
    + assert (NB : ~ (length f = 3%nat /\ exists i, In i f /\ index verts i = None)).
      { intros (L & i & I & X). assert (Y : (Nat.eqb (length f) 3 && existsb (fun i => match index verts i with None => true | _ => false end) f)%bool = true).
        { apply andb_true_iff. split; [apply Nat.eqb_eq, L|]. apply existsb_exists. exists i. rewrite X. auto. } congruence. }
      assert (R : (exists f' i, In f' (f :: fs) /\ length f' = 3%nat /\ In i f' /\ index verts i = None) <-> exists f' i, In f' fs /\ length f' = 3%nat /\ In i f' /\ index verts i = None).
      { split; intros (f' & i & I & L & J & X); [destruct I as [<-|I]; [exfalso; apply NB; eauto|]|]; exists f', i; auto. split; [now right|auto]. }
      rewrite R. destruct (normal_of verts f) as [n|], ref as [m|]; try apply IH.
      rewrite <- (IH (Some m) (S idx)). destruct (oriented_loop verts (Some m) (S idx) fs); cbn [bind]; split; auto; discriminate.
Qed.
Lemma proper_iff s i t : proper s i t <-> exists f n, nth_error (faces s) i = Some f /\ corners (vertices s) f = Some t /\ triangle_normal (fst (fst t)) (snd (fst t)) (snd t) = Some n.
Proof.
  destruct t as [[p q] r]. cbn [fst snd]. split.
  - intros (f & A & B & C). cbn [fst snd] in C. destruct (triangle_normal p q r) as [n|] eqn:N; [exists f, n; auto|]. apply normal_none in N. lra.
  - intros (f & n & A & B & C). exists f. split; [exact A|]. split; [exact B|]. cbn [fst snd]. apply normal_some in C. apply C.
Qed.
Lemma normal_proper s i f n : nth_error (faces s) i = Some f -> normal_of (vertices s) f = Some n ->
  exists t, proper s i t /\ outward n (fst (fst t)) (snd (fst t)) (snd t) /\ corners (vertices s) f = Some t.
Proof.
  intros A N. unfold normal_of in N. destruct (corners (vertices s) f) as [[[p q] r]|] eqn:C; [|discriminate]. exists (p, q, r). pose proof (normal_some _ _ _ _ N) as [O _].
  split; [apply proper_iff; exists f, n; auto|]. auto.
Qed.
Lemma proper_normal s i t n : proper s i t -> outward n (fst (fst t)) (snd (fst t)) (snd t) ->
  exists f m, nth_error (faces s) i = Some f /\ normal_of (vertices s) f = Some m /\ vx m = vx n /\ vy m = vy n /\ vz m = vz n.
Proof.
  intros P O. apply proper_iff in P as (f & m & A & B & C). exists f, m. split; [exact A|]. split; [unfold normal_of; rewrite B; destruct t as [[p q] r]; exact C|].
  apply normal_some in C as [O' _]. destruct (outward_unique _ _ _ _ _ O' O) as (X & Y & Z). auto.
Qed.
Lemma proper_some s i t : proper s i t -> exists f m, nth_error (faces s) i = Some f /\ normal_of (vertices s) f = Some m.
Proof. intros P. apply proper_iff in P as (f & m & A & B & C). exists f, m. split; [exact A|]. unfold normal_of. rewrite B. destruct t as [[p q] r]. exact C. Qed.
Lemma oriented_none s : faces_oriented s = None <-> ~ indexed s.
Proof.
  unfold faces_oriented. assert (E : indexed s <-> ~ exists f i, In f (faces s) /\ length f = 3%nat /\ In i f /\ index (vertices s) i = None).
  { unfold indexed. split; [intros I (f & i & A & B & C & D); exact (I f i A B C D)|intros N f i A B C D; apply N; eauto 6]. }
  destruct (oriented_loop (vertices s) None 0 (faces s)) as [out|] eqn:L; cbn [bind].
  - split; [discriminate|]. intros N. exfalso. apply N, E. intros X. apply (loop_raises _ _ None 0%nat) in X. congruence.
  - split; [|reflexivity]. intros _ I. apply E in I. apply I. apply (loop_raises _ _ None 0%nat), L.
Qed.
Lemma oriented_some s c : faces_oriented s = Some c ->
  (c_ok c = true <-> forall i, ~ looks_away s i) /\
  (In NoFaces (c_warnings c) <-> forall i t, ~ proper s i t) /\
  (forall l, In (Inconsistent l) (c_warnings c) -> l <> [] /\ forall i, In i l <-> looks_away s i) /\
  (c_ok c = false -> exists l, c_warnings c = [Inconsistent l]).
Proof.
  unfold faces_oriented. destruct (oriented_loop (vertices s) None 0 (faces s)) as [out|] eqn:L; [|discriminate]. cbn [bind]. intros X. apply Some_eq in X. subst c.
  apply loop_none in L as [[-> Y]|(j0 & f0 & m & A & B & C & D & I)].
  - assert (NP : forall i t, ~ proper s i t) by (intros i t P; apply proper_some in P as (f & n & P1 & P2); rewrite (Y i f P1) in P2; discriminate).
    cbn [fst snd c_ok c_warnings]. split; [|split; [|split]].
    + split; [|reflexivity]. intros _ i (i0 & t0 & t & n0 & n & [P _] & _). exact (NP _ _ P).
    + split; [auto|]. intros _. now left.
    + intros l [Z|[]]. discriminate.
    + discriminate.
  - destruct (normal_proper s j0 f0 m A B) as (t0 & P0 & O0 & _).
    assert (FP : first_proper s j0 t0).
    { split; [exact P0|]. intros j t' P. destruct (le_lt_dec j0 j) as [Q|Q]; [exact Q|]. exfalso. apply proper_some in P as (f & n & P1 & P2). rewrite (C j f Q P1) in P2. discriminate. }
    assert (LA : forall i, In i (snd out) <-> looks_away s i).
    { intros i. rewrite I. split.
      - intros (j & f & n & -> & Q & N1 & N2 & N3). cbn [Nat.add]. destruct (normal_proper s j f n N1 N2) as (t & P & O & _). exists j0, t0, t, m, n. auto 8.
      - intros (i0 & t1 & t & n0 & n & [P1 F1] & Q & P & O1 & O & R). assert (i0 = j0) as -> by (apply Nat.le_antisymm; [apply (F1 j0 t0 P0)|apply (proj2 FP i0 t1 P1)]).
        destruct (proper_normal s i t n P O) as (f & n' & N1 & N2 & X1 & X2 & X3). destruct (proper_normal s j0 t1 n0 P1 O1) as (f0' & m' & M1 & M2 & Y1 & Y2 & Y3).
        rewrite A in M1. apply Some_eq in M1. subst f0'. rewrite B in M2. apply Some_eq in M2. subst m'.
        exists i, f, n'. split; [reflexivity|]. split; [exact Q|]. split; [exact N1|]. split; [exact N2|]. unfold dot in *. rewrite X1, X2, X3, Y1, Y2, Y3. exact R. }
    rewrite D. destruct (snd out) as [|b bad] eqn:S; cbn [c_ok c_warnings].
    + split; [|split; [|split]].
      * split; [|reflexivity]. intros _ i Z. apply LA in Z. exact Z.
      * split; [intros []|]. intros Z. exfalso. exact (Z _ _ P0).
      * intros l [].
      * discriminate.
    + split; [|split; [|split]].
      * split; [discriminate|]. intros Z. exfalso. apply (Z b), LA. now left.
      * split; [intros [Z|[]]; discriminate|]. intros Z. exfalso. exact (Z _ _ P0).
      * intros l [Z|[]]. injection Z as <-. split; [discriminate|exact LA].
      * intros _. exists (b :: bad). reflexivity.
Qed.
