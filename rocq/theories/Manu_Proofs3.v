(** Connectors, evenly spaced cuts and rings. *)
From Coq Require Import Reals List Bool ZArith Lra Lia.
From Verif Require Import Xform_Model Xform_Proofs Path_Model Path_Spec Path_Proofs Path_Proofs2 Path_Proofs3 Path_Props Manu_Model Manu_Spec.
Import ListNotations.
Open Scope R_scope.
Open Scope list_scope.

(** ** even paths *)
Lemma even_cut p l a b : Forall good p -> Forall (fun g => has_length g l) p -> p <> [] -> 0 <= a -> a < b -> b <= 1 ->
  exists q, extract p a b = Ok q /\ path_length q = (b - a) * path_length p.
Proof.
  intros G H N A AB B.
  assert (Z : forall t, 0 < t <= 1 -> exists q, extract p 0 t = Ok q /\ path_length q = t * path_length p).
  { intros t T. destruct (even_length p l t G H N T) as [E _]. unfold parameter_to_length in E. destruct (extract p 0 t) as [q| | | | |]; try discriminate. exists q. split; [reflexivity|]. congruence. }
  destruct (Req_dec a 0) as [->|NZ]; [destruct (Z b) as (q & E & L); [lra|]; exists q; split; [exact E|rewrite L; ring]|].
  destruct (length_adds p 0 a b G N) as (q1 & q2 & q & E1 & E2 & E3 & L); try lra.
  destruct (Z a) as (q1' & E1' & L1); [lra|]. destruct (Z b) as (q' & E' & L'); [lra|].
  assert (q1' = q1) by congruence. assert (q' = q) by congruence. subst. exists q2. split; [exact E2|]. lra.
Qed.
Lemma to_parameter p s : tiny10 <= path_length p -> 0 <= s <= path_length p -> length_to_parameter p s = s / path_length p.
Proof.
  intros T S. pose proof tiny_pos. assert (B : 0 <= s / path_length p <= 1).
  { split; [apply Rmult_le_pos; [lra|left; apply Rinv_0_lt_compat; lra]|]. apply (Rmult_le_reg_r (path_length p)); [lra|]. unfold Rdiv. rewrite Rmult_assoc, Rinv_l by lra. lra. }
  unfold length_to_parameter. replace (Rltb (path_length p) tiny10) with false by (symmetry; apply Rltb_false; lra). rewrite Rmax_right by lra. apply Rmin_right. lra.
Qed.
Lemma spine_even p l t len : Forall good p -> Forall (fun g => has_length g l) p -> p <> [] -> tiny10 <= path_length p -> 0 < t < 1 -> 0 < len ->
  let a := Rmax 0 (t - len / 2 / path_length p) in let b := Rmin 1 (t + len / 2 / path_length p) in
  0 <= a < t /\ t < b <= 1 /\ connector_spine p t len = extract p a b.
Proof.
  intros G H N T Ht Hl a b. pose proof tiny_pos. set (L := path_length p) in *. assert (LP : 0 < L) by lra.
  assert (W : 0 < len / 2 / L) by (apply Rdiv_lt_0_compat; lra).
  assert (A : 0 <= a < t) by (unfold a, Rmax; destruct (Rle_dec 0 (t - len / 2 / L)); lra).
  assert (B : t < b <= 1) by (unfold b, Rmin; destruct (Rle_dec 1 (t + len / 2 / L)); lra).
  split; [exact A|]. split; [exact B|]. unfold connector_spine. destruct (even_length p l t G H N) as [E _]; [lra|]. rewrite E. fold L.
  assert (EA : Rmax 0 (t * L - len / 2) = a * L).
  { replace (t * L - len / 2) with ((t - len / 2 / L) * L) by (field; lra). unfold a, Rmax. destruct (Rle_dec 0 ((t - len / 2 / L) * L)), (Rle_dec 0 (t - len / 2 / L)); try nra.
    }
  assert (EB : Rmin L (t * L + len / 2) = b * L).
  { replace (t * L + len / 2) with ((t + len / 2 / L) * L) by (field; lra). unfold b, Rmin. destruct (Rle_dec L ((t + len / 2 / L) * L)), (Rle_dec 1 (t + len / 2 / L)); nra. }
  rewrite EA, EB, !to_parameter by (fold L; try exact T; nra). fold L. replace (a * L / L) with a by (field; lra). replace (b * L / L) with b by (field; lra). reflexivity.
Qed.
Lemma centred p l t len : Forall good p -> Forall (fun g => has_length g l) p -> p <> [] -> tiny10 <= path_length p -> 0 < t < 1 -> 0 < len ->
  len / 2 <= t * path_length p -> len / 2 <= (1 - t) * path_length p ->
  exists q a b q1 q2, connector_spine p t len = Ok q /\ 0 <= a < t /\ t < b <= 1 /\ extract p a b = Ok q /\ path_length q = len /\
    extract p a t = Ok q1 /\ extract p t b = Ok q2 /\ path_length q1 = len / 2 /\ path_length q2 = len / 2.
Proof.
  intros G H N T Ht Hl F1 F2. destruct (spine_even p l t len G H N T Ht Hl) as (A & B & E). pose proof tiny_pos.
  set (L := path_length p) in *. set (a := Rmax 0 (t - len / 2 / L)) in *. set (b := Rmin 1 (t + len / 2 / L)) in *.
  assert (Q : len / 2 / L * L = len / 2) by (field; lra).
  assert (EA : a = t - len / 2 / L) by (unfold a; apply Rmax_right; apply (Rmult_le_reg_r L); nra).
  assert (EB : b = t + len / 2 / L) by (unfold b; apply Rmin_right; apply (Rmult_le_reg_r L); nra).
  destruct (even_cut p l a b G H N) as (q & E0 & L0); try lra. destruct (even_cut p l a t G H N) as (q1 & E1 & L1); try lra. destruct (even_cut p l t b G H N) as (q2 & E2 & L2); try lra.
  exists q, a, b, q1, q2. rewrite E. fold L in L0, L1, L2. repeat split; try assumption; try lra; [rewrite L0|rewrite L1|rewrite L2]; rewrite ?EA, ?EB; nra.
Qed.

(** ** tangents are unit vectors *)
Lemma pnorm_unit v : mag (pnorm v) = 1.
Proof.
  unfold pnorm. destruct (Rltb (mag v) tiny10) eqn:E; [apply mg_one; unfold dot; cbn; ring|].
  apply mg_one. apply Rltb_false in E. pose proof tiny_pos. pose proof (dot_pnorm v E) as D. rewrite (pnorm_big v E) in D. exact D.
Qed.
Lemma evaluate_unit p t q d : evaluate p t = Ok (q, d) -> mag d = 1.
Proof.
  unfold evaluate. destruct p as [|g p]; [discriminate|]. destruct (locate _ _) as [i u]. unfold eval_seg. destruct (nth i (g :: p) Other); intros E; try discriminate; injection E as <- <-; apply pnorm_unit.
Qed.
Lemma terminal_ok p (at_end : bool) len q d : evaluate p (if at_end then 1 else 0) = Ok (q, d) ->
  let k := if at_end then len else - len in
  terminal_spine p at_end len = Ok [Line (mkv (vx q) (vy q) (vz q) 0) (mkv (vx q + k * vx d) (vy q + k * vy d) (vz q + k * vz d) 0)].
Proof.
  intros E k. unfold terminal_spine. rewrite E. pose proof (evaluate_unit _ _ _ _ E) as U. rewrite U. replace (Rltb 0 1) with true by (symmetry; apply Rltb_true; lra).
  cbv zeta. unfold k. destruct at_end; cbn [vx vy vz]; do 4 f_equal; f_equal; field.
Qed.

(** ** rings *)
Definition rot (ax : axis) (a : R) (v : vec) : vec :=
  match ax with
  | AxX => mkv (vx v) (vy v * cos a - vz v * sin a) (vy v * sin a + vz v * cos a) 0
  | AxY => mkv (vx v * cos a + vz v * sin a) (vy v) (- vx v * sin a + vz v * cos a) 0
  | AxZ => mkv (vx v * cos a - vy v * sin a) (vx v * sin a + vy v * cos a) (vz v) 0
  end.
Definition tilt_angle (deg : R) : R := if Rltb (1 / 1000) (Rabs deg) then deg * PI / 180 else 0.
Lemma tilted_rot deg ax v : vw v = 0 -> tilted deg ax v = rot ax (tilt_angle deg) v.
Proof.
  intros W. unfold tilted, tilt_angle. destruct (Rltb _ _); [unfold turn, rot; destruct ax; reflexivity|].
  unfold rot. rewrite cos_0, sin_0. destruct v as [x y z w]; cbn in *; subst. destruct ax; f_equal; ring.
Qed.
Lemma cs2 a : cos a * cos a = 1 - sin a * sin a.
Proof. pose proof (sin2_cos2 a) as H. unfold Rsqr in H. lra. Qed.
Lemma rot_dot ax a u v : dot (rot ax a u) (rot ax a v) = dot u v.
Proof. destruct ax; unfold rot, dot; cbn [vx vy vz]; ring_simplify; try (replace (cos a ^ 2) with (1 - sin a ^ 2) by (pose proof (cs2 a); lra); ring). Qed.
Lemma rot_normal ax a : rot ax a (mkv 0 0 1 0) = ring_normal ax a.
Proof. destruct ax; unfold rot, ring_normal; cbn [vx vy vz]; f_equal; ring. Qed.
Lemma placed_on c ax a r v : vw v = 0 -> 0 <= r -> vx v * vx v + vy v * vy v = r * r -> vz v = 0 -> on_ring c (ring_normal ax a) r (padd (rot ax a v) c).
Proof.
  intros W R E Z. assert (S : forall w, dot w (sub (padd (rot ax a v) c) c) = dot w (rot ax a v)) by (intros w; unfold dot, sub, padd; cbn [vx vy vz]; ring).
  split.
  - unfold dist. apply mag_of; [exact R|]. rewrite S. transitivity (dot (rot ax a v) (rot ax a v)); [unfold dot, sub, padd; cbn [vx vy vz]; ring|]. rewrite rot_dot. unfold dot. rewrite Z. lra.
  - rewrite S, <- rot_normal, rot_dot. unfold dot. cbn. rewrite Z. ring.
Qed.
Lemma vertex_radius r n i : vx (ring_vertex r n i) * vx (ring_vertex r n i) + vy (ring_vertex r n i) * vy (ring_vertex r n i) = r * r.
Proof. unfold ring_vertex. cbn [vx vy]. set (a := INR i * _). pose proof (cs2 a). nra. Qed.
Definition vertex (r : R) (c : vec) (deg : R) (ax : axis) (n i : nat) : vec := padd (rot ax (tilt_angle deg) (ring_vertex r n i)) c.
Lemma spine_vertices r c deg ax n : create_ring_spine r c deg ax n = map (fun i => Line (vertex r c deg ax n i) (vertex r c deg ax n (S i))) (seq 0 n).
Proof.
  unfold create_ring_spine, flat_ring, map_lines. rewrite !map_map. apply map_ext. intros i. unfold vertex. rewrite !tilted_rot by reflexivity. reflexivity.
Qed.
Lemma ring_period r n : (0 < n)%nat -> ring_vertex r n n = ring_vertex r n 0.
Proof.
  intros N. assert (P : 0 < INR n) by (apply lt_0_INR; lia). unfold ring_vertex. replace (INR n * (2 * PI / INR n)) with (2 * PI) by (field; lra). replace (INR 0 * (2 * PI / INR n)) with 0 by (cbn; ring).
  rewrite cos_2PI, sin_2PI, cos_0, sin_0. reflexivity.
Qed.
Lemma chord_length r n i : 0 <= r -> (0 < n)%nat -> dot (psub (ring_vertex r n (S i)) (ring_vertex r n i)) (psub (ring_vertex r n (S i)) (ring_vertex r n i)) = (2 * r * sin (PI / INR n)) * (2 * r * sin (PI / INR n)).
Proof.
  intros R N. assert (P : 0 < INR n) by (apply lt_0_INR; lia). unfold ring_vertex, psub, dot. cbn [vx vy vz]. rewrite S_INR.
  set (a := INR i * (2 * PI / INR n)). replace ((INR i + 1) * (2 * PI / INR n)) with (a + 2 * (PI / INR n)) by (unfold a; field; lra).
  set (h := PI / INR n). rewrite cos_plus, sin_plus, cos_2a_sin, sin_2a. pose proof (cs2 a). pose proof (cs2 h).
  set (ca := cos a) in *. set (sa := sin a) in *. set (ch := cos h) in *. set (sh := sin h) in *.
  transitivity (r * r * (ca * ca + sa * sa) * (4 * sh * sh * (sh * sh + ch * ch))); [ring|].
  replace (ca * ca + sa * sa) with 1 by lra. replace (sh * sh + ch * ch) with 1 by lra. ring.
Qed.
Lemma ring_lengths r c deg ax n : 0 <= r -> (0 < n)%nat -> Forall (fun g => has_length g (2 * r * sin (PI / INR n))) (create_ring_spine r c deg ax n).
Proof.
  intros R N. rewrite spine_vertices. apply Forall_forall. intros g I. apply in_map_iff in I. destruct I as (i & <- & _). cbn [has_length]. symmetry.
  unfold dist. apply mag_of.
  - assert (P : 1 <= INR n) by (change 1 with (INR 1); apply le_INR; lia). assert (0 <= sin (PI / INR n)).
    { pose proof PI_RGT_0. apply sin_ge_0; [apply Rmult_le_pos; [lra|left; apply Rinv_0_lt_compat; lra]|]. apply (Rmult_le_reg_r (INR n)); [lra|]. unfold Rdiv. rewrite Rmult_assoc, Rinv_l by lra. nra. }
    nra.
  - rewrite <- (chord_length r n i R N). rewrite <- (rot_dot ax (tilt_angle deg) (psub (ring_vertex r n (S i)) (ring_vertex r n i))). unfold vertex. set (u := ring_vertex r n (S i)). set (v := ring_vertex r n i). clearbody u v.
    destruct ax; unfold padd, sub, psub, dot, rot; cbn [vx vy vz]; ring.
Qed.
Lemma ring_joined r c deg ax n : joined (create_ring_spine r c deg ax n).
Proof.
  rewrite spine_vertices. set (f := fun i => Line _ _). assert (F : forall i, seg_end (f i) = seg_start (f (S i))) by reflexivity. clearbody f.
  generalize 0%nat as k. induction n as [|m IH]; intros k; cbn [seq map]; [exact I|].
  specialize (IH (S k)). destruct m as [|m]; cbn [seq map joined] in *; [exact I|]. split; [apply F|exact IH].
Qed.
Lemma ring_good r c deg ax n : Forall good (create_ring_spine r c deg ax n).
Proof. rewrite spine_vertices. apply Forall_forall. intros g I. apply in_map_iff in I. destruct I as (i & <- & _). split; reflexivity. Qed.
Lemma ring_nth r c deg ax n i : (i < n)%nat -> nth i (create_ring_spine r c deg ax n) Other = Line (vertex r c deg ax n i) (vertex r c deg ax n (S i)).
Proof.
  intros L. rewrite spine_vertices. rewrite (nth_indep _ Other ((fun i => Line (vertex r c deg ax n i) (vertex r c deg ax n (S i))) 0%nat)) by (rewrite map_length, seq_length; exact L).
  rewrite (map_nth (fun i => Line (vertex r c deg ax n i) (vertex r c deg ax n (S i)))), seq_nth by exact L. reflexivity.
Qed.
Lemma ring_count r c deg ax n : length (create_ring_spine r c deg ax n) = n. Proof. rewrite spine_vertices, map_length, seq_length. reflexivity. Qed.
Lemma vertex_on r c deg ax n i : 0 <= r -> on_ring c (ring_normal ax (tilt_angle deg)) r (vertex r c deg ax n i).
Proof. intros R. apply placed_on; [reflexivity|exact R|apply vertex_radius|reflexivity]. Qed.
Lemma attachment_ok r at_deg c deg ax : 0 <= r -> vw c = 0 ->
  let '(q, d) := attachment r at_deg c deg ax in on_ring c (ring_normal ax (tilt_angle deg)) r q /\ mag d = 1 /\ padd q (pscale d r) = c.
Proof.
  intros R W. unfold attachment. rewrite !tilted_rot by reflexivity. set (a := at_deg * PI / 180). pose proof (cs2 a). split; [|split].
  - apply placed_on; auto; cbn [vx vy vz]; nra.
  - apply mag_of; [lra|]. rewrite rot_dot. unfold dot. cbn [vx vy vz]. nra.
  - destruct c as [x y z w]. cbn in W. subst. unfold rot, padd, pscale. destruct ax; cbn [vx vy vz]; f_equal; ring.
Qed.
Lemma attachment_vertex r c deg ax n i : (0 < n)%nat -> fst (attachment r (360 * INR i / INR n) c deg ax) = vertex r c deg ax n i.
Proof.
  intros N. assert (P : 0 < INR n) by (apply lt_0_INR; lia). unfold attachment. cbn [fst]. rewrite tilted_rot by reflexivity. unfold vertex, ring_vertex.
  replace (360 * INR i / INR n * PI / 180) with (INR i * (2 * PI / INR n)) by (field; lra). reflexivity.
Qed.

(** ** evenly spaced cuts *)
Lemma optimal_shape e p m : 0 < m -> m < path_length p ->
  exists n, (2 <= n)%nat /\ INR n * m > path_length p /\ (INR n - 1) * m <= path_length p /\ map cp_t (optimal_cuts e p m) = map (fun i => INR i / INR n) (seq 1 (n - 1)) /\
    Forall (fun c => cut_ok c = true /\ cp_element c = e) (optimal_cuts e p m).
Proof.
  intros M L. unfold optimal_cuts. set (T := path_length p) in *. replace (Rleb T m) with false by (symmetry; apply rleb_false, L).
  assert (Q : 1 < T / m) by (apply (Rmult_lt_reg_r m); [exact M|]; unfold Rdiv; rewrite Rmult_assoc, Rinv_l by lra; lra).
  destruct (trunc_spec (T / m)) as [T1 T2]; [lra|]. set (k := trunc (T / m)) in *. exists (S k).
  assert (K : (1 <= k)%nat) by (destruct k; [cbn in T2; lra|lia]). assert (EQ : T / m * m = T) by (field; lra).
  rewrite S_INR. assert (KP : 1 <= INR k) by (change 1 with (INR 1); apply le_INR, K). split; [lia|]. split; [nra|]. split; [nra|]. split.
  - rewrite map_map. apply map_ext. intros i. cbn [cp_t]. rewrite <- S_INR. rewrite S_INR. field. lra.
  - apply Forall_forall. intros c I. apply in_map_iff in I. destruct I as (i & <- & I). apply in_seq in I. split; [|reflexivity]. unfold cut_ok. cbn [cp_t cp_with].
    assert (I1 : 1 <= INR i) by (change 1 with (INR 1); apply le_INR; lia). assert (I2 : INR i < INR k + 1) by (rewrite <- S_INR; apply lt_INR; lia).
    replace (INR i * (T / (INR k + 1)) / T) with (INR i / (INR k + 1)) by (field; lra).
    assert (0 < INR i / (INR k + 1)) by (apply Rdiv_lt_0_compat; lra).
    assert (INR i / (INR k + 1) < 1) by (apply (Rmult_lt_reg_r (INR k + 1)); [lra|]; unfold Rdiv; rewrite Rmult_assoc, Rinv_l by lra; lra).
    rewrite ?S_INR. replace (INR i * (T / (INR k + 1)) / T) with (INR i / (INR k + 1)) by (field; lra).
    rewrite (proj2 (Rltb_true _ _) H), (proj2 (Rltb_true _ _) H0). reflexivity.
Qed.
