From Coq Require Import Reals List Bool Lra Lia Psatz.
From Verif Require Import Xform_Model Xform_Proofs Fig_Model Isect_Proofs4 ASurf_Model ASurf_Spec ASurf_Proofs ASurf_Proofs2.
Import ListNotations.
Open Scope R_scope.
Notation tiny := (1 / 1000000000000).

Lemma basis_pos ks : sorted ks -> forall p i u, (i + p + 1 < length ks)%nat ->
  0 <= basis ks p i u /\ (basis ks p i u <> 0 -> nth i ks 0 <= u <= nth (i + p + 1) ks 0).
Proof.
  intros S. induction p as [|p IH]; intros i u L.
  - cbn [basis]. replace (i + 0 + 1)%nat with (i + 1)%nat by lia. destruct (Rleb (nth i ks 0) u && Rltb u (nth (i + 1) ks 0)) eqn:E.
    + apply andb_prop in E as [E1 E2]. apply Rleb_true in E1. apply Rltb_true in E2. split; [lra|]. intros _. lra.
    + destruct (Nat.eqb (i + 1) (length ks - 1) && Reqb u (nth (i + 1) ks 0)) eqn:F; [|split; [lra|intros K; congruence]].
      apply andb_prop in F as [_ F]. apply Reqb_true in F. split; [lra|]. intros _. pose proof (S i (i + 1)%nat ltac:(lia) ltac:(lia)). lra.
  - cbn [basis]. destruct (IH i u ltac:(lia)) as [A1 A2]. destruct (IH (i + 1)%nat u ltac:(lia)) as [B1 B2].
    replace (i + 1 + p + 1)%nat with (i + Datatypes.S p + 1)%nat in B2 by lia. replace (i + p + 1)%nat with (i + Datatypes.S p)%nat in A2 by lia.
    set (t0 := nth i ks 0) in *. set (t1 := nth (i + 1) ks 0) in *. set (t2 := nth (i + Datatypes.S p) ks 0) in *. set (t3 := nth (i + Datatypes.S p + 1) ks 0) in *.
    assert (O1 : t0 <= t1) by (apply S; lia). assert (O3 : t2 <= t3) by (apply S; lia).
    set (N1 := basis ks p i u) in *. set (N2 := basis ks p (i + 1) u) in *.
    assert (X1 : 0 <= (if Rltb tiny (t2 - t0) then (u - t0) / (t2 - t0) * N1 else 0) /\ ((if Rltb tiny (t2 - t0) then (u - t0) / (t2 - t0) * N1 else 0) <> 0 -> N1 <> 0)).
    { destruct (Rltb tiny (t2 - t0)) eqn:E; [|split; [lra|intros K; congruence]]. apply Rltb_true in E. destruct (Req_dec N1 0) as [Z|Z]; [rewrite Z; split; [lra|intros K _; apply K; ring]|].
      split; [|auto]. apply Rmult_le_pos; [|exact A1]. apply Rmult_le_pos; [pose proof (A2 Z); lra|]. left. apply Rinv_0_lt_compat. lra. }
    assert (X2 : 0 <= (if Rltb tiny (t3 - t1) then (t3 - u) / (t3 - t1) * N2 else 0) /\ ((if Rltb tiny (t3 - t1) then (t3 - u) / (t3 - t1) * N2 else 0) <> 0 -> N2 <> 0)).
    { destruct (Rltb tiny (t3 - t1)) eqn:E; [|split; [lra|intros K; congruence]]. apply Rltb_true in E. destruct (Req_dec N2 0) as [Z|Z]; [rewrite Z; split; [lra|intros K _; apply K; ring]|].
      split; [|auto]. apply Rmult_le_pos; [|exact B1]. apply Rmult_le_pos; [pose proof (B2 Z); lra|]. left. apply Rinv_0_lt_compat. lra. }
    set (P1 := if Rltb tiny (t2 - t0) then (u - t0) / (t2 - t0) * N1 else 0) in *. set (P2 := if Rltb tiny (t3 - t1) then (t3 - u) / (t3 - t1) * N2 else 0) in *.
    destruct X1 as [X1 Y1], X2 as [X2 Y2]. split; [lra|]. intros K. destruct (Req_dec P1 0) as [Z|Z].
    + assert (Q : N2 <> 0) by (apply Y2; lra). pose proof (B2 Q). lra.
    + pose proof (A2 (Y1 Z)). lra.
Qed.
Lemma at2_in {A} (d : A) rows (P : A -> Prop) j i : Forall (Forall P) rows -> (j < length rows)%nat -> (i < length (nth j rows []))%nat -> P (at2 d rows j i).
Proof.
  intros F J I. unfold at2. rewrite Forall_forall in F. pose proof (F (nth j rows []) (nth_In _ _ J)) as G. rewrite Forall_forall in G. apply G, nth_In, I.
Qed.
Lemma fold_inv {A B} (f : A -> B -> A) (P : A -> Prop) l : (forall a b, In b l -> P a -> P (f a b)) -> forall a, P a -> P (fold_left f l a).
Proof.
  induction l as [|b l IH]; intros H a Ha; [exact Ha|]. cbn [fold_left]. apply IH; [intros x y Y; apply H; right; exact Y|]. apply H; [left; reflexivity|exact Ha].
Qed.
Lemma fold_skip {A B} (f : A -> B -> A) l a : (forall b, In b l -> f a b = a) -> fold_left f l a = a.
Proof. intros H. induction l as [|b l IH]; [reflexivity|]. cbn [fold_left]. rewrite H by (left; reflexivity). apply IH. intros x X. apply H. right. exact X. Qed.
(** well-formed data *)
Definition grid_ok {A} (n_u n_v : nat) (rows : list (list A)) : Prop := length rows = n_v /\ Forall (fun r => length r = n_u) rows.
Lemma grid_row {A} n_u n_v (rows : list (list A)) j : grid_ok n_u n_v rows -> (j < n_v)%nat -> length (nth j rows []) = n_u.
Proof. intros [L F] J. rewrite Forall_forall in F. apply F, nth_In. lia. Qed.
Lemma hull cps uk vk p q w n_u n_v u v d c :
  grid_ok n_u n_v cps -> grid_ok n_u n_v w -> (0 < n_u)%nat -> (0 < n_v)%nat -> length uk = (n_u + p + 1)%nat -> length vk = (n_v + q + 1)%nat ->
  sorted uk -> sorted vk -> positive w -> all_points cps (fun x => dot x d <= c) -> dot (evaluate_bspline cps uk vk p q w n_u n_v u v) d <= c.
Proof.
  intros GC GW NU NV LU LV SU SV PW AC.
  set (I := fun acc => 0 <= vw acc /\ dot acc d <= c * vw acc).
  assert (J : I (outer cps w uk vk p q n_u u v (seq 0 n_v) (mkv 0 0 0 0))).
  { unfold outer. apply fold_inv; [|unfold I, dot; cbn [vx vy vz vw]; lra]. intros acc j Hj Ha. apply in_seq in Hj. cbv zeta.
    destruct (basis_pos vk SV q j v ltac:(lia)) as [BV _]. destruct (Reqb (basis vk q j v) 0); [exact Ha|]. generalize dependent (basis vk q j v). intros nv BV.
    unfold inner. apply fold_inv; [|exact Ha]. clear acc Ha. intros acc i Hi [Ha1 Ha2]. apply in_seq in Hi. cbv zeta.
    destruct (basis_pos uk SU p i u ltac:(lia)) as [BU _]. destruct (Reqb (basis uk p i u) 0); [split; assumption|]. generalize dependent (basis uk p i u). intros nu BU.
    assert (W : 0 < at2 0 w j i) by (apply (at2_in 0 w (fun x => 0 < x)); [exact PW|destruct GW; lia|rewrite (grid_row n_u n_v) by (assumption || lia); lia]).
    assert (C : dot (at2 (point 0 0 0) cps j i) d <= c) by (apply (at2_in (point 0 0 0) cps (fun x => dot x d <= c)); [exact AC|destruct GC; lia|rewrite (grid_row n_u n_v) by (assumption || lia); lia]).
    unfold term. cbv zeta. generalize dependent (at2 0 w j i). intros b0 W. generalize dependent (at2 (point 0 0 0) cps j i). intros x C.
    assert (B : 0 <= nu * nv * b0) by (apply Rmult_le_pos; [apply Rmult_le_pos; assumption|lra]). generalize dependent (nu * nv * b0). intros b B.
    split; cbn [vw]; [lra|]. unfold dot in *. cbn [vx vy vz vw]. set (xd := vx x * vx d + vy x * vy d + vz x * vz d) in *.
    assert (b * xd <= b * c) by (apply Rmult_le_compat_l; assumption). unfold xd in *. nra. }
  unfold evaluate_bspline. cbv zeta. destruct J as [J1 J2]. generalize dependent (outer cps w uk vk p q n_u u v (seq 0 n_v) (mkv 0 0 0 0)). intros s J1 J2.
  destruct (Rltb (vw s) tiny) eqn:E.
  - change (dot (as_point (at2 (point 0 0 0) cps 0 0)) d) with (dot (at2 (point 0 0 0) cps 0 0) d). apply (at2_in (point 0 0 0) cps (fun x => dot x d <= c)); [exact AC|destruct GC; lia|rewrite (grid_row n_u n_v) by (assumption || lia); lia].
  - apply Rltb_false in E. apply (Rle_trans _ (dot s d / vw s)); [right; unfold dot, point; cbn [vx vy vz]; field; lra|]. apply (Rmult_le_reg_r (vw s)); [lra|]. unfold Rdiv. rewrite Rmult_assoc, Rinv_l by lra. lra.
Qed.
(** the start of a clamped knot vector *)
Lemma basis_start ks p : clamped_start ks p -> forall r j, (r <= p)%nat -> (j + r + 1 < length ks)%nat -> basis ks r j (nth 0 ks 0) = if Nat.eqb (j + r) p then 1 else 0.
Proof.
  intros (L & EQ & GT). set (a := nth 0 ks 0) in *. induction r as [|r IH]; intros j R J.
  - cbn [basis]. rewrite Nat.add_0_r. destruct (Nat.eqb j p) eqn:E.
    + apply Nat.eqb_eq in E. subst j. rewrite (EQ p) by lia. pose proof (GT (p + 1)%nat ltac:(lia)) as G.
      rewrite (proj2 (Rleb_true a a)) by lra. rewrite (proj2 (Rltb_true a (nth (p + 1) ks 0))) by lra. reflexivity.
    + apply Nat.eqb_neq in E. destruct (Nat.lt_ge_cases j p) as [Q|Q].
      * rewrite (EQ j), (EQ (j + 1)%nat) by lia. rewrite (proj2 (Rltb_false a a)) by lra. rewrite andb_false_r. replace (Nat.eqb (j + 1) (length ks - 1)) with false; [reflexivity|]. symmetry. apply Nat.eqb_neq. lia.
      * pose proof (GT j ltac:(lia)) as G1. pose proof (GT (j + 1)%nat ltac:(lia)) as G2. rewrite (proj2 (Rleb_false (nth j ks 0) a)) by lra. cbn [andb].
        rewrite (proj2 (Reqb_false a (nth (j + 1) ks 0))) by lra. rewrite andb_false_r. reflexivity.
  - cbn [basis]. rewrite (IH j), (IH (j + 1)%nat) by lia. replace (j + 1 + r)%nat with (j + Datatypes.S r)%nat by lia. destruct (Nat.eqb (j + Datatypes.S r) p) eqn:E.
    + apply Nat.eqb_eq in E. rewrite (proj2 (Nat.eqb_neq (j + r) p)) by lia. pose proof (GT (j + Datatypes.S r + 1)%nat ltac:(lia)) as G. rewrite (EQ (j + 1)%nat) by lia.
      set (t := nth (j + Datatypes.S r + 1) ks 0) in *. rewrite (proj2 (Rltb_true tiny (t - a))) by lra. rewrite !Rmult_0_r.
      transitivity (0 + (t - a) / (t - a) * 1); [destruct (Rltb _ _); reflexivity|]. field. lra.
    + destruct (Nat.eqb (j + r) p) eqn:F.
      * apply Nat.eqb_eq in F. rewrite (EQ j) by lia. replace (a - a) with 0 by ring. destruct (Rltb _ _), (Rltb _ _); unfold Rdiv; ring.
      * rewrite !Rmult_0_r. destruct (Rltb _ _), (Rltb _ _); ring.
Qed.
(** the end of a clamped knot vector *)
Lemma basis_end0 ks p b : clamped_end ks p b -> forall j, (j + 1 < length ks)%nat -> basis ks 0 j b = if Nat.eqb (j + 1) (length ks - 1) then 1 else 0.
Proof.
  intros (L & EQ & LT) j J. cbn [basis]. assert (B : nth (j + 1) ks 0 <= b).
  { destruct (Nat.lt_ge_cases (j + 1) (length ks - p - 1)) as [K|K]; [pose proof (LT _ K); lra|rewrite EQ by lia; lra]. }
  rewrite (proj2 (Rltb_false b (nth (j + 1) ks 0))) by lra. rewrite andb_false_r. destruct (Nat.eqb (j + 1) (length ks - 1)) eqn:E; [|reflexivity].
  apply Nat.eqb_eq in E. rewrite (EQ (j + 1)%nat) by lia. rewrite (proj2 (Reqb_true b b)) by reflexivity. reflexivity.
Qed.
Lemma basis_end ks p b : clamped_end ks p b -> (1 <= p)%nat -> forall r j, (1 <= r)%nat -> (j + r + 1 < length ks)%nat -> basis ks r j b = 0.
Proof.
  intros C P. induction r as [|r IH]; [lia|]. intros j _ J. destruct r as [|r].
  - change (basis ks 1 j b) with ((if Rltb tiny (nth (j + 1) ks 0 - nth j ks 0) then (b - nth j ks 0) / (nth (j + 1) ks 0 - nth j ks 0) * basis ks 0 j b else 0) +
      (if Rltb tiny (nth (j + 1 + 1) ks 0 - nth (j + 1) ks 0) then (nth (j + 1 + 1) ks 0 - b) / (nth (j + 1 + 1) ks 0 - nth (j + 1) ks 0) * basis ks 0 (j + 1) b else 0)).
    rewrite (basis_end0 ks p b C j) by lia. rewrite (basis_end0 ks p b C (j + 1)%nat) by lia. rewrite (proj2 (Nat.eqb_neq (j + 1) (length ks - 1))) by lia.
    destruct (Nat.eqb (j + 1 + 1) (length ks - 1)) eqn:E.
    + apply Nat.eqb_eq in E. destruct C as (L & EQ & _). rewrite (EQ (j + 1 + 1)%nat), (EQ (j + 1)%nat) by lia. rewrite (proj2 (Rltb_false tiny (b - b))) by lra. rewrite Rmult_0_r. destruct (Rltb _ _); ring.
    + rewrite !Rmult_0_r. destruct (Rltb _ _), (Rltb _ _); ring.
  - change (basis ks (Datatypes.S (Datatypes.S r)) j b) with (let p' := Datatypes.S (Datatypes.S r) in
      (if Rltb tiny (nth (j + p') ks 0 - nth j ks 0) then (b - nth j ks 0) / (nth (j + p') ks 0 - nth j ks 0) * basis ks (Datatypes.S r) j b else 0) +
      (if Rltb tiny (nth (j + p' + 1) ks 0 - nth (j + 1) ks 0) then (nth (j + p' + 1) ks 0 - b) / (nth (j + p' + 1) ks 0 - nth (j + 1) ks 0) * basis ks (Datatypes.S r) (j + 1) b else 0)).
    cbv zeta. rewrite (IH j), (IH (j + 1)%nat) by lia. rewrite !Rmult_0_r. destruct (Rltb _ _), (Rltb _ _); ring.
Qed.
Lemma seq_cons n : (0 < n)%nat -> seq 0 n = 0%nat :: seq 1 (n - 1).
Proof. intros H. destruct n as [|n]; [lia|]. replace (Datatypes.S n - 1)%nat with n by lia. reflexivity. Qed.
Lemma eval_start cps uk vk p q w n_u n_v : (0 < n_u)%nat -> (0 < n_v)%nat -> length uk = (n_u + p + 1)%nat -> length vk = (n_v + q + 1)%nat ->
  clamped_start uk p -> clamped_start vk q -> tiny <= at2 0 w 0 0 ->
  evaluate_bspline cps uk vk p q w n_u n_v (nth 0 uk 0) (nth 0 vk 0) = as_point (at2 (point 0 0 0) cps 0 0).
Proof.
  intros NU NV LU LV CU CV W. unfold evaluate_bspline. cbv zeta.
  assert (E : outer cps w uk vk p q n_u (nth 0 uk 0) (nth 0 vk 0) (seq 0 n_v) (mkv 0 0 0 0) = term cps w 1 1 0 0 (mkv 0 0 0 0)).
  { unfold outer. rewrite (seq_cons n_v NV). cbn [fold_left]. rewrite (basis_start vk q CV q 0) by lia. cbn [plus]. rewrite Nat.eqb_refl. rewrite (proj2 (Reqb_false 1 0)) by lra.
    rewrite fold_skip.
    - unfold inner. rewrite (seq_cons n_u NU). cbn [fold_left]. rewrite (basis_start uk p CU p 0) by lia. cbn [plus]. rewrite Nat.eqb_refl. rewrite (proj2 (Reqb_false 1 0)) by lra.
      apply fold_skip. intros i Hi. apply in_seq in Hi. rewrite (basis_start uk p CU p i) by lia. rewrite (proj2 (Nat.eqb_neq (i + p) p)) by lia. rewrite (proj2 (Reqb_true 0 0)) by reflexivity. reflexivity.
    - intros j Hj. apply in_seq in Hj. rewrite (basis_start vk q CV q j) by lia. rewrite (proj2 (Nat.eqb_neq (j + q) q)) by lia. rewrite (proj2 (Reqb_true 0 0)) by reflexivity. reflexivity. }
  rewrite E. unfold term. cbv zeta. cbn [vx vy vz vw]. generalize dependent (at2 0 w 0 0). intros b B. generalize (at2 (point 0 0 0) cps 0 0). intros x.
  rewrite (proj2 (Rltb_false (0 + 1 * 1 * b) tiny)) by lra. unfold as_point, point. f_equal; field; lra.
Qed.
Lemma eval_end cps uk vk p q w n_u n_v u b : (1 <= p)%nat -> length uk = (n_u + p + 1)%nat -> clamped_end uk p b ->
  evaluate_bspline cps uk vk p q w n_u n_v b u = as_point (at2 (point 0 0 0) cps 0 0).
Proof.
  intros P LU C. unfold evaluate_bspline. cbv zeta.
  assert (E : outer cps w uk vk p q n_u b u (seq 0 n_v) (mkv 0 0 0 0) = mkv 0 0 0 0).
  { unfold outer. apply fold_skip. intros j _. cbv zeta. destruct (Reqb (basis vk q j u) 0); [reflexivity|]. unfold inner. apply fold_skip. intros i Hi. apply in_seq in Hi. cbv zeta.
    rewrite (basis_end uk p b C P p i) by lia. rewrite (proj2 (Reqb_true 0 0)) by reflexivity. reflexivity. }
  rewrite E. cbn [vw]. rewrite (proj2 (Rltb_true 0 tiny)) by lra. reflexivity.
Qed.
Lemma eval_end_v cps uk vk p q w n_u n_v u b : (1 <= q)%nat -> length vk = (n_v + q + 1)%nat -> clamped_end vk q b ->
  evaluate_bspline cps uk vk p q w n_u n_v u b = as_point (at2 (point 0 0 0) cps 0 0).
Proof.
  intros P LU C. unfold evaluate_bspline. cbv zeta.
  assert (E : outer cps w uk vk p q n_u u b (seq 0 n_v) (mkv 0 0 0 0) = mkv 0 0 0 0).
  { unfold outer. apply fold_skip. intros j Hj. apply in_seq in Hj. cbv zeta. rewrite (basis_end vk q b C P q j) by lia. rewrite (proj2 (Reqb_true 0 0)) by reflexivity. reflexivity. }
  rewrite E. cbn [vw]. rewrite (proj2 (Rltb_true 0 tiny)) by lra. reflexivity.
Qed.
(** what the constructor guarantees *)
Lemma rect_ok n rows : rect n rows = true <-> Forall (fun r : list vec => length r = n) rows.
Proof. unfold rect. rewrite forallb_forall, Forall_forall. split; intros H r R; specialize (H r R); [apply Nat.eqb_eq in H|apply Nat.eqb_eq]; exact H. Qed.
Lemma bspline_data cps uk vk p q w ur vr s : bspline_surface cps uk vk p q w ur vr = Ok s ->
  exists ws n_u n_v u_r v_r, s = BSpline (map (map as_point) cps) uk vk p q ws n_u n_v u_r v_r /\ (2 <= n_u)%nat /\ (2 <= n_v)%nat /\
    grid_ok n_u n_v cps /\ grid_ok n_u n_v ws /\ length uk = (n_u + p + 1)%nat /\ length vk = (n_v + q + 1)%nat /\
    (match w with Some w => forall j i, (j < n_v)%nat -> (i < n_u)%nat -> at2 0 ws j i = at2 0 w j i | None => forall j i, (j < n_v)%nat -> (i < n_u)%nat -> at2 0 ws j i = 1 end) /\
    (match w with Some w => positive w -> positive ws | None => positive ws end).
Proof.
  unfold bspline_surface. cbv zeta. set (n_v := length cps). set (n_u := length (hd [] cps)).
  destruct (Nat.ltb n_v 2 || Nat.ltb n_u 2 || negb (rect n_u cps)) eqn:E1; [discriminate|]. apply orb_false_elim in E1 as [E1 E2]. apply orb_false_elim in E1 as [E1 E3].
  apply Nat.ltb_ge in E1, E3. apply negb_false_iff in E2. apply rect_ok in E2.
  destruct (negb (Nat.eqb (length uk) (n_u + p + 1))) eqn:E4; [discriminate|]. apply negb_false_iff, Nat.eqb_eq in E4.
  destruct (negb (Nat.eqb (length vk) (n_v + q + 1))) eqn:E5; [discriminate|]. apply negb_false_iff, Nat.eqb_eq in E5.
  destruct w as [w|].
  - destruct (Nat.ltb (length w) n_v || existsb (fun r => Nat.ltb (length r) n_u) (firstn n_v w)) eqn:E6; [discriminate|]. apply orb_false_elim in E6 as [E6 E7]. apply Nat.ltb_ge in E6.
    intros K. injection K as <-. do 5 eexists. split; [reflexivity|]. do 2 (split; [assumption|]). split; [split; [reflexivity|exact E2]|].
    assert (L : Forall (fun r => (n_u <= length r)%nat) (firstn n_v w)).
    { apply Forall_forall. intros r R. apply Nat.nlt_ge. intros K. assert (existsb (fun r => Nat.ltb (length r) n_u) (firstn n_v w) = true) by (apply existsb_exists; exists r; split; [exact R|apply Nat.ltb_lt, K]). congruence. }
    split; [split; [rewrite map_length, firstn_length; lia|]|].
    { apply Forall_forall. intros r R. apply in_map_iff in R as (r' & <- & R). rewrite Forall_forall in L. specialize (L r' R). rewrite firstn_length. lia. }
    do 2 (split; [assumption|]). split.
    + intros j i J I. unfold at2. rewrite (nth_indep _ [] (firstn n_u [])) by (rewrite map_length, firstn_length; lia). rewrite map_nth. rewrite <- (firstn_skipn n_v w) at 2. rewrite app_nth1 by (rewrite firstn_length; lia).
      set (r := nth j (firstn n_v w) []). rewrite <- (firstn_skipn n_u r) at 2. rewrite app_nth1; [reflexivity|]. rewrite firstn_length. rewrite Forall_forall in L. assert (In r (firstn n_v w)) by (apply nth_In; rewrite firstn_length; lia). specialize (L r H). lia.
    + intros PW. unfold positive in *. apply Forall_forall. intros r R. apply in_map_iff in R as (r' & <- & R). rewrite Forall_forall in PW. assert (R' : In r' w) by (rewrite <- (firstn_skipn n_v w); apply in_or_app; left; exact R). specialize (PW r' R').
      apply Forall_forall. intros x X. rewrite Forall_forall in PW. apply PW. rewrite <- (firstn_skipn n_u r'). apply in_or_app. left. exact X.
  - intros K. injection K as <-. do 5 eexists. split; [reflexivity|]. do 2 (split; [assumption|]). split; [split; [reflexivity|exact E2]|].
    split; [split; [apply repeat_length|]|].
    { apply Forall_forall. intros r R. apply repeat_spec in R. subst r. apply repeat_length. }
    do 2 (split; [assumption|]). split.
    + intros j i J I. unfold at2. assert (N : nth j (repeat (repeat 1 n_u) n_v) [] = repeat 1 n_u). { apply (repeat_spec n_v). apply nth_In. rewrite repeat_length. exact J. } rewrite N. apply (repeat_spec n_u). apply nth_In. rewrite repeat_length. exact I.
    + apply Forall_forall. intros r R. apply repeat_spec in R. subst r. apply Forall_forall. intros x X. apply repeat_spec in X. lra.
Qed.
Lemma grid_map {A B} (f : A -> B) n_u n_v rows : grid_ok n_u n_v rows -> grid_ok n_u n_v (map (map f) rows).
Proof. intros [L F]. split; [rewrite map_length; exact L|]. apply Forall_forall. intros r R. apply in_map_iff in R as (r' & <- & R). rewrite map_length. rewrite Forall_forall in F. apply F, R. Qed.
Lemma at2_map {A B} (f : A -> B) d d' n_u n_v rows j i : grid_ok n_u n_v rows -> (j < n_v)%nat -> (i < n_u)%nat -> at2 d (map (map f) rows) j i = f (at2 d' rows j i).
Proof.
  intros G J I. unfold at2. assert (E : nth j (map (map f) rows) [] = map f (nth j rows [])) by exact (map_nth (map f) rows [] j). rewrite E.
  rewrite (nth_indep _ d (f d')) by (rewrite map_length, (grid_row n_u n_v) by assumption; exact I). apply map_nth.
Qed.
