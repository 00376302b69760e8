From Coq Require Import String Ascii Reals List Bool Lra Psatz.
From Verif Require Import Dict Xform_Model Xform_Proofs Datum_Model Datum_Spec Datum_Proofs Constr_Model Constr_Spec Constr_Proofs Mate_Model Mate_Spec Mate_Proofs Solver_Model Solver_Spec Solver_Proofs Solver_Proofs2.
Import ListNotations.
Open Scope R_scope.
Open Scope list_scope.

(** * Keys *)
Fixpoint nocolon (s : string) : bool := match s with EmptyString => true | String c s => negb (Ascii.eqb c ":"%char) && nocolon s end.
Lemma key_inj s1 s2 a b : nocolon a = true -> nocolon b = true -> (s1 ++ ":" ++ a = s2 ++ ":" ++ b)%string -> s1 = s2 /\ a = b.
Proof.
  assert (NC : forall s x, nocolon (s ++ ":" ++ x) = false) by (induction s as [|c s IH]; intros x; [reflexivity|cbn in *; rewrite IH; apply andb_false_r]).
  revert s2. induction s1 as [|c s1 IH]; intros [|c2 s2] A B E; cbn in E.
  - injection E as ->. auto.
  - injection E as <- ->. pose proof (NC s2 b) as N. cbn in N, A. rewrite N in A. discriminate A.
  - injection E as -> <-. pose proof (NC s1 a) as N. cbn in N, B. rewrite N in B. discriminate B.
  - injection E as -> E. destruct (IH s2 A B E) as [-> ->]. auto.
Qed.
Lemma axis_nocolon s v : named_axis s v -> nocolon s = true.
Proof. unfold named_axis. intros H. repeat (destruct H as [H|H]; [injection H as <- _; reflexivity|]). destruct H. Qed.
Lemma prefix_app n x : String.prefix n (n ++ x) = true.
Proof. induction n as [|c n IH]; [destruct x; reflexivity|]. cbn. destruct (Ascii.ascii_dec c c); [exact IH|congruence]. Qed.
Lemma dget_filter {V} k (p : string * V -> bool) l : (forall v, In (k, v) l -> p (k, v) = false) -> dget String.eqb k (filter p l) = None.
Proof.
  intros H. apply (dget_none _ String.eqb_eq). intros I. apply in_map_iff in I as ([k' v] & E & I). cbn in E. subst k'. apply filter_In in I as [I P]. rewrite (H v I) in P. discriminate P.
Qed.

(** * The cache *)
Definition fresh (reg : registry) (r : request) : list outcome := match r with Solve m p ax => [compute reg m p ax] | Invalidate _ => [] end.
Definition explained (reg : registry) (all : list request) (k : cache) : Prop :=
  forall key o, dget String.eqb key k = Some o -> exists m p ax, asked all m p ax /\ key = cache_key m ax /\ o = compute reg m p ax.
Lemma dget_filter_some {V} k (p : string * V -> bool) (l : list (string * V)) o :
  (forall a b c, p (a, b) = p (a, c)) -> dget String.eqb k (filter p l) = Some o -> dget String.eqb k l = Some o.
Proof.
  intros P. induction l as [|[k' v] l IH]; [discriminate|]. cbn [filter dget]. destruct (String.eqb k k') eqn:E.
  - apply String.eqb_eq in E. subst k'. destruct (p (k, v)) eqn:Q.
    + cbn [dget]. rewrite String.eqb_refl. auto.
    + intros H. rewrite dget_filter in H; [discriminate|]. intros v' _. rewrite (P k v' v). exact Q.
  - destruct (p (k', v)); cbn [dget]; rewrite ?E; exact IH.
Qed.
Lemma answers_fresh reg all k l : incl l all -> consistent all -> explained reg all k -> answers reg k l = flat_map (fresh reg) l.
Proof.
  intros Hl [Hax Hc]. revert k. induction l as [|r l IH]; intros k X; [reflexivity|]. cbn [answers flat_map].
  assert (Il : incl l all) by (intros x Hx; apply Hl; right; exact Hx). destruct r as [m p ax|n]; cbn [serve fresh].
  - assert (A : asked all m p ax) by (apply Hl; left; reflexivity). unfold solve_mate.
    destruct (dget String.eqb (cache_key m ax) k) as [o|] eqn:G.
    + destruct (X _ _ G) as (m' & p' & ax' & A' & K & ->). destruct (Hax _ _ _ A) as [v V], (Hax _ _ _ A') as [v' V'].
      unfold cache_key in K. apply key_inj in K as [N <-]; [|eapply axis_nocolon; eassumption..].
      destruct (Hc _ _ _ _ _ A A' N) as [<- <-]. rewrite IH by assumption. reflexivity.
    + destruct (compute reg m p ax) eqn:C; rewrite IH; try reflexivity; try assumption.
      intros key o D. rewrite (dget_set _ String.eqb_eq) in D. destruct (String.eqb key (cache_key m ax)) eqn:E.
      * apply String.eqb_eq in E. injection D as <-. exists m, p, ax. split; [exact A|]. split; [exact E|]. congruence.
      * apply X, D.
  - rewrite IH; [reflexivity|exact Il|]. intros key o D. destruct n as [n|]; [|discriminate D]. cbn [invalidate] in D. apply X. eapply dget_filter_some; [|exact D]. reflexivity.
Qed.
Lemma invalidate_fresh uc reg k n m p ax : n = None \/ n = Some (m_name m) -> snd (solve_mate uc reg (invalidate n k) m p ax) = compute reg m p ax.
Proof.
  intros H. unfold solve_mate. assert (D : (if uc then dget String.eqb (cache_key m ax) (invalidate n k) else None) = None).
  { destruct uc; [|reflexivity]. destruct H as [-> | ->]; [reflexivity|]. cbn [invalidate]. apply dget_filter. intros v _. cbn. unfold cache_key. rewrite prefix_app. reflexivity. }
  rewrite D. destruct (compute reg m p ax); reflexivity.
Qed.
Lemma new_solver reg m p ax : snd (solve_mate true reg [] m p ax) = compute reg m p ax.
Proof. unfold solve_mate. cbn. destruct (compute reg m p ax); reflexivity. Qed.
Lemma compute_parent reg m w ax t : compute reg m None ax = Solved t -> compute reg m (Some w) ax = Solved (mulMM w t).
Proof.
  unfold compute. destruct (reg (part_a m) (datum_a m)); [|discriminate]. destruct (reg (part_b m) (datum_b m)); [|discriminate]. destruct (solve_constraint m d d0); [|discriminate].
  intros [= <-]. reflexivity.
Qed.
Lemma compute_fails reg m p q ax : compute reg m p ax = Failed -> compute reg m q ax = Failed.
Proof. unfold compute. destruct (reg _ _); [|reflexivity]. destruct (reg _ _); [|reflexivity]. destruct (solve_constraint _ _ _); [discriminate|reflexivity]. Qed.

(** * Chains *)
Fixpoint place (reg : registry) (cur : matrix) (ms : list mate) : list (string * matrix) :=
  match ms with
  | [] => []
  | m :: ms => match compute reg m None "Z" with Solved t => (part_b m, mulMM cur t) :: place reg (mulMM cur t) ms | Failed => [] end
  end.
Definition unseen (k : cache) (ms : list mate) : Prop := forall m, In m ms -> dget String.eqb (cache_key m "Z") k = None.
Lemma unseen_cons k m ms v : NoDup (map m_name (m :: ms)) -> unseen k (m :: ms) -> unseen (dset String.eqb (cache_key m "Z") v k) ms.
Proof.
  intros N U m' I. rewrite (dget_set _ String.eqb_eq). destruct (String.eqb (cache_key m' "Z") (cache_key m "Z")) eqn:E.
  - apply String.eqb_eq in E. unfold cache_key in E. apply key_inj in E as [E _]; try reflexivity. inversion N as [|? ? Nn _]. subst. exfalso. apply Nn. rewrite <- E. apply in_map, I.
  - apply U. right. exact I.
Qed.
Lemma chain_place reg ms : forall k cur acc, NoDup (map m_name ms) -> unseen k ms ->
  snd (chain true reg k ms cur acc) = fold_left (fun d kv => dset String.eqb (fst kv) (snd kv) d) (place reg cur ms) acc.
Proof.
  induction ms as [|m ms IH]; intros k cur acc N U; [reflexivity|]. cbn [chain place]. unfold solve_mate.
  rewrite (U m (or_introl eq_refl)). destruct (compute reg m None "Z") as [|t] eqn:C.
  - rewrite (compute_fails _ _ _ (Some cur) _ C). reflexivity.
  - rewrite (compute_parent _ _ cur _ _ C). cbn [fst snd fold_left]. apply IH; [inversion N; assumption|]. apply unseen_cons; assumption.
Qed.
Lemma fold_dset_keep (l : list (string * matrix)) : forall acc k, ~ In k (map fst l) -> dget String.eqb k (fold_left (fun d kv => dset String.eqb (fst kv) (snd kv) d) l acc) = dget String.eqb k acc.
Proof.
  induction l as [|[k' v] l IH]; intros acc k N; [reflexivity|]. cbn [fold_left fst snd]. rewrite IH by (intros I; apply N; right; exact I).
  rewrite (dget_set _ String.eqb_eq). destruct (String.eqb k k') eqn:E; [|reflexivity]. apply String.eqb_eq in E. exfalso. apply N. left. symmetry. exact E.
Qed.
Lemma fold_dset_get (l : list (string * matrix)) : forall acc k v, NoDup (map fst l) -> In (k, v) l -> dget String.eqb k (fold_left (fun d kv => dset String.eqb (fst kv) (snd kv) d) l acc) = Some v.
Proof.
  induction l as [|[k' v'] l IH]; intros acc k v N I; [destruct I|]. cbn [fold_left fst snd]. inversion N as [|? ? Nn Nl]. subst. destruct I as [I|I].
  - injection I as -> ->. rewrite fold_dset_keep by exact Nn. apply (dget_set_same _ String.eqb_eq).
  - apply IH; assumption.
Qed.
Lemma place_keys reg ms : forall cur, exists n, map fst (place reg cur ms) = firstn n (map part_b ms).
Proof.
  induction ms as [|m ms IH]; intros cur; [exists O; reflexivity|]. cbn [place]. destruct (compute reg m None "Z") as [|t]; [exists O; reflexivity|].
  destruct (IH (mulMM cur t)) as [n E]. exists (S n). cbn. rewrite E. reflexivity.
Qed.
Lemma firstn_nodup {A} n (l : list A) : NoDup l -> NoDup (firstn n l).
Proof. intros H. rewrite <- (firstn_skipn n l) in H. revert H. generalize (skipn n l). induction (firstn n l) as [|x r IH]; intros q H; [constructor|]. cbn in H. inversion H; subst. constructor; [intros I; apply H2, in_or_app; left; exact I|eapply IH; eassumption]. Qed.
Lemma place_nodup reg ms cur : NoDup (map part_b ms) -> NoDup (map fst (place reg cur ms)).
Proof. intros N. destruct (place_keys reg ms cur) as [n ->]. apply firstn_nodup, N. Qed.
(** the world position of the part a mate hangs on *)
Lemma place_linked reg start : forall ms1 m ms2 cur, linked start (ms1 ++ m :: ms2) -> Forall (fun x => compute reg x None "Z" <> Failed) (ms1 ++ [m]) ->
  exists P T, (match ms1 with [] => P = cur | _ => In (part_a m, P) (place reg cur (ms1 ++ m :: ms2)) end) /\ compute reg m None "Z" = Solved T /\ In (part_b m, mulMM P T) (place reg cur (ms1 ++ m :: ms2)).
Proof.
  intros ms1. revert start. induction ms1 as [|x ms1 IH]; intros start m ms2 cur L F.
  - cbn [app] in *. inversion F as [|? ? Fm _]. subst. destruct (compute reg m None "Z") as [|T] eqn:C; [congruence|]. exists cur, T. split; [reflexivity|]. split; [reflexivity|].
    cbn [place]. rewrite C. left. reflexivity.
  - cbn [app] in *. inversion F as [|? ? Fx Fr]. subst. destruct L as [_ L]. destruct (compute reg x None "Z") as [|t] eqn:C; [congruence|].
    destruct (IH (part_b x) m ms2 (mulMM cur t) L Fr) as (P & T & A & B & D). exists P, T. cbn [place]. rewrite C. split; [|split; [exact B|right; exact D]].
    destruct ms1 as [|y ms1].
    + subst P. left. cbn [app linked] in L. destruct L as [-> _]. reflexivity.
    + right. exact A.
Qed.
Lemma place_stops reg : forall ms1 m ms2 cur, Forall (fun x => compute reg x None "Z" <> Failed) ms1 -> compute reg m None "Z" = Failed -> map fst (place reg cur (ms1 ++ m :: ms2)) = map part_b ms1.
Proof.
  induction ms1 as [|x ms1 IH]; intros m ms2 cur F C; cbn [app place map].
  - rewrite C. reflexivity.
  - inversion F as [|? ? Fx Fr]. subst. destruct (compute reg x None "Z") as [|t]; [congruence|]. cbn [map fst]. rewrite IH by assumption. reflexivity.
Qed.
Lemma fold_dset_keys (l : list (string * matrix)) : forall acc x, In x (keys (fold_left (fun d kv => dset String.eqb (fst kv) (snd kv) d) l acc)) <-> In x (map fst l) \/ In x (keys acc).
Proof.
  induction l as [|[k v] l IH]; intros acc x; cbn [fold_left map fst snd]; [cbn; tauto|]. rewrite IH. rewrite (in_keys_set _ String.eqb_eq). cbn [In]. intuition congruence.
Qed.

(** * solve_all *)
Lemma solve_all_get reg parents ms : forall k acc, NoDup (map m_name ms) -> unseen k ms ->
  forall n, dget String.eqb n (snd (solve_all true reg k ms parents acc)) =
    match find (fun m => String.eqb n (m_name m)) ms with Some m => Some (compute reg m (dget String.eqb (part_a m) parents) "Z") | None => dget String.eqb n acc end.
Proof.
  induction ms as [|m ms IH]; intros k acc N U n; [reflexivity|]. cbn [solve_all find]. unfold solve_mate. rewrite (U m (or_introl eq_refl)).
  set (o := compute reg m (dget String.eqb (part_a m) parents) "Z").
  assert (G : forall k', unseen k' ms -> dget String.eqb n (snd (solve_all true reg k' ms parents (dset String.eqb (m_name m) o acc))) =
     if String.eqb n (m_name m) then Some o else match find (fun m => String.eqb n (m_name m)) ms with Some m => Some (compute reg m (dget String.eqb (part_a m) parents) "Z") | None => dget String.eqb n acc end).
  { intros k' U'. rewrite IH by (inversion N; assumption). inversion N as [|? ? Nn Nr]. subst. rewrite (dget_set _ String.eqb_eq). destruct (String.eqb n (m_name m)) eqn:E; [|reflexivity].
    apply String.eqb_eq in E. subst n. destruct (find (fun m0 => String.eqb (m_name m) (m_name m0)) ms) as [m'|] eqn:Fi; [|reflexivity].
    apply find_some in Fi as [I E]. apply String.eqb_eq in E. exfalso. apply Nn. rewrite E. apply in_map, I. }
  assert (O : compute reg m (dget String.eqb (part_a m) parents) "Z" = o) by reflexivity. clearbody o. destruct o.
  - rewrite G; [|intros m' I; apply U; right; exact I]. destruct (String.eqb n (m_name m)); [rewrite O|]; reflexivity.
  - rewrite G; [|apply unseen_cons; assumption]. destruct (String.eqb n (m_name m)); [rewrite O|]; reflexivity.
Qed.

(** * validate_transform *)
Lemma col0 T : mulMV T e_x = mkv (a00 (rot3 T)) (a10 (rot3 T)) (a20 (rot3 T)) (vx (getrow T 3)).
Proof. unfold mulMV, e_x, dot4, rot3. cbn [vx vy vz vw a00 a01 a02 a10 a11 a12 a20 a21 a22]. set (g0 := getrow T 0). set (g1 := getrow T 1). set (g2 := getrow T 2). set (g3 := getrow T 3). apply mkv_eq; ring. Qed.
Lemma col1 T : mulMV T e_y = mkv (a01 (rot3 T)) (a11 (rot3 T)) (a21 (rot3 T)) (vy (getrow T 3)).
Proof. unfold mulMV, e_y, dot4, rot3. cbn [vx vy vz vw a00 a01 a02 a10 a11 a12 a20 a21 a22]. set (g0 := getrow T 0). set (g1 := getrow T 1). set (g2 := getrow T 2). set (g3 := getrow T 3). apply mkv_eq; ring. Qed.
Lemma col2 T : mulMV T e_z = mkv (a02 (rot3 T)) (a12 (rot3 T)) (a22 (rot3 T)) (vz (getrow T 3)).
Proof. unfold mulMV, e_z, dot4, rot3. cbn [vx vy vz vw a00 a01 a02 a10 a11 a12 a20 a21 a22]. set (g0 := getrow T 0). set (g1 := getrow T 1). set (g2 := getrow T 2). set (g3 := getrow T 3). apply mkv_eq; ring. Qed.
Lemma mvec_rot3 T u : vw u = 0 -> vx (mulMV T u) = vx (mvec (rot3 T) u) /\ vy (mulMV T u) = vy (mvec (rot3 T) u) /\ vz (mulMV T u) = vz (mvec (rot3 T) u).
Proof. intros W. unfold mulMV, mvec, rot3, dot4. cbn [vx vy vz vw a00 a01 a02 a10 a11 a12 a20 a21 a22]. rewrite W. set (g0 := getrow T 0). set (g1 := getrow T 1). set (g2 := getrow T 2). repeat split; ring. Qed.
Lemma max_abs_zero r : entries r = [0; 0; 0; 0; 0; 0; 0; 0; 0] -> max_abs r = 0.
Proof. intros E. unfold max_abs. rewrite E. cbn [map fold_right]. rewrite !Rabs_R0. repeat rewrite (Rmax_left 0 0) by lra. reflexivity. Qed.
Lemma max_abs_le r x : In x (entries r) -> Rabs x <= max_abs r.
Proof.
  unfold max_abs. intros I. apply (in_map Rabs) in I. revert I. generalize (Rabs x) (map Rabs (entries r)). clear. intros y l. induction l as [|z l IH]; [intros []|]. cbn [fold_right]. intros [-> | I]; [apply Rmax_l|].
  eapply Rle_trans; [apply IH, I|apply Rmax_r].
Qed.
Lemma close01 a b : a = b -> npclose a b = true.
Proof. intros ->. unfold npclose. apply Rleb_true. unfold Rminus. rewrite Rplus_opp_r, Rabs_R0. unfold tenth10. pose proof (Rabs_pos b). lra. Qed.
Lemma validate_motion T tol : motion T -> 0 < tol -> validate_transform T tol = (true, true, true).
Proof.
  intros [[Mw Mi] Mh] P. unfold validate_transform.
  pose proof (Mw e_x) as W0. pose proof (Mw e_y) as W1. pose proof (Mw e_z) as W2. rewrite col0 in W0. rewrite col1 in W1. rewrite col2 in W2. cbn [vw e_x e_y e_z] in W0, W1, W2.
  pose proof (Mw (mkv 0 0 0 1)) as W3. unfold mulMV, dot4 in W3. cbn [vx vy vz vw] in W3.
  rewrite !close01; try assumption; try (revert W3; set (g := getrow T 3); intros W3; lra). cbn [andb].
  assert (D : det3 (rot3 T) = 1).
  { pose proof (Mh e_x e_y e_z eq_refl eq_refl eq_refl) as H. rewrite col0, col1, col2 in H. unfold dot, cross, e_x, e_y, e_z in H. cbn [vx vy vz] in H. unfold det3. lra. }
  assert (O : max_abs (add3m (mmul (transpose3 (rot3 T)) (rot3 T)) (smul (-1) eye3)) = 0).
  { apply max_abs_zero. 
    pose proof (Mi e_x e_x eq_refl eq_refl) as H00. pose proof (Mi e_x e_y eq_refl eq_refl) as H01. pose proof (Mi e_x e_z eq_refl eq_refl) as H02.
    pose proof (Mi e_y e_y eq_refl eq_refl) as H11. pose proof (Mi e_y e_z eq_refl eq_refl) as H12. pose proof (Mi e_z e_z eq_refl eq_refl) as H22.
    rewrite ?col0, ?col1, ?col2 in *. unfold dot, e_x, e_y, e_z in *. cbn [vx vy vz] in *.
    unfold entries, add3m, mmul, transpose3, smul, eye3. cbn [a00 a01 a02 a10 a11 a12 a20 a21 a22]. repeat (f_equal; [lra|]). f_equal; lra. }
  rewrite O, D. rewrite (proj2 (Rltb_true 0 (1 / 1000000))) by lra. replace (1 - 1) with 0 by ring. rewrite Rabs_R0. rewrite (proj2 (Rltb_true 0 tol)) by exact P. reflexivity.
Qed.
Lemma quad9 (e00 e01 e02 e10 e11 e12 e20 e21 e22 M : R) (u v : vec) :
  Rabs e00 <= M -> Rabs e01 <= M -> Rabs e02 <= M -> Rabs e10 <= M -> Rabs e11 <= M -> Rabs e12 <= M -> Rabs e20 <= M -> Rabs e21 <= M -> Rabs e22 <= M ->
  Rabs (vx u * (e00 * vx v + e01 * vy v + e02 * vz v) + vy u * (e10 * vx v + e11 * vy v + e12 * vz v) + vz u * (e20 * vx v + e21 * vy v + e22 * vz v)) <= 3 * M * (mag u * mag v).
Proof.
  intros H0 H1 H2 H3 H4 H5 H6 H7 H8.
  assert (M0 : 0 <= M) by (pose proof (Rabs_pos e00); lra).
  set (p := Rabs (vx u) + Rabs (vy u) + Rabs (vz u)). set (q := Rabs (vx v) + Rabs (vy v) + Rabs (vz v)).
  assert (B : forall e w, Rabs e <= M -> Rabs (e * w) <= M * Rabs w) by (intros e w He; rewrite Rabs_mult; apply Rmult_le_compat_r; [apply Rabs_pos|exact He]).
  assert (R3 : forall e f g, Rabs e <= M -> Rabs f <= M -> Rabs g <= M -> Rabs (e * vx v + f * vy v + g * vz v) <= M * q).
  { intros e f g He Hf Hg. eapply Rle_trans; [apply Rabs_triang|]. pose proof (Rabs_triang (e * vx v) (f * vy v)). pose proof (B e (vx v) He). pose proof (B f (vy v) Hf). pose proof (B g (vz v) Hg). unfold q. lra. }
  assert (C : forall w x, Rabs x <= M * q -> Rabs (w * x) <= Rabs w * (M * q)) by (intros w x Hx; rewrite Rabs_mult; apply Rmult_le_compat_l; [apply Rabs_pos|exact Hx]).
  assert (S : forall w, Rabs (vx w) + Rabs (vy w) + Rabs (vz w) <= sqrt 3 * mag w).
  { intros w. unfold mag. rewrite <- sqrt_mult_alt by lra. rewrite <- (sqrt_square (Rabs (vx w) + Rabs (vy w) + Rabs (vz w))). 2:{ pose proof (Rabs_pos (vx w)). pose proof (Rabs_pos (vy w)). pose proof (Rabs_pos (vz w)). lra. }
    apply sqrt_le_1_alt. assert (Q : forall x, x * x = Rabs x * Rabs x) by (intros x; unfold Rabs; destruct (Rcase_abs x); ring). rewrite (Q (vx w)), (Q (vy w)), (Q (vz w)).
    set (x := Rabs (vx w)). set (y := Rabs (vy w)). set (z := Rabs (vz w)). pose proof (Rle_0_sqr (x - y)). pose proof (Rle_0_sqr (y - z)). pose proof (Rle_0_sqr (x - z)). unfold Rsqr in *. lra. }
  assert (T1 : Rabs (vx u * (e00 * vx v + e01 * vy v + e02 * vz v) + vy u * (e10 * vx v + e11 * vy v + e12 * vz v) + vz u * (e20 * vx v + e21 * vy v + e22 * vz v)) <= p * (M * q)).
  { eapply Rle_trans; [apply Rabs_triang|]. pose proof (Rabs_triang (vx u * (e00 * vx v + e01 * vy v + e02 * vz v)) (vy u * (e10 * vx v + e11 * vy v + e12 * vz v))).
    pose proof (C (vx u) _ (R3 _ _ _ H0 H1 H2)). pose proof (C (vy u) _ (R3 _ _ _ H3 H4 H5)). pose proof (C (vz u) _ (R3 _ _ _ H6 H7 H8)). unfold p. lra. }
  eapply Rle_trans; [exact T1|].
  assert (P0 : 0 <= p) by (unfold p; pose proof (Rabs_pos (vx u)); pose proof (Rabs_pos (vy u)); pose proof (Rabs_pos (vz u)); lra).
  assert (Q0 : 0 <= q) by (unfold q; pose proof (Rabs_pos (vx v)); pose proof (Rabs_pos (vy v)); pose proof (Rabs_pos (vz v)); lra).
  assert (PQ : p * q <= (sqrt 3 * mag u) * (sqrt 3 * mag v)) by (apply Rmult_le_compat; try assumption; [apply S|apply S]).
  replace ((sqrt 3 * mag u) * (sqrt 3 * mag v)) with ((sqrt 3 * sqrt 3) * (mag u * mag v)) in PQ by ring. rewrite sqrt_sqrt in PQ by lra.
  replace (p * (M * q)) with (M * (p * q)) by ring. replace (3 * M * (mag u * mag v)) with (M * (3 * (mag u * mag v))) by ring. apply Rmult_le_compat_l; assumption.
Qed.
Lemma validate_sound T tol rg ot : validate_transform T tol = (true, rg, ot) ->
  (forall u v, vw u = 0 -> vw v = 0 -> Rabs (dot (mulMV T u) (mulMV T v) - dot u v) <= 3 / 1000000 * (mag u * mag v)) /\
  (forall u v w, vw u = 0 -> vw v = 0 -> vw w = 0 -> Rabs (dot (cross (mulMV T u) (mulMV T v)) (mulMV T w) - dot (cross u v) w) <= tol * Rabs (dot (cross u v) w)).
Proof.
  unfold validate_transform. intros H. injection H as H _ _. apply andb_true_iff in H as [H R]. apply andb_true_iff in H as [_ O]. apply Rltb_true in R, O. split.
  - intros u v U V. destruct (mvec_rot3 T u U) as (Ux & Uy & Uz), (mvec_rot3 T v V) as (Vx & Vy & Vz).
    set (E := add3m (mmul (transpose3 (rot3 T)) (rot3 T)) (smul (-1) eye3)) in *.
    replace (dot (mulMV T u) (mulMV T v) - dot u v) with
      (vx u * (a00 E * vx v + a01 E * vy v + a02 E * vz v) + vy u * (a10 E * vx v + a11 E * vy v + a12 E * vz v) + vz u * (a20 E * vx v + a21 E * vy v + a22 E * vz v)).
    2:{ unfold dot. rewrite Ux, Uy, Uz, Vx, Vy, Vz. unfold E, mvec, add3m, mmul, transpose3, smul, eye3. cbn [vx vy vz a00 a01 a02 a10 a11 a12 a20 a21 a22]. generalize (rot3 T). intros r. ring. }
    replace (3 / 1000000) with (3 * (1 / 1000000)) by field.
    assert (B : forall x, In x (entries E) -> Rabs x <= 1 / 1000000) by (intros x I; eapply Rle_trans; [apply max_abs_le, I|lra]).
    apply quad9; apply B; unfold entries; cbn [In]; tauto.
  - intros u v w U V W. destruct (mvec_rot3 T u U) as (Ux & Uy & Uz), (mvec_rot3 T v V) as (Vx & Vy & Vz), (mvec_rot3 T w W) as (Wx & Wy & Wz).
    replace (dot (cross (mulMV T u) (mulMV T v)) (mulMV T w)) with (det3 (rot3 T) * dot (cross u v) w).
    2:{ rewrite <- triple_mvec. unfold dot, cross. cbn [vx vy vz]. rewrite Ux, Uy, Uz, Vx, Vy, Vz, Wx, Wy, Wz. reflexivity. }
    replace (det3 (rot3 T) * dot (cross u v) w - dot (cross u v) w) with ((det3 (rot3 T) - 1) * dot (cross u v) w) by ring. rewrite Rabs_mult. apply Rmult_le_compat_r; [apply Rabs_pos|lra].
Qed.
Lemma compute_motion reg m parent ax t : (forall s n d, reg s n = Some d -> valid d) -> (forall w, parent = Some w -> motion w) ->
  (forall d n, (exists s, reg s n = Some d) -> clean d) ->
  (forall d, (exists s n, reg s n = Some d) -> exists v, heading d v) -> compute reg m parent ax = Solved t -> motion t.
Proof.
  intros V P C Hd. unfold compute. destruct (reg (part_a m) (datum_a m)) as [a|] eqn:A; [|discriminate]. destruct (reg (part_b m) (datum_b m)) as [b|] eqn:B; [|discriminate].
  destruct (solve_constraint m a b) as [T|] eqn:S; [|discriminate]. intros [= <-].
  assert (M : motion T).
  { destruct (Hd a) as [na Ha]; [eauto|]. destruct (Hd b) as [nb Hb]; [eauto|]. assert (Va := V _ _ _ A). assert (Vb := V _ _ _ B). assert (Ca := C a _ (ex_intro _ _ A)). assert (Cb := C b _ (ex_intro _ _ B)).
    unfold solve_constraint in S. destruct (mate_type m); try discriminate S; injection S as <-.
    - apply (flush_ok a b na nb 0 0 true); assumption.
    - apply (concentric_ok a b na nb 0); assumption.
    - apply (sparallel_ok a b na nb); assumption.
    - apply (perpendicular_ok a b na nb); assumption.
    - apply (distance_ok a b na nb); assumption.
    - apply (angle_ok a b na nb); assumption.
    - apply (flush_ok a b na nb 0 0 true); assumption.
    - apply (revolute_ok a b na nb); assumption. }
  assert (M2 : motion (if (ax =? "Z")%string then T else apply_axis T ax)) by (destruct (String.eqb ax "Z"); [exact M|apply apply_axis_motion, M]).
  destruct parent as [w|]; [apply motion_mul; [apply P; reflexivity|exact M2]|exact M2].
Qed.
