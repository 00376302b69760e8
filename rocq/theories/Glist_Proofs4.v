From Coq Require Import Reals List Bool Lra Lia Psatz.
From Verif Require Import Xform_Model Xform_Proofs Fig_Model Fig_Proofs Fig_Proofs2 Isect_Model Isect_Spec
  Isect_Proofs Isect_Proofs2 Isect_Proofs3 Isect_Proofs4 Glist_Model Glist_Spec Glist_Proofs Glist_Proofs2 Glist_Proofs3.
Import ListNotations.
Open Scope R_scope.

Lemma chained_tail l r : chained (l :: r) -> chained r. Proof. destruct r; [intros; exact I|intros [_ H]; exact H]. Qed.
Lemma place_path ls : forall pre l post t, ls = pre ++ l :: post -> chained ls -> w1 ls -> Forall (fun l => 0 < linelength l) ls ->
  (0 <= t \/ pre = []) -> (t <= 1 \/ post = []) -> ppath ls (total_length pre + t * linelength l) = sampleline l t.
Proof.
  intros pre. revert ls. induction pre as [|g pre IH]; intros ls l post t E C W F T0 T1; cbn [app] in E; subst ls.
  - inversion F as [|? ? P Fr]; subst. cbn [total_length fold_right]. rewrite path_cons; [|exact P|destruct T1 as [T1|T1]; [right; nra|left; exact T1]]. f_equal. field. lra.
  - destruct T0 as [T0|T0]; [|discriminate]. inversion F as [|? ? P Fr]; subst. inversion W as [|? ? [W1 W2] Wr]; subst.
    assert (Pl : 0 < linelength l). { rewrite Forall_app in Fr. destruct Fr as [_ Fr]. inversion Fr; assumption. }
    cbn [total_length fold_right]. fold (total_length pre). pose proof (total_nonneg pre) as TN.
    destruct (Rle_dec (total_length pre + t * linelength l) 0) as [Q|Q].
    + assert (T : t = 0) by nra. assert (Z : total_length pre = 0) by nra. destruct pre as [|h pre'].
      * cbn [app] in *. subst t. rewrite path_cons by (first [assumption|right; cbn; lra]).
        replace ((linelength g + total_length [] + 0 * linelength l) / linelength g) with 1 by (cbn; field; lra).
        destruct C as [C _]. destruct g as [p q]. rewrite sampleline_1 by exact W2. cbn [snd] in C. subst q. destruct l as [x y]. cbn [fst]. symmetry. apply sampleline_0. exact W2.
      * exfalso. cbn [total_length fold_right] in Z. fold (total_length pre') in Z. cbn [app] in Fr. inversion Fr; subst. pose proof (total_nonneg pre'). lra.
    + rewrite path_skip; [|destruct pre; discriminate|lra]. replace (linelength g + total_length pre + t * linelength l - linelength g) with (total_length pre + t * linelength l) by lra.
      apply (IH _ l post t eq_refl); auto. apply (chained_tail g). exact C.
Qed.

(** ** unsampling *)
Lemma unsample_near l p t : 0 < linelength l -> unsampleline l p = Ok (Some t) -> linelength l * dist p (sampleline l t) <= 2 * epsilon.
Proof.
  intros L E. assert (EP : 0 < epsilon) by (unfold epsilon; lra). unfold unsampleline in E.
  set (v1 := sub (snd l) (fst l)) in *. set (v2 := sub p (fst l)) in *.
  assert (ML : mag v1 = linelength l). { unfold v1. change (dist (snd l) (fst l) = linelength l). rewrite dist_comm. reflexivity. }
  destruct (Rltb epsilon (mag (cross v1 v2))) eqn:C; [discriminate|]. apply Rltb_false in C.
  set (L0 := linelength l) in *. set (M := mag v2) in *.
  assert (M2 : M * M = vx v2 * vx v2 + vy v2 * vy v2 + vz v2 * vz v2). { unfold M, mag. apply sqrt_sqrt. pose proof (Rle_0_sqr (vx v2)). pose proof (Rle_0_sqr (vy v2)). pose proof (Rle_0_sqr (vz v2)). unfold Rsqr in *. lra. }
  assert (L2 : L0 * L0 = vx v1 * vx v1 + vy v1 * vy v1 + vz v1 * vz v1). { rewrite <- ML. unfold mag. apply sqrt_sqrt. pose proof (Rle_0_sqr (vx v1)). pose proof (Rle_0_sqr (vy v1)). pose proof (Rle_0_sqr (vz v1)). unfold Rsqr in *. lra. }
  assert (MN : 0 <= M) by apply sqrt_pos.
  set (c := mag (cross v1 v2)) in *. assert (CN : 0 <= c) by apply sqrt_pos.
  assert (C2 : c * c = L0 * L0 * (M * M) - dot v1 v2 * dot v1 v2).
  { unfold c, mag. rewrite sqrt_sqrt; [rewrite L2, M2; unfold cross, dot; cbn [vx vy vz]; ring|]. pose proof (Rle_0_sqr (vx (cross v1 v2))). pose proof (Rle_0_sqr (vy (cross v1 v2))). pose proof (Rle_0_sqr (vz (cross v1 v2))). unfold Rsqr in *. lra. }
  set (k := dot v1 v2) in *.
  assert (TT : t = (if Rltb 0 k then M / L0 else - (M / L0))).
  { rewrite ML in E. rewrite !fdiv_ok in E by lra. cbn [bind] in E. destruct (Rltb 0 k); injection E as <-; [reflexivity|field; lra]. }
  assert (D2 : dist p (sampleline l t) * dist p (sampleline l t) = M * M - 2 * t * k + t * t * (L0 * L0)).
  { rewrite dist2, M2, L2. unfold k, dot, v1, v2, sampleline, add, scale3, sub. cbn [vx vy vz]. ring. }
  assert (TL : t * L0 = (if Rltb 0 k then M else - M)) by (rewrite TT; destruct (Rltb 0 k); field; lra).
  assert (TK : t * L0 * k = M * Rabs k). { rewrite TL. destruct (Rltb 0 k) eqn:K; [apply Rltb_true in K; rewrite Rabs_right by lra; ring|apply Rltb_false in K; rewrite Rabs_left1 by lra; ring]. }
  assert (T2 : (t * L0) * (t * L0) = M * M) by (rewrite TL; destruct (Rltb 0 k); ring).
  set (D := dist p (sampleline l t)) in *. assert (DN : 0 <= D) by apply dist_nonneg.
  assert (KN : 0 <= Rabs k) by apply Rabs_pos. assert (K2 : Rabs k * Rabs k = k * k) by (rewrite <- Rabs_mult; apply Rabs_right; pose proof (Rle_0_sqr k); unfold Rsqr in *; lra).
  assert (KL : Rabs k <= L0 * M). { apply sq_le; [apply Rmult_le_pos; lra|]. rewrite K2. pose proof (Rmult_le_pos c c CN CN). replace (L0 * M * (L0 * M)) with (L0 * L0 * (M * M)) by ring. lra. }
  (* (L0 D)^2 = 2 L0 M (L0 M - |k|) <= 2 (L0 M - |k|)(L0 M + |k|) = 2 c^2 *)
  assert (Q : (L0 * D) * (L0 * D) = 2 * (L0 * M) * (L0 * M - Rabs k)).
  { replace ((L0 * D) * (L0 * D)) with (L0 * L0 * (D * D)) by ring. rewrite D2. replace (L0 * L0 * (M * M - 2 * t * k + t * t * (L0 * L0))) with (L0 * L0 * (M * M) - 2 * L0 * (t * L0 * k) + L0 * L0 * ((t * L0) * (t * L0))) by ring.
    rewrite TK, T2. ring. }
  assert (Q2 : (L0 * D) * (L0 * D) <= 2 * (c * c)).
  { rewrite Q, C2, <- K2. replace (2 * (L0 * L0 * (M * M) - Rabs k * Rabs k)) with (2 * (L0 * M + Rabs k) * (L0 * M - Rabs k)) by ring.
    apply Rmult_le_compat_r; lra. }
  apply sq_le; [lra|].
  assert (c * c <= epsilon * epsilon) by (apply Rmult_le_compat; lra). assert (0 <= epsilon * epsilon) by (apply Rmult_le_pos; lra). lra.
Qed.
Lemma unsample_total l p : 0 < linelength l -> exists o, unsampleline l p = Ok o.
Proof.
  intros L. unfold unsampleline. assert (ML : mag (sub (snd l) (fst l)) = linelength l) by (change (dist (snd l) (fst l) = linelength l); rewrite dist_comm; reflexivity).
  rewrite ML. destruct (Rltb epsilon _); [eexists; reflexivity|]. rewrite !fdiv_ok by lra. destruct (Rltb 0 _); eexists; reflexivity.
Qed.
Lemma unsample_lines_spec closed ls : forall p T dst first o, Forall (fun l => 0 < linelength l) ls -> 0 < T ->
  unsample_lines closed ls p T dst first = Ok (Some o) ->
  exists pre l post t, ls = pre ++ l :: post /\ unsampleline l p = Ok (Some t) /\ o * T = dst + total_length pre + t * linelength l /\
    (0 <= t \/ (pre = [] /\ first = true /\ closed = false)) /\ (t <= 1 \/ (post = [] /\ closed = false /\ (pre = [] -> first = false))).
Proof.
  induction ls as [|g r IH]; intros p T dst first o F TP E; cbn [unsample_lines] in E; [discriminate|]. inversion F as [|? ? P Fr]; subst.
  destruct (unsample_total g p P) as [q Q]. rewrite Q in E. cbn [bind] in E.
  assert (REC : unsample_lines closed r p T (dst + linelength g) false = Ok (Some o) -> exists pre l post t, g :: r = pre ++ l :: post /\ unsampleline l p = Ok (Some t) /\ o * T = dst + total_length pre + t * linelength l /\
    (0 <= t \/ (pre = [] /\ first = true /\ closed = false)) /\ (t <= 1 \/ (post = [] /\ closed = false /\ (pre = [] -> first = false)))).
  { intros E'. destruct (IH p T (dst + linelength g) false o Fr TP E') as (pre & l & post & t & K1 & K2 & K3 & K4 & K5). exists (g :: pre), l, post, t. subst r.
    split; [reflexivity|]. split; [exact K2|]. split; [cbn [total_length fold_right]; fold (total_length pre); lra|].
    split; [destruct K4 as [K4|(_ & K4 & _)]; [left; exact K4|discriminate]|]. destruct K5 as [K5|(K5 & K6 & _)]; [left; exact K5|right]. split; [exact K5|]. split; [exact K6|]. discriminate. }
  destruct q as [t|]; [|exact (REC E)]. destruct (ok_param closed first _ t) eqn:OK; [|exact (REC E)].
  rewrite fdiv_ok in E by lra. cbn [bind] in E. injection E as <-. exists [], g, r, t. split; [reflexivity|]. split; [exact Q|]. split; [cbn; field; lra|].
  unfold ok_param in OK. destruct first.
  - apply andb_true_iff in OK as [O1 O2]. apply Rltb_true in O1. split; [|left; lra]. destruct closed; [left; cbn in O2; apply Rleb_true, O2|right; auto].
  - destruct r.
    + apply andb_true_iff in OK as [O1 O2]. apply Rleb_true in O1. split; [left; exact O1|]. destruct closed; [left; cbn in O2; apply Rleb_true, O2|right; auto].
    + apply andb_true_iff in OK as [O1 O2]. apply Rleb_true in O1. apply Rltb_true in O2. split; left; lra.
Qed.
Lemma unsample_lines_complete closed ls : forall p T dst first, Forall (fun l => 0 < linelength l) ls -> chained ls -> w1 ls -> 0 < T ->
  (first = true -> (2 <= length ls)%nat) -> (exists l, In l ls /\ on_segment l p) ->
  exists o, unsample_lines closed ls p T dst first = Ok (Some o).
Proof.
  induction ls as [|g r IH]; intros p T dst first F C W TP N (l & I & S); [contradiction|]. inversion F as [|? ? P Fr]; subst. inversion W as [|? ? [W1 W2] Wr]; subst.
  cbn [unsample_lines]. destruct (unsample_total g p P) as [q Q].
  assert (REC : (exists l, In l r /\ on_segment l p) -> exists o, unsample_lines closed r p T (dst + linelength g) false = Ok (Some o)).
  { intros K. apply IH; auto; [apply (chained_tail g), C|discriminate]. }
  destruct I as [<-|I].
  - destruct S as (t & T01 & ->). rewrite unsample_sample_line by lra. cbn [bind].
    destruct (ok_param closed first _ t) eqn:OK; [rewrite fdiv_ok by lra; eexists; reflexivity|]. apply REC.
    assert (T1 : r <> [] -> t = 1).
    { intros NE. unfold ok_param in OK. destruct first.
      - apply andb_false_iff in OK as [O|O]; [apply Rltb_false in O; lra|]. destruct closed; cbn in O; [apply Rleb_false in O; lra|discriminate].
      - destruct r; [congruence|]. apply andb_false_iff in OK as [O|O]; [apply Rleb_false in O; lra|apply Rltb_false in O; lra]. }
    destruct r as [|h r'].
    + exfalso. unfold ok_param in OK. destruct first; [specialize (N eq_refl); cbn in N; lia|].
      apply andb_false_iff in OK as [O|O]; [apply Rleb_false in O; lra|]. destruct closed; cbn in O; [apply Rleb_false in O; lra|discriminate].
    + rewrite (T1 ltac:(discriminate)). exists h. split; [left; reflexivity|]. exists 0. split; [lra|]. destruct C as [C _]. destruct g as [x y], h as [x' y']. cbn [fst snd] in *. subst x'.
      rewrite sampleline_1, sampleline_0 by assumption. reflexivity.
  - rewrite Q. cbn [bind]. destruct q as [t|]; [|apply REC; eauto]. destruct (ok_param closed first _ t); [rewrite fdiv_ok by lra; eexists; reflexivity|apply REC; eauto].
Qed.
Lemma lines_two a : (3 <= length a)%nat -> (2 <= length (lines_of a))%nat. Proof. rewrite lines_len. lia. Qed.
Lemma total_poly a : good_poly a -> 0 < polylength a.
Proof. intros (L & _ & P). exact (tot_pos linelength (lines_of a) P (lines_ne a L)). Qed.
Lemma pre_pos pre (l : line) post : Forall (fun l => 0 < linelength l) (pre ++ l :: post) -> 0 <= total_length pre /\ 0 < linelength l /\ 0 <= total_length post /\
  (post = [] \/ 0 < total_length post).
Proof.
  intros F. rewrite Forall_app in F. destruct F as [F1 F2]. inversion F2 as [|? ? P F3]; subst. split; [apply total_nonneg|]. split; [exact P|]. split; [apply total_nonneg|].
  destruct post as [|m post]; [left; reflexivity|right]. apply (tot_pos linelength (m :: post) F3). discriminate.
Qed.
(** a parameter of a place on the polyline samples to the place *)
Lemma at_place a pre l post t o : good_poly a -> lines_of a = pre ++ l :: post -> o * polylength a = total_length pre + t * linelength l ->
  (0 <= t \/ (pre = [] /\ poly_closed a = false)) -> (t <= 1 \/ (post = [] /\ poly_closed a = false)) ->
  (poly_closed a = false \/ o < 1 \/ exists p, hd_error a = Some p /\ last a p = p) ->
  samplepoly a o = Ok (Some (sampleline l t)).
Proof.
  intros G E EQ T0 T1 CL. pose proof G as (L & W & P). pose proof (total_poly a G) as TP.
  assert (PL : ppath (lines_of a) (o * polylength a) = sampleline l t).
  { rewrite EQ. apply (place_path _ pre l post t E (lines_chained a) (lines_w1 a W) P); tauto. }
  destruct (poly_closed a) eqn:C.
  - assert (T0' : 0 <= t) by (destruct T0 as [?|[_ ?]]; [assumption|discriminate]). assert (T1' : t <= 1) by (destruct T1 as [?|[_ ?]]; [assumption|discriminate]).
    rewrite E in P. destruct (pre_pos _ _ _ P) as (Q1 & Q2 & Q3 & Q4). assert (TL : polylength a = total_length pre + (linelength l + total_length post)) by (unfold polylength; rewrite E, total_app; reflexivity).
    assert (O0 : 0 <= o) by nra. destruct (Rlt_dec o 1) as [O|O].
    + rewrite samplepoly_path, PL; [reflexivity|exact G|right; lra].
    + assert (O1 : o * polylength a <= polylength a) by (rewrite EQ, TL; nra). assert (o = 1) by nra. subst o.
      destruct CL as [CL|[CL|(p & H1 & H2)]]; [discriminate|lra|]. rewrite (samplepoly_closed_wraps a C), samplepoly_path by (first [exact G|right; lra]).
      do 2 f_equal. rewrite Rmult_0_l. rewrite <- PL, Rmult_1_l. destruct a as [|p0 [|q a']]; [discriminate| cbn in L; lia|]. injection H1 as ->.
      destruct G as (_ & W' & P'). unfold polylength; rewrite (path_end _ (p, q) P' (lines_ne _ L) (lines_w1 _ W')). rewrite (lines_of_last _ (p, q) p) by (cbn [length] in *; lia). rewrite H2.
      cbn [lines_of] in *. inversion P' as [|? ? Pp _]; subst. rewrite path_cons by (first [exact Pp|right; lra]). inversion W' as [|? ? Wp _]; subst. unfold Rdiv. rewrite Rmult_0_l. apply sampleline_0. exact Wp.
  - rewrite samplepoly_path, PL; [reflexivity|exact G|left; exact C].
Qed.
Lemma unsamplepoly_sound a p o : good_poly a -> (poly_closed a = true -> exists q, hd_error a = Some q /\ last a q = q) -> unsamplepoly a p = Ok (Some o) ->
  exists q l, samplepoly a o = Ok (Some q) /\ In l (lines_of a) /\ linelength l * dist p q <= 2 * epsilon.
Proof.
  intros G CL E. pose proof G as (L & W & P). unfold unsamplepoly in E. rewrite (proj2 (Nat.ltb_ge _ _)) in E by exact L.
  destruct (unsample_lines_spec _ _ _ _ _ _ _ P (total_poly a G) E) as (pre & l & post & t & K1 & K2 & K3 & K4 & K5).
  exists (sampleline l t), l. assert (I : In l (lines_of a)) by (rewrite K1; apply in_or_app; right; left; reflexivity). split; [|split].
  - apply (at_place a pre l post t o G K1); [rewrite Rplus_0_l in K3; exact K3| | |].
    + destruct K4 as [K4|(K4 & _ & K6)]; auto.
    + destruct K5 as [K5|(K5 & K6 & _)]; auto.
    + destruct (poly_closed a) eqn:C; [right; right; apply CL; reflexivity|left; reflexivity].
  - exact I.
  - apply unsample_near; [|exact K2]. rewrite Forall_forall in P. apply P, I.
Qed.
Lemma unsamplepoly_complete a p : good_poly a -> on_poly a p -> exists o, unsamplepoly a p = Ok (Some o).
Proof.
  intros G S. pose proof G as (L & W & P). unfold unsamplepoly. rewrite (proj2 (Nat.ltb_ge _ _)) by exact L.
  apply unsample_lines_complete; auto; [apply lines_chained|apply lines_w1, W|apply (total_poly a G)|intros _; apply lines_two, L].
Qed.
