From Coq Require Import Reals List Bool ZArith Lra Lia.
From Verif Require Import Xform_Model Xform_Proofs Path_Model Path_Spec Path_Proofs Path_Proofs2.
Import ListNotations.
Open Scope R_scope.

Lemma joined_cons g q : joined q -> (q <> [] -> seg_end g = seg_start (hd Other q)) -> joined (g :: q).
Proof. destruct q as [|h q]; cbn; [auto|]. intros J H. split; [apply H; discriminate|exact J]. Qed.

Section sub.
Variable p : list seg.
Hypothesis Hg : Forall good p.
Hypothesis Hj : joined p.
Variables x y : R.
Hypothesis Hxy : x < y.
Hypothesis Hx : 0 <= x.
Let P := pos p.
Lemma slices_ends m : forall k, (k + m <= length p)%nat ->
  let q := slices p x y k m in
  joined q /\ (q <> [] <-> Rmax x (INR k) < Rmin y (INR (k + m))) /\
  (q <> [] -> seg_start (hd Other q) = P (Rmax x (INR k)) /\ seg_end (last q Other) = P (Rmin y (INR (k + m)))).
Proof.
  induction m as [|m IH]; intros k L; cbn zeta.
  - cbn. split; [exact I|]. rewrite Nat.add_0_r. split; [|intros H; contradiction H; reflexivity]. split; [intros H; contradiction H; reflexivity|].
    intros H. pose proof (Rmax_r x (INR k)). pose proof (Rmin_r y (INR k)). lra.
  - change (slices p x y k (S m)) with (slice p x y k ++ slices p x y (S k) m).
    destruct (IH (S k)) as (J & NE & EN); [lia|]. replace (S k + m)%nat with (k + S m)%nat in * by lia.
    set (q := slices p x y (S k) m) in *. clearbody q. clear IH.
    assert (KM : INR k + 1 <= INR (k + S m)) by (rewrite <- S_INR; apply le_INR; lia).
    rewrite S_INR in *.
    destruct (slice_cases p Hg x y k) as [[H E]|(H & g & E & G & PT & _)]; [lia| |]; rewrite E; cbn [app]; unfold hi, lo in *.
    + (* nothing from segment k *)
      assert (MC : Rmax x (INR k) <= Rmax x (INR k + 1)) by (apply Rle_max_compat_l; lra).
      assert (KEY : Rmax x (INR k) < Rmin y (INR (k + S m)) -> Rmax x (INR k) = Rmax x (INR k + 1)).
      { intros Q. unfold Rmax, Rmin in *. repeat match goal with H : context [Rle_dec ?a ?b] |- _ => destruct (Rle_dec a b) | |- context [Rle_dec ?a ?b] => destruct (Rle_dec a b) end; lra. }
      split; [exact J|]. split.
      * split; [intros Q; apply NE in Q; pose proof MC; lra|]. intros Q. apply NE. rewrite <- KEY by exact Q. exact Q.
      * intros Q. destruct (EN Q) as [E1 E2]. apply NE in Q. split; [|exact E2]. rewrite KEY; [exact E1|]. pose proof MC. lra.
    + assert (XK : x < INR k + 1) by (pose proof (Rmax_l x (INR k)); pose proof (Rmin_r y (INR k + 1)); lra).
      assert (YK : INR k < y) by (pose proof (Rmax_r x (INR k)); pose proof (Rmin_l y (INR k + 1)); lra).
      assert (PA : forall z, INR k <= z <= INR k + 1 -> P z = pt (sg p k) (z - INR k)).
      { intros z Z. unfold P. replace z with (INR k + (z - INR k)) at 1 by ring. apply pos_at; auto; (lia || lra). }
      assert (S0 : seg_start g = P (Rmax x (INR k))).
      { rewrite <- pt_0 by exact G. rewrite PT, PA; [f_equal; ring|]. pose proof (Rmax_r x (INR k)). pose proof (Rmin_r y (INR k + 1)). lra. }
      assert (S1 : seg_end g = P (Rmin y (INR k + 1))).
      { rewrite <- pt_1 by exact G. rewrite PT, PA; [f_equal; ring|]. pose proof (Rmax_r x (INR k)). pose proof (Rmin_r y (INR k + 1)). lra. }
      assert (QB : q <> [] -> INR k + 1 < y /\ Rmax x (INR k + 1) = INR k + 1).
      { intros Q. apply NE in Q. rewrite Rmax_right in * by lra. split; [|reflexivity]. pose proof (Rmin_l y (INR (k + S m))). lra. }
      split; [|split].
      * apply joined_cons; [exact J|]. intros Q. destruct (QB Q) as [Q1 Q2]. rewrite S1, (proj1 (EN Q)), Q2, Rmin_right by lra. reflexivity.
      * split; [intros _|discriminate]. unfold Rmin in *. destruct (Rle_dec y (INR k + 1)); destruct (Rle_dec y (INR (k + S m))); lra.
      * intros _. split; [exact S0|]. destruct q as [|h q'] eqn:EQ; [|rewrite <- EQ in *].
        { cbn. rewrite S1. f_equal. assert (NQ : ~ (Rmax x (INR k + 1) < Rmin y (INR (k + S m)))) by (intros Q; apply NE in Q; apply Q; reflexivity).
          rewrite Rmax_right in NQ by lra. unfold Rmin in *. destruct (Rle_dec y (INR k + 1)); destruct (Rle_dec y (INR (k + S m))); lra. }
        { replace (last (g :: q) Other) with (last q Other) by (rewrite EQ; reflexivity). apply EN. rewrite EQ. discriminate. }
Qed.
End sub.

Lemma passes_whole q v : Forall good q -> joined q -> q <> [] ->
  (passes q 0 1 v <-> exists g u, In g q /\ 0 <= u <= 1 /\ v = pt g u).
Proof.
  intros G J N. rewrite (passes_iff q G J) by (assumption || lra). rewrite Rmult_0_l, Rmult_1_l. split.
  - intros (z & Z & ->). destruct (split_pos q z) as (i & u & A & B & -> & _); [exact Z|destruct q; [contradiction|cbn; lia]|].
    exists (sg q i), u. split; [apply nth_In, A|]. split; [exact B|]. apply pos_at; assumption.
  - intros (g & u & I & U & ->). destruct (In_nth q g Other I) as (i & L & E). exists (INR i + u).
    assert (INR i + 1 <= INR (length q)) by (rewrite <- S_INR; apply le_INR; lia). pose proof (pos_INR i).
    split; [lra|]. rewrite pos_at by assumption. unfold sg. rewrite E. reflexivity.
Qed.

Lemma ends_of q : Forall good q -> joined q -> q <> [] ->
  (exists d, evaluate q 0 = Ok (seg_start (hd Other q), d)) /\ (exists d, evaluate q 1 = Ok (seg_end (last q Other), d)).
Proof.
  intros G J N. assert (L : (0 < length q)%nat) by (destruct q; [contradiction|cbn; lia]). split.
  - replace 0 with ((INR 0 + 0) / INR (length q)) by (cbn; field; apply not_0_INR; lia). rewrite evaluate_in by (lia || lra).
    destruct q as [|g r]; [contradiction|]. cbn [nth hd]. inversion G; subst. rewrite <- pt_0 by assumption. apply eval_pt. assumption.
  - rewrite evaluate_end by exact N. assert (E : last q Other = nth (length q - 1) q Other).
    { clear. induction q as [|g r IH]; [reflexivity|]. destruct r as [|h r]; [reflexivity|]. change (last (g :: h :: r) Other) with (last (h :: r) Other). rewrite IH. cbn [length]. 
      replace (S (S (length r)) - 1)%nat with (S (S (length r) - 1)) by lia. reflexivity. }
    rewrite E. rewrite <- pt_1; [apply eval_pt|]; rewrite Forall_forall in G; apply G, nth_In; lia.
Qed.

Lemma sub_ok p a b : Forall good p -> joined p -> p <> [] -> 0 <= a -> a < b -> b <= 1 ->
  exists q, extract p a b = Ok q /\ q <> [] /\ Forall good q /\ joined q /\
    (forall v, passes q 0 1 v <-> passes p a b v) /\
    (exists v d d', evaluate q 0 = Ok (v, d) /\ evaluate p a = Ok (v, d')) /\
    (exists v d d', evaluate q 1 = Ok (v, d) /\ evaluate p b = Ok (v, d')).
Proof.
  intros G J N A AB B. exists (slices p (a * INR (length p)) (b * INR (length p)) 0 (length p)). split; [apply extract_slices; assumption|].
  assert (L : (0 < length p)%nat) by (destruct p; [contradiction|cbn; lia]). assert (NP : 0 < INR (length p)) by (apply lt_0_INR; exact L).
  set (x := a * INR (length p)). set (y := b * INR (length p)).
  assert (X : 0 <= x /\ x < y /\ y <= INR (length p)) by (unfold x, y; repeat split; nra). destruct X as (X0 & XY & YN).
  destruct (slices_ends p G J x y XY (length p) 0%nat) as (QJ & QN & QE); [lia|]. cbn [Nat.add INR] in *.
  set (q := slices p x y 0 (length p)) in *.
  assert (QN' : q <> []) by (apply QN; rewrite Rmax_left, Rmin_left by lra; exact XY).
  destruct (QE QN') as [E0 E1]. rewrite Rmax_left in E0 by lra. rewrite Rmin_left in E1 by lra.
  assert (QG : Forall good q) by (apply slices_good; auto).
  split; [exact QN'|]. split; [exact QG|]. split; [exact QJ|]. split.
  - intros v. rewrite passes_whole by assumption. rewrite (passes_iff p G J) by assumption. fold x y. split.
    + intros (g & u & I & U & ->). unfold q, slices in I. apply in_flat_map in I. destruct I as (i & I & I'). apply in_seq in I.
      destruct (slice_cases p G x y i) as [[_ E]|(H & g' & E & _ & PT & _)]; [lia|rewrite E in I'; destruct I'|].
      rewrite E in I'. destruct I' as [<-|[]]. rewrite PT. set (w := lo x i + u * (hi y i - lo x i)).
      destruct (lohi x y i) as [H0 H1]. assert (W : lo x i <= w <= hi y i) by (unfold w; nra).
      exists (INR i + w). split; [|symmetry; apply pos_at; auto; (lia || lra)].
      unfold lo, hi in W. pose proof (Rmax_l x (INR i)). pose proof (Rmin_l y (INR i + 1)). lra.
    + intros (z & Z & ->). destruct (split_pos p z) as (i & u & I & U & EZ & LT); [lra|exact L|].
      assert (KEY : forall j w, (j < length p)%nat -> z = INR j + w -> 0 <= w <= 1 -> lo x j < hi y j -> exists g u, In g q /\ 0 <= u <= 1 /\ pos p z = pt g u).
      { intros j w JL EW W H. destruct (slice_cases p G x y j JL) as [[H' _]|(_ & g & E & _ & PT & _)]; [lra|].
        assert (WB : lo x j <= w <= hi y j).
        { unfold lo, hi. split; [apply (Rplus_le_reg_r (INR j)); replace (Rmax x (INR j) - INR j + INR j) with (Rmax x (INR j)) by ring; apply Rmax_lub; lra|].
          apply (Rplus_le_reg_r (INR j)). replace (Rmin y (INR j + 1) - INR j + INR j) with (Rmin y (INR j + 1)) by ring. apply Rmin_glb; lra. }
        exists g, ((w - lo x j) / (hi y j - lo x j)). split; [unfold q, slices; apply in_flat_map; exists j; split; [apply in_seq; lia|rewrite E; left; reflexivity]|]. split.
        - split; [apply Rmult_le_pos; [lra|left; apply Rinv_0_lt_compat; lra]|]. apply (Rmult_le_reg_r (hi y j - lo x j)); [lra|]. unfold Rdiv. rewrite Rmult_assoc, Rinv_l by lra. lra.
        - rewrite PT, EW, pos_at by assumption. f_equal. field. lra. }
      destruct (Rlt_dec (lo x i) (hi y i)) as [H|H]; [apply (KEY i u); assumption|].
      (* the point is on the boundary of an empty piece *)
      pose proof (pos_INR i). assert (IN : INR i + 1 <= INR (length p)) by (rewrite <- S_INR; apply le_INR; lia).
      assert (CASES : (INR i + 1 = x /\ u = 1) \/ (INR i = y /\ u = 0)).
      { unfold lo, hi, Rmax, Rmin in H. destruct (Rle_dec x (INR i)), (Rle_dec y (INR i + 1)); lra. }
      destruct CASES as [[E1' ->]|[E2' ->]].
      * assert (SI : (S i < length p)%nat) by (apply INR_lt; rewrite S_INR; lra).
        apply (KEY (S i) 0); [exact SI|rewrite S_INR; lra|lra|]. unfold lo, hi. rewrite S_INR. rewrite Rmax_left by lra. unfold Rmin. destruct (Rle_dec y (INR i + 1 + 1)); lra.
      * assert (I0 : (0 < i)%nat) by (apply INR_lt; cbn; lra). destruct i as [|i]; [lia|]. rewrite S_INR in *.
        apply (KEY i 1); [lia|lra|lra|]. unfold lo, hi. rewrite Rmin_right by lra. unfold Rmax. destruct (Rle_dec x (INR i)); lra.
  - destruct (ends_of q QG QJ QN') as [[d0 F0] [d1 F1]].
    destruct (evaluate_pos p G J a N) as [da Fa]; [lra|]. destruct (evaluate_pos p G J b N) as [db Fb]; [lra|].
    split.
    + exists (seg_start (hd Other q)), d0, da. split; [exact F0|]. rewrite E0. exact Fa.
    + exists (seg_end (last q Other)), d1, db. split; [exact F1|]. rewrite E1. exact Fb.
Qed.

(** ** tangents *)
Lemma local_deriv f g t l d : 0 < d -> (forall z, Rabs (z - t) < d -> f z = g z) -> derivable_pt_lim g t l -> derivable_pt_lim f t l.
Proof.
  intros D E H eps EP. destruct (H eps EP) as [del Hd]. assert (M : 0 < Rmin d del) by (apply Rmin_pos; [exact D|apply cond_pos]).
  exists (mkposreal _ M). intros h H0 HH. cbn in HH. rewrite !E; [apply Hd; [exact H0|pose proof (Rmin_r d del); lra]| |].
  - replace (t - t) with 0 by ring. rewrite Rabs_R0. exact D.
  - replace (t + h - t) with h by ring. pose proof (Rmin_l d del). lra.
Qed.
Lemma deriv_eq f t l l' : derivable_pt_lim f t l -> l = l' -> derivable_pt_lim f t l'. Proof. intros H <-. exact H. Qed.
(** a + b t *)
Lemma deriv_affine a b t : derivable_pt_lim (fun z => a + b * z) t b.
Proof.
  eapply deriv_eq; [apply derivable_pt_lim_plus; [apply (derivable_pt_lim_const a)|apply derivable_pt_lim_scal, derivable_pt_lim_id]|]. ring.
Qed.
Lemma deriv_comp_affine f a b t l : derivable_pt_lim f (a + b * t) l -> derivable_pt_lim (fun z => f (a + b * z)) t (b * l).
Proof.
  intros H. eapply deriv_eq; [apply (derivable_pt_lim_comp (fun z => a + b * z) f t b l); [apply deriv_affine|exact H]|]. ring.
Qed.
(** k + A cos a + B sin a *)
Lemma deriv_trig k A B t : derivable_pt_lim (fun a => k + cos a * A + sin a * B) t (- sin t * A + cos t * B).
Proof.
  eapply deriv_eq; [apply derivable_pt_lim_plus; [apply derivable_pt_lim_plus; [apply derivable_pt_lim_const|apply derivable_pt_lim_mult; [apply derivable_pt_lim_cos|apply derivable_pt_lim_const]]|apply derivable_pt_lim_mult; [apply derivable_pt_lim_sin|apply derivable_pt_lim_const]]|].
  unfold fct_cte. ring.
Qed.
Lemma moves_ext f g t v d : 0 < d -> (forall z, Rabs (z - t) < d -> f z = g z) -> moves g t v -> moves f t v.
Proof.
  intros D E (H1 & H2 & H3). repeat split; eapply local_deriv; try exact D; try eassumption; intros z Z; cbn beta; rewrite E by exact Z; reflexivity.
Qed.
Lemma moves_affine f a b t v : moves f (a + b * t) v -> moves (fun z => f (a + b * z)) t (mkv (b * vx v) (b * vy v) (b * vz v) 0).
Proof.
  intros (H1 & H2 & H3). repeat split; cbn [vx vy vz].
  - apply (deriv_comp_affine (fun z => vx (f z)) a b t). exact H1.
  - apply (deriv_comp_affine (fun z => vy (f z)) a b t). exact H2.
  - apply (deriv_comp_affine (fun z => vz (f z)) a b t). exact H3.
Qed.

(** a segment long enough for the code to give it a direction *)
Lemma seg_moves g u q d : good g -> (match g with Line s e => tiny10 <= dist s e | _ => True end) ->
  eval_seg g u = Ok (q, d) -> mag d = 1 /\ moves (pt g) u (mkv (seg_length g * vx d) (seg_length g * vy d) (seg_length g * vz d) 0).
Proof.
  intros G ST E. destruct g as [s e|c s e n|]; [| |destruct G].
  - cbn in E. unfold eval_line in E. injection E as <- <-.
    assert (ML : mag (psub e s) = dist s e) by (unfold dist, mag, psub, sub; cbn [vx vy vz]; f_equal; ring).
    assert (T : tiny10 <= mag (psub e s)) by lra. pose proof tiny_pos. split; [apply mg_one, dot_pnorm, T|].
    cbn [seg_length]. rewrite pnorm_big by exact T. cbn [vx vy vz].
    unfold moves. cbn [vx vy vz]. repeat split.
    + apply (deriv_eq _ _ (vx e - vx s)); [|unfold psub at 2; cbn [vx]; field; lra].
      apply (local_deriv _ (fun z => vx s + (vx e - vx s) * z) _ _ 1); [lra| |apply deriv_affine]. intros z _. unfold pt. cbn. ring.
    + apply (deriv_eq _ _ (vy e - vy s)); [|unfold psub at 2; cbn [vy]; field; lra].
      apply (local_deriv _ (fun z => vy s + (vy e - vy s) * z) _ _ 1); [lra| |apply deriv_affine]. intros z _. unfold pt. cbn. ring.
    + apply (deriv_eq _ _ (vz e - vz s)); [|unfold psub at 2; cbn [vz]; field; lra].
      apply (local_deriv _ (fun z => vz s + (vz e - vz s) * z) _ _ 1); [lra| |apply deriv_affine]. intros z _. unfold pt. cbn. ring.
  - cbn [eval_seg] in E. set (al := arc_angle c s e n).
    pose proof (good_framed _ _ _ _ G) as F. pose proof G as (W1 & W2 & W3 & H1 & H2 & H3 & H4 & H5). pose proof tiny_pos as TP.
    assert (Hn : mag n <> 0) by lra. assert (Hs : mag (psub s c) <> 0) by (rewrite psub_mag; lra).
    unfold eval_arc in E. rewrite (fr_ku _ _ _ _ F) in E. fold al in E.
    pose proof (fr_k _ _ _ _ F) as K. pose proof (fr_u _ _ _ _ F) as U. pose proof (fr_ku _ _ _ _ F) as KU.
    set (k := pnorm n) in *. set (w := pnorm (psub s c)) in *. set (a := u * al) in *.
    set (rot := mkv (vx w * cos a + vx (pcross k w) * sin a + vx k * 0 * (1 - cos a)) (vy w * cos a + vy (pcross k w) * sin a + vy k * 0 * (1 - cos a)) (vz w * cos a + vz (pcross k w) * sin a + vz k * 0 * (1 - cos a)) 0) in *.
    (* k x rot = - sin a w + cos a (k x w) *)
    assert (KR : pcross k rot = mkv (- sin a * vx w + cos a * vx (pcross k w)) (- sin a * vy w + cos a * vy (pcross k w)) (- sin a * vz w + cos a * vz (pcross k w)) 0).
    { unfold dot in K, KU.
      unfold rot, pcross. cbn [vx vy vz]. apply veq; cbn [vx vy vz vw]; [| | |reflexivity].
      - transitivity (- sin a * (vx w * (vx k * vx k + vy k * vy k + vz k * vz k) - vx k * (vx k * vx w + vy k * vy w + vz k * vz w)) + cos a * (vy k * vz w - vz k * vy w)); [ring|rewrite K, KU; ring].
      - transitivity (- sin a * (vy w * (vx k * vx k + vy k * vy k + vz k * vz k) - vy k * (vx k * vx w + vy k * vy w + vz k * vz w)) + cos a * (vz k * vx w - vx k * vz w)); [ring|rewrite K, KU; ring].
      - transitivity (- sin a * (vz w * (vx k * vx k + vy k * vy k + vz k * vz k) - vz k * (vx k * vx w + vy k * vy w + vz k * vz w)) + cos a * (vx k * vy w - vy k * vx w)); [ring|rewrite K, KU; ring]. }
    assert (D1 : dot (pcross k rot) (pcross k rot) = 1).
    { rewrite KR. assert (QQ : dot (pcross k w) (pcross k w) = 1).
      { transitivity (dot k k * dot w w - dot k w * dot k w); [unfold dot, pcross; cbn [vx vy vz]; ring|rewrite K, U, KU; ring]. }
      assert (QW : dot w (pcross k w) = 0) by (unfold dot, pcross; cbn [vx vy vz]; ring).
      unfold dot at 1. cbn [vx vy vz].
      transitivity (sin a * sin a * dot w w - 2 * sin a * cos a * dot w (pcross k w) + cos a * cos a * dot (pcross k w) (pcross k w)); [unfold dot; ring|].
      rewrite U, QQ, QW. pose proof (sin2_cos2 a) as SC. unfold Rsqr in SC. lra. }
    assert (M1 : mag (pcross k rot) = 1) by (apply mg_one, D1).
    assert (T1 : pnorm (pcross k rot) = pcross k rot).
    { rewrite pnorm_big by (rewrite M1; unfold tiny10; lra). rewrite M1. rewrite KR. apply veq; cbn [vx vy vz vw]; try field; reflexivity. }
    injection E as <- <-. rewrite T1. split; [exact M1|].
    cbn [seg_length]. fold al. set (r := mag (psub s c)) in *.
    assert (PTE : forall z, pt (Arc c s e n) z = mkv (vx c + cos (0 + al * z) * (r * vx w) + sin (0 + al * z) * (r * vx (pcross k w))) (vy c + cos (0 + al * z) * (r * vy w) + sin (0 + al * z) * (r * vy (pcross k w))) (vz c + cos (0 + al * z) * (r * vz w) + sin (0 + al * z) * (r * vz (pcross k w))) 0).
    { intros z. unfold pt. cbn [eval_seg]. unfold eval_arc. fold w k. rewrite KU. fold al. fold r. unfold padd, pscale. cbn [vx vy vz].
      replace (0 + al * z) with (z * al) by ring. apply veq; cbn [vx vy vz vw]; try ring. }
    apply (moves_ext _ (fun z => mkv (vx c + cos (0 + al * z) * (r * vx w) + sin (0 + al * z) * (r * vx (pcross k w))) (vy c + cos (0 + al * z) * (r * vy w) + sin (0 + al * z) * (r * vy (pcross k w))) (vz c + cos (0 + al * z) * (r * vz w) + sin (0 + al * z) * (r * vz (pcross k w))) 0) _ _ 1); [lra|intros z _; apply PTE|].
    rewrite KR. cbn [vx vy vz]. assert (AU : a = 0 + al * u) by (unfold a; ring). rewrite AU. unfold moves. cbn [vx vy vz].
    repeat split.
    + eapply deriv_eq; [apply (deriv_comp_affine (fun b => vx c + cos b * (r * vx w) + sin b * (r * vx (pcross k w))) 0 al u); apply deriv_trig|]. ring.
    + eapply deriv_eq; [apply (deriv_comp_affine (fun b => vy c + cos b * (r * vy w) + sin b * (r * vy (pcross k w))) 0 al u); apply deriv_trig|]. ring.
    + eapply deriv_eq; [apply (deriv_comp_affine (fun b => vz c + cos b * (r * vz w) + sin b * (r * vz (pcross k w))) 0 al u); apply deriv_trig|]. ring.
Qed.

Definition point_at (p : list seg) (t : R) : vec := match evaluate p t with Ok (q, _) => q | _ => mkv 0 0 0 0 end.
Lemma path_moves p i u q d : Forall good p -> (i < length p)%nat -> 0 < u < 1 ->
  (match nth i p Other with Line s e => tiny10 <= dist s e | _ => True end) ->
  evaluate p ((INR i + u) / INR (length p)) = Ok (q, d) ->
  let v := INR (length p) * seg_length (nth i p Other) in
  mag d = 1 /\ moves (point_at p) ((INR i + u) / INR (length p)) (mkv (v * vx d) (v * vy d) (v * vz d) 0).
Proof.
  intros G L U ST E v. rewrite evaluate_in in E by (assumption || lra).
  assert (GI : good (nth i p Other)) by (rewrite Forall_forall in G; apply G, nth_In, L).
  destruct (seg_moves _ _ _ _ GI ST E) as [M1 M2]. split; [exact M1|].
  assert (N : 0 < INR (length p)) by (apply lt_0_INR; lia). set (N0 := INR (length p)) in *. set (g := nth i p Other) in *.
  assert (AF : moves (fun z => pt g (- INR i + N0 * z)) ((INR i + u) / N0) (mkv (v * vx d) (v * vy d) (v * vz d) 0)).
  { pose proof (moves_affine (pt g) (- INR i) N0 ((INR i + u) / N0) (mkv (seg_length g * vx d) (seg_length g * vy d) (seg_length g * vz d) 0)) as A.
    replace (- INR i + N0 * ((INR i + u) / N0)) with u in A by (field; lra). specialize (A M2). cbn [vx vy vz] in A.
    unfold v. rewrite !Rmult_assoc. exact A. }
  apply (moves_ext _ (fun z => pt g (- INR i + N0 * z)) _ _ (Rmin u (1 - u) / N0)); [| |exact AF].
  - apply Rdiv_lt_0_compat; [apply Rmin_pos; lra|exact N].
  - intros z Z. unfold point_at, pt. set (w := - INR i + N0 * z).
    assert (EZ : z = (INR i + w) / N0) by (unfold w; field; lra).
    assert (W : Rabs (w - u) < Rmin u (1 - u)).
    { replace (w - u) with (N0 * (z - (INR i + u) / N0)) by (unfold w; field; lra). rewrite Rabs_mult, (Rabs_right N0) by lra.
      apply (Rmult_lt_compat_l N0) in Z; [|exact N]. replace (N0 * (Rmin u (1 - u) / N0)) with (Rmin u (1 - u)) in Z by (field; lra). exact Z. }
    apply Rabs_def2 in W. pose proof (Rmin_l u (1 - u)). pose proof (Rmin_r u (1 - u)).
    rewrite EZ at 1. unfold N0 at 1. rewrite evaluate_in by (assumption || lra). reflexivity.
Qed.
