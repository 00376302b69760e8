From Coq Require Import Reals List Bool ZArith Lra Lia Psatz.
From Verif Require Import Xform_Model Xform_Proofs Fig_Model Fig_Proofs.
Import ListNotations.
Open Scope R_scope.

(** ** distance from a point to an infinite line *)
Lemma planar3 z p a b : vz p = z -> vz a = z -> vz b = z -> isXYPlanar [p; a; b] = true.
Proof.
  intros <- Ha Hb. unfold isXYPlanar; simpl. rewrite Ha, Hb, Rminus_eq_0, Rabs_R0.
  rewrite Rltb_f by (pose proof eps_pos; lra). reflexivity.
Qed.

Section LineDist.
  Variables (a b p : vec) (z : R).
  Hypothesis (Ha : vz a = z) (Hb : vz b = z) (Hp : vz p = z) (Hab : epsilon <= dist a b).
  Let L := dist a b.
  Let dx := vx b - vx a.
  Let dy := vy b - vy a.
  Let N := (vy b - vy a) * vx p - (vx b - vx a) * vy p + vx b * vy a - vy b * vx a.
  Lemma ld_L2 : L * L = dx * dx + dy * dy.
  Proof.
    unfold L. rewrite dist_sq, sqrt_sqrt by apply sq_nonneg. unfold sq, dx, dy. rewrite Ha, Hb. ring.
  Qed.
  Lemma ld_Lpos : 0 < L.
  Proof. pose proof eps_pos. unfold L. lra. Qed.
  Lemma ld_nn x : 0 <= x -> Rabs (x) = x. Proof. intros; apply Rabs_right; lra. Qed.

  Lemma ld_lower t : Rabs (N / L) <= dist p (sampleline (a, b) t).
  Proof.
    pose proof ld_Lpos as HL. pose proof ld_L2 as HL2.
    rewrite dist_sq. unfold sampleline, add, scale3; simpl. rewrite Ha, Hb, Hp.
    set (ex := vx p - (vx a * (1 - t) + vx b * t)). set (ey := vy p - (vy a * (1 - t) + vy b * t)).
    replace (z - (z * (1 - t) + z * t)) with 0 by ring.
    assert (HN : N = dy * ex - dx * ey) by (unfold N, dx, dy, ex, ey; ring).
    apply Rsqr_incr_0_var; [|apply sqrt_pos].
    rewrite Rsqr_sqrt by apply sq_nonneg. rewrite <- Rsqr_abs. unfold Rsqr, sq.
    assert (Hq : N / L * (N / L) * (L * L) = N * N) by (field; lra).
    assert (Hc : N * N <= (ex * ex + ey * ey) * (L * L)).
    { rewrite HL2, HN. pose proof (Rle_0_sqr (dx * ex + dy * ey)) as H. unfold Rsqr in H. nra. }
    assert (0 < L * L) by nra. nra.
  Qed.
  Lemma ld_attained : exists t, Rabs (N / L) = dist p (sampleline (a, b) t).
  Proof.
    pose proof ld_Lpos as HL. pose proof ld_L2 as HL2.
    set (t := ((vx p - vx a) * dx + (vy p - vy a) * dy) / (L * L)).
    assert (Ht : t * (L * L) = (vx p - vx a) * dx + (vy p - vy a) * dy) by (unfold t; field; lra).
    exists t. rewrite dist_sq. unfold sampleline, add, scale3; simpl. rewrite Ha, Hb, Hp.
    set (ex := vx p - (vx a * (1 - t) + vx b * t)). set (ey := vy p - (vy a * (1 - t) + vy b * t)).
    replace (z - (z * (1 - t) + z * t)) with 0 by ring.
    assert (HN : N = dy * ex - dx * ey) by (unfold N, dx, dy, ex, ey; ring).
    assert (Ho : dx * ex + dy * ey = 0).
    { assert (dx * ex + dy * ey = (vx p - vx a) * dx + (vy p - vy a) * dy - t * (dx * dx + dy * dy))
        by (unfold dx, dy, ex, ey; ring). rewrite <- HL2 in H. lra. }
    rewrite <- sqrt_Rsqr_abs. f_equal. unfold Rsqr, sq.
    assert (Hq : N / L * (N / L) * (L * L) = N * N) by (field; lra).
    assert (Hc : N * N = (ex * ex + ey * ey) * (L * L)).
    { rewrite HL2, HN.
      replace ((ex * ex + ey * ey) * (dx * dx + dy * dy)) with
        ((dy * ex - dx * ey) * (dy * ex - dx * ey) + (dx * ex + dy * ey) * (dx * ex + dy * ey)) by ring.
      rewrite Ho. ring. }
    assert (0 < L * L) by nra.
    apply Rmult_eq_reg_r with (L * L); [|lra]. rewrite Hq, Hc. ring.
  Qed.
  Lemma line_distance_value :
    linePointXY (a, b) p false true false = Ok (LPNum (Rabs (N / L))).
  Proof.
    unfold linePointXY, fst, snd. rewrite Rltb_f by assumption. cbn [andb negb].
    rewrite (planar3 z) by assumption. reflexivity.
  Qed.
End LineDist.

Lemma line_distance a b p z :
  vz a = z -> vz b = z -> vz p = z -> epsilon <= dist a b ->
  exists d, linePointXY (a, b) p false true false = Ok (LPNum d) /\
    (forall t, d <= dist p (sampleline (a, b) t)) /\ (exists t, d = dist p (sampleline (a, b) t)).
Proof.
  intros Ha Hb Hp Hab. eexists. split; [eapply line_distance_value; eassumption|]. split.
  - intros t. eapply ld_lower; eassumption.
  - eapply ld_attained; eassumption.
Qed.

(** params=True returns 1-u instead of u *)
Definition unit_x : line := (point 0 0 0, point 1 0 0).
Lemma dist_pts x1 y1 z1 x2 y2 z2 d : 0 <= d ->
  (x1 - x2) * (x1 - x2) + (y1 - y2) * (y1 - y2) + (z1 - z2) * (z1 - z2) = d * d ->
  dist (point x1 y1 z1) (point x2 y2 z2) = d.
Proof. intros Hd H. rewrite dist_sq; simpl. unfold sq. rewrite H. apply sqrt_square; assumption. Qed.

Lemma line_params_refuted :
  linePointXY unit_x (point 0 0 0) true false true = Ok (LPNum 1) /\
  sampleline unit_x 1 <> point 0 0 0 /\ sampleline unit_x 0 = point 0 0 0.
Proof.
  split; [|split].
  - unfold linePointXY, unit_x, fst, snd.
    rewrite (dist_pts 0 0 0 1 0 0 1) by lra.
    rewrite Rltb_f by (unfold epsilon; lra). cbn [andb negb].
    rewrite (planar3 0) by reflexivity. cbn [negb orb].
    set (ld := Rabs _).
    assert (Hld : ld = 0).
    { unfold ld, point; cbn [vx vy]. replace (_ / 1) with 0 by field. apply Rabs_R0. }
    rewrite Hld.
    set (dir := scale3 (sub (point 1 0 0) (point 0 0 0)) _).
    assert (E1 : add (point 0 0 0) (scale3 (orthoXY dir) 0) = point 0 0 0).
    { unfold add, scale3, point; simpl. f_equal; ring. }
    assert (E2 : add (point 0 0 0) (scale3 (scale3 (orthoXY dir) 0) (-1)) = point 0 0 0).
    { unfold add, scale3, point; simpl. f_equal; ring. }
    rewrite E1, E2, dist_refl, (dist_pts 0 0 0 1 0 0 1) by lra.
    rewrite Rleb_t by lra.
    f_equal. f_equal. lra.
  - unfold sampleline, unit_x, add, scale3, point; simpl. intros H. inversion H. lra.
  - apply sampleline_0. reflexivity.
Qed.

(** inside=True: the returned "closest point" can be off the line by 400 epsilon *)
Definition seg2 : line := (point 0 0 0, point 2 0 0).
Definition below : vec := point 1 (-1/1000) 0.
Lemma closest_point_refuted :
  linePointXY seg2 below true false false = Ok (LPPoint (point 1 (-2/1000) 0)) /\
  forall t, 400 * epsilon <= dist (point 1 (-2/1000) 0) (sampleline seg2 t).
Proof.
  split.
  - unfold linePointXY, seg2, fst, snd.
    rewrite (dist_pts 0 0 0 2 0 0 2) by lra.
    rewrite Rltb_f by (unfold epsilon; lra). cbn [andb negb].
    rewrite (planar3 0) by reflexivity. cbn [negb orb].
    set (ld := Rabs (_ / 2)).
    assert (Hld : ld = 1/1000).
    { unfold ld, below, point; cbn [vx vy].
      match goal with |- Rabs ?e = _ => replace e with (1/1000) by lra end. apply Rabs_right; lra. }
    rewrite Hld.
    set (dir := scale3 (sub (point 2 0 0) (point 0 0 0)) _).
    assert (Hdir : dir = point 1 0 0).
    { unfold dir. change (mag (sub (point 2 0 0) (point 0 0 0))) with (dist (point 2 0 0) (point 0 0 0)).
      rewrite (dist_pts 2 0 0 0 0 0 2) by lra. unfold scale3, sub, point; simpl. f_equal; field. }
    rewrite Hdir.
    assert (E1 : add below (scale3 (orthoXY (point 1 0 0)) (1/1000)) = point 1 (-2/1000) 0).
    { unfold below, add, scale3, orthoXY, point; simpl. f_equal; field. }
    rewrite E1.
    set (d := dist (point 0 0 0) (point 1 (-2/1000) 0)).
    assert (Hd2 : dist (point 1 (-2/1000) 0) (point 2 0 0) = d).
    { unfold d. rewrite !dist_sq; simpl. f_equal. unfold sq. field. }
    rewrite Hd2.
    assert (Hd : d * d = 1 + 4/1000000).
    { unfold d. rewrite dist_sq, sqrt_sqrt by apply sq_nonneg. unfold sq; simpl. field. }
    assert (0 <= d) by apply dist_nonneg.
    rewrite (Rltb_t (Rabs (d + d - 2))); [reflexivity|].
    assert (1 <= d) by nra. rewrite Rabs_right by lra. unfold epsilon. nra.
  - intros t. rewrite dist_sq. unfold seg2, sampleline, add, scale3, point; simpl.
    apply Rle_trans with (sqrt ((2/1000) * (2/1000))).
    + rewrite sqrt_square by lra. unfold epsilon. lra.
    + apply sqrt_le_1_alt. unfold sq.
      set (w := 1 - (0 * (1 - t) + 2 * t)). pose proof (Rle_0_sqr w) as Hw. unfold Rsqr in Hw. nra.
Qed.

(** ** arcs *)
Lemma samplearc_radius c u : 0 <= a_r c -> dist (samplearc c u) (a_c c) = a_r c /\ vz (samplearc c u) = vz (a_c c).
Proof.
  intros Hr. unfold samplearc. set (x := _ * pi2 / 360). split.
  - rewrite dist_sq; simpl. unfold sq.
    match goal with |- sqrt ?e = _ => replace e with ((a_r c * a_r c) * (Rsqr (sin x) + Rsqr (cos x))) by (unfold Rsqr; ring) end.
    rewrite sin2_cos2, Rmult_1_r. apply sqrt_square; assumption.
  - simpl. ring.
Qed.
Lemma samplearc_reverse c u :
  samplearc (mkarc (a_c c) (a_r c) (a_start c) (a_end c) (negb (a_rev c))) u = samplearc c (1 - u).
Proof.
  unfold samplearc, arc_angle, arc_range; simpl.
  destruct (a_rev c); simpl; [|reflexivity]. replace (1 - (1 - u)) with u by ring. reflexivity.
Qed.
Lemma samplearc_translate c d u :
  samplearc (mkarc (add (a_c c) d) (a_r c) (a_start c) (a_end c) (a_rev c)) u = add (samplearc c u) d.
Proof.
  unfold samplearc, arc_angle, arc_range, add, scale3; simpl. f_equal; ring.
Qed.
(** angles written in [0,360) with start < end: endpoints are at those angles *)
Lemma pymod_id x : 0 <= x < 360 -> pymod x 360 = x.
Proof.
  intros H. unfold pymod.
  assert (E : Int_part (x / 360) = 0%Z).
  { unfold Int_part. rewrite <- (tech_up (x / 360) 1); simpl; try lra; try reflexivity. }
  rewrite E. simpl. ring.
Qed.
Lemma samplearc_endpoints c :
  a_rev c = false -> 0 <= a_start c -> a_start c <= a_end c -> a_end c < 360 ->
  let at_ang x := add (a_c c) (scale3 (mkv (cos (x * pi2 / 360)) (sin (x * pi2 / 360)) 0 1) (a_r c)) in
  samplearc c 0 = at_ang (a_start c) /\ samplearc c 1 = at_ang (a_end c).
Proof.
  intros Hr H0 H1 H2. cbv zeta.
  assert (E : arc_range c = (a_start c, a_end c)).
  { unfold arc_range. destruct (negb _ && negb _); [|reflexivity].
    rewrite !pymod_id by lra. rewrite Rltb_f by lra. reflexivity. }
  unfold samplearc, arc_angle. rewrite Hr, E. cbv zeta.
  destruct (cos_sin_pymod ((a_end c - a_start c) * 0 + a_start c)) as [-> ->].
  destruct (cos_sin_pymod ((a_end c - a_start c) * 1 + a_start c)) as [-> ->].
  replace ((a_end c - a_start c) * 0 + a_start c) with (a_start c) by ring.
  replace ((a_end c - a_start c) * 1 + a_start c) with (a_end c) by ring. split; reflexivity.
Qed.

Lemma circle_bbox c u bb : 0 <= a_r c -> iscircle c = true -> arcbbox c = Some bb -> isinsidebbox bb (samplearc c u) = true.
Proof.
  intros Hr Hc H. unfold arcbbox in H. rewrite Hc in H. injection H as <-.
  apply isinsidebbox_spec. unfold samplearc, inbox, sub, add, scale3, point; simpl.
  set (x := _ * pi2 / 360). pose proof (COS_bound x). pose proof (SIN_bound x). repeat split; nra.
Qed.

Definition arc100 : arc := mkarc (point 0 0 0) 1 0 100 false.
Lemma arc100_sample u : vy (samplearc arc100 u) = sin (100 * u * pi2 / 360).
Proof.
  unfold samplearc, arc_angle, arc_range, arc100; simpl.
  assert (Reqb 0 0 = true) as -> by (apply Reqb_true; reflexivity). simpl.
  destruct (cos_sin_pymod ((100 - 0) * u + 0)) as [_ ->].
  replace ((100 - 0) * u + 0) with (100 * u) by ring. ring.
Qed.
Lemma sin_lt_1 x : 0 < x < PI -> x <> PI / 2 -> sin x < 1.
Proof.
  intros [H1 H2] H. rewrite <- sin_PI2. pose proof PI_RGT_0.
  destruct (Rlt_dec x (PI / 2)).
  - apply sin_increasing_1; lra.
  - apply sin_decreasing_1; lra.
Qed.
Lemma arcbbox_refuted :
  exists bb, arcbbox arc100 = Some bb /\ isinsidebbox bb (samplearc arc100 (9/10)) = false.
Proof.
  unfold arcbbox.
  assert (iscircle arc100 = false) as ->.
  { unfold iscircle, arc100; simpl. apply andb_false_iff. right. apply Reqb_false. lra. }
  destruct (polybbox (map (fun i => samplearc arc100 (i / 4)) [0; 1; 2; 3; 4])) as [bb|] eqn:E; [|discriminate].
  exists bb. split; [reflexivity|].
  cbn [map] in E. pose proof (polybbox_tight _ _ _ _ E) as T. cbv zeta in T.
  destruct T as (_ & _ & _ & (p & Hp & Hy) & _).
  pose proof PI_RGT_0 as HPI.
  assert (Hlt : vy (snd bb) < 1).
  { rewrite <- Hy.
    destruct Hp as [<-|[<-|[<-|[<-|[<-|[]]]]]]; rewrite arc100_sample; unfold pi2.
    - replace (100 * (0 / 4) * (2 * PI) / 360) with 0 by field. rewrite sin_0. lra.
    - apply sin_lt_1; lra.
    - apply sin_lt_1; lra.
    - apply sin_lt_1; lra.
    - apply sin_lt_1; lra. }
  destruct (isinsidebbox bb (samplearc arc100 (9 / 10))) eqn:Ei; [|reflexivity].
  apply isinsidebbox_spec in Ei. destruct Ei as (_ & [_ Hle] & _).
  rewrite arc100_sample in Hle. unfold pi2 in Hle.
  replace (100 * (9 / 10) * (2 * PI) / 360) with (PI / 2) in Hle by field.
  rewrite sin_PI2 in Hle. lra.
Qed.

Lemma arclength_nonneg c : 0 <= a_r c -> 0 <= arclength c.
Proof.
  intros Hr. pose proof PI_RGT_0. unfold arclength, pi2. destruct (iscircle c); [nra|].
  pose proof (pymod_range (a_start c) 360 ltac:(lra)) as H1.
  pose proof (pymod_range (a_end c) 360 ltac:(lra)) as H2.
  set (s := pymod (a_start c) 360) in *. set (e := pymod (a_end c) 360) in *.
  set (e' := if Rltb e s then e + 360 else e).
  assert (0 <= e' - s). { unfold e'. destruct (Rltb e s) eqn:E; rb; lra. }
  replace (2 * PI * a_r c * (e' - s) / 360) with ((2 * PI / 360) * (a_r c * (e' - s))) by field.
  apply Rmult_le_pos; nra.
Qed.

(** ** reversal *)
Lemma reverse_two_lines p q r s :
  reverseGeomList [GLine (p, q); GLine (r, s)] = Ok [GLine (s, r); GLine (q, p)].
Proof. reflexivity. Qed.

Fixpoint rv_list (gs acc : list geo) : res (list geo) :=
  match gs with
  | [] => Ok acc
  | g :: rest => bind (rev_elem g) (fun g' => rv_list rest (g' :: acc))
  end.
Lemma reverse_unfold gs : reverseGeomList gs = rv_list gs [].
Proof.
  unfold reverseGeomList. cbn [rev_elem].
  assert (E : forall l acc, (fix rv (gs0 acc0 : list geo) {struct gs0} : res (list geo) :=
     match gs0 with
     | [] => Ok acc0
     | g :: rest => bind (rev_elem g) (fun g' : geo => rv rest (g' :: acc0))
     end) l acc = rv_list l acc).
  { induction l as [|g l IH]; intros acc; simpl; [reflexivity|]. destruct (rev_elem g); simpl; auto. }
  rewrite E. destruct (rv_list gs []); reflexivity.
Qed.

(** elements on which reversal works: points, lines, arcs sampled forwards *)
Definition simple_geo (g : geo) : bool :=
  match g with GPoint _ => true | GLine _ => true | GArc c => negb (a_rev c) | _ => false end.
Definition rev1 (g : geo) : geo :=
  match g with
  | GLine (p, q) => GLine (q, p)
  | GArc c => GArc (mkarc (a_c c) (a_r c) (a_start c) (a_end c) true)
  | _ => g
  end.
Lemma rv_simple gs : forall acc, forallb simple_geo gs = true ->
  rv_list gs acc = Ok (rev (map rev1 gs) ++ acc).
Proof.
  induction gs as [|g gs IH]; simpl; intros acc H; [reflexivity|].
  apply andb_true_iff in H as [H1 H2].
  destruct g as [p|[p q]|c|a|l|]; try discriminate; simpl; rewrite IH by assumption;
  rewrite <- app_assoc; reflexivity.
Qed.
(** one element sampled *)
Definition gsample (g : geo) (u : R) : option vec :=
  match g with
  | GPoint p => Some p
  | GLine l => Some (sampleline l u)
  | GArc c => Some (samplearc c u)
  | _ => None
  end.
Lemma rev1_sample g u : simple_geo g = true -> gsample (rev1 g) u = gsample g (1 - u).
Proof.
  destruct g as [p|[p q]|c|a|l|]; simpl; intros H; try discriminate; auto.
  - f_equal. apply sampleline_reverse.
  - f_equal. rewrite <- samplearc_reverse. apply negb_true_iff in H. rewrite H. reflexivity.
Qed.
Lemma reverse_simple gs : forallb simple_geo gs = true ->
  exists rs, reverseGeomList gs = Ok rs /\ length rs = length gs /\
    forall i g, nth_error gs i = Some g ->
      exists r, nth_error rs (length gs - 1 - i) = Some r /\ forall u, gsample r u = gsample g (1 - u).
Proof.
  intros H. exists (rev (map rev1 gs)). rewrite reverse_unfold, rv_simple, app_nil_r by assumption.
  split; [reflexivity|]. split; [rewrite rev_length, map_length; reflexivity|].
  intros i g Hi. exists (rev1 g).
  assert (Hl : (i < length gs)%nat) by (apply nth_error_Some; congruence).
  split.
  - rewrite nth_error_nth' with (d := GNone) by (rewrite rev_length, map_length; lia).
    f_equal. rewrite rev_nth by (rewrite map_length; lia). rewrite map_length.
    replace (length gs - S (length gs - 1 - i))%nat with i by lia.
    assert (E : nth_error (map rev1 gs) i = Some (rev1 g)) by (rewrite nth_error_map, Hi; reflexivity).
    apply nth_error_nth with (d := GNone) in E. exact E.
  - intros u. apply rev1_sample. rewrite forallb_forall in H. apply H. eapply nth_error_In; eassumption.
Qed.

Lemma reverse_poly_refuted a : reverseGeomList [GPoly a] = Ok [GNone].
Proof. reflexivity. Qed.

(** the quarter circle 0..90 reversed twice still samples backwards *)
Definition arc90 : arc := mkarc (point 0 0 0) 1 0 90 false.
Lemma reverse_arc_twice_refuted :
  exists rs rs' c, reverseGeomList [GArc arc90] = Ok rs /\ reverseGeomList rs = Ok rs' /\ rs' = [GArc c] /\
    samplearc c 0 <> samplearc arc90 0.
Proof.
  do 3 eexists. split; [reflexivity|]. split; [reflexivity|]. split; [reflexivity|].
  unfold samplearc, arc_angle, arc_range, arc90; simpl.
  assert (Reqb 0 0 = true) as -> by (apply Reqb_true; reflexivity). simpl.
  destruct (cos_sin_pymod ((90 - 0) * (1 - 0) + 0)) as [-> ->].
  destruct (cos_sin_pymod ((90 - 0) * 0 + 0)) as [-> ->].
  replace (((90 - 0) * (1 - 0) + 0) * pi2 / 360) with (PI / 2) by (unfold pi2; field).
  replace (((90 - 0) * 0 + 0) * pi2 / 360) with 0 by (unfold pi2; field).
  rewrite cos_PI2, sin_PI2, cos_0, sin_0. unfold add, scale3, point; simpl.
  intros H. inversion H. lra.
Qed.

(** ** translation of whole figures *)
Section GeoInd.
  Variable P : geo -> Prop.
  Hypotheses (Hp : forall p, P (GPoint p)) (Hl : forall l, P (GLine l)) (Hc : forall c, P (GArc c))
    (Ha : forall a, P (GPoly a)) (Hgs : forall gs, Forall P gs -> P (GList gs)) (Hn : P GNone).
  Fixpoint geo_ind' (g : geo) : P g :=
    match g with
    | GPoint p => Hp p | GLine l => Hl l | GArc c => Hc c | GPoly a => Ha a | GNone => Hn
    | GList gs => Hgs gs ((fix go gs : Forall P gs :=
        match gs with [] => Forall_nil _ | g :: r => Forall_cons _ (geo_ind' g) (go r) end) gs)
    end.
End GeoInd.

Fixpoint tr_list (d : vec) (gs : list geo) : res (list geo) :=
  match gs with
  | [] => Ok []
  | g :: rest => bind (translate g d) (fun g' => bind (tr_list d rest) (fun r => Ok (g' :: r)))
  end.
Lemma translate_list gs d : translate (GList gs) d = bind (tr_list d gs) (fun l => Ok (GList l)).
Proof.
  cbn [translate]. f_equal. induction gs as [|g gs IH]; simpl; [reflexivity|].
  destruct (translate g d); simpl; auto. rewrite IH. reflexivity.
Qed.
Fixpoint ln_list (gs : list geo) (acc : R) : res R :=
  match gs with [] => Ok acc | g :: rest => bind (glength g) (fun x => ln_list rest (acc + x)) end.
Lemma glength_list gs : glength (GList gs) = ln_list gs 0.
Proof.
  cbn [glength]. generalize 0 as acc. induction gs as [|g gs IH]; intros acc; simpl; [reflexivity|].
  destruct (glength g); simpl; auto.
Qed.
Lemma linelength_translate p q d : linelength (add p d, add q d) = linelength (p, q).
Proof. unfold linelength; simpl. rewrite !dist_sq; simpl. f_equal. unfold sq. ring. Qed.
Lemma polylength_translate a d : polylength (map (fun p => add p d) a) = polylength a.
Proof.
  unfold polylength. induction a as [|p [|q a] IH]; simpl in *; try reflexivity.
  rewrite IH, linelength_translate. reflexivity.
Qed.
Lemma translate_length g : forall d g', translate g d = Ok g' -> glength g' = glength g.
Proof.
  induction g as [p|[p q]|c|a|gs IH|] using geo_ind'; intros d g' H.
  - simpl in H. inversion H. reflexivity.
  - simpl in H. inversion H. simpl. f_equal. apply linelength_translate.
  - simpl in H. inversion H. reflexivity.
  - simpl in H. inversion H. simpl. f_equal. apply polylength_translate.
  - rewrite translate_list in H. apply bind_ok in H as (l & Hl & H). injection H as <-.
    rewrite !glength_list. generalize 0 as acc.
    revert l Hl. induction IH as [|g gs Hg Hgs IH]; intros l Hl acc; simpl in Hl.
    + injection Hl as <-. reflexivity.
    + apply bind_ok in Hl as (g' & Hg' & Hl). apply bind_ok in Hl as (r & Hr & Hl). injection Hl as <-.
      simpl. rewrite (Hg _ _ Hg'). destruct (glength g); simpl; auto.
  - discriminate.
Qed.
Lemma translate_roundtrip_pt p d : vw p = 1 -> add (add p d) (scale3 d (-1)) = p.
Proof. apply translate_back. Qed.
(** Every point of [g'] is the corresponding point of [g] moved by [d]. *)
Definition at_offset (d p q : vec) : Prop :=
  vx q = vx p + vx d /\ vy q = vy p + vy d /\ vz q = vz p + vz d.
Inductive moved (d : vec) : geo -> geo -> Prop :=
| mv_point p q : at_offset d p q -> moved d (GPoint p) (GPoint q)
| mv_line l m : (forall u, at_offset d (sampleline l u) (sampleline m u)) -> moved d (GLine l) (GLine m)
| mv_arc c e : (forall u, at_offset d (samplearc c u) (samplearc e u)) -> moved d (GArc c) (GArc e)
| mv_poly a b : Forall2 (at_offset d) a b -> moved d (GPoly a) (GPoly b)
| mv_list gs hs : Forall2 (moved d) gs hs -> moved d (GList gs) (GList hs).
Lemma add_offset p d : at_offset d p (add p d).
Proof. unfold at_offset, add; simpl. auto. Qed.
Lemma translate_moves g : forall d g', translate g d = Ok g' -> moved d g g'.
Proof.
  induction g as [p|[p q]|c|a|gs IH|] using geo_ind'; intros d g' H.
  - simpl in H. inversion H. constructor. apply add_offset.
  - simpl in H. inversion H. constructor. intros u. unfold at_offset, sampleline, add, scale3; simpl.
    split; [|split]; ring.
  - simpl in H. inversion H. constructor. intros u.
    unfold at_offset, samplearc, arc_angle, arc_range, add, scale3; simpl.
    split; [|split]; ring.
  - simpl in H. inversion H. constructor. clear H H1. induction a; simpl; constructor; auto. apply add_offset.
  - rewrite translate_list in H. apply bind_ok in H as (l & Hl & H). injection H as <-. constructor.
    revert l Hl. induction IH as [|g gs Hg Hgs IH]; intros l Hl; simpl in Hl.
    + injection Hl as <-. constructor.
    + apply bind_ok in Hl as (g' & Hg' & Hl). apply bind_ok in Hl as (r & Hr & Hl). injection Hl as <-.
      constructor; auto.
  - discriminate.
Qed.
