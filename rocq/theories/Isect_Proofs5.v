From Coq Require Import Reals List Bool Lra Lia Psatz.
From Verif Require Import Xform_Model Xform_Proofs Fig_Model Fig_Proofs Fig_Proofs2 Fig_Proofs3 Isect_Model Isect_Spec Isect_Proofs Isect_Proofs2 Isect_Proofs3 Isect_Proofs4.
From Verif Require Kin_Model.
Import ListNotations.
Open Scope R_scope.

Lemma circle_iff c : iscircle c = true <-> a_start c = 0 /\ a_end c = 360.
Proof. unfold iscircle. rewrite andb_true_iff, !Reqb_true. tauto. Qed.
Lemma aa_range_plain c : plain_arc c -> aa_range c = arc_range c.
Proof.
  intros PA. unfold aa_range. rewrite (plain_not_circle c PA). destruct (plain_range c PA) as [E1 E2].
  pose proof (plain_end c PA) as PE. pose proof PA as (A & B & N & F). rewrite (pymod_id (a_start c)) by lra.
  rewrite (surjective_pairing (arc_range c)), E1, E2. f_equal. destruct PE as [[E ->]|[E ->]]; [reflexivity|].
  rewrite (proj2 (Rltb_false (a_end c) (a_start c))) by lra.
  assert (0 < a_start c) by (destruct (Req_dec (a_start c) 0) as [K|K]; [exfalso; apply F; auto|lra]).
  rewrite (proj2 (Rltb_true 0 (a_start c))) by lra. lra.
Qed.
Lemma aa_range_circle c : iscircle c = true -> aa_range c = (0, 360) /\ arc_range c = (0, 360).
Proof.
  intros H. pose proof (proj1 (circle_iff c) H) as [A B]. unfold aa_range, arc_range. rewrite H, A, B.
  rewrite (proj2 (Reqb_true 0 0)) by reflexivity. split; reflexivity.
Qed.
Lemma fair_ranged c : fair_arc c -> ranged c /\ aa_range c = arc_range c /\ epsilon <= epsilon /\ fst (arc_range c) < snd (arc_range c).
Proof.
  intros [H|(H & _)].
  - apply circle_iff in H. pose proof (circle_ranged c H) as R. destruct (aa_range_circle c H) as [E1 E2]. rewrite E1, E2 in *. cbn [fst snd].
    split; [exact R|]. split; [reflexivity|]. split; lra.
  - pose proof (plain_ranged c H) as [R _]. split; [exact R|]. split; [apply aa_range_plain; exact H|]. split; [lra|]. apply R.
Qed.
Lemma fair_g c p : fair_arc c -> 0 < a_r c -> on_circle c p -> vw p = 1 ->
  (on_arc c p <-> let g := deg_of (sub p (a_c c)) in let s := fst (arc_range c) in let e := snd (arc_range c) in
     (e <= 360 /\ s <= g <= e) \/ (360 < e /\ (s <= g \/ g <= e - 360))).
Proof.
  intros FA Hr C W. destruct (fair_ranged c FA) as (RG & _ & _ & _). rewrite (on_arc_iff c p Hr RG C W). cbv zeta.
  pose proof (deg_range (sub p (a_c c))) as G. set (g := deg_of _) in *. clearbody g. destruct RG as [RG1 RG2].
  assert (N : snd (arc_range c) = 360 -> fst (arc_range c) = 0).
  { destruct FA as [H|(H & E1 & E2)].
    - apply circle_iff in H. destruct (aa_range_circle c H) as [_ ->]. reflexivity.
    - destruct (plain_range c H) as [-> ->]. pose proof H as (A & B & _). destruct (Rltb _ _); intros; exfalso; [|lra]. lra. }
  set (s := fst (arc_range c)) in *. set (e := snd (arc_range c)) in *. clearbody s e. split.
  - intros [T|T]; destruct (Rle_dec e 360) as [L|L]; try (left; split; lra); try (right; split; [lra|left; lra]); try (right; split; [lra|right; lra]).
  - intros [[L T]|[L [T|T]]]; [left; exact T|left; lra|right; lra].
Qed.
Lemma within_iff c p : fair_arc c -> 0 < a_r c -> on_circle c p -> vw p = 1 ->
  (aa_within (aa_range c) (deg_of (sub p (a_c c))) = true <-> on_arc c p).
Proof.
  intros FA Hr C W. rewrite (fair_g c p FA Hr C W). destruct (fair_ranged c FA) as (_ & -> & _ & _). cbv zeta. unfold aa_within.
  destruct (arc_range c) as [s e]. cbn [fst snd]. set (g := deg_of _). clearbody g.
  bools; cbn [andb orb]; split; intros Q; try discriminate; try reflexivity; try lra; exfalso; lra.
Qed.

(** ** parameters of the intersections of two arcs *)
Lemma aa_param_ok c p lim : fair_arc c -> 0 < a_r c -> on_circle c p -> vw p = 1 ->
  exists u, aa_param (aa_range c) lim (a_rev c) (deg_of (sub p (a_c c))) = Ok u /\ samplearc c u = p /\
    (lim = snd (aa_range c) \/ snd (aa_range c) <= 360 -> on_arc c p -> 0 <= u <= 1).
Proof.
  intros FA Hr C W. pose proof (fair_g c p FA Hr C W) as FG. pose proof (circle_spot c p Hr C W) as SP.
  destruct (fair_ranged c FA) as ([RG1 RG2] & EQ & _ & LT). rewrite EQ. pose proof (samplearc_spot c) as SS.
  pose proof (deg_range (sub p (a_c c))) as G. cbv zeta in FG. set (g := deg_of _) in *. clearbody g.
  unfold aa_param. destruct (arc_range c) as [s e]. cbn [fst snd] in *.
  assert (DV : forall x, fdiv x (e - s) = Ok (x / (e - s))) by (intros x; unfold fdiv; rewrite (proj2 (Reqb_false (e - s) 0)) by lra; reflexivity).
  rewrite !DV. cbn [bind].
  assert (BND : forall x, 0 <= x - s <= e - s -> 0 <= (x - s) / (e - s) <= 1).
  { intros x [A B]. split; [apply Rmult_le_pos; [lra|apply Rlt_le, Rinv_0_lt_compat; lra]|].
    apply (Rmult_le_reg_r (e - s)); [lra|]. replace ((x - s) / (e - s) * (e - s)) with (x - s) by (field; lra). lra. }
  assert (GO : forall x, spot c x = spot c g -> samplearc c (if a_rev c then 1 - (x - s) / (e - s) else (x - s) / (e - s)) = p).
  { intros x E. rewrite SS, SP, <- E. f_equal. destruct (a_rev c); field; lra. }
  assert (G3 : spot c (g + 360) = spot c g) by (apply spot_same; [exact Hr|]; rewrite pymod_plus, pymod_id by lra; reflexivity).
  assert (FL : forall v : R, 0 <= v <= 1 -> 0 <= (if a_rev c then 1 - v else v) <= 1) by (intros v; destruct (a_rev c); lra).
  destruct (Rleb e 360 || Rleb s g || (Rltb 360 e && Rltb (lim - 360) g)) eqn:Q.
  - eexists. split; [reflexivity|]. split; [apply GO; reflexivity|]. intros LE OA. apply FL, BND. apply FG in OA. clear FG.
    destruct (Rleb e 360) eqn:Q1; [apply Rleb_true in Q1|apply Rleb_false in Q1]; [lra|].
    destruct (Rleb s g) eqn:Q2; [apply Rleb_true in Q2; lra|apply Rleb_false in Q2].
    cbn [orb] in Q. apply andb_true_iff in Q as [_ Q]. apply Rltb_true in Q. exfalso. destruct LE as [-> |LE]; lra.
  - apply orb_false_iff in Q as [Q Q3]. apply orb_false_iff in Q as [Q1 Q2]. apply Rleb_false in Q1. apply Rleb_false in Q2.
    rewrite (proj2 (Rltb_true 360 e)) by lra. eexists. split; [reflexivity|]. split; [apply GO; exact G3|].
    intros LE OA. apply FL, BND. apply FG in OA. lra.
Qed.

(** ** the inside test *)
Lemma inside_circle c p : iscircle c = true -> (isinsidearcXY c p = true <-> dist (a_c c) p <= a_r c).
Proof.
  intros H. unfold isinsidearcXY. rewrite H. destruct (Rltb (a_r c) (dist (a_c c) p)) eqn:E; [apply Rltb_true in E|apply Rltb_false in E].
  - split; [discriminate|intros; exfalso; lra].
  - split; auto.
Qed.
Lemma inside_sector c p : fair_arc c -> 0 < dist (a_c c) p -> vz p = vz (a_c c) -> vw p = 1 ->
  (isinsidearcXY c p = true <-> dist (a_c c) p <= a_r c /\ on_arc (through c p) p).
Proof.
  intros FA D Z W. assert (C : on_circle (through c p) p) by (split; [apply dist_comm|exact Z]).
  destruct FA as [H|(PA & N0 & N1)].
  - apply circle_iff in H. rewrite (inside_circle c p H). split; [|tauto]. intros E. split; [exact E|]. apply circle_on_arc; try assumption.
  - assert (FA' : fair_arc (through c p)) by (right; split; [exact PA|split; assumption]).
    rewrite (fair_g (through c p) p FA' D C W). cbv zeta. change (a_c (through c p)) with (a_c c). change (arc_range (through c p)) with (arc_range c).
    unfold isinsidearcXY. rewrite (plain_not_circle c PA). destruct (plain_range c PA) as [-> ->]. pose proof (plain_end c PA) as PE.
    pose proof PA as (A & B & N & F). rewrite (pymod_id (a_start c)) by lra.
    destruct PE as [[E ->]|[E _]]; [|contradiction]. set (g := deg_of _). clearbody g.
    set (e := if Rltb (a_end c) (a_start c) then a_end c + 360 else a_end c). clearbody e.
    destruct (Rltb (a_r c) (dist (a_c c) p)) eqn:Q; [apply Rltb_true in Q|apply Rltb_false in Q].
    + split; [discriminate|]. intros [K _]. exfalso. lra.
    + bools; cbn [andb orb]; split; intros K; try discriminate; try reflexivity; try (split; [exact Q|]; lra); exfalso; destruct K as [_ K]; lra.
Qed.

(** ** tangent lines *)
Lemma tangent_perp l c p z : vz (fst l) = z -> vz (snd l) = z -> vz (a_c c) = z -> 0 <= a_r c ->
  on_circle c p -> on_line l p ->
  (vx (snd l) - vx (fst l)) * (vx p - vx (a_c c)) + (vy (snd l) - vy (fst l)) * (vy p - vy (a_c c)) = 0 -> tangent_at l c p.
Proof.
  intros Z1 Z2 Z3 Hr C [t0 E] P. split; [exact C|]. split; [exists t0; exact E|]. intros t. apply sq_le; [apply dist_nonneg|].
  destruct C as [C _]. rewrite <- C, !dist2. rewrite E in *. unfold sampleline, add, scale3 in *. cbn [vx vy vz] in *. rewrite Z1, Z2, Z3.
  set (ax := vx (fst l)) in *. set (ay := vy (fst l)) in *. set (bx := vx (snd l)) in *. set (by_ := vy (snd l)) in *. set (cx := vx (a_c c)) in *. set (cy := vy (a_c c)) in *.
  pose proof (Rle_0_sqr ((t - t0) * (bx - ax))) as S1. pose proof (Rle_0_sqr ((t - t0) * (by_ - ay))) as S2. unfold Rsqr in S1, S2.
  assert (X : (t - t0) * ((bx - ax) * (ax * (1 - t0) + bx * t0 - cx) + (by_ - ay) * (ay * (1 - t0) + by_ * t0 - cy)) = 0) by (rewrite P; ring).
  lra.
Qed.
(** one tangent line: [n] is the common normal of the two circles *)
Lemma tangent_pair (a b : arc) n1 n2 z : vz (a_c a) = z -> vz (a_c b) = z -> 0 <= a_r a -> 0 <= a_r b -> n1 * n1 + n2 * n2 = 1 ->
  (a_r b - a_r a) + (vx (a_c b) - vx (a_c a)) * n1 + (vy (a_c b) - vy (a_c a)) * n2 = 0 ->
  let p := add (scale3 (point n1 n2 0) (a_r a)) (a_c a) in
  let q := add (scale3 (point n1 n2 0) (a_r b)) (a_c b) in
  tangent_at (p, q) a p /\ tangent_at (p, q) b q.
Proof.
  intros Z1 Z2 H1 H2 U E p q.
  assert (PZ : vz p = z) by (unfold p, add, scale3, point; cbn [vz]; rewrite Z1; ring). assert (QZ : vz q = z) by (unfold q, add, scale3, point; cbn [vz]; rewrite Z2; ring).
  assert (ON : forall c, vz (a_c c) = z -> 0 <= a_r c -> on_circle c (add (scale3 (point n1 n2 0) (a_r c)) (a_c c))).
  { intros c Zc Hc. split; [|unfold add, scale3, point; cbn [vz]; ring]. apply sq_eq; [apply dist_nonneg|exact Hc|].
    rewrite dist2. unfold add, scale3, point; cbn [vx vy vz]. transitivity (a_r c * a_r c * (n1 * n1 + n2 * n2)); [ring|rewrite U; ring]. }
  assert (DOT : forall r, (vx q - vx p) * (n1 * r) + (vy q - vy p) * (n2 * r) = 0).
  { intros r. unfold p, q, add, scale3, point; cbn [vx vy].
    transitivity (r * ((a_r b - a_r a) * (n1 * n1 + n2 * n2) + (vx (a_c b) - vx (a_c a)) * n1 + (vy (a_c b) - vy (a_c a)) * n2)); [ring|]. rewrite U, Rmult_1_r, E. ring. }
  split; (apply (tangent_perp _ _ _ z); [exact PZ|exact QZ|assumption|assumption| | |]).
  - apply ON; assumption.
  - exists 0. unfold sampleline, add, scale3. cbn [fst snd]. apply vext; cbn [vx vy vz vw]; try ring; reflexivity.
  - cbn [fst snd]. rewrite <- (DOT (a_r a)). unfold p at 2 4. unfold add, scale3, point. cbn [vx vy]. ring.
  - apply ON; assumption.
  - exists 1. unfold sampleline, add, scale3. cbn [fst snd]. apply vext; cbn [vx vy vz vw]; try ring; reflexivity.
  - cbn [fst snd]. rewrite <- (DOT (a_r b)). unfold q at 2 4. unfold add, scale3, point. cbn [vx vy]. ring.
Qed.
Lemma tangent_swap p q c x : vw p = 1 -> vw q = 1 -> tangent_at (p, q) c x -> tangent_at (q, p) c x.
Proof.
  intros W1 W2 (A & [t E] & B). split; [exact A|]. split.
  - exists (1 - t). rewrite E. apply sampleline_reverse.
  - intros u. rewrite sampleline_reverse. apply B.
Qed.
(** the two directions *)
Lemma two_normals (a b : arc) z : vz (a_c a) = z -> vz (a_c b) = z -> a_r a <= a_r b -> a_r b - a_r a < dist (a_c a) (a_c b) ->
  let d := dist (a_c a) (a_c b) in let dr := a_r b - a_r a in
  let theta := Kin_Model.atan2 dr (sqrt (d * d - dr * dr)) in
  let dd := sub (a_c b) (a_c a) in
  let phi := Kin_Model.atan2 (vy dd) (vx dd) in
  let g1 := phi + theta + PI / 2 in let g2 := phi - theta - PI / 2 in
  dr + (vx (a_c b) - vx (a_c a)) * cos g1 + (vy (a_c b) - vy (a_c a)) * sin g1 = 0 /\
  dr + (vx (a_c b) - vx (a_c a)) * cos g2 + (vy (a_c b) - vy (a_c a)) * sin g2 = 0 /\
  (cos g1, sin g1) <> (cos g2, sin g2).
Proof.
  intros Z1 Z2 R D d dr theta dd phi g1 g2. assert (DP : 0 < d) by (unfold d; lra). assert (DR : 0 <= dr) by (unfold dr; lra). assert (DL : dr < d) by exact D.
  assert (SQ : 0 < d * d - dr * dr) by nra.
  assert (SS : sqrt (d * d - dr * dr) * sqrt (d * d - dr * dr) = d * d - dr * dr) by (apply sqrt_sqrt; lra).
  destruct (atan2_polar (sqrt (d * d - dr * dr)) dr d DP) as [T1 T2]; [rewrite SS; ring|]. fold theta in T1, T2.
  destruct (atan2_polar (vx dd) (vy dd) d DP) as [P1 P2].
  { unfold d. rewrite dist2, Z1, Z2. unfold dd, sub. cbn [vx vy]. ring. }
  fold phi in P1, P2. assert (EX : vx (a_c b) - vx (a_c a) = vx dd) by reflexivity. assert (EY : vy (a_c b) - vy (a_c a) = vy dd) by reflexivity. rewrite EX, EY, P1, P2.
  assert (BP : 0 < sqrt (d * d - dr * dr)) by (apply sqrt_lt_R0; exact SQ).
  assert (CP : 0 < cos theta). { apply (Rmult_lt_reg_l d); [exact DP|]. rewrite Rmult_0_r, <- T1. exact BP. }
  assert (C1 : cos g1 = - sin (phi + theta) /\ sin g1 = cos (phi + theta)).
  { unfold g1. rewrite (cos_plus (phi + theta)), (sin_plus (phi + theta)), cos_PI2, sin_PI2. split; ring. }
  assert (C2 : cos g2 = sin (phi - theta) /\ sin g2 = - cos (phi - theta)).
  { unfold g2. rewrite (cos_minus (phi - theta)), (sin_minus (phi - theta)), cos_PI2, sin_PI2. split; ring. }
  destruct C1 as [-> ->], C2 as [-> ->]. rewrite !sin_plus, !cos_plus, !sin_minus, !cos_minus. pose proof (sin2_cos2 phi) as U. unfold Rsqr in U.
  set (S := sin phi) in *. set (C := cos phi) in *. set (s := sin theta) in *. set (c := cos theta) in *.
  split; [|split].
  - transitivity (dr - d * s * (S * S + C * C)); [ring|]. rewrite U. lra.
  - transitivity (dr - d * s * (S * S + C * C)); [ring|]. rewrite U. lra.
  - intros E. injection E as E1 E2. assert (S * c = 0) by lra. assert (C * c = 0) by lra.
    assert (S = 0) by (apply Rmult_integral in H as [H|H]; [exact H|lra]). assert (C = 0) by (apply Rmult_integral in H0 as [H0|H0]; [exact H0|lra]). rewrite H1, H2 in U. lra.
Qed.
Lemma tangents_ok c1 c2 z : iscircle c1 = true -> iscircle c2 = true -> vz (a_c c1) = z -> vz (a_c c2) = z -> 0 <= a_r c1 -> 0 <= a_r c2 ->
  Rabs (a_r c1 - a_r c2) < dist (a_c c1) (a_c c2) ->
  exists l1 l2, circleCircleTangentsXY c1 c2 = Ok (l1, l2) /\ both_tangent c1 c2 l1 /\ both_tangent c1 c2 l2 /\
    (0 < a_r c1 \/ 0 < a_r c2 -> l1 <> l2).
Proof.
  intros I1 I2 Z1 Z2 H1 H2 D. unfold circleCircleTangentsXY. rewrite I1, I2. cbn [andb negb].
  unfold isXYPlanar. cbn [forallb]. rewrite Z1, Z2, Rminus_eq_0, Rabs_R0, (proj2 (Rltb_false epsilon 0)) by (unfold epsilon; lra). cbn [negb andb].
  assert (PQ : forall n m : R * R, point (fst n) (snd n) 0 = point (fst m) (snd m) 0 -> n = m) by (intros [n1 n2] [m1 m2] E; injection E as -> ->; reflexivity).
  assert (NE : forall (n1 n2 m1 m2 r : R) (x : vec), 0 < r -> (n1, n2) <> (m1, m2) -> add (scale3 (point n1 n2 0) r) x <> add (scale3 (point m1 m2 0) r) x).
  { intros n1 n2 m1 m2 r x Hr N E. apply N. unfold add, scale3, point in E. cbn [vx vy vz] in E. injection E as E1 E2. f_equal; apply (Rmult_eq_reg_r r); lra. }
  unfold tangents_raw. destruct (Rltb (a_r c2) (a_r c1)) eqn:B; [apply Rltb_true in B|apply Rltb_false in B].
  - rewrite Rabs_right in D by lra. rewrite (proj2 (Rleb_false _ _)) by lra.
    destruct (two_normals c2 c1 z Z2 Z1 ltac:(lra) ltac:(rewrite dist_comm; lra)) as (N1 & N2 & N3). rewrite (dist_comm (a_c c2)) in N1, N2, N3. cbv zeta in N1, N2, N3. cbv zeta.
    set (g1 := _ + PI / 2) in *. set (g2 := _ - PI / 2) in *.
    pose proof (sin2_cos2 g1) as U1. pose proof (sin2_cos2 g2) as U2. unfold Rsqr in U1, U2.
    destruct (tangent_pair c2 c1 (cos g1) (sin g1) z Z2 Z1 H2 H1 ltac:(lra) N1) as [A1 A2].
    destruct (tangent_pair c2 c1 (cos g2) (sin g2) z Z2 Z1 H2 H1 ltac:(lra) N2) as [A3 A4].
    eexists _, _. split; [reflexivity|]. split; [split; cbn [fst snd]; apply tangent_swap; try reflexivity; assumption|].
    split; [split; cbn [fst snd]; apply tangent_swap; try reflexivity; assumption|].
    intros _ E. apply (f_equal fst) in E. cbn [fst] in E. revert E. apply NE; [lra|exact N3].
  - rewrite Rabs_left1 in D by lra. rewrite (proj2 (Rleb_false _ _)) by lra.
    destruct (two_normals c1 c2 z Z1 Z2 ltac:(lra) ltac:(lra)) as (N1 & N2 & N3). cbv zeta in N1, N2, N3. cbv zeta.
    set (g1 := _ + PI / 2) in *. set (g2 := _ - PI / 2) in *.
    pose proof (sin2_cos2 g1) as U1. pose proof (sin2_cos2 g2) as U2. unfold Rsqr in U1, U2.
    destruct (tangent_pair c1 c2 (cos g1) (sin g1) z Z1 Z2 H1 H2 ltac:(lra) N1) as [A1 A2].
    destruct (tangent_pair c1 c2 (cos g2) (sin g2) z Z1 Z2 H1 H2 ltac:(lra) N2) as [A3 A4].
    eexists _, _. split; [reflexivity|]. split; [split; assumption|]. split; [split; assumption|].
    intros P E. apply (f_equal snd) in E. cbn [snd] in E. revert E. apply NE; [lra|exact N3].
Qed.
Lemma tangents_error c1 c2 : iscircle c1 = true -> iscircle c2 = true ->
  dist (a_c c1) (a_c c2) <= Rabs (a_r c1 - a_r c2) -> circleCircleTangentsXY c1 c2 = ValueError.
Proof.
  intros I1 I2 D. unfold circleCircleTangentsXY. rewrite I1, I2. cbn [andb negb]. destruct (negb _); [reflexivity|].
  unfold tangents_raw. destruct (Rltb (a_r c2) (a_r c1)) eqn:B; [apply Rltb_true in B|apply Rltb_false in B].
  - rewrite Rabs_right in D by lra. rewrite (proj2 (Rleb_true _ _)) by lra. reflexivity.
  - rewrite Rabs_left1 in D by lra. rewrite (proj2 (Rleb_true _ _)) by lra. reflexivity.
Qed.
