From Coq Require Import Reals List Bool ZArith Lra Lia Psatz.
From Verif Require Import Xform_Model Xform_Proofs Fig_Model.
Import ListNotations.
Open Scope R_scope.

Ltac rb :=
  repeat match goal with
  | H : Rltb _ _ = true |- _ => apply Rltb_true in H
  | H : Rltb _ _ = false |- _ => apply Rltb_false in H
  | H : Rleb _ _ = true |- _ => apply Rleb_true in H
  | H : Rleb _ _ = false |- _ => apply Rleb_false in H
  | H : Reqb _ _ = true |- _ => apply Reqb_true in H
  | H : Reqb _ _ = false |- _ => apply Reqb_false in H
  end.

Lemma bind_ok {A B} (x : res A) (f : A -> res B) b :
  bind x f = Ok b -> exists a, x = Ok a /\ f a = Ok b.
Proof. destruct x; simpl; intros H; try discriminate; eauto. Qed.
Lemma fdiv_ok a b : b <> 0 -> fdiv a b = Ok (a / b).
Proof. intros H. unfold fdiv. apply Reqb_false in H. rewrite H. reflexivity. Qed.

(** ** lines *)
Lemma sampleline_0 p q : vw p = 1 -> sampleline (p, q) 0 = p.
Proof. destruct p; simpl; intros ->. unfold sampleline, add, scale3; simpl. f_equal; ring. Qed.
Lemma sampleline_1 p q : vw q = 1 -> sampleline (p, q) 1 = q.
Proof. destruct q; simpl; intros ->. unfold sampleline, add, scale3; simpl. f_equal; ring. Qed.
Lemma sampleline_half l : sampleline l (1/2) = linecenter l.
Proof. unfold sampleline, linecenter, add, scale3; simpl. f_equal; field. Qed.
Lemma sampleline_reverse p q u : sampleline (q, p) u = sampleline (p, q) (1 - u).
Proof. unfold sampleline, add, scale3; simpl. f_equal; ring. Qed.
Lemma sampleline_dist l u v : dist (sampleline l u) (sampleline l v) = Rabs (u - v) * linelength l.
Proof.
  unfold linelength. rewrite !dist_sq. unfold sampleline, add, scale3; simpl.
  rewrite <- sqrt_Rsqr_abs, <- sqrt_mult_alt by apply Rle_0_sqr.
  f_equal. unfold sq, Rsqr. ring.
Qed.
Lemma segment_sample l u1 u2 t :
  sampleline (segmentline l u1 u2) t = sampleline l (u1 + t * (u2 - u1)).
Proof. unfold segmentline, sampleline, add, scale3; simpl. f_equal; ring. Qed.

Lemma mag_scaled x y z u w : mag (mkv (u * x) (u * y) (u * z) w) = Rabs u * mag (mkv x y z w).
Proof.
  rewrite !mag_sq; simpl. rewrite <- sqrt_Rsqr_abs, <- sqrt_mult_alt by apply Rle_0_sqr.
  f_equal. unfold sq, Rsqr. ring.
Qed.

Lemma unsample_sample_line l u :
  linelength l <> 0 -> unsampleline l (sampleline l u) = Ok (Some u).
Proof.
  intros Hl. unfold unsampleline.
  destruct l as [p q]; cbn [fst snd].
  set (dx := vx q - vx p). set (dy := vy q - vy p). set (dz := vz q - vz p).
  assert (E1 : sub q p = mkv dx dy dz 1) by reflexivity.
  assert (E2 : sub (sampleline (p, q) u) p = mkv (u * dx) (u * dy) (u * dz) 1).
  { unfold sampleline, sub, add, scale3, dx, dy, dz; simpl. f_equal; ring. }
  assert (Hm : mag (mkv dx dy dz 1) = linelength (p, q)).
  { unfold linelength; simpl. rewrite (dist_sym p q). unfold dist. rewrite E1. reflexivity. }
  rewrite E1, E2.
  assert (Hc : mag (cross (mkv dx dy dz 1) (mkv (u * dx) (u * dy) (u * dz) 1)) = 0).
  { unfold cross; simpl. rewrite mag_sq; simpl. rewrite <- sqrt_0. f_equal. unfold sq. ring. }
  rewrite Hc. destruct (Rltb epsilon 0) eqn:E; [rb; pose proof eps_pos; lra|].
  rewrite mag_scaled, Hm.
  assert (Hpos : 0 < dx * dx + dy * dy + dz * dz).
  { assert (0 <= sq dx dy dz) by apply sq_nonneg. unfold sq in *.
    destruct (Req_dec (dx * dx + dy * dy + dz * dz) 0) as [H0|]; [|lra].
    exfalso. apply Hl. rewrite <- Hm, mag_sq; simpl. unfold sq. rewrite H0. apply sqrt_0. }
  assert (Hd : dot (mkv dx dy dz 1) (mkv (u * dx) (u * dy) (u * dz) 1) = u * (dx * dx + dy * dy + dz * dz)).
  { unfold dot; simpl. ring. }
  rewrite Hd.
  destruct (Rltb 0 (u * (dx * dx + dy * dy + dz * dz))) eqn:Eu; rb.
  - assert (0 < u) by nra. rewrite fdiv_ok by assumption. simpl. do 2 f_equal.
    rewrite Rabs_right by lra. field. assumption.
  - assert (u <= 0) by nra. rewrite fdiv_ok by assumption. simpl. do 2 f_equal.
    rewrite Rabs_left1 by lra. field. assumption.
Qed.

(** ** bounding boxes *)
Definition inbox (bb : vec * vec) (p : vec) : Prop :=
  vx (fst bb) <= vx p <= vx (snd bb) /\ vy (fst bb) <= vy p <= vy (snd bb) /\ vz (fst bb) <= vz p <= vz (snd bb).
Lemma isinsidebbox_spec bb p : isinsidebbox bb p = true <-> inbox bb p.
Proof.
  unfold isinsidebbox, inbox. rewrite !andb_true_iff, !Rleb_true. tauto.
Qed.
Lemma inbox_segment bb p q u : 0 <= u <= 1 -> inbox bb p -> inbox bb q -> inbox bb (sampleline (p, q) u).
Proof.
  unfold inbox, sampleline, add, scale3; simpl. intros Hu Hp Hq.
  repeat split; nra.
Qed.
Lemma linebbox_sample l u : 0 <= u <= 1 -> isinsidebbox (linebbox l) (sampleline l u) = true.
Proof.
  intros Hu. apply isinsidebbox_spec. destruct l as [p q].
  apply inbox_segment; [assumption| |]; unfold inbox, linebbox; simpl;
  repeat split; eauto using Rmin_l, Rmin_r, Rmax_l, Rmax_r.
Qed.

Lemma upd_spec x mn mx : mn <= mx ->
  fst (upd x mn mx) = Rmin mn x /\ snd (upd x mn mx) = Rmax mx x.
Proof.
  intros H. unfold upd, Rmin, Rmax.
  destruct (Rltb x mn) eqn:E1; [|destruct (Rltb mx x) eqn:E2]; rb; simpl;
  destruct (Rle_dec mn x), (Rle_dec mx x); split; lra.
Qed.

Definition bok (b : bounds) : Prop :=
  fst (bx b) <= snd (bx b) /\ fst (by' b) <= snd (by' b) /\ fst (bz b) <= snd (bz b).
Definition bbox_of (b : bounds) : vec * vec :=
  (point (fst (bx b)) (fst (by' b)) (fst (bz b)), point (snd (bx b)) (snd (by' b)) (snd (bz b))).
Definition ble (b c : bounds) : Prop :=
  fst (bx c) <= fst (bx b) /\ snd (bx b) <= snd (bx c) /\
  fst (by' c) <= fst (by' b) /\ snd (by' b) <= snd (by' c) /\
  fst (bz c) <= fst (bz b) /\ snd (bz b) <= snd (bz c).

Lemma bstep_ok b p : bok b -> bok (bstep b p) /\ ble b (bstep b p) /\ inbox (bbox_of (bstep b p)) p.
Proof.
  intros (H1 & H2 & H3). unfold bok, ble, inbox, bbox_of, bstep, point; simpl.
  destruct (upd_spec (vx p) _ _ H1) as [-> ->].
  destruct (upd_spec (vy p) _ _ H2) as [-> ->].
  destruct (upd_spec (vz p) _ _ H3) as [-> ->].
  repeat match goal with |- context [Rmin ?a ?b] =>
    pose proof (Rmin_l a b); pose proof (Rmin_r a b); generalize dependent (Rmin a b); intros end.
  repeat match goal with |- context [Rmax ?a ?b] =>
    pose proof (Rmax_l a b); pose proof (Rmax_r a b); generalize dependent (Rmax a b); intros end.
  repeat split; lra.
Qed.
Lemma ble_trans a b c : ble a b -> ble b c -> ble a c.
Proof. unfold ble. intros; lra. Qed.
Lemma ble_refl a : ble a a.
Proof. unfold ble. repeat split; lra. Qed.
Lemma ble_inbox a b p : ble a b -> inbox (bbox_of a) p -> inbox (bbox_of b) p.
Proof. unfold ble, inbox, bbox_of, point; simpl. intros; lra. Qed.

Lemma fold_bstep ps : forall b, bok b ->
  bok (fold_left bstep ps b) /\ ble b (fold_left bstep ps b) /\
  forall p, In p ps -> inbox (bbox_of (fold_left bstep ps b)) p.
Proof.
  induction ps as [|q ps IH]; simpl; intros b Hb.
  - split; [assumption|]. split; [apply ble_refl|]. intros p [].
  - destruct (bstep_ok b q Hb) as (H1 & H2 & H3).
    destruct (IH _ H1) as (G1 & G2 & G3). split; [assumption|]. split.
    + eapply ble_trans; eassumption.
    + intros p [<-|Hp]; [eapply ble_inbox; eassumption | auto].
Qed.

(** every vertex is in the box *)
Lemma polybbox_contains a bb p : polybbox a = Some bb -> In p a -> inbox bb p.
Proof.
  unfold polybbox. destruct a as [|q [|r rest]]; intros H Hin.
  - destruct Hin.
  - destruct Hin as [<-|[]]. inversion H. pose proof eps_pos.
    unfold inbox, pointbbox, sub, add, point; simpl. repeat split; lra.
  - injection H as <-.
    assert (Hb : bok (mkb (vx q, vx q) (vy q, vy q) (vz q, vz q))) by (unfold bok; simpl; repeat split; lra).
    change (inbox (bbox_of (fold_left bstep (r :: rest) (mkb (vx q, vx q) (vy q, vy q) (vz q, vz q)))) p).
    destruct (fold_bstep (r :: rest) _ Hb) as (H1 & H2 & H3).
    destruct Hin as [<-|Hin]; [|auto].
    eapply ble_inbox; [eassumption|]. unfold inbox, bbox_of, point; simpl. repeat split; lra.
Qed.

(** tightness: each side of the box is attained by some vertex (>= 2 vertices) *)
Definition attained (f : vec -> R) (ps : list vec) (x : R) : Prop := exists p, In p ps /\ f p = x.
Lemma fold_bstep_attained all ps : forall b, bok b -> incl ps all ->
  (attained vx all (fst (bx b)) /\ attained vx all (snd (bx b)) /\
   attained vy all (fst (by' b)) /\ attained vy all (snd (by' b)) /\
   attained vz all (fst (bz b)) /\ attained vz all (snd (bz b))) ->
  let c := fold_left bstep ps b in
  attained vx all (fst (bx c)) /\ attained vx all (snd (bx c)) /\
  attained vy all (fst (by' c)) /\ attained vy all (snd (by' c)) /\
  attained vz all (fst (bz c)) /\ attained vz all (snd (bz c)).
Proof.
  induction ps as [|q ps IH]; simpl; intros b Hb Hi Ha; [assumption|].
  apply IH.
  - apply bstep_ok; assumption.
  - intros x Hx. apply Hi. right; assumption.
  - assert (Hq : In q all) by (apply Hi; left; reflexivity).
    assert (G : forall (f : vec -> R) mn mx, attained f all mn -> attained f all mx ->
              attained f all (fst (upd (f q) mn mx)) /\ attained f all (snd (upd (f q) mn mx))).
    { intros f mn mx H1 H2. unfold upd.
      destruct (Rltb (f q) mn); [|destruct (Rltb mx (f q))]; simpl; split; auto; exists q; auto. }
    destruct Ha as (A1 & A2 & A3 & A4 & A5 & A6). unfold bstep; simpl.
    repeat split; first [apply (G vx) | apply (G vy) | apply (G vz)]; assumption.
Qed.
Lemma polybbox_tight p q rest bb : polybbox (p :: q :: rest) = Some bb ->
  let a := p :: q :: rest in
  attained vx a (vx (fst bb)) /\ attained vx a (vx (snd bb)) /\
  attained vy a (vy (fst bb)) /\ attained vy a (vy (snd bb)) /\
  attained vz a (vz (fst bb)) /\ attained vz a (vz (snd bb)).
Proof.
  intros H. injection H as <-. cbv zeta.
  apply (fold_bstep_attained (p :: q :: rest) (q :: rest)).
  - unfold bok; simpl; repeat split; lra.
  - intros x Hx; right; assumption.
  - simpl. repeat split; exists p; simpl; auto.
Qed.

(** ** polylines *)
Lemma lines_of_in a : forall p q, In (p, q) (lines_of a) -> In p a /\ In q a.
Proof.
  induction a as [|x [|y rest] IH]; simpl; intros p q H; try contradiction.
  destruct H as [H|H].
  - inversion H; subst. auto.
  - destruct (IH p q H) as [H1 H2]. simpl in *. tauto.
Qed.
Lemma linelength_nonneg l : 0 <= linelength l.
Proof. apply dist_nonneg. Qed.
Lemma total_nonneg ls : 0 <= total_length ls.
Proof. induction ls as [|l ls IH]; simpl; [lra|]. pose proof (linelength_nonneg l). lra. Qed.

(** the walk returns a point of some edge, at the right arc length *)
Lemma walk_spec ls : forall dst d o,
  d <= dst -> walk ls dst d = Ok o ->
  match o with
  | Some p => exists pre l post t, ls = pre ++ l :: post /\ 0 <= t <= 1 /\ p = sampleline l t /\
                dst = d + total_length pre + t * linelength l
  | None => d + total_length ls < dst \/ ls = []
  end.
Proof.
  induction ls as [|l ls IH]; intros dst d o Hd H; simpl in H.
  - inversion H. right; reflexivity.
  - destruct (Rleb dst (d + linelength l)) eqn:E; rb.
    + apply bind_ok in H as (q & Hq & H). injection H as <-.
      unfold fdiv in Hq. destruct (Reqb (linelength l) 0) eqn:E0; [discriminate|]. rb.
      injection Hq as <-. pose proof (linelength_nonneg l).
      exists [], l, ls, (1 - (d + linelength l - dst) / linelength l).
      assert (0 < linelength l) by lra.
      assert (Hm : (d + linelength l - dst) / linelength l * linelength l = d + linelength l - dst) by (field; lra).
      set (r := (d + linelength l - dst) / linelength l) in *.
      repeat split; simpl; try nra.
    + apply IH in H; [|lra]. destruct o as [p|].
      * destruct H as (pre & l' & post & t & -> & Ht & Hp & Hdst).
        exists (l :: pre), l', post, t. repeat split; try tauto. simpl. lra.
      * left. simpl. destruct H as [H| ->]; simpl; lra.
Qed.

Lemma walk_total ls : forall dst d, dst <= d + total_length ls -> ls <> [] ->
  Forall (fun l => linelength l <> 0) ls -> exists p, walk ls dst d = Ok (Some p).
Proof.
  induction ls as [|l ls IH]; intros dst d H Hne Hnz; [congruence|].
  simpl in *. inversion Hnz; subst.
  destruct (Rleb dst (d + linelength l)) eqn:E; rb.
  - rewrite fdiv_ok by assumption. simpl. eauto.
  - destruct ls as [|l' ls'].
    + simpl in H. lra.
    + apply IH; try assumption; [simpl in *; lra | discriminate].
Qed.

Lemma walk_nonneg_start l ls p q : l = (p, q) -> linelength l <> 0 -> vw p = 1 -> walk (l :: ls) 0 0 = Ok (Some p).
Proof.
  intros -> H Hw. simpl. pose proof (linelength_nonneg (p, q)).
  destruct (Rleb 0 (0 + linelength (p, q))) eqn:E; rb; [|lra].
  rewrite fdiv_ok by assumption. simpl. do 2 f_equal.
  replace (1 - (0 + linelength (p, q) - 0) / linelength (p, q)) with 0 by (field; assumption).
  apply sampleline_0; assumption.
Qed.

Lemma Rdiv_1 x : x / 1 = x.
Proof. field. Qed.
Lemma pymod_small u : 0 <= u < 1 -> pymod u 1 = u.
Proof.
  intros H. unfold pymod. rewrite Rdiv_1.
  assert (E : Int_part u = 0%Z).
  { unfold Int_part. rewrite <- (tech_up u 1); simpl; try lra; reflexivity. }
  rewrite E. simpl. ring.
Qed.
Lemma pymod_one : pymod 1 1 = 0.
Proof.
  unfold pymod. rewrite Rdiv_1.
  assert (E : Int_part 1 = 1%Z).
  { unfold Int_part. rewrite <- (tech_up 1 2); simpl; try lra; reflexivity. }
  rewrite E. simpl. ring.
Qed.

(** samplepoly: for 0<=u<=1 the result lies on the polyline (hence in its box)
    at arc length u*L (u mod 1 for closed figures) *)
Lemma last_edge ls (d : line) : ls <> [] -> exists pre, ls = pre ++ [last ls d].
Proof. intros H. exists (removelast ls). apply app_removelast_last. assumption. Qed.
Lemma total_app a b : total_length (a ++ b) = total_length a + total_length b.
Proof. induction a as [|l a IH]; simpl; [lra|]. rewrite IH. lra. Qed.

Lemma samplepoly_spec a u o :
  0 <= u <= 1 -> samplepoly a u = Ok o ->
  let v := if poly_closed a then pymod u 1 else u in
  exists p pre l post t, o = Some p /\ lines_of a = pre ++ l :: post /\ 0 <= t <= 1 /\
     p = sampleline l t /\ v * polylength a = total_length pre + t * linelength l.
Proof.
  intros Hu H. unfold samplepoly in H.
  destruct (Nat.ltb_spec (length a) 3); [discriminate|].
  set (v := if poly_closed a then pymod u 1 else u) in *.
  assert (Hv : 0 <= v <= 1).
  { unfold v. destruct (poly_closed a); [|assumption]. pose proof (pymod_range u 1 ltac:(lra)). lra. }
  assert (Hne : lines_of a <> []).
  { destruct a as [|x [|y r]]; simpl in *; try lia. discriminate. }
  fold (polylength a) in H. cbv zeta. pose proof (total_nonneg (lines_of a)) as Hn. fold (polylength a) in Hn.
  destruct (Rltb v 1) eqn:E; rb.
  - assert (Hvp : 0 <= v * polylength a) by (apply Rmult_le_pos; lra).
    pose proof (walk_spec _ _ _ _ Hvp H) as W.
    destruct o as [p|].
    + destruct W as (pre & l & post & t & H1 & H2 & H3 & H4).
      exists p, pre, l, post, t. repeat split; try tauto. lra.
    + exfalso. destruct W as [W|W]; [|contradiction]. fold (polylength a) in W. nra.
  - assert (v = 1) as Hv1 by lra. rewrite Hv1 in *. clearbody v.
    apply bind_ok in H as (q & Hq & H). injection H as <-.
    unfold fdiv in Hq. set (ll := last (lines_of a) (point 0 0 0, point 0 0 0)) in *.
    destruct (Reqb (linelength ll) 0) eqn:E0; [discriminate|]. rb. injection Hq as <-.
    destruct (last_edge (lines_of a) (point 0 0 0, point 0 0 0) Hne) as [pre Hpre]. fold ll in Hpre.
    exists (sampleline ll 1), pre, ll, [], 1. repeat split; try lra.
    + f_equal. f_equal. field. assumption.
    + assumption.
    + unfold polylength. rewrite Hpre at 1. rewrite total_app. simpl. lra.
Qed.

Lemma samplepoly_inbox a u p bb :
  0 <= u <= 1 -> samplepoly a u = Ok (Some p) -> polybbox a = Some bb -> isinsidebbox bb p = true.
Proof.
  intros Hu H Hb. apply isinsidebbox_spec.
  destruct (samplepoly_spec a u _ Hu H) as (p' & pre & [x y] & post & t & E & H1 & H2 & H3 & _).
  injection E as ->. subst p'.
  destruct (lines_of_in a x y) as [Hx Hy].
  { rewrite H1. apply in_or_app. right; left; reflexivity. }
  apply inbox_segment; [assumption | |]; eapply polybbox_contains; eauto.
Qed.

Lemma samplepoly_total a u :
  (3 <= length a)%nat -> Forall (fun l => linelength l <> 0) (lines_of a) -> u <= 1 ->
  exists p, samplepoly a u = Ok (Some p).
Proof.
  intros Hl Hnz Hu. unfold samplepoly.
  destruct (Nat.ltb_spec (length a) 3); [lia|].
  assert (Hne : lines_of a <> []).
  { destruct a as [|x [|y r]]; simpl in *; try lia. discriminate. }
  set (v := if poly_closed a then pymod u 1 else u).
  assert (Hv : v <= 1).
  { unfold v. destruct (poly_closed a); [|assumption]. pose proof (pymod_range u 1 ltac:(lra)). lra. }
  pose proof (total_nonneg (lines_of a)).
  destruct (Rltb v 1) eqn:E; rb.
  - apply walk_total; try assumption. nra.
  - destruct (last_edge (lines_of a) (point 0 0 0, point 0 0 0) Hne) as [pre Hpre].
    rewrite fdiv_ok; [simpl; eauto|].
    rewrite Forall_forall in Hnz. apply Hnz. rewrite Hpre at 2. apply in_or_app. right; left; reflexivity.
Qed.

Lemma samplepoly_start p q rest :
  (1 <= length rest)%nat -> linelength (p, q) <> 0 -> vw p = 1 ->
  samplepoly (p :: q :: rest) 0 = Ok (Some p).
Proof.
  intros Hr Hl Hw. unfold samplepoly.
  destruct (Nat.ltb_spec (length (p :: q :: rest)) 3); [simpl in *; lia|].
  assert (E : (if poly_closed (p :: q :: rest) then pymod 0 1 else 0) = 0).
  { destruct (poly_closed _); [apply pymod_small; lra | reflexivity]. }
  cbv zeta. rewrite E. destruct (Rltb 0 1) eqn:E1; rb; [|lra].
  rewrite Rmult_0_l. apply walk_nonneg_start with (q := q); auto.
Qed.

Lemma lines_of_last a d p : (2 <= length a)%nat -> snd (last (lines_of a) d) = last a p.
Proof.
  induction a as [|x [|y rest] IH]; simpl; intros H; try lia.
  destruct rest as [|z rest].
  - reflexivity.
  - simpl in *. apply IH. lia.
Qed.

Lemma samplepoly_end_open a p :
  (3 <= length a)%nat -> poly_closed a = false ->
  linelength (last (lines_of a) (point 0 0 0, point 0 0 0)) <> 0 -> vw (last a p) = 1 ->
  samplepoly a 1 = Ok (Some (last a p)).
Proof.
  intros Hl Hc Hnz Hw. unfold samplepoly.
  destruct (Nat.ltb_spec (length a) 3); [lia|]. rewrite Hc. cbv zeta.
  destruct (Rltb 1 1) eqn:E; rb; [lra|].
  rewrite fdiv_ok by assumption. simpl. do 2 f_equal.
  set (ll := last _ _) in *.
  replace ((1 * total_length (lines_of a) - total_length (lines_of a) + linelength ll) / linelength ll) with 1 by (field; assumption).
  rewrite (surjective_pairing ll).
  pose proof (lines_of_last a (point 0 0 0, point 0 0 0) p ltac:(lia)) as E2. fold ll in E2.
  rewrite E2. apply sampleline_1. assumption.
Qed.

Lemma samplepoly_closed_wraps a :
  poly_closed a = true -> samplepoly a 1 = samplepoly a 0.
Proof.
  intros Hc. unfold samplepoly. rewrite Hc, pymod_one, (pymod_small 0) by lra. reflexivity.
Qed.

(** ** line-line intersection *)
Lemma ll_params_sound l1 l2 t u :
  ll_params l1 l2 = Ok (Some (t, u)) ->
  vx (sampleline l1 t) = vx (sampleline l2 u) /\ vy (sampleline l1 t) = vy (sampleline l2 u).
Proof.
  unfold ll_params. destruct (ll_planar l1 l2); [|discriminate]. simpl.
  set (D := ll_denom l1 l2).
  destruct (Rltb (D * D) epsilon) eqn:E; [discriminate|]. rb. intros H. injection H as <- <-.
  assert (D <> 0). { intros H. rewrite H in E. pose proof eps_pos. lra. }
  unfold sampleline, add, scale3; simpl. unfold ll_denom in D. unfold D in *.
  split; field; assumption.
Qed.

(** the intersection parameters are the only solution *)
Lemma ll_params_complete l1 l2 t u :
  ll_planar l1 l2 = true -> epsilon <= ll_denom l1 l2 * ll_denom l1 l2 ->
  vx (sampleline l1 t) = vx (sampleline l2 u) -> vy (sampleline l1 t) = vy (sampleline l2 u) ->
  ll_params l1 l2 = Ok (Some (t, u)).
Proof.
  intros Hp He Hx Hy. unfold ll_params. rewrite Hp. simpl. apply Rltb_false in He. rewrite He.
  unfold sampleline, add, scale3 in Hx, Hy; simpl in Hx, Hy.
  apply Rltb_false in He.
  assert (HD : ll_denom l1 l2 <> 0). { intros H. rewrite H in He. pose proof eps_pos. lra. }
  do 2 f_equal. unfold ll_denom in *.
  set (x1 := vx (fst l1)) in *. set (x2 := vx (snd l1)) in *. set (y1 := vy (fst l1)) in *. set (y2 := vy (snd l1)) in *.
  set (x3 := vx (fst l2)) in *. set (x4 := vx (snd l2)) in *. set (y3 := vy (fst l2)) in *. set (y4 := vy (snd l2)) in *.
  clearbody x1 x2 y1 y2 x3 x4 y3 y4.
  assert (Hx' : x1 - x3 = t * (x1 - x2) - u * (x3 - x4)) by nra.
  assert (Hy' : y1 - y3 = t * (y1 - y2) - u * (y3 - y4)) by nra.
  rewrite Hx', Hy'. f_equal; field; assumption.
Qed.

Lemma intersect_sound l1 l2 inside p :
  lineLineIntersectXY l1 l2 inside = Ok (Some p) ->
  exists t u, (inside = true -> 0 <= t <= 1 /\ 0 <= u <= 1) /\
    vx p = vx (sampleline l1 t) /\ vy p = vy (sampleline l1 t) /\
    vx p = vx (sampleline l2 u) /\ vy p = vy (sampleline l2 u).
Proof.
  unfold lineLineIntersectXY. intros H. apply bind_ok in H as (o & Ho & H).
  destruct o as [[t u]|]; [|discriminate].
  destruct (ll_params_sound _ _ _ _ Ho) as [Ex Ey].
  exists t, u.
  destruct (inside && negb (in01 t && in01 u)) eqn:E; [discriminate|]. injection H as <-.
  assert (G1 : vx (fst l1) + t * (vx (snd l1) - vx (fst l1)) = vx (sampleline l1 t)) by (unfold sampleline; simpl; ring).
  assert (G2 : vy (fst l1) + t * (vy (snd l1) - vy (fst l1)) = vy (sampleline l1 t)) by (unfold sampleline; simpl; ring).
  cbn [vx vy]. rewrite G1, G2, <- Ex, <- Ey. repeat split;
  try (destruct inside; [|discriminate]; simpl in E; apply negb_false_iff, andb_true_iff in E as [E1 E2];
       unfold in01 in E1, E2; apply negb_true_iff, orb_false_iff in E1, E2; destruct E1, E2; rb; lra).
Qed.

Lemma intersect_complete_cond l1 l2 t u :
  ll_planar l1 l2 = true -> epsilon <= ll_denom l1 l2 * ll_denom l1 l2 ->
  0 <= t <= 1 -> 0 <= u <= 1 ->
  vx (sampleline l1 t) = vx (sampleline l2 u) -> vy (sampleline l1 t) = vy (sampleline l2 u) ->
  exists p, lineLineIntersectXY l1 l2 true = Ok (Some p) /\ vx p = vx (sampleline l1 t) /\ vy p = vy (sampleline l1 t).
Proof.
  intros Hp He Ht Hu Hx Hy. unfold lineLineIntersectXY.
  rewrite (ll_params_complete l1 l2 t u Hp He Hx Hy). simpl.
  assert (in01 t = true) as ->. { unfold in01. destruct (Rltb t 0) eqn:?, (Rltb 1 t) eqn:?; rb; auto; lra. }
  assert (in01 u = true) as ->. { unfold in01. destruct (Rltb u 0) eqn:?, (Rltb 1 u) eqn:?; rb; auto; lra. }
  simpl. eexists; split; [reflexivity|]. unfold sampleline; simpl. split; ring.
Qed.

(** two perpendicular segments of length 1/25 crossing at their midpoints *)
Definition small1 : line := (point (-1/50) 0 0, point (1/50) 0 0).
Definition small2 : line := (point 0 (-1/50) 0, point 0 (1/50) 0).
Lemma intersect_complete_refuted :
  sampleline small1 (1/2) = point 0 0 0 /\ sampleline small2 (1/2) = point 0 0 0 /\
  linelength small1 = 1/25 /\ linelength small2 = 1/25 /\
  lineLineIntersectXY small1 small2 true = Ok None.
Proof.
  assert (L : forall x, 0 <= x -> sqrt (x * x) = x) by (intros; apply sqrt_square; assumption).
  repeat split.
  - unfold sampleline, small1, add, scale3, point; simpl. f_equal; field.
  - unfold sampleline, small2, add, scale3, point; simpl. f_equal; field.
  - unfold linelength, small1; simpl. rewrite dist_sq; simpl. unfold sq.
    match goal with |- sqrt ?e = _ => replace e with ((1/25) * (1/25)) by field end. apply L. lra.
  - unfold linelength, small2; simpl. rewrite dist_sq; simpl. unfold sq.
    match goal with |- sqrt ?e = _ => replace e with ((1/25) * (1/25)) by field end. apply L. lra.
  - unfold lineLineIntersectXY, ll_params, ll_planar; simpl.
    rewrite !Rminus_eq_0, Rabs_R0.
    destruct (Rltb epsilon 0) eqn:E; rb; [pose proof eps_pos; lra|]. simpl.
    unfold ll_denom, small1, small2; simpl.
    destruct (Rltb _ epsilon) eqn:E2; [reflexivity|]. rb. unfold epsilon in E2. lra.
Qed.

(** ** barycentric coordinates and triangles *)
Definition convex3 (a p1 p2 p3 : vec) : Prop :=
  exists l1 l2 l3, 0 <= l1 /\ 0 <= l2 /\ 0 <= l3 /\ l1 + l2 + l3 = 1 /\
    vx a = l1 * vx p1 + l2 * vx p2 + l3 * vx p3 /\
    vy a = l1 * vy p1 + l2 * vy p2 + l3 * vy p3.

Lemma bary_spec a p1 p2 p3 l1 l2 l3 :
  barycentricXY_raw a p1 p2 p3 = Ok (l1, l2, l3) ->
  l1 + l2 + l3 = 1 /\ vx a = l1 * vx p1 + l2 * vx p2 + l3 * vx p3 /\
  vy a = l1 * vy p1 + l2 * vy p2 + l3 * vy p3.
Proof.
  unfold barycentricXY_raw. destruct (Rltb _ _) eqn:E; [discriminate|]. rb.
  intros H. injection H as <- <- <-.
  assert (HD : bary_denom p1 p2 p3 <> 0).
  { intros H. rewrite H, Rabs_R0 in E. pose proof eps_pos; lra. }
  unfold bary_denom in *. repeat split; field; assumption.
Qed.
Lemma bary_unique a p1 p2 p3 m1 m2 m3 :
  epsilon <= Rabs (bary_denom p1 p2 p3) ->
  m1 + m2 + m3 = 1 -> vx a = m1 * vx p1 + m2 * vx p2 + m3 * vx p3 ->
  vy a = m1 * vy p1 + m2 * vy p2 + m3 * vy p3 ->
  barycentricXY_raw a p1 p2 p3 = Ok (m1, m2, m3).
Proof.
  intros He Hs Hx Hy. unfold barycentricXY_raw.
  assert (HD : bary_denom p1 p2 p3 <> 0).
  { intros H. rewrite H, Rabs_R0 in He. pose proof eps_pos; lra. }
  apply Rltb_false in He. rewrite He. rewrite Hx, Hy.
  assert (m3 = 1 - m1 - m2) as -> by lra.
  unfold bary_denom in *. f_equal. f_equal; [f_equal|]; field; assumption.
Qed.

Lemma triangle_spec a p1 p2 p3 b :
  epsilon <= Rabs (bary_denom p1 p2 p3) ->
  isInsideTriangleXY_raw a p1 p2 p3 = Ok b -> (b = true <-> convex3 a p1 p2 p3).
Proof.
  intros He H. unfold isInsideTriangleXY_raw in H. apply bind_ok in H as ([[l1 l2] l3] & Hb & H).
  injection H as <-. destruct (bary_spec _ _ _ _ _ _ _ Hb) as (S1 & S2 & S3). split.
  - rewrite !andb_true_iff, !Rleb_true. intros. exists l1, l2, l3. tauto.
  - intros (m1 & m2 & m3 & M1 & M2 & M3 & MS & MX & MY).
    rewrite (bary_unique a p1 p2 p3 m1 m2 m3 He MS MX MY) in Hb. injection Hb as <- <- <-.
    rewrite !andb_true_iff, !Rleb_true. repeat split; lra.
Qed.
Lemma triangle_total a p1 p2 p3 :
  epsilon <= Rabs (bary_denom p1 p2 p3) -> exists b, isInsideTriangleXY_raw a p1 p2 p3 = Ok b.
Proof.
  intros He. unfold isInsideTriangleXY_raw, barycentricXY_raw. apply Rltb_false in He. rewrite He.
  simpl. eauto.
Qed.

(** convex polygon test: a True answer is right (the point is in a triangle of vertices) *)
Lemma convex_true_sound poly : forall a, convex_raw a poly = Ok true ->
  exists p1 p2 p3, In p1 poly /\ In p2 poly /\ In p3 poly /\ convex3 a p1 p2 p3.
Proof.
  assert (T : forall a p1 p2 p3, isInsideTriangleXY_raw a p1 p2 p3 = Ok true -> convex3 a p1 p2 p3).
  { intros a p1 p2 p3 H. apply (triangle_spec a p1 p2 p3 true); auto.
    unfold isInsideTriangleXY_raw, barycentricXY_raw in H. destruct (Rltb _ _) eqn:E; [discriminate|]. rb. assumption. }
  induction poly as [|p1 tl IH]; intros a H; [discriminate|].
  destruct tl as [|p2 [|p3 rest]]; try discriminate.
  change (match rest with
          | [] => isInsideTriangleXY_raw a p1 p2 p3
          | _ :: _ => bind (isInsideTriangleXY_raw a p1 p2 p3)
              (fun b => if b then Ok true else convex_raw a (p2 :: p3 :: rest))
          end = Ok true) in H.
  destruct rest as [|p4 rest].
  - exists p1, p2, p3. repeat split; simpl; auto.
  - apply bind_ok in H as (b & Hb & H). destruct b.
    + exists p1, p2, p3. repeat split; simpl; auto.
    + destruct (IH a H) as (q1 & q2 & q3 & H1 & H2 & H3 & H4).
      exists q1, q2, q3. repeat split; auto; right; assumption.
Qed.

Definition square4 : list vec := [point 0 0 0; point 1 0 0; point 1 1 0; point 0 1 0].
Lemma planar_z0 ps : (forall p, In p ps -> vz p = 0) -> isXYPlanar ps = true.
Proof.
  unfold isXYPlanar. destruct ps as [|p ps]; [reflexivity|]. intros H. apply forallb_forall. intros q Hq.
  rewrite (H p), (H q) by (simpl; auto). rewrite Rminus_eq_0, Rabs_R0.
  destruct (Rltb epsilon 0) eqn:E; rb; [pose proof eps_pos; lra | reflexivity].
Qed.

Ltac rdec :=
  match goal with
  | |- context [Rltb ?a ?b] =>
      let E := fresh in destruct (Rltb a b) eqn:E;
      [try (exfalso; apply Rltb_true in E; unfold epsilon in *; lra)
      |try (exfalso; apply Rltb_false in E; unfold epsilon in *; lra)]
  | |- context [Rleb ?a ?b] =>
      let E := fresh in destruct (Rleb a b) eqn:E;
      [try (exfalso; apply Rleb_true in E; unfold epsilon in *; lra)
      |try (exfalso; apply Rleb_false in E; unfold epsilon in *; lra)]
  end.

Lemma convex_refuted :
  (* the point (1/10,1/2) is strictly inside the unit square, yet the answer is False *)
  isInsideConvexPolyXY (point (1/10) (1/2) 0) square4 = Ok false /\
  convex3 (point (1/10) (1/2) 0) (point 0 0 0) (point 1 0 0) (point 0 1 0).
Proof.
  split.
  - unfold isInsideConvexPolyXY. rewrite planar_z0.
    2: { simpl. intuition (subst; reflexivity). }
    simpl. unfold isInsideTriangleXY_raw, barycentricXY_raw, bary_denom, point; simpl.
    replace ((0 - 1) * (0 - 1) + (1 - 1) * (0 - 1)) with 1 by ring.
    replace ((1 - 1) * (1 - 0) + (0 - 1) * (0 - 1)) with 1 by ring.
    rewrite Rabs_R1. rdec. simpl.
    repeat (first [rewrite Rdiv_1 | rdec]; simpl); reflexivity.
  - exists (4/10), (1/10), (1/2). unfold point; simpl. repeat split; lra.
Qed.

(** ** even-odd test *)
Definition square5 : list vec := [point 0 0 0; point 1 0 0; point 1 1 0; point 0 1 0; point 0 0 0].

Lemma sqrt_lt_eps x : 0 <= x -> sqrt x < epsilon -> x < epsilon * epsilon.
Proof.
  intros Hx H. pose proof (sqrt_pos x). rewrite <- (sqrt_sqrt x Hx). nra.
Qed.

Lemma Rltb_t a b : a < b -> Rltb a b = true. Proof. apply Rltb_true. Qed.
Lemma Rltb_f a b : b <= a -> Rltb a b = false. Proof. apply Rltb_false. Qed.
Lemma Rleb_t a b : a <= b -> Rleb a b = true. Proof. apply Rleb_true. Qed.
Lemma Rleb_f a b : b < a -> Rleb a b = false. Proof. apply Rleb_false. Qed.

Lemma upd_100 : upd 1 0 0 = (0, 1).
Proof. unfold upd. rewrite (Rltb_f 1 0), (Rltb_t 0 1) by lra. reflexivity. Qed.
Lemma upd_000 : upd 0 0 0 = (0, 0).
Proof. unfold upd. rewrite (Rltb_f 0 0) by lra. reflexivity. Qed.
Lemma upd_101 : upd 1 0 1 = (0, 1).
Proof. unfold upd. rewrite (Rltb_f 1 0), (Rltb_f 1 1) by lra. reflexivity. Qed.
Lemma upd_001 : upd 0 0 1 = (0, 1).
Proof. unfold upd. rewrite (Rltb_f 0 0), (Rltb_f 1 0) by lra. reflexivity. Qed.
Lemma polybbox_square : polybbox square5 = Some (point 0 0 0, point 1 1 0).
Proof.
  unfold polybbox, square5, point; cbn [fold_left].
  unfold bstep; cbn [vx vy vz bx by' bz fst snd].
  repeat (rewrite ?upd_100, ?upd_000, ?upd_101, ?upd_001; cbn [fst snd]). reflexivity.
Qed.

Definition half : vec := point (1/2) (1/2) 0.
Definition ray_end : vec := mkv (101/100) (101/100) 0 1.
Lemma planar_flat a b c d : vz a = 0 -> vz b = 0 -> vz c = 0 -> vz d = 0 -> ll_planar (a, b) (c, d) = true.
Proof.
  intros Ha Hb Hc Hd. unfold ll_planar; simpl. rewrite Ha, Hb, Hc, Hd, Rminus_eq_0, Rabs_R0.
  rewrite Rltb_f by (pose proof eps_pos; lra). reflexivity.
Qed.
Lemma ll_params_val a b c d t u :
  vz a = 0 -> vz b = 0 -> vz c = 0 -> vz d = 0 ->
  epsilon <= ll_denom (a, b) (c, d) * ll_denom (a, b) (c, d) ->
  vx (sampleline (a, b) t) = vx (sampleline (c, d) u) -> vy (sampleline (a, b) t) = vy (sampleline (c, d) u) ->
  ll_params (a, b) (c, d) = Ok (Some (t, u)).
Proof. intros. apply ll_params_complete; auto using planar_flat. Qed.

Lemma evenodd_refuted :
  isinside_closed_polyXY square5 half = Ok false.
Proof.
  unfold isinside_closed_polyXY. rewrite polybbox_square.
  assert (isinsidebbox (point 0 0 0, point 1 1 0) half = true) as ->.
  { apply isinsidebbox_spec. unfold inbox, half, point; simpl. lra. }
  assert (add (mkv (1 / 100) (1 / 100) 0 1) (point 1 1 0) = ray_end) as E.
  { unfold add, point, ray_end; simpl. f_equal; field. }
  cbn [snd negb]. rewrite E.
  assert (V : vclose ray_end half = false).
  { unfold vclose, close, half, ray_end, sub; simpl. apply Rltb_f. rewrite Rminus_0_r, mag_sq; simpl.
    rewrite Rabs_right by (apply Rle_ge, sqrt_pos).
    match goal with |- _ <= sqrt ?x => destruct (Rlt_dec (sqrt x) epsilon) as [H|H]; [|lra] end.
    apply sqrt_lt_eps in H; [|apply sq_nonneg]. unfold sq, epsilon in H. lra. }
  rewrite V. rewrite planar_z0.
  2: { simpl. intuition (subst; reflexivity). }
  cbn [negb]. unfold square5; cbn [lines_of crossings].
  (* bottom edge: met beyond the ray's start (u < 0) *)
  rewrite (ll_params_val (point 0 0 0) (point 1 0 0) half ray_end 0 (-50/51)); try reflexivity;
    [|unfold ll_denom, epsilon, half, ray_end, point; simpl; lra
     |unfold sampleline, half, ray_end, point; simpl; lra|unfold sampleline, half, ray_end, point; simpl; lra].
  (* right edge: met at its end (1,1) *)
  rewrite (ll_params_val (point 1 0 0) (point 1 1 0) half ray_end 1 (50/51)); try reflexivity;
    [|unfold ll_denom, epsilon, half, ray_end, point; simpl; lra
     |unfold sampleline, half, ray_end, point; simpl; lra|unfold sampleline, half, ray_end, point; simpl; lra].
  (* top edge: met at its start, the same vertex (1,1) *)
  rewrite (ll_params_val (point 1 1 0) (point 0 1 0) half ray_end 0 (50/51)); try reflexivity;
    [|unfold ll_denom, epsilon, half, ray_end, point; simpl; lra
     |unfold sampleline, half, ray_end, point; simpl; lra|unfold sampleline, half, ray_end, point; simpl; lra].
  (* left edge *)
  rewrite (ll_params_val (point 0 1 0) (point 0 0 0) half ray_end 1 (-50/51)); try reflexivity;
    [|unfold ll_denom, epsilon, half, ray_end, point; simpl; lra
     |unfold sampleline, half, ray_end, point; simpl; lra|unfold sampleline, half, ray_end, point; simpl; lra].
  cbn [bind].
  rewrite (Rleb_f 0 (-50/51)), (Rleb_t 0 (50/51)), (Rleb_t (50/51) 1), (Rleb_t 0 0), (Rleb_t 0 1), (Rleb_t 1 1) by lra.
  reflexivity.
Qed.
