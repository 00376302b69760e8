From Coq Require Import Reals List Bool Lra Lia Psatz.
From Verif Require Import Xform_Model Xform_Proofs Fig_Model Fig_Proofs Fig_Proofs2 Isect_Model Isect_Spec
  Isect_Proofs Isect_Proofs2 Isect_Proofs3 Glist_Model Glist_Spec Glist_Proofs Glist_Proofs2.
Import ListNotations.
Open Scope R_scope.

(** ** polylines as paths *)
Notation ppath := (path linelength sampleline (point 0 0 0)).
Fixpoint chained (ls : list line) : Prop :=
  match ls with l :: r => match r with m :: _ => snd l = fst m /\ chained r | [] => True end | [] => True end.
Definition w1 (ls : list line) : Prop := Forall (fun l => vw (fst l) = 1 /\ vw (snd l) = 1) ls.
Lemma lines_chained a : chained (lines_of a).
Proof.
  induction a as [|p [|q r] IH]; try exact I. destruct r as [|r0 r]; [exact I|]. cbn [lines_of chained] in *. split; [reflexivity|exact IH].
Qed.
Lemma lines_w1 a : Forall (fun p => vw p = 1) a -> w1 (lines_of a).
Proof.
  induction a as [|p [|q r] IH]; intros H; try constructor.
  - inversion H as [|? ? H1 H2]; subst. inversion H2; subst. auto.
  - inversion H; subst. apply IH. assumption.
Qed.
Lemma lines_len a : length (lines_of a) = (length a - 1)%nat.
Proof. induction a as [|p [|q r] IH]; cbn [lines_of length] in *; try lia. Qed.
Lemma total_tl ls : total_length ls = tot linelength ls. Proof. reflexivity. Qed.
Lemma walk_path ls : forall dst d, Forall (fun l => 0 < linelength l) ls -> ls <> [] -> dst - d <= total_length ls ->
  walk ls dst d = Ok (Some (ppath ls (dst - d))).
Proof.
  induction ls as [|g r IH]; intros dst d F N T; [congruence|]. inversion F as [|? ? P Fr]; subst.
  cbn [walk]. cbv zeta. cbn [total_length fold_right] in T. fold (total_length r) in T.
  destruct (Rleb dst (d + linelength g)) eqn:C; [apply Rleb_true in C|apply Rleb_false in C].
  - rewrite path_cons by (first [lra|right; lra]). rewrite fdiv_ok by lra. cbn [bind]. do 2 f_equal. f_equal. field. lra.
  - destruct r as [|h r']; [cbn in T; lra|]. rewrite path_skip by (first [discriminate|lra]). rewrite IH; [do 2 f_equal; f_equal; lra|exact Fr|discriminate|lra].
Qed.
Lemma end_path ls : forall s d, Forall (fun l => 0 < linelength l) ls -> ls <> [] -> total_length ls <= s ->
  ppath ls s = sampleline (last ls d) ((s - total_length ls + linelength (last ls d)) / linelength (last ls d)).
Proof.
  induction ls as [|g r IH]; intros s d F N T; [congruence|]. inversion F as [|? ? P Fr]; subst.
  cbn [total_length fold_right] in *. fold (total_length r) in *. destruct r as [|h r'].
  - cbn [last path]. do 2 f_equal. cbn. lra.
  - pose proof (tot_pos linelength (h :: r') Fr ltac:(discriminate)) as TP. rewrite <- total_tl in TP.
    rewrite path_skip by (first [discriminate|lra]). rewrite (IH _ d) by (first [assumption|discriminate|lra]).
    change (last (g :: h :: r') d) with (last (h :: r') d). do 2 f_equal. lra.
Qed.
Lemma lines_ne a : (3 <= length a)%nat -> lines_of a <> [].
Proof. intros H E. pose proof (lines_len a) as L. rewrite E in L. cbn in L. lia. Qed.
Lemma samplepoly_path a u : good_poly a -> (poly_closed a = false \/ 0 <= u < 1) ->
  samplepoly a u = Ok (Some (ppath (lines_of a) (u * polylength a))).
Proof.
  intros (L & W & P) C. unfold samplepoly. rewrite (proj2 (Nat.ltb_ge _ _)) by exact L. cbv zeta. fold (polylength a).
  assert (E : (if poly_closed a then pymod u 1 else u) = u). { destruct (poly_closed a); [|reflexivity]. destruct C as [C|C]; [discriminate|]. apply pymod_small, C. }
  rewrite E. pose proof (lines_ne a L) as NE. pose proof (tot_pos linelength (lines_of a) P NE) as TP. change (tot linelength (lines_of a)) with (polylength a) in TP.
  destruct (Rltb u 1) eqn:B; [apply Rltb_true in B|apply Rltb_false in B].
  - rewrite walk_path by (first [assumption|unfold polylength in *; nra]). do 2 f_equal. f_equal. lra.
  - rewrite (end_path _ _ (point 0 0 0, point 0 0 0)) by (first [assumption|unfold polylength in *; nra]).
    rewrite fdiv_ok; [reflexivity|]. assert (In (last (lines_of a) (point 0 0 0, point 0 0 0)) (lines_of a)).
    { destruct (exists_last NE) as (l' & x & K). rewrite K, last_last. apply in_or_app. right. left. reflexivity. }
    rewrite Forall_forall in P. specialize (P _ H). lra.
Qed.

(** ** slices of polylines *)
Lemma chained_cons l r : chained r -> (forall m, hd_error r = Some m -> snd l = fst m) -> chained (l :: r).
Proof. destruct r as [|m r]; intros H K; [exact I|]. cbn [chained]. split; [apply K; reflexivity|exact H]. Qed.
Notation lloop := (seg_loop (fun l => Ok (linelength l)) (fun l x y => Ok (segmentline l x y))).
Lemma started_chain ls : forall dst1 dst2 d ls', chained ls -> w1 ls -> Forall (fun l => epsilon <= linelength l) ls -> dst1 <= d ->
  lloop dst1 dst2 ls d true = Ok ls' ->
  chained ls' /\ w1 ls' /\ forall m', hd_error ls' = Some m' -> exists m, hd_error ls = Some m /\ fst m' = fst m.
Proof.
  assert (EP : 0 < epsilon) by (unfold epsilon; lra).
  induction ls as [|g r IH]; intros dst1 dst2 d ls' C W F D E; cbn [seg_loop] in E.
  - injection E as <-. split; [exact I|]. split; [constructor|]. discriminate.
  - inversion F as [|? ? P Fr]; subst. inversion W as [|? ? [W1 W2] Wr]; subst. cbn [bind] in E.
    rewrite (proj2 (Rltb_false (linelength g) epsilon)), (proj2 (Rleb_true dst1 (d + linelength g))) in E by lra. cbn [negb] in E.
    destruct (Rleb dst2 (d + linelength g)).
    + injection E as <-. split; [exact I|]. split; [repeat constructor; reflexivity|]. intros m' K. injection K as <-. exists g. split; [reflexivity|].
      cbn [segmentline fst]. destruct g as [p q]. apply sampleline_0. exact W1.
    + destruct (lloop dst1 dst2 r (d + linelength g) true) as [xs| | | | |] eqn:Q; cbn [bind] in E; try discriminate. injection E as <-.
      destruct (IH dst1 dst2 (d + linelength g) xs) as (C' & W' & H'); auto; [destruct r; [exact I|apply C]|lra|].
      split; [|split; [constructor; auto|intros m' K; injection K as <-; exists g; auto]].
      apply chained_cons; [exact C'|]. intros m K. destruct (H' m K) as (m0 & K1 & ->). destruct r as [|h r']; [discriminate|]. injection K1 as <-. apply C.
Qed.
Lemma fresh_chain ls : forall dst1 dst2 d ls', chained ls -> w1 ls -> Forall (fun l => epsilon <= linelength l) ls ->
  lloop dst1 dst2 ls d false = Ok ls' -> chained ls' /\ w1 ls'.
Proof.
  assert (EP : 0 < epsilon) by (unfold epsilon; lra).
  induction ls as [|g r IH]; intros dst1 dst2 d ls' C W F E; cbn [seg_loop] in E.
  - injection E as <-. split; [exact I|constructor].
  - inversion F as [|? ? P Fr]; subst. inversion W as [|? ? [W1 W2] Wr]; subst. cbn [bind] in E. assert (Cr : chained r) by (destruct r; [exact I|apply C]).
    rewrite (proj2 (Rltb_false (linelength g) epsilon)) in E by lra. cbv zeta in E. cbn [negb] in E.
    destruct (Rleb dst1 (d + linelength g)) eqn:B; [apply Rleb_true in B|eapply IH; eauto].
    destruct (Rltb dst2 (d + linelength g)).
    + injection E as <-. split; [exact I|repeat constructor; reflexivity].
    + destruct (lloop dst1 dst2 r (d + linelength g) true) as [xs| | | | |] eqn:Q; cbn [bind] in E; try discriminate. injection E as <-.
      destruct (started_chain r dst1 dst2 (d + linelength g) xs Cr Wr Fr B Q) as (C' & W' & H').
      split; [|constructor; [split; reflexivity|exact W']]. apply chained_cons; [exact C'|]. intros m K. destruct (H' m K) as (m0 & K1 & ->).
      destruct r as [|h r']; [discriminate|]. injection K1 as <-. destruct C as [<- _]. destruct g as [p q]. cbn [segmentline snd]. apply sampleline_1. exact W2.
Qed.
Lemma last_irr {A} (l : list A) d d' : l <> [] -> last l d = last l d'.
Proof. induction l as [|x l IH]; intros N; [congruence|]. destruct l; [reflexivity|]. cbn [last] in *. apply IH. discriminate. Qed.
Lemma lines_of_points ls : chained ls -> forall l r, ls = l :: r -> lines_of (map fst ls ++ [snd (last ls l)]) = ls.
Proof.
  induction ls as [|g r IH]; intros C l r0 E; [discriminate|]. injection E as <- <-. destruct r as [|h r'].
  - cbn. destruct g; reflexivity.
  - destruct C as [C1 C2]. specialize (IH C2 h r' eq_refl). change (last (g :: h :: r') g) with (last (h :: r') g).
    rewrite (last_irr (h :: r') g h) by discriminate.
    cbn [map app]. cbn [map app] in IH. cbn [lines_of]. rewrite <- C1 in *. rewrite <- surjective_pairing. f_equal. exact IH.
Qed.
Lemma points_last (ls : list line) (l : line) : map fst ls ++ [snd (last ls l)] <> [] /\ forall d, last (map fst ls ++ [snd (last ls l)]) d = snd (last ls l).
Proof. split; [destruct (map fst ls); discriminate|]. intros d. apply last_last. Qed.
Lemma path_end ls d : Forall (fun l => 0 < linelength l) ls -> ls <> [] -> w1 ls -> ppath ls (total_length ls) = snd (last ls d).
Proof.
  intros F N W. rewrite (end_path ls (total_length ls) d F N) by lra.
  assert (I : In (last ls d) ls). { destruct (exists_last N) as (l' & x & ->). rewrite last_last. apply in_or_app. right. left. reflexivity. }
  rewrite Forall_forall in F. pose proof (F _ I) as P. unfold w1 in W. rewrite Forall_forall in W. destruct (W _ I) as [_ W2].
  replace ((total_length ls - total_length ls + linelength (last ls d)) / linelength (last ls d)) with 1 by (field; lra).
  destruct (last ls d) as [p q]. apply sampleline_1. exact W2.
Qed.
Lemma segline_len l x y : 0 <= x -> x < y -> y <= 1 -> linelength (segmentline l x y) = (y - x) * linelength l.
Proof. intros. unfold segmentline, linelength at 1. cbn [fst snd]. rewrite sampleline_dist, Rabs_minus_sym, Rabs_right by lra. reflexivity. Qed.
Lemma slice_ok a u1 u2 : good_poly a -> Forall (fun l => epsilon <= linelength l) (lines_of a) -> 0 <= u1 -> u1 < u2 -> u2 <= 1 ->
  ~ corner a (u1 * polylength a) -> ~ corner a (u2 * polylength a) ->
  exists ps, slice_lines a u1 u2 = Ok ps /\ (2 <= length ps)%nat /\ polylength ps = (u2 - u1) * polylength a /\
    Forall (fun p => vw p = 1) ps /\ Forall (fun l => 0 < linelength l) (lines_of ps) /\
    (forall s, 0 <= s <= (u2 - u1) * polylength a -> ppath (lines_of ps) s = ppath (lines_of a) (u1 * polylength a + s)) /\
    forall d, last ps d = ppath (lines_of a) (u2 * polylength a).
Proof.
  intros (L & W & P) FE U1 U12 U2 J1 J2. pose proof (lines_ne a L) as NE. pose proof (tot_pos linelength (lines_of a) P NE) as TP. change (tot linelength (lines_of a)) with (polylength a) in TP.
  assert (EP : 0 < epsilon) by (unfold epsilon; lra).
  destruct (loop_fresh linelength sampleline (point 0 0 0) segmentline (fun l => epsilon <= linelength l) (fun g H => H) (fun g x y _ => segline_len g x y)
    (fun g x y t _ _ _ _ => segment_sample g x y t) (lines_of a) (u1 * polylength a) (u2 * polylength a) 0 FE NE ltac:(nra) ltac:(nra))
    as (ls' & E & N' & P' & L' & Q).
  { change (tot linelength (lines_of a)) with (polylength a). nra. } { rewrite Rminus_0_r. exact J1. } { rewrite Rminus_0_r. exact J2. }
  { destruct (fresh_chain _ _ _ _ _ (lines_chained a) (lines_w1 a W) FE E) as [C' W'].
    destruct ls' as [|l r] eqn:EL; [congruence|]. rewrite <- EL in *. set (ps := map fst ls' ++ [snd (last ls' l)]).
    assert (LP : lines_of ps = ls') by (apply (lines_of_points ls' C' l r EL)).
    assert (TL : polylength ps = u2 * polylength a - u1 * polylength a) by (unfold polylength at 1; rewrite LP; exact L').
    exists ps. split; [|split; [|split; [|split; [|split; [|split]]]]].
    + unfold slice_lines. cbv zeta. unfold slice. fold (polylength a).
      rewrite (proj2 (Rltb_false u1 0)), (proj2 (Rltb_false u2 u1)), (proj2 (Rltb_false u2 0)), (proj2 (Rltb_false 1 u2)) by lra. cbn [orb].
      rewrite E. cbn [bind]. unfold sliced_points, ps. rewrite EL. reflexivity.
    + unfold ps. rewrite EL, app_length, map_length. cbn [length]. lia.
    + rewrite TL. ring.
    + unfold ps. apply Forall_app. split.
      * rewrite Forall_map. eapply Forall_impl; [|exact W']. intros x [K _]. exact K.
      * constructor; [|constructor]. assert (I : In (last ls' l) ls'). { destruct (exists_last N') as (l' & x & ->). rewrite last_last. apply in_or_app. right. left. reflexivity. }
        unfold w1 in W'. rewrite Forall_forall in W'. apply W', I.
    + rewrite LP. exact P'.
    + intros s S. rewrite LP, Q by lra. f_equal. lra.
    + intros d. destruct (points_last ls' l) as [_ K]. fold ps in K. rewrite K. rewrite <- (path_end ls' l P' N' W').
      change (total_length ls') with (tot linelength ls'). rewrite L', Q by nra. f_equal. lra. }
Qed.
Lemma figure_sample ps v : (2 <= length ps)%nat -> Forall (fun p => vw p = 1) ps -> Forall (fun l => 0 < linelength l) (lines_of ps) -> 0 <= v < 1 ->
  sample (figure ps) v = Ok (Some (ppath (lines_of ps) (v * polylength ps))) /\ glength (figure ps) = Ok (polylength ps).
Proof.
  intros L W P V. destruct ps as [|p [|q [|r ps]]]; cbn [length] in L; try lia.
  - cbn [figure sample glength]. cbn [lines_of] in P. inversion P as [|? ? K _]; subst. split.
    + change (lines_of [p; q]) with [(p, q)]. rewrite path_cons by (first [assumption|auto]). do 3 f_equal. unfold polylength, total_length. cbn [lines_of fold_right]. field. lra.
    + f_equal. unfold polylength, total_length. cbn. lra.
  - cbn [figure]. split; [|reflexivity]. cbn [sample]. apply samplepoly_path; [|right; exact V]. split; [cbn; lia|split; assumption].
Qed.
Lemma segmentpoly_ok a u1 u2 fuel : good_poly a -> Forall (fun l => epsilon <= linelength l) (lines_of a) -> 0 <= u1 -> u1 < u2 ->
  (if poly_closed a then u2 < 1 else u2 <= 1) ->
  ~ corner a (u1 * polylength a) -> ~ corner a (u2 * polylength a) ->
  exists ps, segmentpoly (S fuel) a u1 u2 = Some (Ok ps) /\ glength (figure ps) = Ok ((u2 - u1) * polylength a) /\
    (forall v, 0 <= v < 1 -> sample (figure ps) v = samplepoly a (u1 + v * (u2 - u1))) /\
    forall d, samplepoly a u2 = Ok (Some (last ps d)).
Proof.
  intros G FE U1 U12 U2 J1 J2. assert (U2' : u2 <= 1) by (destruct (poly_closed a); lra).
  destruct (slice_ok a u1 u2 G FE U1 U12 U2' J1 J2) as (ps & E & L & T & W & P & Q & Z). exists ps. split; [|split; [|split]].
  - cbn [segmentpoly]. destruct (poly_closed a).
    + cbv zeta. rewrite !pymod_small by lra. rewrite (proj2 (Rltb_false u2 u1)) by lra. rewrite E. reflexivity.
    + rewrite (proj2 (Rltb_false u1 0)), (proj2 (Rltb_false u2 0)), (proj2 (Rltb_false 1 u1)), (proj2 (Rltb_false 1 u2)), (proj2 (Rltb_false u2 u1)) by lra. cbn [orb]. rewrite E. reflexivity.
  - rewrite (proj2 (figure_sample ps 0 L W P ltac:(lra))), T. reflexivity.
  - intros v V. rewrite (proj1 (figure_sample ps v L W P V)), T. pose proof (tot_nonneg linelength (lines_of a) (proj2 (proj2 G))) as TN. change (tot linelength (lines_of a)) with (polylength a) in TN.
    rewrite samplepoly_path; [|exact G|destruct (poly_closed a); [right|left; reflexivity]; nra]. do 2 f_equal.
    assert (D : 0 <= (u2 - u1) * polylength a) by nra. set (D0 := (u2 - u1) * polylength a) in *.
    rewrite Q by (clearbody D0; nra). f_equal. unfold D0. ring.
  - intros d. rewrite samplepoly_path; [|exact G|destruct (poly_closed a); [right; lra|left; reflexivity]]. rewrite (Z d). reflexivity.
Qed.
