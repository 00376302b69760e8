(** Properties of quad- and octrees. *)
From Coq Require Import Reals List Bool Arith Permutation Lra Lia.
From Verif Require Import Xform_Model Xform_Proofs Oct_Model Oct_Spec Oct_Proofs Oct_Proofs2 Oct_Proofs3.
Import ListNotations.
Open Scope R_scope.
Open Scope list_scope.

(** C37.  For every history of calls, none of which raised, on a tree made without bare points: a query
    returns exactly the elements whose bounding boxes have a point in common with the query box (in the
    plane for a quadtree), each position once. *)
Theorem c37_query : forall order is8 g c md mxd t0 cs t q es t', set_order order ->
  create is8 g c md mxd = Some t0 -> Forall (fun e => ~ bare (fst e)) g -> history order cs t0 = Some t -> geom t <> [] ->
  proper (three t) q -> getElements order q t = Done es t' ->
  exists is, NoDup is /\ map Some es = map (nth_error (geom t)) is /\
    forall i, In i is <-> exists e b, nth_error (geom t) i = Some e /\ ebox (fst e) = Some b /\ overlap (three t) b q.
Proof.
  intros order is8 g c md mxd t0 cs t q es t' O Cr F H G Q E. destruct (create_inv _ _ _ _ _ _ Cr F) as [I _].
  eapply get_exact; eauto. eapply history_inv; eauto.
Qed.
Print Assumptions c37_query.
(** Without bare points, empty elements and a centre of the user's, a query on a tree that has elements
    does not raise. *)
Theorem c37_no_exception : forall order is8 g md mxd t0 cs t q, set_order order ->
  create is8 g None md mxd = Some t0 -> Forall (fun e => ~ bare (fst e) /\ solid_element (fst e)) g -> Forall plain cs -> history order cs t0 = Some t -> geom t <> [] ->
  proper (three t) q -> exists es t', getElements order q t = Done es t'.
Proof.
  intros order is8 g md mxd t0 cs t q O Cr F P H G Q. assert (F1 : Forall (fun e => ~ bare (fst e)) g) by (eapply Forall_impl; [|exact F]; intros a Ha; apply Ha).
  destruct (create_inv _ _ _ _ _ _ Cr F1) as [I _]. apply get_total; auto.
  - eapply history_inv; eauto.
  - eapply history_centred; eauto. eapply create_centred; eauto.
Qed.
Print Assumptions c37_no_exception.
(** The test for overlapping boxes is right for all proper boxes. *)
Theorem c37_boxoverlap2 : forall th b c, proper th b -> proper th c -> (boxoverlap2 b c th = true <-> overlap th b c).
Proof. exact boxoverlap2_spec. Qed.
Print Assumptions c37_boxoverlap2.

(** nine copies of a diagonal of the cube [0, 10]^3 *)
Definition diagonal : element := Poly (point 0 0 0) (point 10 10 10) [].
Definition nine : list tagged := repeat (diagonal, None) 9.
Definition cube : box := Box (point 0 0 0) (point 10 10 10).
Lemma Rltb_t a b : a < b -> Rltb a b = true. Proof. apply Rltb_true. Qed.
Lemma Rltb_f a b : b <= a -> Rltb a b = false. Proof. apply Rltb_false. Qed.
Ltac reals := repeat first [rewrite (Rltb_t) by (cbn; unfold epsilon; lra) | rewrite (Rltb_f) by (cbn; unfold epsilon; lra)].
Lemma diagonal_box : ebox diagonal = Some cube.
Proof. unfold ebox, diagonal, polybbox, cube. cbn [range vx vy vz point]. reals. reflexivity. Qed.
Lemma range_diagonals f n : f (point 0 0 0) = 0 -> f (point 10 10 10) = 10 -> forall mx, mx = 10 -> range f (concat (repeat [point 0 0 0; point 10 10 10] n)) 0 mx = (0, 10).
Proof. intros F0 F1 mx ->. induction n as [|n IH]; [reflexivity|]. cbn [repeat concat app range]. rewrite F0, F1. reals. exact IH. Qed.
Lemma nine_bbox n : bbox_of (repeat diagonal (S n)) = Some cube.
Proof.
  unfold bbox_of. assert (A : all (map collected (repeat diagonal (S n))) = Some (repeat [point 0 0 0; point 10 10 10] (S n))).
  { induction (S n) as [|k IH]; [reflexivity|]. cbn [repeat map all]. cbn [collected diagonal] in *. rewrite IH. reflexivity. }
  rewrite A. cbn [repeat concat app]. unfold polybbox. cbn [range point vx vy vz]. reals. rewrite !(range_diagonals _ n) by reflexivity. reflexivity.
Qed.
Lemma nine_elements n : map fst (repeat (diagonal, @None nat) n) = repeat diagonal n.
Proof. induction n as [|n IH]; [reflexivity|]. cbn. rewrite IH. reflexivity. Qed.
Example c37_nonvacuous : exists t0 t, create true nine None None None = Some t0 /\ Forall (fun e => ~ bare (fst e) /\ solid_element (fst e)) nine /\
  history (fun l => l) [Add (Group [point 1 2 3]) (Some 7%nat); Update] t0 = Some t /\ length (geom t) = 10%nat /\ proper true cube.
Proof.
  assert (F : Forall (fun e : tagged => ~ bare (fst e) /\ solid_element (fst e)) nine).
  { apply Forall_forall. intros e He. apply repeat_spec in He. subst e. split; [intros [p X]; discriminate X|discriminate]. }
  assert (Cr : exists t0, create true nine None None None = Some t0).
  { unfold create, nine. cbn [repeat]. match goal with |- context [bbox_of ?x] => change x with (map fst (repeat (diagonal, @None nat) 9)) end. rewrite nine_elements, (nine_bbox 8). eexists. reflexivity. }
  destruct Cr as [t0 Cr]. exists t0.
  assert (F1 : Forall (fun e : tagged => ~ bare (fst e)) nine) by (eapply Forall_impl; [|exact F]; intros a Ha; apply Ha).
  destruct (create_inv _ _ _ _ _ _ Cr F1) as [I G]. pose proof (create_centred _ _ _ _ _ Cr F) as C.
  cbn [history make addElement forget]. set (t1 := set_update (set_geom t0 (geom t0 ++ [(Group [point 1 2 3], Some 7%nat)])) true).
  assert (C1 : centred t1). { apply centred_add; auto. split; [intros [p X]; discriminate X|discriminate]. }
  destruct (updateTree_total t1 C1) as (t2 & U & _ & G2). exists t2. split; [exact Cr|]. split; [exact F|]. rewrite U. split; [reflexivity|]. split; [|unfold proper, cube; cbn; lra].
  rewrite G2. unfold t1. cbn [geom set_update set_geom]. rewrite app_length, G. reflexivity.
Qed.

(** C133, refuted: a query on a tree without elements raises, although it should find nothing. *)
Theorem c133_empty_refuted : forall order q, exists t t', create true [] None None None = Some t /\ getElements order q t = Raised t'.
Proof. intros order q. eexists. eexists. split; reflexivity. Qed.
Print Assumptions c133_empty_refuted.
(** C134, refuted: with a centre outside the elements the first query raises; the same query again
    returns nothing, although all nine elements overlap the query box. *)
Theorem c134_retry_refuted : forall order, set_order order -> exists t t', create true nine (Some (point 100 0 0)) None None = Some t /\
  getElements order cube t = Raised t' /\ overlap true cube cube /\ getElements order cube t' = Done [] t'.
Proof.
  intros order O. unfold create, nine. cbn [repeat].
  match goal with |- context [bbox_of ?x] => change x with (map fst (repeat (diagonal, @None nat) 9)) end. rewrite nine_elements, (nine_bbox 8). cbn zeta.
  eexists. eexists. split; [reflexivity|]. split; [|split; [exists (point 1 1 1); unfold inside, cube; cbn; split; repeat split; try intros _; lra|]].
  - unfold getElements. cbn [update set_center set_bbox set_geom]. unfold updateTree. cbn [update set_center set_bbox set_geom negb geom].
    match goal with |- context [bbox_of ?x] => change x with (map fst (repeat (diagonal, @None nat) 9)) end. rewrite nine_elements, (nine_bbox 8). cbn zeta. cbn [center set_center set_bbox set_geom set_update].
    assert (A : all (map ebox (repeat diagonal 9)) = Some (repeat cube 9)).
    { generalize 9%nat as k9. induction k9 as [|k IH]; [reflexivity|]. cbn [repeat map all]. rewrite diagonal_box. rewrite IH. reflexivity. }
    match goal with |- context [all (map ebox ?x)] => change x with (map fst (repeat (diagonal, @None nat) 9)) end. rewrite nine_elements, A. cbn [center set_boxes set_center set_bbox set_geom set_update].
    assert (Bd : forall l k, (8 < length l)%nat -> build true 1 (S k) cube (point 100 0 0) l = None).
    { intros l k L. destruct l as [|x l]; [cbn in L; lia|]. cbn [build]. replace (length (x :: l) <=? 8)%nat with false by (symmetry; apply Nat.leb_gt; exact L). cbn [cube hi lo point vx vy vz andb]. reals. cbn [orb].
      unfold box2boxes, isinsidebbox, Rgeb. cbn [lo hi cube point vx vy vz]. replace (Rleb 100 10) with false by (symmetry; apply Rleb_false; lra). rewrite !andb_false_r. reflexivity. }
    cbn [three mindim maxdepth set_boxes set_center set_bbox set_geom set_update]. rewrite Bd by (cbn; lia). reflexivity.
  - unfold getElements. cbn [update elem_boxes set_boxes set_center set_bbox set_geom set_update the_tree three find nodup]. pose proof (Permutation_nil (Permutation_sym (O []))) as E. rewrite E. reflexivity.
Qed.
Print Assumptions c134_retry_refuted.
(** C135, refuted: two bare points; the query box overlaps the box of the first (which reaches 5e-6 around
    it), but nothing is found. *)
Definition two : list tagged := [(Point (point 0 0 0), None); (Point (point 10 10 10), None)].
Definition fringe : box := Box (point (- epsilon) (- epsilon) (- epsilon)) (point (- epsilon / 2) (- epsilon / 2) (- epsilon / 2)).
Theorem c135_points_refuted : forall order, set_order order -> exists t t', create true two None None None = Some t /\ proper true fringe /\
  overlap true (pointbbox (point 0 0 0)) fringe /\ getElements order fringe t = Done [] t'.
Proof.
  intros order O. pose proof eps_pos as Ep.
  assert (B : bbox_of (map fst two) = Some cube) by (unfold bbox_of, two, cube; cbn [map fst collected all concat app polybbox range point vx vy vz]; reals; reflexivity).
  unfold create. cbn zeta. match goal with |- context [bbox_of ?x] => change x with (map fst two) end. unfold two at 1. cbn iota. rewrite B. eexists. eexists. split; [reflexivity|]. split; [unfold proper, fringe; cbn; lra|]. split.
  { exists (point (- epsilon) (- epsilon) (- epsilon)). unfold inside, fringe, pointbbox, sub, add. cbn [lo hi point vx vy vz]. split; repeat split; try intros _; lra. }
  unfold getElements. cbn [update set_center set_bbox set_geom]. unfold updateTree. cbn [update set_center set_bbox set_geom negb geom]. unfold two. cbn iota. match goal with |- context [bbox_of ?x] => change x with (map fst two) end. rewrite B. cbn zeta. cbn [center set_center set_bbox set_geom set_update].
  set (bs := [pointbbox (point 0 0 0); pointbbox (point 10 10 10)]). match goal with |- context [all (map ebox ?x)] => change (all (map ebox x)) with (Some bs) end. cbn [center set_boxes set_center set_bbox set_geom set_update].
  cbn [three mindim maxdepth set_boxes set_center set_bbox set_geom set_update].
  assert (Bd : forall k c, build true 1 (S k) cube c (combine (seq 0 (length bs)) bs) = Some (Leaf cube c [0; 1]%nat)) by reflexivity. rewrite Bd.
  cbn [elem_boxes set_tree set_boxes the_tree three set_center set_bbox set_geom set_update find].
  assert (Ov : boxoverlap2 cube fringe true = false).
  { apply not_true_iff_false. rewrite boxoverlap2_spec by (unfold proper, cube, fringe; cbn; lra). intros (p & (X & _) & (X' & _)). cbn in X, X'. lra. }
  rewrite Ov. cbn [nodup]. pose proof (Permutation_nil (Permutation_sym (O []))) as E. rewrite E. reflexivity.
Qed.
Print Assumptions c135_points_refuted.
(** C136, refuted: adding an element to a tree changes the caller's list, and appending to that list adds
    an element to the tree behind its back, which no query finds. *)
Theorem c136_callers_list_refuted : forall g s e tag s', create_from true g = Some s -> shared_add e tag s = Some s' -> callers s = g /\ (g <> [] -> callers s' = g ++ [(e, tag)]).
Proof.
  intros g s e tag s' H A. unfold create_from in H. destruct (create true g None None None) as [t|] eqn:C; [|discriminate H]. injection H as <-. cbn [callers]. split; auto. intros G.
  assert (Gt : geom t = g).
  { unfold create in C. cbn zeta in C. destruct g as [|x g]; [contradiction|]. destruct (bbox_of (map fst (x :: g))); [|discriminate C]. injection C as <-. reflexivity. }
  unfold shared_add in A. cbn [tree_of] in A. unfold addElement in A. destruct e; [discriminate A| |]; injection A as <-; cbn [callers geom set_update set_geom]; rewrite Gt; reflexivity.
Qed.
Print Assumptions c136_callers_list_refuted.
Theorem c136_append_refuted : forall order e s es t q, set_order order -> update (tree_of s) = false -> built (tree_of s) -> Forall (fun e => ~ bare e) (elements (tree_of s)) -> callers s = geom (tree_of s) -> proper (three (tree_of s)) q ->
  getElements order q (tree_of (caller_append e s)) = Done es t -> geom (tree_of (caller_append e s)) = geom (tree_of s) ++ [e] /\
  exists is, map Some es = map (nth_error (geom t)) is /\ Forall (fun i => i < length (geom (tree_of s)))%nat is.
Proof.
  intros order e s es t q O U B Nb Cs Q H. cbn [caller_append tree_of geom set_geom] in *. split; [rewrite Cs; reflexivity|].
  unfold getElements in H. cbn [update set_geom] in H. rewrite U in H. cbn [elem_boxes set_geom the_tree three geom] in H. destruct (elem_boxes (tree_of s)) as [boxes|] eqn:Eb; [|discriminate H].
  match type of H with context [all ?x] => destruct (all x) as [r|] eqn:A end; [|discriminate H]. injection H as <- <-. exists (order (nodup Nat.eq_dec (find (three (tree_of s)) boxes q (the_tree (tree_of s))))). split.
  - cbn [geom set_geom]. clear -A. set (l := order _) in *. clearbody l. revert r A. induction l as [|i l IH]; intros es; cbn [map all]; [intros [= <-]; reflexivity|].
    destruct (nth_error _ i); [|discriminate]. destruct (all _) as [r|] eqn:E; [|discriminate]. intros [= <-]. cbn [map]. f_equal. apply IH. reflexivity.
  - apply Forall_forall. intros i Hi. apply (Permutation_in _ (O _)) in Hi. apply nodup_In in Hi. apply (find_exact _ _ _ B Nb Eb Q) in Hi as (x & _ & N & _). apply nth_error_Some. congruence.
Qed.
Print Assumptions c136_append_refuted.
(** C137, refuted: after adding elements to a new tree, recomputing its centre raises. *)
Theorem c137_center_refuted : forall e, ~ bare e -> exists t t', create true [] None None None = Some t /\ forget (addElement e None t) = Some t' /\ updateCenter None t' = Raised t'.
Proof. intros e Nb. destruct e as [p| |]; [exfalso; apply Nb; exists p; reflexivity| |]; (eexists; eexists; split; [reflexivity|]; split; reflexivity). Qed.
Print Assumptions c137_center_refuted.
