(** C47, C143-C146: cached properties of Geometry objects. *)
From Coq Require Import Reals List Bool ZArith Lia Lra.
From Verif Require Import Xform_Model Xform_Proofs Cache_Model Cache_Spec Cache_Proofs.
Import ListNotations.

(** After any disciplined history of changes and queries, length and geometry, and
    for figures that are not solids centre and bounding box, are those a new object
    around the current figure would give. *)
Theorem c47_properties : forall F e closed xs x,
  disciplined F false xs = true -> quiet F (create F e closed) xs ->
  (x = GetLength \/ x = GetGeom \/
   ((x = GetCenter \/ x = GetBox) /\ kind_of F (figure_after F e xs) <> KSolid) \/
   (x = GetCenter /\ solid_bbox F (figure_after F e xs) <> None)) ->
  answer_to F (create F e closed) xs x = fresh F (figure_after F e xs) closed x.
Proof.
  intros F e closed xs x D Q X.
  assert (G : good F (after F (create F e closed) xs)).
  { apply (run_good F xs _ false); auto. intros _. now apply good_dirty. }
  pose proof (after_elem F xs (create F e closed)) as E. pose proof (after_closed F xs (create F e closed)) as C.
  cbn [create o_elem o_closed] in E, C. unfold answer_to, fresh, answer_to.
  set (o := after F (create F e closed) xs) in *. rewrite <- E in *. rewrite <- C.
  cbn [after fold_left].
  destruct X as [-> | [-> | [[[-> | ->] K]|[-> B]]]]; cbn [step]; apply query_fresh; auto;
    intros o1 o2 l c b P E1 E2 L1 CB S L2 C2 B2.
  - congruence.
  - congruence.
  - destruct (CB K). congruence.
  - destruct (CB K). congruence.
  - specialize (S B). congruence.
Qed.
Print Assumptions c47_properties.

(** A surface asked for after all changes is that of the current figure, at
    sampling parameters within epsilon of those asked for. *)
Theorem c47_surface : forall F e closed xs a l,
  disciplined F false xs = true -> quiet F (create F e closed) xs -> settled F false xs = true ->
  exists a' l', (Rabs (a' - a) < epsilon)%R /\ (Rabs (l' - l) < epsilon)%R /\
    answer_to F (create F e closed) xs (GetSurface a l) = fresh F (figure_after F e xs) closed (GetSurface a' l').
Proof.
  intros F e closed xs a l D Q S.
  assert (G : good F (after F (create F e closed) xs)).
  { apply (run_good F xs _ false); auto. intros _. now apply good_dirty. }
  assert (SG : sgood F (after F (create F e closed) xs)).
  { apply (run_sgood F xs _ false); auto; [reflexivity|]. intros s Hs. discriminate Hs. }
  destruct (ask_fresh F _ a l G SG) as (a' & l' & Ca & Cl & A). exists a', l'.
  unfold close in Ca, Cl. apply Rltb_true in Ca. apply Rltb_true in Cl. split; [exact Ca|]. split; [exact Cl|].
  unfold answer_to at 1. cbn [step]. rewrite A, after_elem, after_closed. reflexivity.
Qed.
Print Assumptions c47_surface.

(** Lists of integers under translation, the "surface" being the list itself;
    a negative head makes length raise; a solid is a list headed by 7. *)
Definition first (e : list Z) : Z := hd 0%Z e.
Definition demo : figures := mkfig (list Z) Z (Z * Z) (list Z) []
  (fun e => match e with [] => KEmpty | x :: _ => if Z.eqb x 7 then KSolid else KPlain end)
  (fun h a e => match h with Translate => Some (map (Z.add a) e) | _ => Some e end)
  (fun h a e => match h, e with Translate, x :: r => Some (x :: map (Z.add a) r) | _, _ => Some e end)
  (fun e => if Z.ltb (first e) 0 then None else Some (INR (length e)))
  (fun e => Some (point (IZR (first e)) 0 0)) (fun e => Some (first e, last e 0%Z))
  (fun e => Some (nth 1 e 0%Z, last e 0%Z)) (fun e => Some (point (IZR (nth 1 e 0%Z)) 0 0)) (fun e _ _ => Some e).

Definition history : list (act demo) :=
  [GetBox; @Change demo Translate 2%Z; GetLength; @Assign demo [5%Z; 6%Z]; Touch; GetBox; GetSurface 5 0.5].
Example c47_nonvacuous :
  disciplined demo false history = true /\ settled demo false history = true /\
  quiet demo (create demo [1%Z; 2%Z] true) history /\ figure_after demo [1%Z; 2%Z] history = [5%Z; 6%Z] /\
  answer_to demo (create demo [1%Z; 2%Z] true) history GetBox = @ABox demo (Some (5%Z, 6%Z)).
Proof.
  split; [reflexivity|]. split; [reflexivity|]. split; [|split; reflexivity].
  intros ys x zs E Q.
  assert (A : nth_error history (length ys) = Some x).
  { rewrite E, nth_error_app2, PeanoNat.Nat.sub_diag by lia. reflexivity. }
  assert (B : firstn (length ys) history = ys).
  { rewrite E, firstn_app, PeanoNat.Nat.sub_diag, firstn_all, app_nil_r. reflexivity. }
  rewrite <- B. clear B E zs. revert A. generalize (length ys). clear ys. intros n A.
  assert (H : forall y, Some y = Some x -> y = x) by congruence.
  destruct n as [|[|[|[|[|[|[|n]]]]]]]; cbn in A; try (destruct n; discriminate A);
    apply H in A; subst x; try discriminate Q; cbn; discriminate.
Qed.

(** The surface of a figure that is not a solid never follows a change: whatever the
    change and whatever the figure functions compute, the second call returns the
    surface of the old figure. *)
Ltac red_obj := cbn [o_closed negb o_update set_update o_elem set_props o_surface set_surface o_ang o_len o_bbox o_center o_length].
Definition measurable (F : figures) (e : elem F) : Prop :=
  kind_of F e = KPlain /\ length_of F e <> None /\ center_of F e <> None /\ bbox_of F e <> None.
Theorem c143_surface_follows_changes_refuted : forall F e h d e' a l s s',
  measurable F e -> measurable F e' -> plain F h d e = Some e' ->
  tri F e a l = Some s -> tri F e' a l = Some s' -> s <> s' ->
  answer_to F (create F e true) [GetSurface a l; Change h d] (GetSurface a l) = ASurface s /\
  fresh F (figure_after F e [GetSurface a l; Change h d]) true (GetSurface a l) = ASurface s'.
Proof.
  intros F e h d e' a l s s' (K & L & C & B) (K' & L' & C' & B') H T T' N.
  assert (FA : figure_after F e [GetSurface a l; Change h d] = e').
  { unfold figure_after. cbn [fold_left next_figure]. unfold changed. rewrite K. now rewrite H. }
  rewrite FA.
  destruct (length_of F e) as [le|] eqn:Le; [|congruence]. destruct (center_of F e) as [ce|] eqn:Ce; [|congruence].
  destruct (bbox_of F e) as [be|] eqn:Be; [|congruence].
  destruct (length_of F e') as [le'|] eqn:Le'; [|congruence]. destruct (center_of F e') as [ce'|] eqn:Ce'; [|congruence].
  destruct (bbox_of F e') as [be'|] eqn:Be'; [|congruence].
  assert (S1 : fst (step F (create F e true) (GetSurface a l)) = mkobj F e false le (Some ce) (Some be) (Some s) a l true).
  { cbn [step]. unfold ask_surface, refresh. unfold create. red_obj. rewrite K, Le.
    red_obj. rewrite Ce. red_obj. rewrite Be. red_obj.
    rewrite K, T. reflexivity. }
  assert (S2 : fst (step F (mkobj F e false le (Some ce) (Some be) (Some s) a l true) (Change h d))
             = mkobj F e' true le (Some ce) (Some be) (Some s) a l true).
  { cbn [step]. unfold change. red_obj. rewrite K, H. destruct h; reflexivity. }
  split.
  - unfold answer_to. unfold after. cbn [fold_left]. rewrite S1, S2. cbn [step]. unfold ask_surface, refresh.
    red_obj. rewrite K', Le'.
    red_obj. rewrite Ce'. red_obj. rewrite Be'. red_obj.
    red_obj. rewrite !close_refl. reflexivity.
  - unfold fresh, answer_to. cbn [after fold_left step]. unfold ask_surface, refresh, create.
    red_obj. rewrite K', Le'.
    red_obj. rewrite Ce'. red_obj. rewrite Be'. red_obj.
    rewrite K', T'. reflexivity.
Qed.
Print Assumptions c143_surface_follows_changes_refuted.
Example c143_nonvacuous : measurable demo [1%Z] /\ measurable demo [2%Z] /\
  plain demo Translate 1%Z [1%Z] = Some [2%Z] /\ tri demo [1%Z] 5 0.5 = Some [1%Z] /\ tri demo [2%Z] 5 0.5 = Some [2%Z] /\ [1%Z] <> [2%Z].
Proof. repeat apply conj; cbn; try discriminate; reflexivity. Qed.

(** The bounding box of a solid never follows a change. *)
Theorem c144_solid_box_follows_changes_refuted : forall F e h d e' b b' c c',
  kind_of F e = KSolid -> kind_of F e' = KSolid -> h <> Transform -> solid F h d e = Some e' ->
  solid_bbox F e = Some b -> solid_bbox F e' = Some b' -> solid_center F e = Some c -> solid_center F e' = Some c' ->
  b <> b' ->
  answer_to F (create F e true) [GetBox; Change h d] GetBox = ABox (Some b) /\
  fresh F (figure_after F e [GetBox; Change h d]) true GetBox = ABox (Some b').
Proof.
  intros F e h d e' b b' c c' K K' NT H B B' C C' N.
  assert (FA : figure_after F e [GetBox; Change h d] = e').
  { unfold figure_after. cbn [fold_left next_figure]. unfold changed. rewrite K. destruct h; try congruence; now rewrite H. }
  rewrite FA.
  assert (S1 : fst (step F (create F e true) GetBox) = mkobj F e false 0 (Some c) (Some b) None (-1) (-1) true).
  { cbn [step]. unfold query, refresh, create. red_obj. rewrite K. unfold solid_props.
    red_obj. rewrite B, C. reflexivity. }
  assert (S2 : fst (step F (mkobj F e false 0 (Some c) (Some b) None (-1) (-1) true) (Change h d))
             = mkobj F e' true 0 (Some c) (Some b) None (-1) (-1) true).
  { cbn [step]. unfold change. red_obj. rewrite K. destruct h; try congruence; rewrite H; reflexivity. }
  split.
  - unfold answer_to, after. cbn [fold_left]. rewrite S1, S2. cbn [step]. unfold query, refresh.
    red_obj. rewrite K'. unfold solid_props. red_obj. rewrite C'. reflexivity.
  - unfold fresh, answer_to. cbn [after fold_left step]. unfold query, refresh, create.
    red_obj. rewrite K'. unfold solid_props. red_obj. rewrite B', C'. reflexivity.
Qed.
Print Assumptions c144_solid_box_follows_changes_refuted.
Example c144_nonvacuous : kind_of demo [7%Z; 1%Z] = KSolid /\ kind_of demo [7%Z; 2%Z] = KSolid /\
  solid demo Translate 1%Z [7%Z; 1%Z] = Some [7%Z; 2%Z] /\
  solid_bbox demo [7%Z; 1%Z] = Some (1%Z, 1%Z) /\ solid_bbox demo [7%Z; 2%Z] = Some (2%Z, 2%Z) /\ (1%Z, 1%Z) <> (2%Z, 2%Z).
Proof. repeat apply conj; cbn; try discriminate; reflexivity. Qed.

(** Assigning elem does not reach length, centre or bounding box once they were asked for. *)
Theorem c145_assignment_seen_refuted : forall F e e' closed b b',
  measurable F e -> measurable F e' -> bbox_of F e = Some b -> bbox_of F e' = Some b' -> b <> b' ->
  answer_to F (create F e closed) [GetBox; Assign e'] GetBox = ABox (Some b) /\
  fresh F (figure_after F e [GetBox; Assign e']) closed GetBox = ABox (Some b').
Proof.
  intros F e e' closed b b' (K & L & C & _) (K' & L' & C' & _) B B' N.
  destruct (length_of F e) as [le|] eqn:Le; [|congruence]. destruct (center_of F e) as [ce|] eqn:Ce; [|congruence].
  destruct (length_of F e') as [le'|] eqn:Le'; [|congruence]. destruct (center_of F e') as [ce'|] eqn:Ce'; [|congruence].
  split.
  - unfold answer_to, after. cbn [fold_left step]. unfold query at 2. unfold refresh, create.
    red_obj. rewrite K, Le. red_obj. rewrite Ce. red_obj. rewrite B.
    reflexivity.
  - unfold fresh, answer_to, figure_after. cbn [after fold_left step next_figure]. unfold query, refresh, create.
    red_obj. rewrite K', Le'. red_obj. rewrite Ce'. red_obj. rewrite B'.
    reflexivity.
Qed.
Print Assumptions c145_assignment_seen_refuted.
Example c145_nonvacuous : measurable demo [1%Z] /\ measurable demo [2%Z] /\
  bbox_of demo [1%Z] = Some (1%Z, 1%Z) /\ bbox_of demo [2%Z] = Some (2%Z, 2%Z) /\ (1%Z, 1%Z) <> (2%Z, 2%Z).
Proof. repeat apply conj; cbn; try discriminate; reflexivity. Qed.

(** A length that cannot be computed raises once; asked again, the object gives the
    length of the figure it had before. *)
Theorem c146_failure_repeats_refuted : forall F e e' h d l closed,
  measurable F e -> length_of F e = Some l -> plain F h d e = Some e' ->
  kind_of F e' = KPlain -> length_of F e' = None ->
  let past := [GetLength; Change h d] in
  answer_to F (create F e closed) past GetLength = Raised /\
  fresh F (figure_after F e (past ++ [GetLength])) closed GetLength = Raised /\
  answer_to F (create F e closed) (past ++ [GetLength]) GetLength = ALength l.
Proof.
  intros F e e' h d l closed (K & _ & C & B) L H K' L'.
  destruct (center_of F e) as [ce|] eqn:Ce; [|congruence]. destruct (bbox_of F e) as [be|] eqn:Be; [|congruence].
  assert (FA : figure_after F e [GetLength; Change h d; GetLength] = e').
  { unfold figure_after. cbn [fold_left next_figure]. unfold changed. rewrite K. now rewrite H. }
  assert (S1 : fst (step F (create F e closed) GetLength) = mkobj F e false l (Some ce) (Some be) None (-1) (-1) closed).
  { cbn [step]. unfold query, refresh, create. red_obj. rewrite K, L.
    red_obj. rewrite Ce. red_obj. rewrite Be. reflexivity. }
  assert (S2 : fst (step F (mkobj F e false l (Some ce) (Some be) None (-1) (-1) closed) (Change h d))
             = mkobj F e' true l (Some ce) (Some be) None (-1) (-1) closed).
  { cbn [step]. unfold change. red_obj. rewrite K, H. destruct h; reflexivity. }
  assert (S3 : step F (mkobj F e' true l (Some ce) (Some be) None (-1) (-1) closed) GetLength
             = (mkobj F e' false l (Some ce) (Some be) None (-1) (-1) closed, Raised)).
  { cbn [step]. unfold query, refresh. red_obj. rewrite K', L'. reflexivity. }
  cbn zeta. unfold answer_to, after. cbn [app fold_left]. rewrite S1, S2, S3. cbn [fst snd].
  split; [reflexivity|]. split; [|reflexivity].
  unfold app. rewrite FA. unfold fresh, answer_to. cbn [after fold_left step]. unfold query, refresh, create.
  red_obj. rewrite K', L'. reflexivity.
Qed.
Print Assumptions c146_failure_repeats_refuted.
Example c146_nonvacuous : measurable demo [1%Z] /\ length_of demo [1%Z] = Some 1%R /\
  plain demo Translate (-2)%Z [1%Z] = Some [(-1)%Z] /\ kind_of demo [(-1)%Z] = KPlain /\ length_of demo [(-1)%Z] = None.
Proof. repeat apply conj; cbn; try discriminate; reflexivity. Qed.
