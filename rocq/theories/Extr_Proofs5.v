(** The extruded solid. *)
From Coq Require Import Reals List Bool ZArith Lra Lia Permutation Arith.
From Verif Require Import Xform_Model Xform_Proofs Fig_Model Fig_Proofs Solid_Model Solid_Spec Solid_Proofs Solid_Proofs2 Solid_Proofs3 Solid_Proofs5 Solid_Proofs6
  Prim_Model Prim_Lab Extr_Model Extr_Spec Extr_Proofs Extr_Proofs2 Extr_Proofs3 Extr_Proofs4.
Import ListNotations.
Open Scope R_scope.

Lemma issurface_parts s : issurface s = true <->
  (2 < length (verts s))%nat /\ Forall (fun p => 0 < vw p) (verts s) /\ Forall (fun d => close (vw d) 0 = true) (norms s) /\ length (verts s) = length (norms s).
Proof.
  unfold issurface, filterInds. rewrite !andb_true_iff, Nat.ltb_lt, Nat.eqb_eq, !forallb_forall, !Forall_forall. split.
  - intros ((((((A & B) & C) & D) & _) & _) & _). repeat split; auto. intros p Hp. apply Rltb_true. auto.
  - intros (A & B & C & D).
    assert (K : negb (Nat.ltb (length (verts s)) 3) = true) by (apply negb_true_iff, Nat.ltb_ge; lia).
    rewrite K. repeat split; auto. intros p Hp. apply Rltb_true. auto.
Qed.
Lemma close_opp x : close x 0 = true -> close (- x) 0 = true.
Proof. rewrite !close_true. intros H. replace (- x - 0) with (- (x - 0)) by ring. rewrite Rabs_Ropp. exact H. Qed.
Lemma reverse_turned s : reversesurface s = turned_over s.
Proof.
  unfold reversesurface, turned_over. f_equal. apply map_ext.
  intros a. unfold scale4. apply mkv_eq; ring.
Qed.
Lemma translate_shifted s d dir : epsilon <= mag (scaled d dir) -> translatesurface s (scale4 dir d) = shifted (scaled d dir) s.
Proof.
  intros H. unfold translatesurface.
  assert (E : vclose (scale4 dir d) (point 0 0 0) = false).
  { unfold vclose. destruct (close _ 0) eqn:C; [|reflexivity]. exfalso. apply close_true in C.
    assert (M : mag (sub (scale4 dir d) (point 0 0 0)) = mag (scaled d dir)).
    { unfold mag, sub, scale4, point, scaled; cbn [vx vy vz]. f_equal. ring. }
    rewrite M in C. replace (mag (scaled d dir) - 0) with (mag (scaled d dir)) in C by ring.
    pose proof (Rle_abs (mag (scaled d dir))). lra. }
  rewrite E. unfold shifted. f_equal. apply map_ext. intros p. unfold add, moved, scale4, scaled; cbn [vx vy vz]. apply mkv_eq; ring.
Qed.

Section Solid.
  Variables (s : surf) (t : vec) (L : list (Z * Z)).
  Let n := Z.of_nat (length (verts s)).
  Let V := verts s ++ map (moved t) (verts s).
  Hypothesis Hr : forall i j, In (i, j) (lall (faces s)) -> (0 <= i < n)%Z /\ i <> j.
  Hypothesis HL : forall e, In e L -> In e (lall (faces s)).

  Lemma face_range f : In f (faces s) -> let '(a, b, c) := f in (0 <= a < n)%Z /\ (0 <= b < n)%Z /\ (0 <= c < n)%Z.
  Proof.
    intros H. destruct f as [[a b] c].
    assert (G : forall x y, In (x, y) (lsides (a, b, c)) -> (0 <= x < n)%Z) by (intros x y I; apply (Hr x y); apply in_flat_map; exists (a, b, c); auto).
    repeat split; eapply G; cbn [lsides In]; eauto; eapply G; cbn [lsides In]; eauto.
  Qed.
  Lemma bottom_corners f : In f (faces s) -> face_corners (turned_over s) (swap_face f) (at_pos (pos V) (swap_face f)).
  Proof.
    intros H. apply face_range in H. destruct f as [[a b] c]. destruct H as (A & B & C). cbn [swap_face at_pos face_corners turned_over verts].
    unfold V. rewrite !pos_low by auto. repeat split; apply pos_at; auto.
  Qed.
  Lemma top_corners f : In f (faces s) -> face_corners (shifted t s) f (at_pos (pos V) (up_face n f)).
  Proof.
    intros H. apply face_range in H. destruct f as [[a b] c]. destruct H as (A & B & C). cbn [up_face at_pos face_corners shifted verts].
    unfold V, n. rewrite !pos_high by auto. repeat split; apply at_index_map; eexists; (split; [apply pos_at; auto|reflexivity]).
  Qed.
  Lemma self_corners f : In f (faces s) -> face_corners s f (at_pos (pos (verts s)) f).
  Proof.
    intros H. apply face_range in H. destruct f as [[a b] c]. destruct H as (A & B & C). cbn [at_pos face_corners].
    repeat split; apply pos_at; auto.
  Qed.
  Lemma L_rng a b : In (a, b) L -> (0 <= a < n)%Z /\ (0 <= b < n)%Z.
  Proof.
    intros H. apply HL in H. unfold lall in H. apply in_flat_map in H as (f & Hf & H). apply face_range in Hf.
    destruct f as [[x y] z]. destruct H as [H|[H|[H|[]]]]; injection H as <- <-; tauto.
  Qed.
  Lemma strip_corners ns f : In f (flat_map (wall_faces n) L) -> face_corners (mksurf V ns (flat_map (wall_faces n) L) [] []) f (at_pos (pos V) f).
  Proof.
    intros H. apply in_flat_map in H as ([a b] & Hl & H). apply L_rng in Hl as [A B]. pose proof (V_length (verts s) t) as LV. fold V n in LV.
    destruct H as [<-|[<-|[]]]; cbn [at_pos face_corners verts]; repeat split; apply pos_at; lia.
  Qed.
  Lemma Forall2_map_self {A B} (R : A -> B -> Prop) (f : A -> B) l : (forall a, In a l -> R a (f a)) -> Forall2 R l (map f l).
  Proof. induction l as [|a l IH]; intros H; [constructor|]. cbn [map]. constructor; [apply H; left; reflexivity|]. apply IH. intros; apply H; right; auto. Qed.
  Lemma ext_triangles ns :
    triangles [turned_over s; mksurf V ns (flat_map (wall_faces n) L) [] []; shifted t s] (map (at_pos (pos V)) (ext_faces n (faces s) L)).
  Proof.
    exists [map (at_pos (pos V)) (map swap_face (faces s)); map (at_pos (pos V)) (flat_map (wall_faces n) L); map (at_pos (pos V)) (map (up_face n) (faces s))].
    split.
    - constructor; [|constructor; [|constructor; [|constructor]]].
      + cbn [turned_over faces].
        replace (map (fun f : face => let '(a, b, c) := f in (a, c, b)) (faces s)) with (map swap_face (faces s)) by (apply map_ext; intros [[a b] c]; reflexivity).
        apply Forall2_map_self. intros f H. apply in_map_iff in H as (g & <- & H). apply bottom_corners. exact H.
      + cbn [faces]. apply Forall2_map_self. intros f H. apply strip_corners. exact H.
      + cbn [shifted faces]. rewrite map_map. apply Forall2_map_self. intros f H. apply top_corners. exact H.
    - unfold ext_faces. rewrite !map_app. cbn [concat]. rewrite app_nil_r. reflexivity.
  Qed.
  Lemma self_triangles ts0 : triangles [s] ts0 -> ts0 = map (at_pos (pos (verts s))) (faces s).
  Proof.
    intros H. eapply triangles_fun; [exact H|]. exists [map (at_pos (pos (verts s))) (faces s)]. split; [|cbn; rewrite app_nil_r; reflexivity].
    constructor; [|constructor]. apply Forall2_map_self. intros f Hf. apply self_corners. exact Hf.
  Qed.

  (** ** volume *)
  Definition gg (e : Z * Z) : R := dot3 t (edge_normal (pos (verts s) (fst e)) (pos (verts s) (snd e))).
  Lemma Rsum_lsides (g : Z * Z -> R) (F : list face) : Rsum g (lall F) = Rsum (fun f => let '(a, b, c) := f in g (a, b) + g (b, c) + g (c, a)) F.
  Proof.
    induction F as [|[[a b] c] F IH]; [reflexivity|].
    change (lall ((a, b, c) :: F)) with ([(a, b); (b, c); (c, a)] ++ lall F). rewrite Rsum_app, IH. cbn [Rsum]. ring.
  Qed.
  Lemma Rsum_flat_map {A B} (g : B -> R) (h : A -> list B) l : Rsum g (flat_map h l) = Rsum (fun a => Rsum g (h a)) l.
  Proof. induction l as [|a l IH]; [reflexivity|]. cbn [flat_map]. rewrite Rsum_app, IH. reflexivity. Qed.
  Lemma gg_back e : gg (lback e) = - gg e.
  Proof. unfold gg, lback, dot3, edge_normal; cbn [fst snd vx vy vz]. ring. Qed.
  Lemma ext_volume inner : Permutation (lall (faces s)) (L ++ inner) -> balanced inner ->
    signed_volume (map (at_pos (pos V)) (ext_faces n (faces s) L)) = Rsum (swept t) (map (at_pos (pos (verts s))) (faces s)).
  Proof.
    intros HP HB. unfold signed_volume, ext_faces. rewrite !map_app, !Rsum_app, !Rsum_map, !Rsum_flat_map.
    set (B := pos (verts s)).
    rewrite (Rsum_ext _ (fun f => -1 * (let '(a, b, c) := f in det3 (B a) (B b) (B c))) (faces s)).
    2:{ intros f Hf. apply face_range in Hf. destruct f as [[a b] c]. destruct Hf as (A1 & A2 & A3). cbn [swap_face at_pos]. unfold V.
        rewrite !pos_low by auto. fold B. unfold det3. ring. }
    rewrite (Rsum_ext (fun a => let '(p, q, r) := at_pos (pos V) (up_face n a) in det3 p q r)
       (fun f => (let '(a, b, c) := f in det3 (B a) (B b) (B c)) + (let '(a, b, c) := f in gg (a, b) + gg (b, c) + gg (c, a))) (faces s)).
    2:{ intros f Hf. apply face_range in Hf. destruct f as [[a b] c]. destruct Hf as (A1 & A2 & A3). cbn [up_face at_pos]. unfold V, n.
        rewrite !pos_high by auto. fold B. unfold gg; cbn [fst snd]. fold B. unfold det3, moved, dot3, edge_normal; cbn [vx vy vz]. ring. }
    rewrite (Rsum_ext (fun a => Rsum _ (wall_faces n a)) (fun e => 2 * gg e) L).
    2:{ intros [a b] H. apply L_rng in H as [A1 A2]. cbn [wall_faces Rsum at_pos]. unfold V, n. rewrite !pos_high, !pos_low by auto. fold B.
        unfold gg; cbn [fst snd]. fold B. unfold det3, moved, dot3, edge_normal; cbn [vx vy vz]. ring. }
    rewrite (Rsum_ext (fun a => swept t (at_pos B a)) (fun f => / 2 * (let '(a, b, c) := f in gg (a, b) + gg (b, c) + gg (c, a))) (faces s)).
    2:{ intros [[a b] c] _. cbn [at_pos swept]. unfold gg; cbn [fst snd]. fold B. unfold dot3, edge_normal, sub; cbn [vx vy vz]. field. }
    rewrite Rsum_plus, !Rsum_scal. pose proof (Rsum_lsides gg (faces s)) as SL. rewrite (Rsum_perm _ _ _ HP), Rsum_app in SL.
    assert (I0 : Rsum gg inner = 0).
    { pose proof (Rsum_perm gg _ _ HB) as E. rewrite Rsum_map in E.
      rewrite (Rsum_ext (fun a => gg (lback a)) (fun a => -1 * gg a)) in E by (intros; rewrite gg_back; ring). rewrite Rsum_scal in E. lra. }
    rewrite I0 in SL.
    match goal with |- (-1 * ?u + (_ + (?v + ?x))) / 6 = / 2 * ?y => assert (U : u = v) by reflexivity;
      assert (X : x = Rsum gg L + 0) by (symmetry; exact SL); assert (Y : y = Rsum gg L + 0) by (symmetry; exact SL) end.
    rewrite X, Y, U. field.
  Qed.
End Solid.
