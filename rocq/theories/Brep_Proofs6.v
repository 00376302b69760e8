(** Incidence in built graphs, moved arcs, and the graphs and edges used as witnesses. *)
From Coq Require Import String Reals List Bool ZArith Lia Lra.
From Verif Require Kin_Model.
From Verif Require Import Dict Xform_Model Fig_Model Xform_Proofs Isect_Proofs ASurf_Model Brep_Model Brep_Spec Brep_Proofs Brep_Proofs2 Brep_Proofs3 Brep_Proofs4 Brep_Proofs5.
Import ListNotations.
Open Scope R_scope.
Open Scope list_scope.

Lemma order_nodup : set_order (nodup string_dec).
Proof. intros l. split; [apply NoDup_nodup|]. intros x. apply nodup_In. Qed.

Lemma vertex_edges_ok g vid v : Inv g -> sget vid (vertices g) = Some v ->
  NoDup (map e_id (vertex_edges g vid)) /\
  forall e, In e (vertex_edges g vid) <-> exists k, sget k (edges g) = Some e /\ (e_start e = vid \/ e_end e = vid).
Proof.
  intros I Q. destruct (I_ve g I vid v Q) as [N H]. unfold vertex_edges. rewrite Q.
  destruct (found_all (edges g) e_id (v_edges v)) as [A B].
  { apply I. }
  { intros k Hk. apply H in Hk as (e & E & _). exists e. exact E. }
  rewrite A. split; auto. intros e. rewrite B. split.
  - intros (k & Hk & E). exists k. split; auto. apply H in Hk as (e' & E' & X). congruence.
  - intros (k & E & X). exists k. split; auto. apply H. eauto.
Qed.
Lemma edge_faces_ok g eid e : Inv g -> sget eid (edges g) = Some e ->
  (forall fid, count_occ string_dec (map f_id (edge_faces g eid)) fid = face_count g eid fid) /\
  (forall f, In f (edge_faces g eid) <-> exists k, sget k (faces g) = Some f /\ face_count g eid k <> 0%nat).
Proof.
  intros I Q. pose proof (I_ef g I eid e) as H. unfold edge_faces. rewrite Q.
  assert (H' : forall fid, In fid (e_faces e) <-> face_count g eid fid <> 0%nat).
  { intros fid. rewrite <- (H fid Q), (count_occ_In string_dec). lia. }
  destruct (found_all (faces g) f_id (e_faces e)) as [A B].
  { apply I. }
  { intros k Hk. apply H' in Hk. unfold face_count in Hk. unfold there. destruct (sget k (faces g)) as [x|]; [eauto|congruence]. }
  rewrite A. split; [intros; apply H, Q|]. intros f. rewrite B. split.
  - intros (k & Hk & E). exists k. split; auto. apply H', Hk.
  - intros (k & E & X). exists k. split; auto. apply H', X.
Qed.

(** ** moving and scaling *)
Definition similar (k : R) (d : vec) (p : vec) : vec := point (k * vx p + vx d) (k * vy p + vy d) (k * vz p + vz d).
Lemma atan2_scaled k y x : 0 < k -> Kin_Model.atan2 (k * y) (k * x) = Kin_Model.atan2 y x.
Proof.
  intros K. unfold Kin_Model.atan2.
  assert (L : forall a, Rltb 0 (k * a) = Rltb 0 a /\ Rltb (k * a) 0 = Rltb a 0).
  { intros a. split; [destruct (Rltb 0 a) eqn:Q|destruct (Rltb a 0) eqn:Q]; [apply Rltb_true in Q|apply Rltb_false in Q|apply Rltb_true in Q|apply Rltb_false in Q]; [apply Rltb_true|apply Rltb_false|apply Rltb_true|apply Rltb_false]; nra. }
  destruct (L x) as [-> ->]. destruct (L y) as [-> ->].
  assert (E : Rleb 0 (k * y) = Rleb 0 y).
  { destruct (Rleb 0 y) eqn:Q; [apply Rleb_true in Q; apply Rleb_true; nra|apply Rleb_false in Q; apply Rleb_false; nra]. }
  rewrite E. destruct (Rltb 0 x) eqn:X1; [apply Rltb_true in X1; replace (k * y / (k * x)) with (y / x) by (field; lra); reflexivity|].
  destruct (Rltb x 0) eqn:X2; [apply Rltb_true in X2; replace (k * y / (k * x)) with (y / x) by (field; lra); reflexivity|]. reflexivity.
Qed.
Lemma dist_similar k d p q : 0 < k -> dist (similar k d p) (similar k d q) = k * dist p q.
Proof.
  intros K. rewrite !dist_sq. replace (sq _ _ _) with (Rsqr k * sq (vx p - vx q) (vy p - vy q) (vz p - vz q)) by (unfold sq, similar, point, Rsqr; cbn [vx vy vz]; ring).
  rewrite sqrt_mult; [|apply Rle_0_sqr|apply sq_pos]. rewrite sqrt_Rsqr by lra. reflexivity.
Qed.
Lemma centre_arc_similar k d c o p q : 0 < k ->
  exists a a', draw (ArcCenter c o) p q = DArc a /\
    draw (transform_curve (similar k d) (ArcCenter c o)) (transform_point (similar k d) p) (transform_point (similar k d) q) = DArc a' /\
    forall u, samplearc a' u = transform_point (similar k d) (samplearc a u).
Proof.
  intros K. cbn [draw transform_curve]. unfold arc_through. do 2 eexists. split; [reflexivity|]. split; [reflexivity|]. intros u.
  assert (TP : forall x, transform_point (similar k d) x = similar k d x) by reflexivity. rewrite !TP.
  rewrite dist_similar by auto.
  assert (AN : forall x, Kin_Model.atan2 (vy (similar k d x) - vy (similar k d c)) (vx (similar k d x) - vx (similar k d c)) = Kin_Model.atan2 (vy x - vy c) (vx x - vx c)).
  { intros x. etransitivity; [|apply (atan2_scaled k _ _ K)]. f_equal; unfold similar, point; cbn [vx vy]; ring. }
  rewrite !AN, !sample_at.
  match goal with |- at_angle _ _ (arc_angle ?x u) = similar k d (at_angle _ _ (arc_angle ?y u)) => assert (AA : arc_angle x u = arc_angle y u) by reflexivity end. rewrite AA.
  cbn [a_c a_r]. unfold at_angle, similar, point. apply vec_same; cbn; ring.
Qed.

(** ** the pillow: two faces glued along two edges *)
Definition nm (x y : string) : string := String.append x y.
Definition flat : asurf := Tessellated [] [] [] (0, 1) (0, 1).
Definition pillow (x : string) (c : option bool) : list op :=
  [AddVertex (mkvertex (nm x "v1") (point 0 0 0) epsilon [] []); AddVertex (mkvertex (nm x "v2") (point 1 0 0) epsilon [] []);
   AddEdge (mkedge (nm x "e1") Line (nm x "v1") (nm x "v2") true epsilon [] []); AddEdge (mkedge (nm x "e2") Line (nm x "v2") (nm x "v1") true epsilon [] []);
   AddTrim (mktrim (nm x "t1") (nm x "e1") true None []); AddTrim (mktrim (nm x "t2") (nm x "e2") true None []);
   AddLoop (mkloop (nm x "l") [nm x "t1"; nm x "t2"] "outer" []);
   AddFace (mkface (nm x "f1") flat [nm x "l"] true None []); AddFace (mkface (nm x "f2") flat [nm x "l"] true None []);
   AddShell (mkshell (nm x "s") [nm x "f1"; nm x "f2"] "outer" c None []) true].
Definition no_touch : graph -> string -> string -> bool := fun _ _ _ => false.
Definition no_centre : graph -> string -> option vec := fun _ _ => None.
Definition no_inside : graph -> string -> vec -> bool := fun _ _ _ => false.
Definition made (xs : list op) : graph := run (nodup string_dec) no_touch no_centre no_inside xs.
Definition one_pillow : graph := made (pillow "a" None ++ [AddSolid (mksolid "S" ["as"%string] []) true]).

Definition has {V} (d : list (string * V)) (k : string) : bool := match sget k d with Some _ => true | None => false end.
Lemma has_iff {V} (d : list (string * V)) k : has d k = true <-> there d k.
Proof. unfold has, there. destruct (sget k d) as [v|]; split; eauto; try discriminate. intros [v H]; discriminate. Qed.
Definition in_order_b (order : list string -> list string) (g : graph) (x : op) : bool :=
  match x with
  | AddVertex v => negb (has (vertices g) (v_id v)) && match v_edges v with [] => true | _ => false end
  | AddEdge e => negb (has (edges g) (e_id e)) && match e_faces e with [] => true | _ => false end && has (vertices g) (e_start e) && has (vertices g) (e_end e)
  | AddTrim t => negb (has (trims g) (t_id t)) && has (edges g) (t_edge t)
  | AddLoop l => negb (has (loops g) (l_id l)) && forallb (has (trims g)) (l_trims l)
  | AddFace f => negb (has (faces g) (f_id f)) && match f_shell f with None => true | _ => false end && forallb (has (loops g)) (f_loops f)
  | AddShell s validate => negb (has (shells g) (s_id s)) && match s_solid s with None => true | _ => false end && forallb (has (faces g)) (s_faces s) &&
      validate && match snd (add_shell order s validate g) with Done => true | _ => false end
  | AddSolid s _ => negb (has (solids g) (so_id s)) && forallb (has (shells g)) (so_shells s)
  end.
Lemma in_order_iff order g x : in_order_b order g x = true -> in_order order g x.
Proof.
  assert (NH : forall V (d : list (string * V)) k, negb (has d k) = true -> ~ there d k) by (intros V d k H X; apply has_iff in X; rewrite X in H; discriminate).
  assert (FB : forall V (d : list (string * V)) l, forallb (has d) l = true -> forall k, In k l -> there d k) by (intros V d l H k Hk; rewrite forallb_forall in H; apply has_iff, H, Hk).
  destruct x as [v|e|t|l|f|s b|s b]; cbn [in_order_b in_order]; rewrite ?andb_true_iff; intros H; decompose [and] H; clear H;
    repeat split; try (apply NH; assumption); try (apply has_iff; assumption); try (eapply FB; eassumption).
  - destruct (v_edges v); [reflexivity|discriminate].
  - destruct (e_faces e); [reflexivity|discriminate].
  - destruct (f_shell f); [discriminate|reflexivity].
  - destruct (s_solid s); [discriminate|reflexivity].
  - assumption.
  - destruct (snd (add_shell order s b g)); [reflexivity|discriminate..].
Qed.
Fixpoint in_order_all (order : list string -> list string) (g : graph) (xs : list op) : bool :=
  match xs with [] => true | x :: r => in_order_b order g x && in_order_all order (step order no_touch no_centre no_inside g x) r end.
Lemma built_all order xs : forall g, built order no_touch no_centre no_inside g -> in_order_all order g xs = true ->
  built order no_touch no_centre no_inside (fold_left (step order no_touch no_centre no_inside) xs g).
Proof.
  induction xs as [|x xs IH]; intros g B H; auto. cbn [in_order_all] in H. apply andb_prop in H as [H1 H2]. cbn [fold_left]. apply IH; auto.
  constructor; auto. apply in_order_iff, H1.
Qed.
Lemma one_pillow_built : built (nodup string_dec) no_touch no_centre no_inside one_pillow.
Proof. apply built_all; [constructor|]. vm_compute. reflexivity. Qed.
Lemma closure_now order g sid s c : set_order order -> sget sid (shells g) = Some s -> compute_shell_closure order g sid = Ok c -> (c_closed c = true <-> closed_up g (s_faces s)).
Proof. intros O Q E. destruct (closure_ok order g sid s O Q) as (c' & E' & H & _). rewrite E in E'. injection E' as <-. exact H. Qed.
Definition closes (g : graph) (sid : string) : bool := match compute_shell_closure (nodup string_dec) g sid with Ok c => c_closed c | _ => false end.
Lemma closes_ok g sid s : sget sid (shells g) = Some s -> closes g sid = true -> closed_up g (s_faces s).
Proof.
  intros Q H. unfold closes in H. destruct (compute_shell_closure (nodup string_dec) g sid) as [c| | | | |] eqn:E; try discriminate. apply (closure_now _ g sid s c order_nodup Q E), H.
Qed.
Example one_pillow_closes : closes one_pillow "as" = true. Proof. vm_compute. reflexivity. Qed.
