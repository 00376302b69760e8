(** Topology graphs: closed shells, who borders whom, storing, drawing and moving. *)
From Coq Require Import String Reals List Bool ZArith Lia Lra.
From Verif Require Kin_Model Fig_Proofs2.
From Verif Require Import Dict Xform_Model Fig_Model Xform_Proofs Isect_Proofs ASurf_Model Brep_Model Brep_Spec Brep_Proofs Brep_Proofs2 Brep_Proofs3 Brep_Proofs4 Brep_Proofs5 Brep_Proofs6.
Import ListNotations.
Open Scope R_scope.
Open Scope list_scope.

(** C307.  What compute_shell_closure reports, in whatever order the set of faces is visited. *)
Theorem c307_closure : forall order g sid s, set_order order -> sget sid (shells g) = Some s ->
  exists c, compute_shell_closure order g sid = Ok c /\
    (c_closed c = true <-> closed_up g (s_faces s)) /\
    (forall k, match sget k (c_usage c) with
       | Some l => length l = shell_count g k (s_faces s) /\ (forall f, count_occ string_dec l f = if in_dec string_dec f (s_faces s) then face_count g k f else 0%nat)
       | None => shell_count g k (s_faces s) = 0%nat end) /\
    (forall k, In k (c_boundary c) <-> shell_count g k (s_faces s) = 1%nat) /\ NoDup (c_boundary c) /\
    (forall k, In k (c_nonmanifold c) <-> (2 < shell_count g k (s_faces s))%nat) /\ NoDup (c_nonmanifold c) /\
    (forall vs, NoDup vs -> (forall v, In v vs <-> corner_of g (s_faces s) v) -> c_v c = length vs) /\
    (forall es, NoDup es -> (forall e, In e es <-> shell_count g e (s_faces s) <> 0%nat) -> c_e c = length es) /\
    c_f c = length (nodup string_dec (s_faces s)) /\
    c_euler c = (Z.of_nat (c_v c) - Z.of_nat (c_e c) + Z.of_nat (c_f c))%Z.
Proof.
  intros order g sid s O Q. destruct (closure_ok order g sid s O Q) as (c & A & B & U1 & U2 & C). exists c. split; auto. split; auto. split; auto.
  intros k. specialize (U1 k). specialize (U2 k). unfold users in U1, U2. destruct (sget k (c_usage c)); auto.
Qed.
Print Assumptions c307_closure.
Theorem c307_no_shell : forall order g sid, sget sid (shells g) = None -> compute_shell_closure order g sid = ValueError.
Proof. intros order g sid Q. unfold compute_shell_closure. rewrite Q. reflexivity. Qed.
Print Assumptions c307_no_shell.
(** When no face uses an edge twice, a shell is closed exactly when every edge of its faces is shared by exactly two of them. *)
Theorem c307_two_faces : forall order g sid s c, set_order order -> sget sid (shells g) = Some s -> compute_shell_closure order g sid = Ok c ->
  (forall eid fid, (face_count g eid fid <= 1)%nat) ->
  (c_closed c = true <->
   forall eid, (exists fid, In fid (s_faces s) /\ face_count g eid fid <> 0%nat) ->
     exists a b, a <> b /\ In a (s_faces s) /\ In b (s_faces s) /\ face_count g eid a <> 0%nat /\ face_count g eid b <> 0%nat /\
       forall x, In x (s_faces s) -> x <> a -> x <> b -> face_count g eid x = 0%nat).
Proof.
  intros order g sid s c O Q E L. rewrite (closure_now order g sid s c O Q E). unfold closed_up, shell_count.
  assert (Z : forall eid, list_sum (map (face_count g eid) (nodup string_dec (s_faces s))) = 0%nat <-> forall fid, In fid (s_faces s) -> face_count g eid fid = 0%nat).
  { intros eid. unfold list_sum. split.
    - intros H fid Hin. apply (nodup_In string_dec) in Hin. revert H Hin. generalize (nodup string_dec (s_faces s)). induction l as [|x l IH]; cbn; [intros _ []|]. intros H [->|Hin]; [lia|apply IH; auto; lia].
    - intros H. assert (X : forall l, (forall fid, In fid l -> face_count g eid fid = 0%nat) -> fold_right Nat.add 0%nat (map (face_count g eid) l) = 0%nat).
      { induction l as [|x l IH]; cbn; auto. intros P. rewrite IH, (P x); auto. }
      apply X. intros fid Hin. apply H. apply nodup_In in Hin. exact Hin. }
  assert (T := fun eid => sum_two (face_count g eid) (nodup string_dec (s_faces s)) (NoDup_nodup _ _) (L eid)).
  split; intros C eid.
  - intros (fid & Hf & Nf). destruct (C eid) as [C0|C2]; [rewrite Z in C0; rewrite C0 in Nf by auto; congruence|].
    apply T in C2 as (a & b & Nab & Ha & Hb & Fa & Fb & Hc). apply nodup_In in Ha. apply nodup_In in Hb. exists a, b. repeat split; auto; try lia.
    intros x Hx. apply Hc. apply nodup_In. exact Hx.
  - destruct (Nat.eq_dec (list_sum (map (face_count g eid) (nodup string_dec (s_faces s)))) 0) as [E0|N0]; [left; exact E0|right].
    apply T. assert (X : exists fid, In fid (s_faces s) /\ face_count g eid fid <> 0%nat).
    { apply Exists_exists. apply neg_Forall_Exists_neg; [intros x; apply Nat.eq_dec|]. intros F. apply N0, Z. apply Forall_forall, F. }
    destruct (C eid X) as (a & b & Nab & Ha & Hb & Fa & Fb & Hc). exists a, b. pose proof (L eid a). pose proof (L eid b). repeat split; auto; try lia; try (apply nodup_In; assumption).
    intros x Hx. apply Hc. apply nodup_In in Hx. exact Hx.
Qed.
Print Assumptions c307_two_faces.
Example c307_nonvacuous : exists c, compute_shell_closure (nodup string_dec) one_pillow "as" = Ok c /\ c_closed c = true /\ c_euler c = 2%Z /\ (c_v c, c_e c, c_f c) = (2, 2, 2)%nat.
Proof. eexists. vm_compute. repeat split. Qed.

(** C308 (refuted).  A face that uses each of its edges twice is a closed shell by itself, ... *)
Definition folded : list op :=
  [AddVertex (mkvertex "v" (point 0 0 0) epsilon [] []); AddEdge (mkedge "e" Line "v" "v" true epsilon [] []);
   AddTrim (mktrim "t" "e" true None []); AddLoop (mkloop "l" ["t"; "t"]%string "outer" []); AddFace (mkface "f" flat ["l"%string] true None [])].
Theorem c308_one_face_refuted : exists g s, built (nodup string_dec) no_touch no_centre no_inside g /\ s_faces s = ["f"%string] /\ s_closed s = Some true /\
  snd (add_shell (nodup string_dec) s true g) = Done /\ face_count g "e" "f" = 2%nat.
Proof.
  exists (made folded), (mkshell "s" ["f"%string] "outer" (Some true) None []). split; [apply built_all; [constructor|]; vm_compute; reflexivity|].
  vm_compute. repeat split; reflexivity.
Qed.
Print Assumptions c308_one_face_refuted.
(** ... a shell none of whose faces is there is closed, ... *)
Theorem c308_empty_shell_refuted : forall order s g, set_order order -> (forall fid, In fid (s_faces s) -> sget fid (faces g) = None) -> s_closed s = Some true ->
  snd (add_shell order s true g) = Done.
Proof.
  intros order s g O N C. destruct (add_shell_ok order O s g) as (g' & _ & _ & _ & _ & _ & _ & X). rewrite C in X. destruct X as (_ & o & -> & X & _). cbn [snd].
  apply X. intros eid. left. unfold shell_count. assert (Y : forall l, incl l (s_faces s) -> list_sum (map (face_count g eid) l) = 0%nat).
  { unfold list_sum. induction l as [|x l IH]; cbn; auto. intros I. rewrite IH by (intros y Hy; apply I; right; exact Hy).
    unfold face_count. rewrite N by (apply I; left; reflexivity). reflexivity. }
  apply Y. intros x Hx. apply nodup_In in Hx. exact Hx.
Qed.
Print Assumptions c308_empty_shell_refuted.
(** ... and a shell that is refused because it is open is in the graph all the same, claims to be closed, and its faces belong to it. *)
Theorem c308_rejected_stays_refuted : forall order s g g' o, set_order order -> s_closed s = Some true -> add_shell order s true g = (g', o) -> o <> Done ->
  o = NotClosed /\ sget (s_id s) (shells g') = Some s /\
  forall fid f, In fid (s_faces s) -> sget fid (faces g) = Some f -> exists f', sget fid (faces g') = Some f' /\ f_shell f' = Some (s_id s).
Proof.
  intros order s g g' o O C E N. destruct (add_shell_ok order O s g) as (h & _ & _ & _ & _ & _ & F & X). rewrite C in X. destruct X as (S & o' & E' & _ & X). rewrite E in E'. injection E' as <- <-.
  split; auto. split; [rewrite S, String.eqb_refl; reflexivity|]. intros fid f Hin Q. specialize (F fid). rewrite Q in F. cbn [option_map] in F. destruct (in_dec string_dec fid (s_faces s)); [|contradiction].
  eexists. split; [exact F|]. reflexivity.
Qed.
Print Assumptions c308_rejected_stays_refuted.
Example c308_nonvacuous : snd (add_shell (nodup string_dec) (mkshell "half" ["af1"%string] "outer" (Some true) None []) true one_pillow) = NotClosed.
Proof. vm_compute. reflexivity. Qed.

(** C309.  In a graph whose entities were added in order, the traversals tell who borders whom. *)
Theorem c309_vertex_edges : forall order i ce co g vid v, set_order order -> built order i ce co g -> sget vid (vertices g) = Some v ->
  NoDup (map e_id (vertex_edges g vid)) /\
  forall e, In e (vertex_edges g vid) <-> exists k, sget k (edges g) = Some e /\ (e_start e = vid \/ e_end e = vid).
Proof. intros order i ce co g vid v O B Q. exact (vertex_edges_ok g vid v (built_inv order i ce co g O B) Q). Qed.
Print Assumptions c309_vertex_edges.
Theorem c309_edge_faces : forall order i ce co g eid e, set_order order -> built order i ce co g -> sget eid (edges g) = Some e ->
  (forall fid, count_occ string_dec (map f_id (edge_faces g eid)) fid = face_count g eid fid) /\
  (forall f, In f (edge_faces g eid) <-> exists k, sget k (faces g) = Some f /\ face_count g eid k <> 0%nat).
Proof. intros order i ce co g eid e O B Q. exact (edge_faces_ok g eid e (built_inv order i ce co g O B) Q). Qed.
Print Assumptions c309_edge_faces.
Theorem c309_face_edges : forall order i ce co g fid f, set_order order -> built order i ce co g -> sget fid (faces g) = Some f ->
  NoDup (map e_id (face_edges g fid)) /\ forall e, In e (face_edges g fid) <-> exists k, sget k (edges g) = Some e /\ face_count g k fid <> 0%nat.
Proof. intros order i ce co g fid f O B Q. exact (face_edges_ok g fid f (I_filed g (built_inv order i ce co g O B)) Q). Qed.
Print Assumptions c309_face_edges.
(** A face's shell has the face, a shell's solid has the shell, and whatever belongs to something says so. *)
Theorem c309_owners : forall order i ce co g, set_order order -> built order i ce co g ->
  (forall k f sid, sget k (faces g) = Some f -> f_shell f = Some sid -> exists s, sget sid (shells g) = Some s /\ In k (s_faces s)) /\
  (forall sid s k f, sget sid (shells g) = Some s -> In k (s_faces s) -> sget k (faces g) = Some f -> f_shell f <> None) /\
  (forall k s id, sget k (shells g) = Some s -> s_solid s = Some id -> exists x, sget id (solids g) = Some x /\ In k (so_shells x)) /\
  (forall id x k s, sget id (solids g) = Some x -> In k (so_shells x) -> sget k (shells g) = Some s -> s_solid s <> None).
Proof. intros order i ce co g O B. pose proof (built_inv order i ce co g O B) as I. repeat split; apply I. Qed.
Print Assumptions c309_owners.
(** A shell once accepted as closed is still closed, however much is added after it. *)
Theorem c309_closed_stays : forall order i ce co g sid s, set_order order -> built order i ce co g -> sget sid (shells g) = Some s ->
  s_closed s <> None /\ (s_closed s = Some true -> closed_up g (s_faces s)).
Proof. intros order i ce co g sid s O B Q. exact (I_cl g (built_inv order i ce co g O B) sid s Q). Qed.
Print Assumptions c309_closed_stays.
(** Every id an entity of the graph mentions is in the graph, and every entity is filed under its own id. *)
Theorem c309_no_dangling : forall order i ce co g, set_order order -> built order i ce co g -> all_filed g /\
  (forall k e, sget k (edges g) = Some e -> there (vertices g) (e_start e) /\ there (vertices g) (e_end e)) /\
  (forall k t, sget k (trims g) = Some t -> there (edges g) (t_edge t)) /\
  (forall k l tid, sget k (loops g) = Some l -> In tid (l_trims l) -> there (trims g) tid) /\
  (forall k f lid, sget k (faces g) = Some f -> In lid (f_loops f) -> there (loops g) lid) /\
  (forall k s fid, sget k (shells g) = Some s -> In fid (s_faces s) -> there (faces g) fid) /\
  (forall k s sid, sget k (solids g) = Some s -> In sid (so_shells s) -> there (shells g) sid).
Proof. intros order i ce co g O B. destruct (built_inv order i ce co g O B). split; [assumption|]. split; [assumption|]. split; [assumption|]. split; [assumption|]. split; [assumption|]. split; assumption. Qed.
Print Assumptions c309_no_dangling.
Example c309_nonvacuous : built (nodup string_dec) no_touch no_centre no_inside one_pillow /\ map e_id (vertex_edges one_pillow "av1") = ["ae1"; "ae2"]%string /\
  map f_id (edge_faces one_pillow "ae1") = ["af1"; "af2"]%string.
Proof. split; [exact one_pillow_built|]. vm_compute. split; reflexivity. Qed.

(** C310 (refuted).  An edge added before its vertices is not among their edges; an edge added again is there twice; an edge a face uses twice has that face twice. *)
Definition vtx (s : string) : vertex := mkvertex s (point 0 0 0) epsilon [] [].
Definition edg (s a b : string) : edge := mkedge s Line a b true epsilon [] [].
Theorem c310_edge_first_refuted : let g := made [AddEdge (edg "e" "a" "b"); AddVertex (vtx "a"); AddVertex (vtx "b")] in
  sget "e" (edges g) = Some (edg "e" "a" "b") /\ sget "a" (vertices g) = Some (vtx "a") /\ vertex_edges g "a" = [] /\ vertex_edges g "b" = [].
Proof. vm_compute. repeat split. Qed.
Print Assumptions c310_edge_first_refuted.
Theorem c310_added_again_refuted : let g := made [AddVertex (vtx "a"); AddVertex (vtx "b"); AddEdge (edg "e" "a" "b"); AddEdge (edg "e" "a" "b")] in
  vertex_edges g "a" = [edg "e" "a" "b"; edg "e" "a" "b"].
Proof. vm_compute. reflexivity. Qed.
Print Assumptions c310_added_again_refuted.
Theorem c310_seam_refuted : map f_id (edge_faces (made folded) "e") = ["f"; "f"]%string.
Proof. vm_compute. reflexivity. Qed.
Print Assumptions c310_seam_refuted.

(** C311.  What add_shell does: a shell of unknown closedness is accepted with the truth, one declared closed is
    accepted exactly when it is, one declared open always. *)
Theorem c311_add_shell : forall order s g, set_order order -> exists g',
  trims g' = trims g /\ loops g' = loops g /\ edges g' = edges g /\ vertices g' = vertices g /\ solids g' = solids g /\
  (forall k, sget k (faces g') = option_map (fun f => if in_dec string_dec k (s_faces s) then mark_face (s_id s) f else f) (sget k (faces g))) /\
  match s_closed s with
  | None => exists b : bool, (b = true <-> closed_up g (s_faces s)) /\ add_shell order s true g = (g', Done) /\
      (forall k, sget k (shells g') = if String.eqb k (s_id s) then Some (set_closed b s) else sget k (shells g))
  | Some c => (forall k, sget k (shells g') = if String.eqb k (s_id s) then Some s else sget k (shells g)) /\
      exists o, add_shell order s true g = (g', o) /\ if c then (o = Done <-> closed_up g (s_faces s)) /\ (o <> Done -> o = NotClosed) else o = Done
  end.
Proof. intros order s g O. exact (add_shell_ok order O s g). Qed.
Print Assumptions c311_add_shell.
(** add_solid accepts exactly a solid with a shell, all of whose shells are there, not declared open and closed, no two of
    which the intersection test finds to meet, and each of whose voids has its centre inside the first. *)
Theorem c311_add_solid : forall order intersect centre contains s g g' o, set_order order -> add_solid order intersect centre contains s true g = (g', o) ->
  sget (so_id s) (solids g') = Some s /\ (o <> Done -> o = Invalid) /\
  (o = Done <-> so_shells s <> [] /\
    (forall sid, In sid (so_shells s) -> exists sh, sget sid (shells g) = Some sh /\ s_closed sh <> Some false /\ closed_up g (s_faces sh)) /\
    ForallOrdPairs (fun a b => intersect g' a b = false) (so_shells s) /\
    (forall v c, In v (tl (so_shells s)) -> centre g' v = Some c -> contains g' (hd EmptyString (so_shells s)) c = true)).
Proof.
  intros order intersect centre contains s g g' o O E. pose proof (add_solid_ok order O intersect centre contains s g) as H. rewrite E in H. exact H.
Qed.
Print Assumptions c311_add_solid.
Example c311_nonvacuous : snd (add_solid (nodup string_dec) no_touch no_centre no_inside (mksolid "T" ["as"%string] []) true one_pillow) = Done /\
  snd (add_solid (nodup string_dec) no_touch no_centre no_inside (mksolid "T" ["nowhere"%string] []) true one_pillow) = Invalid.
Proof. vm_compute. split; reflexivity. Qed.

(** C312 (refuted).  Even if every test is exact, a hole may contain the body it is a hole of: two closed
    shells bounding boxes with one centre, the "outer" one well inside its "void". *)
Theorem c312_void_around_body_refuted : forall order intersect centre contains g s a b sa sb box g' o, set_order order -> so_shells s = [a; b] -> a <> b ->
  sget a (shells g) = Some sa -> s_closed sa = Some true -> closed_up g (s_faces sa) ->
  sget b (shells g) = Some sb -> s_closed sb = Some true -> closed_up g (s_faces sb) ->
  (forall h x y, intersect h x y = true <-> exists p, on_box (box x) p /\ on_box (box y) p) ->
  (forall h x, centre h x = Some (midpoint (fst (box x)) (snd (box x)))) ->
  (forall h x p, contains h x p = true <-> inside_box (box x) p) ->
  (exists p, inside_box (box a) p) -> midpoint (fst (box a)) (snd (box a)) = midpoint (fst (box b)) (snd (box b)) ->
  (forall p, inside_box (box a) p \/ on_box (box a) p -> inside_box (box b) p) ->
  add_solid order intersect centre contains s true g = (g', o) -> o = Done.
Proof.
  intros order intersect centre contains g s a b sa sb box g' o O Es Nab Qa Ca Ka Qb Cb Kb Hi Hc Hk [p0 P0] M In E.
  apply (c311_add_solid _ _ _ _ _ _ _ _ O E). rewrite Es. split; [discriminate|]. split; [|split].
  - intros sid [<-|[<-|[]]]; [exists sa|exists sb]; (split; [assumption|]; split; [congruence|assumption]).
  - constructor; [constructor; [|constructor]|constructor; constructor]. destruct (intersect g' a b) eqn:Q; auto. exfalso. apply Hi in Q as (p & A & B).
    destruct B as (_ & _ & _ & N). apply N, In. right. exact A.
  - cbn [tl hd]. intros v c [<-|[]] Ec. rewrite Hc in Ec. injection Ec as <-. apply Hk. rewrite <- M. unfold inside_box in *. unfold midpoint, point. cbn [vx vy vz]. lra.
Qed.
Print Assumptions c312_void_around_body_refuted.
Definition two_boxes (s : string) : vec * vec := if String.eqb s "as" then (point 1 1 1, point 2 2 2) else (point 0 0 0, point 3 3 3).
Example c312_nonvacuous : (forall p, inside_box (two_boxes "as") p \/ on_box (two_boxes "as") p -> inside_box (two_boxes "bs") p) /\
  inside_box (two_boxes "as") (point (3/2) (3/2) (3/2)) /\ midpoint (fst (two_boxes "as")) (snd (two_boxes "as")) = midpoint (fst (two_boxes "bs")) (snd (two_boxes "bs")) /\
  exists sa sb, let g := made (pillow "a" (Some true) ++ pillow "b" (Some true)) in sget "as" (shells g) = Some sa /\ s_closed sa = Some true /\ closed_up g (s_faces sa) /\
    sget "bs" (shells g) = Some sb /\ s_closed sb = Some true /\ closed_up g (s_faces sb).
Proof.
  split; [|split; [|split]].
  - intros p. unfold inside_box, on_box, two_boxes, point. cbn. lra.
  - unfold inside_box, two_boxes, point. cbn. lra.
  - unfold midpoint, two_boxes, point. cbn. f_equal; field.
  - set (g := made _). eexists. eexists. cbv zeta.
    assert (A : sget "as" (shells g) = Some (mkshell "as" ["af1"; "af2"]%string "outer" (Some true) None [])) by (vm_compute; reflexivity).
    assert (B : sget "bs" (shells g) = Some (mkshell "bs" ["bf1"; "bf2"]%string "outer" (Some true) None [])) by (vm_compute; reflexivity).
    split; [exact A|]. split; [reflexivity|]. split; [apply (closes_ok g "as" _ A); vm_compute; reflexivity|]. split; [exact B|]. split; [reflexivity|]. apply (closes_ok g "bs" _ B); vm_compute; reflexivity.
Qed.
(** A solid that is refused is in the graph all the same, and its shells belong to it. *)
Theorem c312_refused_stays_refuted : forall order intersect centre contains s g g' o, set_order order -> add_solid order intersect centre contains s true g = (g', o) -> o <> Done ->
  sget (so_id s) (solids g') = Some s /\ forall sid sh, In sid (so_shells s) -> sget sid (shells g) = Some sh -> exists sh', sget sid (shells g') = Some sh' /\ s_solid sh' = Some (so_id s).
Proof.
  intros order intersect centre contains s g g' o O E N. split; [apply (c311_add_solid _ _ _ _ _ _ _ _ O E)|]. unfold add_solid in E. injection E as <- _. cbn [shells].
  intros sid sh Hin Q. assert (Idem : forall v, mark_shell (so_id s) (mark_shell (so_id s) v) = mark_shell (so_id s) v) by reflexivity.
  rewrite (sget_marks (mark_shell (so_id s)) (so_shells s) (shells g) sid Idem), Q. cbn [option_map]. destruct (in_dec string_dec sid (so_shells s)); [|contradiction]. eexists. split; reflexivity.
Qed.
Print Assumptions c312_refused_stays_refuted.
Example c312_refused_nonvacuous : snd (add_solid (nodup string_dec) no_touch no_centre no_inside (mksolid "T" ["as"; "nowhere"]%string []) true one_pillow) <> Done /\ sget "as" (shells one_pillow) <> None.
Proof. vm_compute. split; discriminate. Qed.

(** C313.  A graph stored and read back has the same points, curves, trims, loops, faces and solids, the same
    shells but for their kind, the same closures, and draws the same edges. *)
Theorem c313_reload : forall order i ce co g, set_order order -> built order i ce co g -> storable g -> exists g', reload_graph g = Ok g' /\
  trims g' = trims g /\ loops g' = loops g /\ faces g' = faces g /\ solids g' = solids g /\
  (forall k, option_map (fun v => (v_id v, v_loc v, v_tol v, v_tags v)) (sget k (vertices g')) = option_map (fun v => (v_id v, v_loc v, v_tol v, v_tags v)) (sget k (vertices g))) /\
  (forall k, option_map (fun e => (e_id e, e_curve e, e_start e, e_end e, e_tags e)) (sget k (edges g')) = option_map (fun e => (e_id e, e_curve e, e_start e, e_end e, e_tags e)) (sget k (edges g))) /\
  (forall k, option_map (fun s => (s_id s, s_faces s, s_closed s, s_solid s, s_tags s)) (sget k (shells g')) = option_map (fun s => (s_id s, s_faces s, s_closed s, s_solid s, s_tags s)) (sget k (shells g))) /\
  summary g' = summary g /\
  (forall sid, compute_shell_closure order g' sid = compute_shell_closure order g sid) /\
  (forall eid, evaluate_edge g' eid = evaluate_edge g eid).
Proof.
  intros order i ce co g O B S. rewrite (reload_ok g (I_filed g (built_inv order i ce co g O B)) S). eexists. split; [reflexivity|]. cbn [vertices edges trims loops faces shells solids].
  do 4 (split; [reflexivity|]).
  split; [intros k; rewrite sget_mapv; destruct (sget k (vertices g)); reflexivity|].
  split; [intros k; rewrite sget_mapv; destruct (sget k (edges g)); reflexivity|].
  split; [intros k; rewrite sget_mapv; destruct (sget k (shells g)); reflexivity|].
  split; [unfold summary, mapv; cbn [vertices edges trims loops faces shells solids]; rewrite !map_length; reflexivity|].
  split.
  - intros sid. apply closure_same; auto; intros k; cbn [faces edges shells]; rewrite ?sget_mapv; [destruct (sget k (edges g))|destruct (sget k (shells g))]; reflexivity.
  - intros eid. unfold evaluate_edge. cbn [vertices edges]. rewrite sget_mapv. destruct (sget eid (edges g)) as [e|]; auto. cbn [option_map plain_edge e_start e_end e_curve]. rewrite !sget_mapv.
    destruct (sget (e_start e) (vertices g)), (sget (e_end e) (vertices g)); reflexivity.
Qed.
Print Assumptions c313_reload.
Lemma one_pillow_storable : storable one_pillow.
Proof.
  assert (X : forall V (Q : V -> Prop) (d : list (string * V)), Forall Q (map snd d) -> forall k v, sget k d = Some v -> Q v).
  { intros V Q d F k v H. apply sget_in in H. rewrite Forall_forall in F. apply F. apply in_map_iff. exists (k, v). auto. }
  unfold storable. split; [|split; [|split; [|split]]].
  - apply X. vm_compute. repeat constructor.
  - apply X. vm_compute. repeat constructor.
  - apply X. vm_compute. repeat constructor; discriminate.
  - apply X. vm_compute. repeat constructor; discriminate.
  - apply X. vm_compute. repeat constructor; discriminate.
Qed.
Example c313_nonvacuous : built (nodup string_dec) no_touch no_centre no_inside one_pillow /\ storable one_pillow /\ summary one_pillow = [2; 2; 2; 1; 2; 1; 1]%nat.
Proof. split; [exact one_pillow_built|]. split; [exact one_pillow_storable|]. vm_compute. reflexivity. Qed.

(** C314 (refuted).  What does not come back: which edges meet at a vertex, which faces at an edge, the sense and
    tolerance of an edge, the kind of a shell; and a graph with a plain arc edge does not come back at all. *)
Theorem c314_incidence_refuted : forall order i ce co g g', set_order order -> built order i ce co g -> storable g -> reload_graph g = Ok g' ->
  (forall vid, vertex_edges g' vid = []) /\ (forall eid, edge_faces g' eid = []) /\
  (forall eid e, sget eid (edges g') = Some e -> e_sense e = true /\ e_tol e = epsilon) /\
  (forall sid s, sget sid (shells g') = Some s -> s_type s = "outer"%string).
Proof.
  intros order i ce co g g' O B S E. rewrite (reload_ok g (I_filed g (built_inv order i ce co g O B)) S) in E. injection E as <-. unfold vertex_edges, edge_faces. cbn [vertices edges shells].
  split; [|split; [|split]].
  - intros vid. rewrite sget_mapv. destruct (sget vid (vertices g)); reflexivity.
  - intros vid. rewrite sget_mapv. destruct (sget vid (edges g)); reflexivity.
  - intros eid e. rewrite sget_mapv. destruct (sget eid (edges g)); [|discriminate]. intros H. apply some_inj in H. subst. split; reflexivity.
  - intros sid s. rewrite sget_mapv. destruct (sget sid (shells g)); [|discriminate]. intros H. apply some_inj in H. subst. reflexivity.
Qed.
Print Assumptions c314_incidence_refuted.
Example c314_nonvacuous : exists g', reload_graph one_pillow = Ok g' /\ length (vertex_edges one_pillow "av1") = 2%nat /\ vertex_edges g' "av1" = [].
Proof.
  destruct (c313_reload _ _ _ _ _ order_nodup one_pillow_built one_pillow_storable) as (g' & E & _). exists g'. split; auto. split; [vm_compute; reflexivity|].
  apply (c314_incidence_refuted _ _ _ _ _ _ order_nodup one_pillow_built one_pillow_storable E).
Qed.
Theorem c314_plain_arc_refuted : forall g k e, In (k, e) (edges g) -> e_curve e = ArcBare -> reload_graph g = ValueError.
Proof.
  intros g k e Hin C. unfold reload_graph.
  assert (V : forall x : edge, reload_edge x = ValueError \/ exists y, reload_edge x = Ok y).
  { intros x. unfold reload_edge, reload_curve, arc_curve, bspline_curve. destruct (e_curve x); cbn [bind]; eauto. destruct (negb _); cbn [bind]; eauto. }
  assert (W : forall l, all (map (fun x : string * edge => reload_edge (snd x)) l) = ValueError \/ exists y, all (map (fun x : string * edge => reload_edge (snd x)) l) = Ok y).
  { induction l as [|x l IH]; cbn [map all]; [eauto|]. destruct (V (snd x)) as [->|[y ->]]; cbn [bind]; auto. destruct IH as [->|[ys ->]]; cbn [bind]; eauto. }
  assert (X : all (map (fun x : string * edge => reload_edge (snd x)) (edges g)) = ValueError).
  { revert Hin. generalize (edges g). induction l as [|x l IH]; [intros []|]. cbn [map all]. intros [->|Hin].
    - cbn [snd]. unfold reload_edge. rewrite C. reflexivity.
    - rewrite (IH Hin). destruct (V (snd x)) as [->|[y ->]]; reflexivity. }
  rewrite X. reflexivity.
Qed.
Print Assumptions c314_plain_arc_refuted.

(** C315.  A line edge is drawn from its start to its end; so is an arc given by its centre, anticlockwise, less than one turn,
    at the distance of its ends. *)
Theorem c315_line_goes : forall p q, goes (draw Line p q) p q.
Proof. intros p q. split; reflexivity. Qed.
Print Assumptions c315_line_goes.
Theorem c315_centre_arc_goes : forall c o p q, is_point c -> is_point p -> is_point q -> vz p = vz c -> vz q = vz c -> 0 < dist c p -> dist c q = dist c p ->
  goes (draw (ArcCenter c o) p q) p q.
Proof. exact centre_arc_goes. Qed.
Print Assumptions c315_centre_arc_goes.
Theorem c315_centre_arc_sweep : forall c o p q, is_point c -> is_point p -> is_point q -> vz p = vz c -> vz q = vz c -> 0 < dist c p -> dist c q = dist c p -> vy p <> vy c ->
  exists a s t, draw (ArcCenter c o) p q = DArc a /\ 0 <= t < 360 /\ let at_deg d := point (vx c + dist c p * cos (d * pi2 / 360)) (vy c + dist c p * sin (d * pi2 / 360)) (vz c) in
    at_deg s = p /\ at_deg (s + t) = q /\ forall u, 0 <= u <= 1 -> samplearc a u = at_deg (s + t * u).
Proof.
  intros c o p q Wc Wp Wq Zp Zq Hr D Ny. destruct (centre_arc_sweep c o p q Wc Wp Wq Zp Zq Hr D Ny) as (a & s & t & A & B & C & E & F). exists a, s, t. split; [exact A|]. split; [exact B|]. cbv zeta.
  split; [exact E|]. split; [exact F|]. exact C.
Qed.
Print Assumptions c315_centre_arc_sweep.
(** What an edge of a graph is drawn as. *)
Theorem c315_evaluate : forall g eid, (exists d, evaluate_edge g eid = Ok d) <->
  exists e a b, sget eid (edges g) = Some e /\ sget (e_start e) (vertices g) = Some a /\ sget (e_end e) (vertices g) = Some b.
Proof.
  intros g eid. unfold evaluate_edge. split.
  - intros [d H]. destruct (sget eid (edges g)) as [e|]; [|discriminate]. destruct (sget (e_start e) (vertices g)) as [a|] eqn:A; [|discriminate]. destruct (sget (e_end e) (vertices g)) as [b|] eqn:B; [|discriminate]. eauto 8.
  - intros (e & a & b & -> & -> & ->). eauto.
Qed.
Print Assumptions c315_evaluate.
Definition P (x y : R) : vec := point x y 0.
Lemma dist_P x y u v : dist (P x y) (P u v) = sqrt ((x - u) * (x - u) + (y - v) * (y - v)).
Proof. rewrite dist_sq. f_equal. unfold sq, P, point. cbn [vx vy vz]. ring. Qed.
Lemma sqrt_one e : e = 1 -> sqrt e = 1. Proof. intros ->. apply sqrt_1. Qed.
Example c315_nonvacuous : is_point (P 0 1) /\ 0 < dist (P 0 0) (P 0 1) /\ dist (P 0 0) (P 1 0) = dist (P 0 0) (P 0 1) /\ vy (P 0 1) <> vy (P 0 0).
Proof. rewrite !dist_P. rewrite !sqrt_one by ring. repeat split; try lra. cbn. lra. Qed.

(** C316 (refuted).  An arc given by its bulge misses its ends, unless twice the square of the bulge is 1; ... *)
Theorem c316_bulge_misses_refuted : forall b p q, is_point p -> is_point q -> vz p = vz q -> epsilon <= Rabs b -> epsilon <= dist p q -> epsilon <= Rabs b * dist p q / 2 ->
  goes (draw (ArcBulge b) p q) p q -> 2 * (b * b) = 1.
Proof. exact bulge_goes_iff. Qed.
Print Assumptions c316_bulge_misses_refuted.
(** ... so a half circle (bulge 1) between any two different points does; *)
Example c316_nonvacuous : epsilon <= Rabs 1 /\ epsilon <= dist (P 0 0) (P 1 0) /\ epsilon <= Rabs 1 * dist (P 0 0) (P 1 0) / 2 /\ ~ goes (draw (ArcBulge 1) (P 0 0) (P 1 0)) (P 0 0) (P 1 0).
Proof.
  assert (D : dist (P 0 0) (P 1 0) = 1) by (rewrite dist_P; apply sqrt_one; ring). rewrite D. rewrite Rabs_R1. unfold epsilon. repeat split; try lra.
  intros G. apply bulge_goes_iff in G; try reflexivity; rewrite ?D, ?Rabs_R1; unfold epsilon; lra.
Qed.
(** an arc's orientation does not matter, so a clockwise one goes the long way round; *)
Theorem c316_orientation_refuted : forall c o o' p q, draw (ArcCenter c o) p q = draw (ArcCenter c o') p q.
Proof. reflexivity. Qed.
Print Assumptions c316_orientation_refuted.
Theorem c316_long_way_refuted : exists a u, draw (ArcCenter (P 0 0) (-1)) (P 0 1) (P 1 0) = DArc a /\ 0 <= u <= 1 /\ samplearc a u = P (-1) 0.
Proof.
  destruct (centre_arc_sweep (P 0 0) (-1) (P 0 1) (P 1 0)) as (a & s & t & A & B & C & D & F); try reflexivity.
  all: try reflexivity; try apply c315_nonvacuous.
  assert (R1 : dist (P 0 0) (P 0 1) = 1) by (rewrite dist_P; apply sqrt_one; ring). rewrite R1 in *.
  assert (X : exists u, 0 <= u <= 1 /\ samplearc a u = P (-1) 0); [|destruct X as (u & U & X); exists a, u; auto].
  unfold draw, arc_through in A. injection A as <-.
  set (a := mkarc _ _ _ _ _) in *. assert (PP := PI_RGT_0).
  assert (SP : a_start a = 90).
  { unfold a. cbn [a_start]. unfold Kin_Model.atan2, P, point. cbn [vx vy]. rewrite (proj2 (Rltb_false 0 (0 - 0))) by lra. rewrite (proj2 (Rltb_false (0 - 0) 0)) by lra. rewrite (proj2 (Rltb_true 0 (1 - 0))) by lra. field. lra. }
  assert (EP : a_end a = 0).
  { unfold a. cbn [a_end]. unfold Kin_Model.atan2, P, point. cbn [vx vy]. rewrite (proj2 (Rltb_true 0 (1 - 0))) by lra. replace ((0 - 0) / (1 - 0)) with 0 by field. rewrite atan_0. field. lra. }
  assert (RR : a_r a = 1) by exact R1. exists (1 / 3). split; [lra|]. rewrite sample_at. unfold arc_angle. replace (a_rev a) with false by reflexivity. unfold arc_range. rewrite SP, EP.
  assert (M90 : pymod 90 360 = 90) by (apply Fig_Proofs2.pymod_id; lra). assert (M0 : pymod 0 360 = 0) by (apply Fig_Proofs2.pymod_id; lra).
  replace (Reqb 90 0) with false by (symmetry; apply Reqb_false; lra). replace (Reqb 0 360) with false by (symmetry; apply Reqb_false; lra). cbn [negb andb]. rewrite M90, M0.
  rewrite (proj2 (Rltb_true 0 90)) by lra. replace ((0 + 360 - 90) * (1 / 3) + 90) with 180 by field. rewrite at_angle_mod. unfold at_angle. rewrite RR.
  replace (180 * pi2 / 360) with PI by (unfold pi2; field). rewrite cos_PI, sin_PI. apply vec_same; cbn; ring.
Qed.
Print Assumptions c316_long_way_refuted.
(** circles and splines are drawn as the chord between their ends. *)
Theorem c316_chord_refuted : forall p q, (forall c a r t0 t1, draw (Circle c a r t0 t1) p q = DLine p q) /\ (forall ps k d w t0 t1, draw (Bspline ps k d w t0 t1) p q = DLine p q) /\
  (forall ps ns, draw (Nurbs ps ns) p q = DLine p q) /\ draw ArcBare p q = DLine p q.
Proof. repeat split. Qed.
Print Assumptions c316_chord_refuted.

(** C317.  transform_topology_graph moves points, curves and surfaces and leaves who borders whom as it was. *)
Theorem c317_topology : forall order f g, let g' := transform_graph f g in
  trims g' = trims g /\ loops g' = loops g /\ shells g' = shells g /\ solids g' = solids g /\
  (forall sid, compute_shell_closure order g' sid = compute_shell_closure order g sid) /\
  (forall vid, map e_id (vertex_edges g' vid) = map e_id (vertex_edges g vid)) /\
  (forall eid, map f_id (edge_faces g' eid) = map f_id (edge_faces g eid)) /\
  (forall fid, map e_id (face_edges g' fid) = map e_id (face_edges g fid)).
Proof.
  intros order f g g'. do 4 (split; [reflexivity|]). split; [intros sid; apply transform_keeps_closure|].
  assert (FE : forall l, found (edges g') l = map (set_curve (transform_curve f)) (found (edges g) l)).
  { intros l. unfold found. induction l as [|k l IH]; cbn [flat_map map]; auto. rewrite map_app, IH. f_equal. unfold g', transform_graph. cbn [edges]. rewrite sget_mapv. destruct (sget k (edges g)); reflexivity. }
  assert (DM : forall l seen, map e_id (distinct seen (map (set_curve (transform_curve f)) l)) = map e_id (distinct seen l)).
  { induction l as [|x l IH]; intros seen; cbn [map distinct]; auto. cbn [set_curve e_id]. destruct (existsb _ seen); [apply IH|]. cbn [map e_id]. f_equal. apply IH. }
  split; [|split].
  - intros vid. unfold vertex_edges. unfold g' at 1, transform_graph. cbn [vertices]. rewrite sget_mapv. destruct (sget vid (vertices g)) as [v|]; auto. cbn [option_map]. rewrite FE. cbn [set_loc v_edges]. rewrite map_map. reflexivity.
  - intros eid. unfold edge_faces. unfold g', transform_graph. cbn [edges faces]. rewrite sget_mapv. destruct (sget eid (edges g)) as [e|]; auto. cbn [option_map set_curve e_faces]. unfold found.
    induction (e_faces e) as [|k l IH]; cbn [flat_map map]; auto. rewrite !map_app, IH. f_equal. rewrite sget_mapv. destruct (sget k (faces g)); reflexivity.
  - intros fid. unfold face_edges. unfold g' at 1, transform_graph. cbn [faces]. rewrite sget_mapv. destruct (sget fid (faces g)) as [x|]; auto. cbn [option_map]. rewrite FE, DM. reflexivity.
Qed.
Print Assumptions c317_topology.
Theorem c317_parts : forall f g,
  (forall k, sget k (vertices (transform_graph f g)) = option_map (set_loc (transform_point f)) (sget k (vertices g))) /\
  (forall k, sget k (edges (transform_graph f g)) = option_map (set_curve (transform_curve f)) (sget k (edges g))) /\
  (forall k, sget k (faces (transform_graph f g)) = option_map (set_surface (transform_surface f)) (sget k (faces g))).
Proof. intros f g. unfold transform_graph. cbn [vertices edges faces]. repeat split; intros k; apply sget_mapv. Qed.
Print Assumptions c317_parts.
(** A line edge becomes the line between the images of its ends. *)
Theorem c317_lines : forall f g eid e a b, sget eid (edges g) = Some e -> e_curve e = Line -> sget (e_start e) (vertices g) = Some a -> sget (e_end e) (vertices g) = Some b ->
  evaluate_edge (transform_graph f g) eid = Ok (DLine (transform_point f (v_loc a)) (transform_point f (v_loc b))).
Proof.
  intros f g eid e a b E C A B. destruct (c317_parts f g) as (V & D & _). unfold evaluate_edge. rewrite D, E. cbn [option_map set_curve e_start e_end e_curve]. rewrite !V, A, B, C. reflexivity.
Qed.
Print Assumptions c317_lines.
(** Moved or scaled by a positive factor, an arc given by its centre becomes the image of the arc, point by point. *)
Theorem c317_arcs : forall k d g eid e c o a b, 0 < k -> sget eid (edges g) = Some e -> e_curve e = ArcCenter c o -> sget (e_start e) (vertices g) = Some a -> sget (e_end e) (vertices g) = Some b ->
  let f p := point (k * vx p + vx d) (k * vy p + vy d) (k * vz p + vz d) in
  exists x x', evaluate_edge g eid = Ok (DArc x) /\ evaluate_edge (transform_graph f g) eid = Ok (DArc x') /\ forall u, samplearc x' u = f (samplearc x u).
Proof.
  intros k d g eid e c o a b K E C A B f. destruct (centre_arc_similar k d c o (v_loc a) (v_loc b) K) as (x & x' & X & X' & S). exists x, x'.
  destruct (c317_parts f g) as (V & D & _). unfold evaluate_edge. rewrite D, E. cbn [option_map set_curve e_start e_end e_curve]. rewrite !V, A, B, C. cbn [option_map set_loc v_loc].
  split; [f_equal; exact X|]. split; [f_equal; exact X'|]. exact S.
Qed.
Print Assumptions c317_arcs.
Example c317_nonvacuous : exists e a b, sget "ae1" (edges one_pillow) = Some e /\ e_curve e = Line /\ sget (e_start e) (vertices one_pillow) = Some a /\ sget (e_end e) (vertices one_pillow) = Some b.
Proof. do 3 eexists. vm_compute. repeat split. Qed.

(** C318 (refuted).  TopologyGraph.transform moves the points but leaves circles, B-splines and the surfaces where they were; *)
Theorem c318_left_behind_refuted : forall f g,
  faces (graph_transform f g) = faces g /\
  (forall k v, sget k (vertices g) = Some v -> exists v', sget k (vertices (graph_transform f g)) = Some v' /\ v_loc v' = as_point (f (v_loc v))) /\
  (forall k e, sget k (edges g) = Some e -> (exists c a r t0 t1, e_curve e = Circle c a r t0 t1) \/ (exists ps ks d w t0 t1, e_curve e = Bspline ps ks d w t0 t1) ->
    sget k (edges (graph_transform f g)) = Some e).
Proof.
  intros f g. unfold graph_transform. cbn [vertices edges faces]. split; [reflexivity|]. split.
  - intros k v Q. rewrite sget_mapv, Q. eexists. split; reflexivity.
  - intros k e Q H. rewrite sget_mapv, Q. cbn [option_map]. f_equal. destruct e as [i cv s t se to fs tg]. unfold set_curve. cbn [e_id e_curve e_start e_end e_sense e_tol e_faces e_tags] in *.
    destruct H as [(c & a & r & t0 & t1 & ->)|(ps & ks & d & w & t0 & t1 & ->)]; reflexivity.
Qed.
Print Assumptions c318_left_behind_refuted.
(** scaling a body leaves the radii of its circle edges; *)
Theorem c318_circle_radius_refuted : forall k m g eid e c a r t0 t1, sget eid (edges g) = Some e -> e_curve e = Circle c a r t0 t1 ->
  exists e' c' a', sget eid (edges (scale_graph k m g)) = Some e' /\ e_curve e' = Circle c' a' r t0 t1.
Proof.
  intros k m g eid e c a r t0 t1 Q C. unfold scale_graph, transform_graph. cbn [edges]. rewrite sget_mapv, Q. cbn [option_map]. do 3 eexists. split; [reflexivity|]. cbn [set_curve e_curve]. rewrite C. reflexivity.
Qed.
Print Assumptions c318_circle_radius_refuted.
(** and an arc given by its bulge, mirrored in the line through its ends, stays where it was instead of changing sides. *)
Theorem c318_mirrored_bulge_refuted : let m p := point (vx p) (- vy p) (vz p) in let p := P 0 0 in let q := P 2 0 in
  transform_point m p = p /\ transform_point m q = q /\
  exists a u, draw (transform_curve m (ArcBulge 1)) (transform_point m p) (transform_point m q) = DArc a /\ draw (ArcBulge 1) p q = DArc a /\ forall v, samplearc a v <> m (samplearc a u).
Proof.
  cbv zeta. set (m := fun p => point (vx p) (- vy p) (vz p)).
  assert (A : transform_point m (P 0 0) = P 0 0) by (unfold transform_point, m, P, as_point, point; cbn [vx vy vz]; f_equal; ring).
  assert (B : transform_point m (P 2 0) = P 2 0) by (unfold transform_point, m, P, as_point, point; cbn [vx vy vz]; f_equal; ring).
  split; [exact A|]. split; [exact B|]. rewrite A, B. cbn [transform_curve].
  assert (D : dist (P 0 0) (P 2 0) = 2) by (rewrite dist_P; replace ((0 - 2) * (0 - 2) + (0 - 0) * (0 - 0)) with (Rsqr 2) by (unfold Rsqr; ring); apply sqrt_Rsqr; lra).
  assert (E : sqrt ((vx (P 2 0) - vx (P 0 0)) * (vx (P 2 0) - vx (P 0 0)) + (vy (P 2 0) - vy (P 0 0)) * (vy (P 2 0) - vy (P 0 0))) = 2).
  { unfold P, point. cbn [vx vy]. replace ((2 - 0) * (2 - 0) + (0 - 0) * (0 - 0)) with (Rsqr 2) by (unfold Rsqr; ring). apply sqrt_Rsqr. lra. }
  assert (X : exists a, draw (ArcBulge 1) (P 0 0) (P 2 0) = DArc a /\ a_r a = 1 /\ vy (a_c a) = 1 /\ vx (a_c a) = 1 /\ a_rev a = false /\ a_start a = deg_at (a_c a) (P 0 0)).
  { unfold draw. rewrite D, E. rewrite Rabs_R1. rewrite (proj2 (Rltb_false 1 epsilon)) by (unfold epsilon; lra). rewrite (proj2 (Rltb_false 2 epsilon)) by (unfold epsilon; lra).
    replace (1 * 2 / 2) with 1 by field. rewrite Rabs_R1. rewrite (proj2 (Rltb_false 1 epsilon)) by (unfold epsilon; lra). rewrite (proj2 (Rltb_true 0 1)) by lra.
    unfold arc_through. eexists. split; [reflexivity|]. cbn [a_r a_c a_rev a_start]. split; [field|]. split; [|split; [|split; [reflexivity|reflexivity]]]; unfold midpoint, as_point, sub, add, scale3, P, point; cbn [vx vy vz vw]; field. }
  destruct X as (a & Ea & Ra & Ca & Cx & Rv & St). exists a. 
  assert (Y : forall v, 0 <= vy (samplearc a v) /\ vy (samplearc a v) = 1 + sin (arc_angle a v * pi2 / 360)).
  { intros v. rewrite sample_at. unfold at_angle, point. cbn [vy]. rewrite Ra, Ca. pose proof (SIN_bound (arc_angle a v * pi2 / 360)). lra. }
  exists 0. split; [exact Ea|]. split; [exact Ea|]. intros v Q. assert (W : vy (samplearc a v) = - vy (samplearc a 0)) by (rewrite Q; reflexivity).
  destruct (Y v) as [Yv _]. destruct (Y 0) as [Y0 Y0']. assert (Z : vy (samplearc a 0) = 0) by lra.
  (* the arc does not start at its lowest point *)
  destruct (sample_ends a Rv) as [S _]. rewrite S, St, Ra in Z. unfold at_angle, deg_at in Z. unfold point in Z at 1. cbn [vy] in Z. rewrite Ca, Cx in Z.
  assert (N2 : 0 < sqrt 2) by (apply sqrt_lt_R0; lra). pose proof (sqrt_sqrt 2 ltac:(lra)) as Q2.
  destruct (atan2_polar (vx (P 0 0) - 1) (vy (P 0 0) - 1) (sqrt 2) N2) as [_ T]; [unfold P, point; cbn [vx vy]; lra|].
  pose proof PI_RGT_0. replace (Kin_Model.atan2 (vy (P 0 0) - 1) (vx (P 0 0) - 1) * 180 / PI * pi2 / 360) with (Kin_Model.atan2 (vy (P 0 0) - 1) (vx (P 0 0) - 1)) in Z by (unfold pi2; field; lra).
  set (w := sin (Kin_Model.atan2 (vy (P 0 0) - 1) (vx (P 0 0) - 1))) in *. assert (Ew : w = -1) by lra. rewrite Ew in T. assert (Ey : vy (P 0 0) = 0) by reflexivity. assert (S1 : sqrt 2 = 1) by lra. rewrite S1 in Q2. lra.
Qed.
Print Assumptions c318_mirrored_bulge_refuted.
