(** The geometry checks: closed polygons, watertight surfaces, oriented faces. *)
From Coq Require Import Reals ZArith List Bool Lra Lia.
From Verif Require Import Dict Xform_Model Xform_Proofs Mesh_Model Mesh_Spec Mesh_Proofs GCheck_Model GCheck_Spec GCheck_Proofs.
Import ListNotations.
Open Scope R_scope.
Open Scope list_scope.

(** ** C329: watertight surfaces *)
Theorem c329_ok : forall s, c_ok (surface_watertight s) = true <-> forall x y n, used (faces s) x y n -> n = 0%nat \/ n = 2%nat.
Proof. exact watertight_ok. Qed.
Print Assumptions c329_ok.
(** the number of sides that join two corners is a number, whatever the names of the corners *)
Theorem c329_used : forall fs x y, (exists n, used fs x y n) /\ (forall n n', used fs x y n -> used fs x y n' -> n = n') /\ forall n, used fs x y n <-> used fs y x n.
Proof. intros. split; [apply used_total|]. split; [apply used_det|]. intros. apply used_sym. Qed.
Print Assumptions c329_used.
Theorem c329_boundary : forall s n, In (BoundaryEdges n) (c_warnings (surface_watertight s)) <->
  n <> 0%nat /\ exists l, NoDup l /\ length l = n /\ forall x y, In (x, y) l <-> (x <= y)%Z /\ used (faces s) x y 1.
Proof.
  intros s n. rewrite watertight_warnings. split.
  - intros I. apply in_app_or in I as [I|I]; [|destruct (toomany (faces s)); [destruct I|destruct I as [X|[]]; discriminate]].
    destruct (boundary (faces s)) as [|e b] eqn:E; [destruct I|]. destruct I as [X|[]]. injection X as <-. split; [discriminate|]. exists (e :: b). rewrite <- E. split; [apply selected_nodup|]. split; [rewrite E; reflexivity|]. intros x y. apply boundary_iff.
  - intros (N & l & ND & L & I). assert (P : length (boundary (faces s)) = n).
    { rewrite <- L. apply Nat.le_antisymm; apply NoDup_incl_length; try apply selected_nodup; try exact ND; intros [x y] J; [apply I, boundary_iff, J|apply boundary_iff, I, J]. }
    apply in_or_app. left. destruct (boundary (faces s)) as [|e b] eqn:E; [cbn in P; congruence|]. left. rewrite P. reflexivity.
Qed.
Print Assumptions c329_boundary.
Theorem c329_too_often : forall s,
  (forall l, In (TooOften l) (c_warnings (surface_watertight s)) -> NoDup l /\ l <> [] /\ forall x y, In (x, y) l <-> (x <= y)%Z /\ exists n, used (faces s) x y n /\ (2 < n)%nat) /\
  ((exists x y n, used (faces s) x y n /\ (2 < n)%nat) -> exists l, In (TooOften l) (c_warnings (surface_watertight s))).
Proof.
  intros s. rewrite watertight_warnings. split.
  - intros l I. apply in_app_or in I as [I|I]; [destruct (boundary (faces s)); [destruct I|destruct I as [X|[]]; discriminate]|].
    destruct (toomany (faces s)) as [|e b] eqn:E; [destruct I|]. destruct I as [X|[]]. injection X as <-. rewrite <- E. split; [apply selected_nodup|]. split; [rewrite E; discriminate|]. intros x y. apply toomany_iff.
  - intros (x & y & n & U & L). assert (I : exists e, In e (toomany (faces s))).
    { destruct (Z.le_ge_cases x y) as [Q|Q]; [exists (x, y)|exists (y, x); apply used_sym in U]; apply toomany_iff; eauto. }
    destruct I as [e I]. destruct (toomany (faces s)) as [|e' b]; [destruct I|]. exists (e' :: b). apply in_or_app. right. now left.
Qed.
Print Assumptions c329_too_often.
Theorem c329_warnings : forall s, (c_warnings (surface_watertight s) = [] <-> c_ok (surface_watertight s) = true) /\
  forall w, In w (c_warnings (surface_watertight s)) -> (exists n, w = BoundaryEdges n) \/ exists l, w = TooOften l.
Proof.
  intros s. split.
  - change (c_ok (surface_watertight s)) with (match c_warnings (surface_watertight s) with [] => true | _ => false end). destruct (c_warnings (surface_watertight s)); split; auto; discriminate.
  - intros w. rewrite watertight_warnings. intros I. apply in_app_or in I as [I|I]; [destruct (boundary (faces s)); [destruct I|destruct I as [X|[]]; eauto]|destruct (toomany (faces s)); [destruct I|destruct I as [X|[]]; eauto]].
Qed.
Print Assumptions c329_warnings.
Definition pt (x y z : R) : vec := mkv x y z 1.
(** a tetrahedron, every side once in each direction *)
Definition tetrahedron : surface := Surface [pt 0 0 0; pt 2 0 0; pt 0 1 0; pt 0 0 1] [[0; 2; 1]; [0; 1; 3]; [0; 3; 2]; [1; 2; 3]]%Z.
Example c329_nonvacuous : surface_watertight tetrahedron = mkchecked true [] /\
  surface_watertight (Surface (vertices tetrahedron) [[0; 2; 1]; [0; 1; 3]]%Z) = mkchecked false [BoundaryEdges 4] /\
  surface_watertight (Surface (vertices tetrahedron) [[0; 1; 2]; [0; 1; 3]; [1; 0; 2]]%Z) = mkchecked false [BoundaryEdges 2; TooOften [(0, 1)]%Z].
Proof. repeat split. Qed.

(** ** C330: what passes as watertight *)
(** no faces, faces that are no triangles, one triangle twice, and a mesh with one face turned round *)
Theorem c330_refuted :
  (forall v, surface_watertight (Surface v []) = mkchecked true []) /\
  (forall v a b c d, surface_watertight (Surface v [[a; b; c; d]]) = mkchecked true []) /\
  (forall v a b c, a <> b -> b <> c -> c <> a -> c_ok (surface_watertight (Surface v [[a; b; c]; [a; b; c]])) = true) /\
  c_ok (surface_watertight (Surface (vertices tetrahedron) [[0; 1; 2]; [0; 1; 3]; [0; 3; 2]; [1; 2; 3]]%Z)) = true.
Proof.
  split; [reflexivity|]. split; [reflexivity|]. split; [|reflexivity]. intros v a b c AB BC CA. apply watertight_ok. intros x y n U. cbn [faces] in U. unfold used in U. apply joined_occ in U. subst n.
  unfold occ. cbn [flat_map sides app filter]. 
  assert (D1 : edge_key a b <> edge_key b c) by (intros X; apply key_iff in X as [X|X]; injection X; intros; congruence).
  assert (D2 : edge_key a b <> edge_key c a) by (intros X; apply key_iff in X as [X|X]; injection X; intros; congruence).
  assert (D3 : edge_key b c <> edge_key c a) by (intros X; apply key_iff in X as [X|X]; injection X; intros; congruence).
  unfold key_of. cbn [fst snd].
  destruct (edge_eqb (edge_key a b) (edge_key x y)) eqn:E1, (edge_eqb (edge_key b c) (edge_key x y)) eqn:E2, (edge_eqb (edge_key c a) (edge_key x y)) eqn:E3; cbn [length]; auto;
    repeat match goal with H : edge_eqb _ _ = true |- _ => apply edge_eqb_spec in H end; exfalso; congruence.
Qed.
Print Assumptions c330_refuted.

(** ** C331: oriented faces *)
Theorem c331_ok : forall s c, faces_oriented s = Some c -> (c_ok c = true <-> forall i, ~ looks_away s i).
Proof. intros s c E. apply (oriented_some s c E). Qed.
Print Assumptions c331_ok.
Theorem c331_warnings : forall s c, faces_oriented s = Some c ->
  (c_ok c = false -> exists l, c_warnings c = [Inconsistent l] /\ forall i, In i l <-> looks_away s i) /\
  (In NoFaces (c_warnings c) <-> forall i t, ~ proper s i t).
Proof.
  intros s c E. destruct (oriented_some s c E) as (_ & N & I & F). split; [|exact N]. intros X. destruct (F X) as [l L]. exists l. split; [exact L|]. apply I. rewrite L. now left.
Qed.
Print Assumptions c331_warnings.
Theorem c331_raises : forall s, faces_oriented s = None <-> ~ indexed s.
Proof. exact oriented_none. Qed.
Print Assumptions c331_raises.
(** the normal of a triangle is one vector *)
Theorem c331_normal : forall n m p q r, outward n p q r -> outward m p q r -> vx n = vx m /\ vy n = vy m /\ vz n = vz m.
Proof. exact outward_unique. Qed.
Print Assumptions c331_normal.
Theorem c331_closed : forall ps tol, is_closed_polygon ps tol = true <-> exists p l, hd_error ps = Some p /\ last ps p = l /\ dist p l <= tol.
Proof.
  intros [|p r] tol; cbn [is_closed_polygon hd_error].
  - split; [discriminate|]. intros (p & l & X & _). discriminate.
  - assert (L : last (p :: r) p = last r p) by (destruct r; reflexivity). rewrite Rleb_true. split.
    + intros D. exists p, (last r p). auto.
    + intros (p' & l & X & Y & D). apply Some_eq in X. subst p'. rewrite L in Y. subst l. exact D.
Qed.
Print Assumptions c331_closed.
Lemma unit_of x y z : x * x + y * y + z * z = 1 -> mag (pt x y z) = 1.
Proof. intros E. unfold mag, pt. cbn [vx vy vz]. rewrite E. apply sqrt_1. Qed.
Lemma proper_i s i f p q r : nth_error (faces s) i = Some f -> corners (vertices s) f = Some (p, q, r) -> (exists n, outward n p q r) -> epsilon < twice_area p q r -> proper s i (p, q, r).
Proof. intros A B _ C. exists f. auto. Qed.
Lemma area_of p q r k : 0 <= k -> ((vx q - vx p) * (vx q - vx p) + (vy q - vy p) * (vy q - vy p) + (vz q - vz p) * (vz q - vz p)) *
        ((vx r - vx p) * (vx r - vx p) + (vy r - vy p) * (vy r - vy p) + (vz r - vz p) * (vz r - vz p)) -
        ((vx q - vx p) * (vx r - vx p) + (vy q - vy p) * (vy r - vy p) + (vz q - vz p) * (vz r - vz p)) *
        ((vx q - vx p) * (vx r - vx p) + (vy q - vy p) * (vy r - vy p) + (vz q - vz p) * (vz r - vz p)) = k * k -> twice_area p q r = k.
Proof. intros K E. unfold twice_area. rewrite E. apply sqrt_square, K. Qed.
(** ** C332: orientation as it is used *)
(** a closed tetrahedron with every side once in each direction is reported as inconsistent *)
Theorem c332_consistent_refuted : exists l, faces_oriented tetrahedron = Some (mkchecked false [Inconsistent l]) /\
  NoDup (flat_map sides (faces tetrahedron)) /\ (forall a b, In (a, b) (flat_map sides (faces tetrahedron)) -> In (b, a) (flat_map sides (faces tetrahedron))).
Proof.
  assert (LA : looks_away tetrahedron 3).
  { exists 0%nat, (pt 0 0 0, pt 0 1 0, pt 2 0 0), (pt 2 0 0, pt 0 1 0, pt 0 0 1), (pt 0 0 (-1)), (pt (1/3) (2/3) (2/3)). cbn [fst snd].
    split; [|split; [lia|split; [|split; [|split]]]].
    - split; [|intros; lia]. exists [0; 2; 1]%Z. split; [reflexivity|]. split; [reflexivity|]. cbn [fst snd]. rewrite (area_of _ _ _ 2); [unfold epsilon; lra|lra|unfold pt; cbn; ring].
    - exists [1; 2; 3]%Z. split; [reflexivity|]. split; [reflexivity|]. cbn [fst snd]. rewrite (area_of _ _ _ 3); [unfold epsilon; lra|lra|unfold pt; cbn; ring].
    - split; [apply unit_of; ring|]. unfold dot, det3, sub, pt. cbn [vx vy vz]. repeat split; lra.
    - split; [apply unit_of; field|]. unfold dot, det3, sub, pt. cbn [vx vy vz]. repeat split; lra.
    - unfold dot, pt. cbn [vx vy vz]. unfold epsilon. lra. }
  destruct (faces_oriented tetrahedron) as [[ok w]|] eqn:E.
  - destruct (oriented_some _ _ E) as (O & _ & _ & F). cbn [c_ok c_warnings] in *. destruct ok; [exfalso; exact (proj1 O eq_refl 3%nat LA)|]. destruct (F eq_refl) as [l ->]. exists l.
    split; [reflexivity|]. split; [cbn; repeat constructor; cbn; intuition discriminate|]. cbn. intros a b I. repeat (destruct I as [X|I]; [injection X as <- <-; auto 20|]). destruct I.
  - exfalso. apply oriented_none in E. apply E. intros f i I _ J. cbn in I. repeat (destruct I as [<-|I]; [cbn in J; repeat (destruct J as [<-|J]; [cbn; discriminate|]); destruct J|]). destruct I.
Qed.
Print Assumptions c332_consistent_refuted.
(** two triangles that run along their common side in the same direction are reported as consistent *)
Definition folded : surface := Surface [pt 0 0 0; pt 1 0 0; pt 0 1 0; pt 0 3 4] [[0; 1; 2]; [0; 1; 3]]%Z.
Theorem c332_inconsistent_refuted : faces_oriented folded = Some (mkchecked true []) /\ ~ NoDup (flat_map sides (faces folded)).
Proof.
  split; [|cbn; intros N; apply NoDup_cons_iff in N as [N _]; apply N; cbn; auto].
  assert (NL : forall i, ~ looks_away folded i).
  { intros i (i0 & t0 & t & n0 & n & [(f0 & A0 & B0 & _) _] & L & (f & A & B & _) & O0 & O & D).
    assert (X : i0 = 0%nat /\ i = 1%nat). { assert (Q : (i < length (faces folded))%nat) by (apply (proj1 (nth_error_Some (faces folded) i)); rewrite A; discriminate). cbn in Q. lia. }
    destruct X as [-> ->]. cbn in A0, A. apply Some_eq in A0, A. subst f0 f. cbn in B0, B. apply Some_eq in B0, B. subst t0 t. cbn [fst snd] in O0, O.
    assert (P0 : outward (pt 0 0 1) (pt 0 0 0) (pt 1 0 0) (pt 0 1 0)) by (split; [apply unit_of; ring|]; unfold dot, det3, sub, pt; cbn [vx vy vz]; repeat split; lra).
    assert (P : outward (pt 0 (-4/5) (3/5)) (pt 0 0 0) (pt 1 0 0) (pt 0 3 4)) by (split; [apply unit_of; field|]; unfold dot, det3, sub, pt; cbn [vx vy vz]; repeat split; lra).
    destruct (outward_unique _ _ _ _ _ O0 P0) as (E1 & E2 & E3). destruct (outward_unique _ _ _ _ _ O P) as (F1 & F2 & F3).
    unfold dot in D. rewrite E1, E2, E3, F1, F2, F3 in D. unfold pt in D. cbn [vx vy vz] in D. unfold epsilon in D. lra. }
  assert (PR : proper folded 0 (pt 0 0 0, pt 1 0 0, pt 0 1 0)).
  { exists [0; 1; 2]%Z. split; [reflexivity|]. split; [reflexivity|]. cbn [fst snd]. rewrite (area_of _ _ _ 1); [unfold epsilon; lra|lra|unfold pt; cbn; ring]. }
  unfold faces_oriented in *. destruct (oriented_loop (vertices folded) None 0 (faces folded)) as [[r l]|] eqn:E; cbn [bind fst snd].
  - pose proof (oriented_some folded _ ltac:(unfold faces_oriented; rewrite E; reflexivity)) as (O & N & _ & F). cbn [fst snd] in *. destruct r as [m|].
    + destruct l; [reflexivity|]. exfalso. cbn [c_ok] in O. pose proof (proj2 O NL) as Z. discriminate Z.
    + exfalso. cbn [c_warnings] in N. apply (proj1 N (or_introl eq_refl) _ _ PR).
  - exfalso. apply loop_raises in E as (f & i & I & _ & J & X). cbn in I. repeat (destruct I as [<-|I]; [cbn in J; repeat (destruct J as [<-|J]; [cbn in X; discriminate|]); destruct J|]). destruct I.
Qed.
Print Assumptions c332_inconsistent_refuted.
Example c331_nonvacuous : looks_away (Surface [pt 0 0 0; pt 1 0 0; pt 0 1 0] [[0; 1; 2]; [0; 2; 1]]%Z) 1.
Proof.
  exists 0%nat, (pt 0 0 0, pt 1 0 0, pt 0 1 0), (pt 0 0 0, pt 0 1 0, pt 1 0 0), (pt 0 0 1), (pt 0 0 (-1)). cbn [fst snd].
  split; [|split; [lia|split; [|split; [|split]]]].
  - split; [|intros; lia]. exists [0; 1; 2]%Z. split; [reflexivity|]. split; [reflexivity|]. cbn [fst snd]. rewrite (area_of _ _ _ 1); [unfold epsilon; lra|lra|unfold pt; cbn; ring].
  - exists [0; 2; 1]%Z. split; [reflexivity|]. split; [reflexivity|]. cbn [fst snd]. rewrite (area_of _ _ _ 1); [unfold epsilon; lra|lra|unfold pt; cbn; ring].
  - split; [apply unit_of; ring|]. unfold dot, det3, sub, pt. cbn [vx vy vz]. repeat split; lra.
  - split; [apply unit_of; ring|]. unfold dot, det3, sub, pt. cbn [vx vy vz]. repeat split; lra.
  - unfold dot, pt. cbn [vx vy vz]. unfold epsilon. lra.
Qed.
