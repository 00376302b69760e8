(** Properties of triangles and of the triangle view of surfaces. *)
From Coq Require Import Reals ZArith List Bool Lra.
From Verif Require Import Xform_Model Xform_Proofs Mesh_Model Mesh_Spec Mesh_Proofs.
Import ListNotations.
Open Scope R_scope.
Open Scope list_scope.

(** C130.  A triangle's normal, when it has one, is a unit vector at right angles to it, pointing to
    the side from which its corners are seen counter-clockwise; there is none exactly when twice the
    area is within the tolerance. *)
Theorem c130_normal : forall p q r, (forall n, triangle_normal p q r = Some n -> outward n p q r) /\ (triangle_normal p q r = None <-> twice_area p q r <= epsilon).
Proof. intros p q r. split; [intros n H; apply normal_some, H|apply normal_none]. Qed.
Print Assumptions c130_normal.
(** The area of a triangle. *)
Theorem c130_area : forall p q r, triangle_area p q r = twice_area p q r / 2.
Proof. intros. unfold triangle_area. rewrite cross_area. field. Qed.
Print Assumptions c130_area.
(** Orienting a triangle keeps its corners, and its first corner first, and makes its normal agree with
    the preferred direction. *)
Theorem c130_orient : forall p q r w a b c, orient_triangle p q r w = (a, b, c) ->
  a = p /\ ((b = q /\ c = r) \/ (b = r /\ c = q)) /\ (epsilon < twice_area p q r -> exists n, triangle_normal a b c = Some n /\ 0 <= dot n w).
Proof. intros p q r w a b c H. apply orient_ok in H as (A & B & C). split; auto. split; auto. intros L. apply C. intros X. apply normal_none in X. lra. Qed.
Print Assumptions c130_orient.
(** The triangle view of surfaces whose face indices exist shows the triangular faces of more than
    tolerance area, all of them, in order, each with its normal. *)
Theorem c130_mesh_view : forall ss, Forall well_indexed ss -> exists out, mesh_view ss = Some out /\
  Forall2 (fun e t => let '(n, a, b, c) := e in let '(p, q, r) := t in a = to_vec3 p /\ b = to_vec3 q /\ c = to_vec3 r /\ outward n p q r) out (proper_triangles ss).
Proof. intros ss H. destruct (mesh_view_total ss H) as [out E]. exists out. split; [exact E|]. exact (mesh_view_shows ss out E). Qed.
Print Assumptions c130_mesh_view.
Definition tri (a : R) : surface := Surface [mkv 0 0 0 1; mkv a 0 0 1; mkv 0 a 0 1] [[0; 1; 2]%Z].
Lemma tri_area a : twice_area (mkv 0 0 0 1) (mkv a 0 0 1) (mkv 0 a 0 1) = a * a.
Proof. unfold twice_area. cbn [vx vy vz]. replace (_ - _) with ((a * a) * (a * a)) by ring. apply sqrt_square. apply Rle_0_sqr. Qed.
Example c130_nonvacuous : Forall well_indexed [tri 1] /\ proper_triangles [tri 1] = [(mkv 0 0 0 1, mkv 1 0 0 1, mkv 0 1 0 1)] /\ triangle_normal (mkv 0 0 0 1) (mkv 1 0 0 1) (mkv 0 1 0 1) <> None.
Proof.
  assert (A : epsilon < twice_area (mkv 0 0 0 1) (mkv 1 0 0 1) (mkv 0 1 0 1)) by (rewrite tri_area; unfold epsilon; lra).
  split; [|split].
  - apply Forall_cons; [|constructor]. unfold well_indexed, tri. cbn [faces vertices]. apply Forall_cons; [|constructor]. repeat (apply Forall_cons; [discriminate|]). constructor.
  - unfold proper_triangles, tri. cbn [flat_map faces vertices app]. change (corners _ _) with (Some (mkv 0 0 0 1, mkv 1 0 0 1, mkv 0 1 0 1)). cbv beta iota. apply Rltb_true in A. rewrite A. reflexivity.
  - intros X. apply normal_none in X. lra.
Qed.
(** C131, refuted: a right triangle with sides of 0.002 has a positive area and is left out. *)
Theorem c131_small_triangle_refuted : 0 < triangle_area (mkv 0 0 0 1) (mkv (2 / 1000) 0 0 1) (mkv 0 (2 / 1000) 0 1) /\ well_indexed (tri (2 / 1000)) /\ mesh_view [tri (2 / 1000)] = Some [].
Proof.
  split; [rewrite c130_area, tri_area; lra|]. split.
  - unfold well_indexed, tri. cbn [faces vertices]. apply Forall_cons; [|constructor]. repeat (apply Forall_cons; [discriminate|]). constructor.
  - assert (N : triangle_normal (mkv 0 0 0 1) (mkv (2 / 1000) 0 0 1) (mkv 0 (2 / 1000) 0 1) = None) by (apply normal_none; rewrite tri_area; unfold epsilon; lra).
    change (mesh_view [tri (2 / 1000)]) with (Some ((match triangle_normal (mkv 0 0 0 1) (mkv (2 / 1000) 0 0 1) (mkv 0 (2 / 1000) 0 1) with None => [] | Some n => [(n, mkv 0 0 0 1, mkv (2 / 1000) 0 0 1, mkv 0 (2 / 1000) 0 1)] end ++ []) ++ [])).
    rewrite N. reflexivity.
Qed.
Print Assumptions c131_small_triangle_refuted.
(** A square face is left out as well. *)
Theorem c131_quad_refuted : forall a, mesh_view [Surface [mkv 0 0 0 1; mkv a 0 0 1; mkv a a 0 1; mkv 0 a 0 1] [[0; 1; 2; 3]%Z]] = Some [].
Proof. reflexivity. Qed.
Print Assumptions c131_quad_refuted.
