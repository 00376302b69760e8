(** Property theorems about yapcad.dsl.types. *)
From Coq Require Import ZArith String List Bool.
From Verif Require Import Types_Model Types_Spec Types_Proofs.
Import ListNotations.
Open Scope string_scope.
Open Scope list_scope.

(** C09: assignability is exactly the relation of Types_Spec. *)
Theorem c09_assignable_exactly : forall a b, type_ok a -> type_ok b ->
  (is_assignable_from a b = true <-> accepts a b).
Proof. intros a b Ha Hb. split; [apply assign_sound; auto|apply assign_complete]. Qed.
Print Assumptions c09_assignable_exactly.
Theorem c09_reflexive : forall t, is_assignable_from t t = true.
Proof. exact refl. Qed.
Print Assumptions c09_reflexive.
Theorem c09_int_to_float_only : is_assignable_from FLOAT INT = true /\ is_assignable_from INT FLOAT = false.
Proof. split; reflexivity. Qed.
Print Assumptions c09_int_to_float_only.
(** A list type accepts exactly the lists of an acceptable element type. *)
Theorem c09_list_covariant : forall a t, is_assignable_from (TLst a) t = true <->
  exists b, t = TLst b /\ is_assignable_from a b = true.
Proof.
  intros a t. split; [destruct t; simpl; try discriminate; eauto|]. intros (b & -> & H). exact H.
Qed.
Print Assumptions c09_list_covariant.
Theorem c09_common_accepts_both : forall a b c, type_ok a -> type_ok b -> common_type a b = Some c ->
  is_assignable_from c a = true /\ is_assignable_from c b = true.
Proof. exact common_accepts. Qed.
Print Assumptions c09_common_accepts_both.
Theorem c09_transitive_without_points : forall a b c, rigid a -> rigid b -> rigid c ->
  is_assignable_from a b = true -> is_assignable_from b c = true -> is_assignable_from a c = true.
Proof. intros a b c. apply rigid_trans. Qed.
Print Assumptions c09_transitive_without_points.
(** Type names resolve to types of the language. *)
Theorem c09_resolved_types_ok : forall n t, resolve_type_name n = Some t -> type_ok t.
Proof.
  intros n t H. unfold resolve_type_name in H.
  destruct (find _ BUILTIN_TYPES) as [[k v]|] eqn:E; [|discriminate]. injection H as <-.
  apply find_some in E as [E _]. simpl in E.
  repeat (destruct E as [E|E]; [injection E as <- <-; first [constructor; simpl; tauto|constructor]|]). destruct E.
Qed.
Print Assumptions c09_resolved_types_ok.
Example c09_nonvacuous :
  type_ok (TLst (TOpt FLOAT)) /\ is_assignable_from (TLst (TOpt FLOAT)) (TLst (TLst INT)) = false /\
  accepts (TLst (TOpt FLOAT)) (TLst INT) /\ common_type (TLst INT) (TLst FLOAT) = Some (TLst FLOAT) /\
  resolve_type_name "region2d" = Some REGION2D /\ rigid (TLst (TOpt FLOAT)).
Proof.
  split; [constructor; constructor; constructor; simpl; tauto|]. split; [reflexivity|].
  split; [constructor; apply acc_opt; [constructor; discriminate|apply acc_promote]|].
  repeat (split; [reflexivity|]). repeat constructor.
Qed.

(** C68: permitted assignments do not chain: point3d -> point -> point2d. *)
Theorem c68_transitive_refuted :
  ~ (forall a b c, type_ok a -> type_ok b -> type_ok c ->
       is_assignable_from a b = true -> is_assignable_from b c = true -> is_assignable_from a c = true).
Proof.
  intros H. specialize (H POINT2D POINT POINT3D ok_point2d ok_point ok_point3d eq_refl eq_refl). discriminate.
Qed.
Print Assumptions c68_transitive_refuted.
(** C69: common_type misses existing common types: list<point2d> and list<point3d>
    both fit in list<point>. *)
Theorem c69_common_type_found_refuted :
  ~ (forall a b c, type_ok a -> type_ok b -> type_ok c ->
       is_assignable_from c a = true -> is_assignable_from c b = true -> exists d, common_type a b = Some d).
Proof.
  intros H. destruct (H (TLst POINT2D) (TLst POINT3D) (TLst POINT)) as [d E]; try (repeat constructor; fail).
  discriminate.
Qed.
Print Assumptions c69_common_type_found_refuted.
(** C70: none does not fit an optional type (unless it fits the inner type). *)
Theorem c70_none_fits_optional_refuted :
  (forall t, is_assignable_from (TOpt t) TNone = is_assignable_from t TNone) /\
  ~ (forall t, type_ok t -> is_assignable_from (TOpt t) TNone = true).
Proof.
  split; [reflexivity|]. intros H. specialize (H INT (ok_scalar "int" (or_introl eq_refl))). discriminate.
Qed.
Print Assumptions c70_none_fits_optional_refuted.
