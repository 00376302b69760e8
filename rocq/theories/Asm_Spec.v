(** What callers rely on from an assembly. *)
From Coq Require Import Reals String List Bool ZArith.
From Verif Require Import Dict Xform_Model Datum_Model Datum_Spec Constr_Model Mate_Model Asm_Model.
Import ListNotations.
Open Scope R_scope.
Open Scope list_scope.

(** Which datums a mate of the given type may join. *)
Definition fits (t : mtype) (a b : dtype) : Prop :=
  match t with
  | MCONCENTRIC => In a [AXIS; CIRCLE] /\ In b [AXIS; CIRCLE]
  | MPARALLEL | MPERPENDICULAR => In a [AXIS; PLANE] /\ In b [AXIS; PLANE]
  | MTANGENT => In a [PLANE; CIRCLE] \/ In b [PLANE; CIRCLE]
  | _ => True
  end.
(** The 4x4 matrix a list of lists or a Matrix holds. *)
Definition carries (t : tform) (m : matrix) : Prop := t = TMatrix m \/ (exists r, t = TLists r /\ m = mkmat r false).
(** Names of the constraints of severity [sev] whose result is a failure, in order. *)
Definition failing (sev : string) (krs : list (constraint * cresult)) : list string :=
  map (fun kr => c_name (fst kr)) (filter (fun kr => negb (passed (snd kr)) && String.eqb (c_severity (fst kr)) sev) krs).
(** Calls whose transforms are rigid motions; none of them gives add_part a Matrix. *)
Definition placed (o : op) : Prop :=
  match o with
  | AddPart _ _ (Some (TMatrix _)) => False
  | AddPart _ _ (Some t) | SetTransform _ t => forall m, carries t m -> rigid m
  | _ => True
  end.
(** Calls that raise change nothing: all but these two. *)
Definition atomic (o : op) : Prop := match o with AddPart _ _ (Some (TMatrix _)) => False | Import _ => False | _ => True end.
(** Number of mates of a type that move the part. *)
Definition count (t : mtype) (n : string) (ms : list mate) : Z := Z.of_nat (length (filter (fun m => mtype_beq (mate_type m) t && String.eqb (part_b m) n) ms)).
(** The datums the constraints are about, in world coordinates, and the verdicts on them. *)
Definition worlds (s : asm) (ks : list constraint) (ds : list datum) : Prop := Forall2 (fun k d => get_transformed_datum s (c_part k) (c_datum k) = Done d) ks ds.
Definition results (ks : list constraint) (ds : list datum) : list (constraint * cresult) := map (fun kd => (fst kd, evaluate (fst kd) (snd kd))) (combine ks ds).
