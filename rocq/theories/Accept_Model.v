(** Model of the acceptance criteria of the analysis back ends:
    yapcad/package/analysis/yapcad_native.py:567-700, calculix.py:282-309 and fenics.py:738-776.
    Metrics, limits and tolerances are real numbers: values that float() does not take, NaN
    and infinities are left out, and so are metrics that are not numbers.  A criterion is a
    record of its optional fields (null counts as absent); a comparison that is given is a string. *)
From Coq Require Import Reals ZArith String List Bool.
From Verif Require Import Dict Json_Model Meta_Model Xform_Model.
From Verif Require Coll_Model.
Import ListNotations.
Open Scope R_scope.
Open Scope list_scope.

Record rule := mkrule { r_limit : option R; r_limit_mm : option R; r_comparison : option text; r_tolerance : option R }.
Definition metrics := list (text * R).
Definition criteria := list (text * rule).
Definition metric (k : text) (m : metrics) : option R := dget teq k m.
(** key.replace(a, b) for single characters; "." is 46 and "_" is 95 *)
Definition replace_char (a b : Z) (k : text) : text := map (fun c => if (c =? a)%Z then b else c) k.
Definition orelse {A} (a b : option A) : option A := match a with Some _ => a | None => b end.
(** rule.get("comparison", "<=") and rule.get("tolerance", 0.0) *)
Definition comparison (r : rule) : text := match r_comparison r with Some c => c | None => t "<=" end.
Definition tolerance (r : rule) : R := match r_tolerance r with Some x => x | None => 0 end.
Inductive verdict := Passed | Failed | Pending.
(** "passed" if metrics else "pending" *)
Definition without_criteria (m : metrics) : verdict := match m with [] => Pending | _ => Passed end.

(** yapcad_native.py:575-586: the metric for a key *)
Definition native_metric (k : text) (m : metrics) : option R :=
  orelse (metric k m) (orelse (metric (replace_char 46 95 k) m) (metric (replace_char 95 46 k) m)).
(** yapcad_native.py:598-618: the comparison fails; a comparison that is not in the list never does *)
Definition violated (c : text) (tol v lim : R) : bool :=
  if teq c (t "<=") then Rltb lim v
  else if teq c (t "<") then Rleb lim v
  else if teq c (t ">=") then Rltb v lim
  else if teq c (t ">") then Rleb v lim
  else if teq c (t "==") then Rltb tol (Rabs (v - lim))
  else if teq c (t "~=") then Rltb tol (Rabs (v - lim))
  else false.
(** yapcad_native.py:567-618 _evaluate_acceptance *)
Fixpoint native_loop (m : metrics) (l : criteria) : verdict :=
  match l with
  | [] => Passed
  | (k, r) :: rest =>
      match native_metric k m, r_limit r with
      | Some v, Some lim => if violated (comparison r) (tolerance r) v lim then Failed else native_loop m rest
      | _, _ => native_loop m rest
      end
  end.
Definition native_status (m : metrics) (l : criteria) : verdict := match l with [] => without_criteria m | _ => native_loop m l end.
(** yapcad_native.py:628-636, 668-676: the metric for a key, of the two reports *)
Definition report_metric (k : text) (m : metrics) : option R := orelse (metric k m) (metric (replace_char 46 95 k) m).
(** yapcad_native.py:638-650: the comparisons that _get_failed_criteria knows *)
Definition violated4 (c : text) (v lim : R) : bool :=
  if teq c (t "<=") then Rltb lim v
  else if teq c (t "<") then Rleb lim v
  else if teq c (t ">=") then Rltb v lim
  else if teq c (t ">") then Rleb v lim
  else false.
(** yapcad_native.py:620-658 _get_failed_criteria: criterion, value, limit, comparison *)
Fixpoint failed_criteria (m : metrics) (l : criteria) : list (text * R * R * text) :=
  match l with
  | [] => []
  | (k, r) :: rest =>
      match report_metric k m, r_limit r with
      | Some v, Some lim => if violated4 (comparison r) v lim then (k, v, lim, comparison r) :: failed_criteria m rest else failed_criteria m rest
      | _, _ => failed_criteria m rest
      end
  end.
(** yapcad_native.py:660-700 _build_acceptance_results: for every criterion its value, limit, comparison and "passed" *)
Record detail := mkdetail { d_value : option R; d_limit : option R; d_comparison : text; d_passed : option bool }.
Definition judge (c : text) (tol v lim : R) : option bool :=
  if teq c (t "<=") then Some (Rleb v lim)
  else if teq c (t "<") then Some (Rltb v lim)
  else if teq c (t ">=") then Some (Rleb lim v)
  else if teq c (t ">") then Some (Rltb lim v)
  else if teq c (t "==") then Some (Rleb (Rabs (v - lim)) tol)
  else if teq c (t "~=") then Some (Rleb (Rabs (v - lim)) tol)
  else None.
Definition acceptance_result (m : metrics) (k : text) (r : rule) : detail :=
  let v := report_metric k m in
  mkdetail v (r_limit r) (comparison r)
    (match v, r_limit r with Some x, Some lim => judge (comparison r) (tolerance r) x lim | _, _ => None end).
Definition acceptance_results (m : metrics) (l : criteria) : list (text * detail) :=
  map (fun kr => (fst kr, acceptance_result m (fst kr) (snd kr))) l.

(** calculix.py:288-299, fenics.py:744-762: limit, or limit_mm *)
Definition any_limit (r : rule) : option R := orelse (r_limit r) (r_limit_mm r).
(** f"{key}_mm" *)
Definition mm (k : text) : text := k ++ t "_mm".
(** calculix.py:282-309 _evaluate_acceptance; [pending] is whether status is "pending" so far *)
Fixpoint calculix_loop (m : metrics) (pending : bool) (l : criteria) : verdict :=
  match l with
  | [] => if pending then Pending else Passed
  | (k, r) :: rest =>
      match orelse (metric k m) (metric (mm k) m) with
      | None => calculix_loop m true rest
      | Some v =>
          match any_limit r with
          | None => calculix_loop m pending rest
          | Some lim => if violated4 (comparison r) v lim then Failed else calculix_loop m pending rest
          end
      end
  end.
Definition calculix_status (m : metrics) (l : criteria) : verdict := match l with [] => without_criteria m | _ => calculix_loop m false l end.
(** fenics.py:738-776 _evaluate_acceptance *)
Definition fenics_metric (k : text) (m : metrics) : option R := orelse (metric k m) (orelse (metric (mm k) m) (metric (replace_char 46 95 k) m)).
Fixpoint fenics_loop (m : metrics) (l : criteria) : verdict :=
  match l with
  | [] => Passed
  | (k, r) :: rest =>
      match fenics_metric k m with
      | None => Pending
      | Some v =>
          match any_limit r with
          | None => fenics_loop m rest
          | Some lim => if violated4 (comparison r) v lim then Failed else fenics_loop m rest
          end
      end
  end.
Definition fenics_status (m : metrics) (l : criteria) : verdict := match l with [] => without_criteria m | _ => fenics_loop m l end.
