(** What acceptance criteria mean. *)
From Coq Require Import Reals ZArith String List Bool.
From Verif Require Import Json_Model Meta_Model Accept_Model.
Import ListNotations.
Open Scope R_scope.
Open Scope list_scope.

(** value [c] limit *)
Inductive holds (tol v lim : R) : text -> Prop :=
| H_le : v <= lim -> holds tol v lim (t "<=")
| H_lt : v < lim -> holds tol v lim (t "<")
| H_ge : v >= lim -> holds tol v lim (t ">=")
| H_gt : v > lim -> holds tol v lim (t ">")
| H_eq : Rabs (v - lim) <= tol -> holds tol v lim (t "==")
| H_approx : Rabs (v - lim) <= tol -> holds tol v lim (t "~=").
Definition orderings := [t "<="; t "<"; t ">="; t ">"].
Definition all_comparisons := orderings ++ [t "=="; t "~="].
(** "<=" unless given, tolerance 0 unless given *)
Definition asks (r : rule) (c : text) (tol : R) : Prop :=
  (r_comparison r = Some c \/ (r_comparison r = None /\ c = t "<=")) /\ (r_tolerance r = Some tol \/ (r_tolerance r = None /\ tol = 0)).
(** The metric under the first of these names that there is. *)
Inductive found (m : metrics) : list text -> R -> Prop :=
| F_here k names v : metric k m = Some v -> found m (k :: names) v
| F_next k names v : metric k m = None -> found m names v -> found m (k :: names) v.
Definition dots_to_bars := replace_char 46 95.
Definition bars_to_dots := replace_char 95 46.
Definition native_names (k : text) := [k; dots_to_bars k; bars_to_dots k].
Definition report_names (k : text) := [k; dots_to_bars k].
Definition calculix_names (k : text) := [k; k ++ t "_mm"].
Definition fenics_names (k : text) := [k; k ++ t "_mm"; dots_to_bars k].
(** A criterion whose metric is found, whose limit is given, with one of these comparisons, and which does not hold. *)
Definition broken (names : text -> list text) (limit : rule -> option R) (known : list text) (m : metrics) (k : text) (r : rule) : Prop :=
  exists v lim c tol, found m (names k) v /\ limit r = Some lim /\ asks r c tol /\ In c known /\ ~ holds tol v lim c.
Definition absent (names : text -> list text) (m : metrics) (k : text) : Prop := forall n, In n (names k) -> metric n m = None.
Definition limit_or_mm (r : rule) : option R := match r_limit r with Some x => Some x | None => r_limit_mm r end.
