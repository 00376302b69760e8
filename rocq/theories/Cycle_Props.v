(** Property theorems about the recursion check of yapcad.dsl.checker.
    [g n]: the commands that command n calls, listed in any order (a Python set);
    [roots]: the commands of the module in any order. *)
From Coq Require Import List Arith.
From Verif Require Import Cycle_Model Cycle_Spec Cycle_Proofs.
Import ListNotations.

(** C10 *)
Theorem c10_reports_iff_recursive : forall g roots, (forall a b, In b (g a) -> In b roots) ->
  exists ws, warnings g roots = Some ws /\ (ws <> [] <-> exists l, is_cycle (fun a b => In b (g a)) l).
Proof.
  intros g roots H. destruct (check_ok g roots H) as (cyc & E & F & I). unfold warnings. rewrite E. simpl.
  eexists. split; [reflexivity|]. split.
  - intros Hn. destruct cyc as [|c cyc]; [destruct (Hn eq_refl)|]. inversion F; subst. exists c. assumption.
  - intros Hl Hm. apply map_eq_nil in Hm. apply I in Hm. apply Hm. exact Hl.
Qed.
Print Assumptions c10_reports_iff_recursive.
Theorem c10_warnings_name_cycles : forall g roots ws w, (forall a b, In b (g a) -> In b roots) ->
  warnings g roots = Some ws -> In w ws ->
  match w with
  | W301 a => In a (g a)
  | W302 l => is_cycle (fun a b => In b (g a)) l
  end.
Proof.
  intros g roots ws w H E Hw. destruct (check_ok g roots H) as (cyc & E' & F & _). unfold warnings in E. rewrite E' in E.
  injection E as <-. apply in_map_iff in Hw as (c & <- & Hc). rewrite Forall_forall in F. specialize (F c Hc).
  unfold warn. destruct c as [|a [|b [|d r]]]; auto. destruct (Nat.eqb_spec a b) as [<- | _]; auto. apply F.
Qed.
Print Assumptions c10_warnings_name_cycles.
Example c10_nonvacuous :
  let g := fun n => match n with 0 => [1; 2] | 1 => [3] | 3 => [1; 3] | _ => [] end in
  (forall a b, In b (g a) -> In b [3; 2; 1; 0]) /\ warnings g [0; 1; 2; 3] = Some [W302 [1; 3; 1]; W301 3] /\
  warnings (fun n => match n with 0 => [1] | _ => [] end) [0; 1] = Some [].
Proof.
  split; [|split; vm_compute; reflexivity].
  intros [|[|[|[|a]]]] b H; simpl in *; intuition (subst; auto).
Qed.

(** C71: a command on a cycle need not be named: 0 -> 1 -> 0 is reported, 0 -> 2 -> 1 -> 0 is not. *)
Theorem c71_every_recursive_command_named_refuted :
  ~ (forall g roots ws a, (forall a b, In b (g a) -> In b roots) -> warnings g roots = Some ws ->
       (exists m, is_cycle (fun a b => In b (g a)) (a :: m ++ [a])) ->
       exists w, In w ws /\ match w with W301 b => a = b | W302 l => In a l end).
Proof.
  intros H. set (g := fun n => match n with 0 => [1; 2] | 1 => [0] | 2 => [1] | _ => [] end).
  destruct (H g [0; 1; 2] [W302 [0; 1; 0]] 2) as (w & [<- | []] & Hw).
  - intros [|[|[|a]]] b Hb; simpl in *; intuition (subst; auto).
  - vm_compute. reflexivity.
  - exists [1; 0]. split; [simpl; intuition|]. exists 2, [1; 0]. reflexivity.
  - simpl in Hw. intuition discriminate.
Qed.
Print Assumptions c71_every_recursive_command_named_refuted.
