(** C39, C140-C142: matrices as values. *)
From Coq Require Import Reals List Bool ZArith Lia Lra.
From Verif Require Import Xform_Model Alias_Model Alias_Spec Alias_Proofs Alias_Proofs2.
Import ListNotations.
Open Scope R_scope.

(** A program that never hands on a matrix's own row list sees its matrices as
    independent values: an operation changes the matrix it names and no other. *)
Theorem c39_values : forall ops : list op, allowed [] ops ->
  length (mats (h_run ops)) = length (v_run ops) /\
  forall a i j, (a < length (v_run ops))%nat -> (i < 4)%nat -> (j < 4)%nat ->
    get (mget (v_run ops) a) i j = Ok (h_get (h_run ops) a i j).
Proof.
  intros ops A. destruct (inv_run ops _ _ inv_empty A) as (L & _ & V).
  split; [exact L|]. intros a i j Ha Hi Hj. unfold v_run in *. rewrite <- (V a Ha). now apply h_get_reads.
Qed.
Print Assumptions c39_values.

(** Any program, also one that shares rows: an entry reads back as it was written. *)
Theorem c39_get_set : forall ops a i j x, names_exist [] ops ->
  (a < length (v_run ops))%nat -> (i < 4)%nat -> (j < 4)%nat ->
  h_get (h_set (h_run ops) a i j x) a i j = x.
Proof.
  intros ops a i j x W Ha Hi Hj.
  assert (G : rg (mkheap [] []) 0) by (split; [reflexivity|intros b p Hb; lia]).
  exact (get_set_any _ _ a i j x (rg_run ops _ [] G W) Ha Hi Hj).
Qed.
Print Assumptions c39_get_set.

Definition demo : list op :=
  [OMatrix false; OMatrix true; OSet 0 1 2 5; OSetRow 1 3 (mkv 7 8 9 10); OCopy 1 false; OSet 2 3 0 6;
   OSetRow 0 0 (mkv 1 2 3 4); ORowRow 0 1 1 3; OColRow 2 1 0 0; OMul 0 2; OScale 1 2].
Example c39_nonvacuous : allowed [] demo /\ length (v_run demo) = 5%nat
  /\ h_get (h_run demo) 2 3 0 = 6 /\ h_get (h_run demo) 1 3 0 = 7.
Proof.
  split; [|repeat split; reflexivity]. unfold demo.
  repeat match goal with
  | |- True => exact I
  | |- _ /\ _ => split
  | |- (_ < _)%nat => cbn; lia
  | |- _ \/ _ => first [right; reflexivity | left; split; [reflexivity|lia] | left; reflexivity]
  | |- _ = _ => reflexivity
  | |- allowed _ (_ :: _) => cbn [allowed]
  | |- allowed _ [] => exact I
  | |- well_formed _ _ => cbn [well_formed]
  | |- no_sharing _ _ => cbn [no_sharing]
  end.
Qed.

(** B = Matrix(A); B.set(0, 0, 5): A.get(0, 0) is 5 as well. *)
Theorem c140_copies_independent_refuted : ~ (forall ops, names_exist [] ops ->
  forall a i j, (a < length (v_run ops))%nat -> (i < 4)%nat -> (j < 4)%nat ->
    get (mget (v_run ops) a) i j = Ok (h_get (h_run ops) a i j)).
Proof.
  intros H. specialize (H [OMatrix false; OCopy 0 false; OSet 1 0 0 5]).
  assert (W : names_exist [] [OMatrix false; OCopy 0 false; OSet 1 0 0 5]) by (cbn; lia).
  specialize (H W 0%nat 0%nat 0%nat). cbn in H.
  assert (E : Ok 1 = Ok 5) by (apply H; lia). assert (F : 1 = 5) by congruence. lra.
Qed.
Print Assumptions c140_copies_independent_refuted.

(** A.setrow(1, B.getrow(0)); A.set(1, 1, 5): B.get(0, 1) is 5. *)
Theorem c141_row_copied_refuted : exists ops a b i k x,
  names_exist [] ops /\ (a < length (v_run ops))%nat /\ (b < length (v_run ops))%nat /\ a <> b /\
  (i < 4)%nat /\ (k < 4)%nat /\
  let h := h_step (h_run ops) (ORowRow a i b k) in
  h_get (h_set h a i 1 x) b k 1 <> h_get h b k 1.
Proof.
  exists [OMatrix false; OMatrix false], 0%nat, 1%nat, 1%nat, 0%nat, 5.
  repeat apply conj; try (cbn; lia). cbn. lra.
Qed.
Print Assumptions c141_row_copied_refuted.

(** A.setcol(1, A.getrow(0)) on a matrix with row 0 = 1 2 3 4: the column becomes 1 1 3 4. *)
Theorem c142_column_from_own_row_refuted : exists ops a,
  names_exist [] ops /\ (a < length (v_run ops))%nat /\
  (forall j, (j < 4)%nat -> h_get (h_run ops) a 0 j = INR (S j)) /\
  h_get (h_step (h_run ops) (OColRow a 1 a 0)) a 1 1 <> h_get (h_run ops) a 0 1.
Proof.
  exists [OMatrix false; OSetRow 0 0 (mkv 1 2 3 4)], 0%nat.
  repeat apply conj; try (cbn; lia).
  - intros j Hj. destruct j as [|[|[|[|j]]]]; try lia; cbn; lra.
  - cbn. lra.
Qed.
Print Assumptions c142_column_from_own_row_refuted.
