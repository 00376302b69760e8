(** The intended meaning: matrices are values.  A program's state is the list of
    its matrices; an operation changes the one it names and no other. *)
From Coq Require Import Reals List Bool.
From Verif Require Import Xform_Model Alias_Model.
Import ListNotations.

Definition put (s : list matrix) (a : nat) (m : matrix) : list matrix :=
  firstn a s ++ m :: skipn (S a) s.
Definition mget (s : list matrix) (a : nat) : matrix := nth a s Matrix0.

(** Writing entry i, j of a matrix value. *)
Definition vset_entry (m : matrix) (i j : nat) (x : R) : matrix :=
  match set m i j x with Ok m' => m' | _ => m end.
(** Matrix(A, t): the same rows; t transposes. *)
Definition vcopy (m : matrix) (t : bool) : matrix :=
  mkmat (mkrows (getrow m 0) (getrow m 1) (getrow m 2) (getrow m 3)) t.

Definition v_step (s : list matrix) (o : op) : list matrix :=
  match o with
  | OMatrix t => s ++ [mkmat ident_rows t]
  | ORows m t => s ++ [mkmat m t]
  | OCopy a t => s ++ [vcopy (mget s a) t]
  | OSet a i j x => put s a (vset_entry (mget s a) i j x)
  | OSetRow a i v => put s a (setrow (mget s a) i v)
  | OSetCol a j v => put s a (setcol (mget s a) j v)
  | ORowRow a i b k => put s a (setrow (mget s a) i (getrow (mget s b) k))
  | OColCol a j b k => put s a (setcol (mget s a) j (getcol (mget s b) k))
  | ORowCol a i b k => put s a (setrow (mget s a) i (getcol (mget s b) k))
  | OColRow a j b k => put s a (setcol (mget s a) j (getrow (mget s b) k))
  | OMul a b => s ++ [mulMM (mget s a) (mget s b)]
  | OScale a c => s ++ [mulMS (mget s a) c]
  end.
Definition v_run (ops : list op) : list matrix := fold_left v_step ops [].

(** The matrices and indices an operation names exist. *)
Definition well_formed (s : list matrix) (o : op) : Prop :=
  match o with
  | OMatrix _ | ORows _ _ => True
  | OCopy a _ | OScale a _ => (a < length s)%nat
  | OSet a i j _ => (a < length s /\ i < 4 /\ j < 4)%nat
  | OSetRow a i _ | OSetCol a i _ => (a < length s /\ i < 4)%nat
  | ORowRow a i b k | OColCol a i b k | ORowCol a i b k | OColRow a i b k =>
      (a < length s /\ b < length s /\ i < 4 /\ k < 4)%nat
  | OMul a b => (a < length s /\ b < length s)%nat
  end.
(** Operations that do not hand a matrix's own row list on: only transposed
    matrices are copied by Matrix(A); a row goes from B to A only if one of
    them is transposed, a column only if one is not; and so on. *)
Definition no_sharing (s : list matrix) (o : op) : Prop :=
  match o with
  | OCopy a _ => trans (mget s a) = true
  | ORowRow a _ b _ => trans (mget s a) = true \/ trans (mget s b) = true
  | OColCol a _ b _ => trans (mget s a) = false \/ trans (mget s b) = false
  | ORowCol a _ b _ => (trans (mget s a) = true /\ a <> b) \/ trans (mget s b) = false
  | OColRow a _ b _ => (trans (mget s a) = false /\ a <> b) \/ trans (mget s b) = true
  | _ => True
  end.
Fixpoint allowed (s : list matrix) (ops : list op) : Prop :=
  match ops with
  | [] => True
  | o :: r => well_formed s o /\ no_sharing s o /\ allowed (v_step s o) r
  end.
(** A program whose operations all name existing matrices and indices. *)
Fixpoint names_exist (s : list matrix) (ops : list op) : Prop :=
  match ops with [] => True | o :: r => well_formed s o /\ names_exist (v_step s o) r end.
