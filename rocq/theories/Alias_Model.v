(** Heap model of xform.Matrix: rows are Python lists, held by reference.
    Numbers are reals.  Argument checks (isvect, isgoodnum) are met by typing;
    indices out of 0..3 (ValueError) are not modelled here (see Xform_Model.get). *)
From Coq Require Import Reals List Bool ZArith.
From Verif Require Import Xform_Model.
Import ListNotations.
Open Scope R_scope.

(** A Matrix object: references to its four row lists and the transpose flag
    (xform.py:50-55, 83). *)
Record mobj := mkmo { r0 : nat; r1 : nat; r2 : nat; r3 : nat; o_trans : bool }.
(** All row lists and all Matrix objects ever made, by address. *)
Record heap := mkheap { lists : list vec; mats : list mobj }.

Definition zero4 : vec := mkv 0 0 0 0.
Definition mo0 : mobj := mkmo 0 0 0 0 false.
Definition rd (h : heap) (r : nat) : vec := nth r (lists h) zero4.
Definition mat (h : heap) (a : nat) : mobj := nth a (mats h) mo0.
Definition ref (m : mobj) (i : nat) : nat :=
  match i with 0%nat => r0 m | 1%nat => r1 m | 2%nat => r2 m | _ => r3 m end.
Definition set_ref (m : mobj) (i r : nat) : mobj :=
  match i with
  | 0%nat => mkmo r (r1 m) (r2 m) (r3 m) (o_trans m) | 1%nat => mkmo (r0 m) r (r2 m) (r3 m) (o_trans m)
  | 2%nat => mkmo (r0 m) (r1 m) r (r3 m) (o_trans m) | _ => mkmo (r0 m) (r1 m) (r2 m) r (o_trans m) end.

(** l[i] = v *)
Fixpoint lset {A} (l : list A) (i : nat) (v : A) : list A :=
  match l, i with
  | [], _ => []
  | _ :: r, O => v :: r
  | x :: r, S i => x :: lset r i v
  end.
(** the list at address r: r[k] = x *)
Definition write (h : heap) (r k : nat) (x : R) : heap :=
  mkheap (lset (lists h) r (vset (rd h r) k x)) (mats h).
(** a new list *)
Definition alloc (h : heap) (v : vec) : heap * nat := (mkheap (lists h ++ [v]) (mats h), length (lists h)).
(** a new Matrix whose row lists are new *)
Definition new_matrix (h : heap) (m : rows) (t : bool) : heap :=
  let n := length (lists h) in
  mkheap (lists h ++ [row0 m; row1 m; row2 m; row3 m]) (mats h ++ [mkmo n (S n) (S (S n)) (S (S (S n))) t]).

(** xform.py:90-97 get *)
Definition h_get (h : heap) (a i j : nat) : R :=
  let m := mat h a in if o_trans m then vget (rd h (ref m j)) i else vget (rd h (ref m i)) j.
(** xform.py:99-110 set *)
Definition h_set (h : heap) (a i j : nat) (x : R) : heap :=
  let m := mat h a in if o_trans m then write h (ref m j) i x else write h (ref m i) j x.
(** the list [self.m[0][i], ..., self.m[3][i]] *)
Definition column (h : heap) (m : mobj) (i : nat) : vec :=
  mkv (vget (rd h (r0 m)) i) (vget (rd h (r1 m)) i) (vget (rd h (r2 m)) i) (vget (rd h (r3 m)) i).
(** xform.py:112-121 getrow: a new list for a transposed matrix, else the row itself *)
Definition h_getrow (h : heap) (a i : nat) : heap * nat :=
  let m := mat h a in if o_trans m then alloc h (column h m i) else (h, ref m i).
(** xform.py:123-132 getcol *)
Definition h_getcol (h : heap) (a j : nat) : heap * nat :=
  let m := mat h a in if o_trans m then (h, ref m j) else alloc h (column h m j).
(** xform.py:139-142, 151-154: self.m[0][i] = x[0]; ... self.m[3][i] = x[3],
    one after the other, x being read each time. *)
Definition spread (h : heap) (m : mobj) (i x : nat) : heap :=
  let h := write h (r0 m) i (vget (rd h x) 0) in
  let h := write h (r1 m) i (vget (rd h x) 1) in
  let h := write h (r2 m) i (vget (rd h x) 2) in
  write h (r3 m) i (vget (rd h x) 3).
(** self.m[i] = x: the list itself is kept *)
Definition store (h : heap) (a i x : nat) : heap :=
  mkheap (lists h) (lset (mats h) a (set_ref (mat h a) i x)).
(** xform.py:134-144 setrow *)
Definition h_setrow (h : heap) (a i x : nat) : heap :=
  if o_trans (mat h a) then spread h (mat h a) i x else store h a i x.
(** xform.py:146-156 setcol *)
Definition h_setcol (h : heap) (a j x : nat) : heap :=
  if o_trans (mat h a) then store h a j x else spread h (mat h a) j x.

(** xform.py:57-59, 83 Matrix(A, trans): setrow(i, A.getrow(i)) on the new,
    untransposed matrix, then the flag. *)
Definition copy_row (h : heap) (src dst i : nat) : heap :=
  let (h, x) := h_getrow h src i in h_setrow h dst i x.
Definition h_copy (h : heap) (a : nat) (t : bool) : heap :=
  let b := length (mats h) in
  let h := new_matrix h ident_rows false in
  let h := copy_row (copy_row (copy_row (copy_row h a b 0) a b 1) a b 2) a b 3 in
  let m := mat h b in
  mkheap (lists h) (lset (mats h) b (mkmo (r0 m) (r1 m) (r2 m) (r3 m) t)).

(** What a matrix reads as, as a value. *)
Definition reads (h : heap) (a : nat) : matrix :=
  let m := mat h a in mkmat (mkrows (rd h (r0 m)) (rd h (r1 m)) (rd h (r2 m)) (rd h (r3 m))) (o_trans m).

(** One step of a program that uses matrices.  Numbers a, b name the matrices in
    the order they were made. *)
Inductive op :=
| OMatrix (t : bool)                      (* Matrix(trans=t) *)
| ORows (m : rows) (t : bool)             (* Matrix([[...],[...],[...],[...]], t): numbers are copied, xform.py:61-81 *)
| OCopy (a : nat) (t : bool)              (* Matrix(A, t) *)
| OSet (a i j : nat) (x : R)              (* A.set(i, j, x) *)
| OSetRow (a i : nat) (v : vec)           (* A.setrow(i, [..]) with a list literal *)
| OSetCol (a j : nat) (v : vec)           (* A.setcol(j, [..]) *)
| ORowRow (a i b k : nat)                 (* A.setrow(i, B.getrow(k)) *)
| OColCol (a j b k : nat)                 (* A.setcol(j, B.getcol(k)) *)
| ORowCol (a i b k : nat)                 (* A.setrow(i, B.getcol(k)) *)
| OColRow (a j b k : nat)                 (* A.setcol(j, B.getrow(k)) *)
| OMul (a b : nat)                        (* A.mul(B): xform.py:171-180, reads A and B, fills a new matrix *)
| OScale (a : nat) (c : R).               (* A.mul(c): xform.py:186-190, rows are new lists *)

Definition h_step (h : heap) (o : op) : heap :=
  match o with
  | OMatrix t => new_matrix h ident_rows t
  | ORows m t => new_matrix h m t
  | OCopy a t => h_copy h a t
  | OSet a i j x => h_set h a i j x
  | OSetRow a i v => let (h, x) := alloc h v in h_setrow h a i x
  | OSetCol a j v => let (h, x) := alloc h v in h_setcol h a j x
  | ORowRow a i b k => let (h, x) := h_getrow h b k in h_setrow h a i x
  | OColCol a j b k => let (h, x) := h_getcol h b k in h_setcol h a j x
  | ORowCol a i b k => let (h, x) := h_getcol h b k in h_setrow h a i x
  | OColRow a j b k => let (h, x) := h_getrow h b k in h_setcol h a j x
  | OMul a b => new_matrix h (mm (mulMM (reads h a) (reads h b))) false
  | OScale a c => new_matrix h (mm (mulMS (reads h a) c)) false
  end.
Definition h_run (ops : list op) : heap := fold_left h_step ops (mkheap [] []).
