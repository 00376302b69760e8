(** Vocabulary for the statements about the interpreter. *)
From Coq Require Import ZArith String List Bool.
From Verif Require Import Dict Lex_Model Ast Types_Model Interp_Model.
Import ListNotations.
Open Scope Z_scope.
Open Scope list_scope.

Section Spec.
  Context {H : host}.
  Notation V := (rval (hF H) (hO H)).
  Notation D := (data (hF H) (hO H)).

  (** The call depth an event is tagged with. *)
  Definition ev_depth (e : event H) : Z :=
    match e with EvEnter _ d _ | EvStmt _ d _ | EvAssert _ d _ | EvEmit _ d _ _ => d end.
  (** The assertions evaluated, and the values emitted, by the command running at depth d. *)
  Definition asserts (d : Z) (l : list (event H)) : list bool :=
    flat_map (fun e => match e with EvAssert _ d' b => if d' =? d then [b] else [] | _ => [] end) l.
  Definition emits (d : Z) (l : list (event H)) : list (V * list (name * D)) :=
    flat_map (fun e => match e with EvEmit _ d' v m => if d' =? d then [(v, m)] else [] | _ => [] end) l.
  (** The statements started by it, in order. *)
  Definition started (d : Z) (l : list (event H)) : list stmt :=
    flat_map (fun e => match e with EvStmt _ d' s => if d' =? d then [s] else [] | _ => [] end) l.
  (** The assertions evaluated at any depth. *)
  Definition all_asserts (l : list (event H)) : list bool :=
    flat_map (fun e => match e with EvAssert _ _ b => [b] | _ => [] end) l.
  (** The last element, if any. *)
  Definition last_opt {A} (l : list A) : option A := match rev l with [] => None | a :: _ => Some a end.
End Spec.

(** * Names a piece of program can define or change in the scope it runs in *)

(** Names bound by the match patterns of an expression in the scope it is evaluated in.
    A comprehension has its own scope; a lambda's body and the blocks of an if expression
    are not evaluated. *)
Fixpoint binds (e : expr) : list name :=
  match e with
  | ELit _ _ | EId _ | EComp _ _ | ELambda _ _ => []
  | EBin l _ r => binds l ++ binds r
  | EUn _ e | EMember e _ => binds e
  | ECall f args named =>
      flat_map binds args ++ flat_map (fun ne => binds (snd ne)) named
  | EMethod o _ args _ => binds o ++ flat_map binds args
  | EIndex o i => binds o ++ binds i
  | EList l => flat_map binds l
  | ERange a b => binds a ++ binds b
  | ECond c t f => binds c ++ binds t ++ binds f
  | EIf c _ _ _ => binds c
  | EMatch e arms =>
      binds e ++ flat_map (fun pe => match fst pe with PId n => [n] | _ => [] end ++ binds (snd pe)) arms
  | EDict l => flat_map (fun ne => binds (snd ne)) l
  end.
(** Names bound by the match patterns in parameter defaults, which are evaluated in the
    caller's scope. *)
Definition default_binds (cmds : list fundef) : list name :=
  flat_map (fun f => flat_map (fun p => match p_default p with Some e => binds e | None => [] end) (f_params f)) cmds.

(** Names a statement defines in the scope it stands in: declarations, and the patterns of
    the expressions it evaluates there (for a for/if statement: its header). *)
Definition opt_binds (o : option expr) : list name := match o with Some e => binds e | None => [] end.
Definition declares (s : stmt) : list name :=
  match s with
  | SVar n _ init => n :: opt_binds init
  | SAssign _ e => binds e
  | SAssert c _ => binds c
  | SEmit e m => binds e ++ flat_map (fun ne => binds (snd ne)) m
  | SReturn o => opt_binds o
  | SFor _ it _ => binds it
  | SIf c _ elifs _ => binds c ++ flat_map (fun eb => binds (fst eb)) elifs
  | SExpr e => binds e
  | SPass | SWhile _ _ | SPython _ => []
  end.
(** Names assigned (as opposed to declared) anywhere in a statement. *)
Fixpoint assigned (s : stmt) : list name :=
  match s with
  | SAssign (EId n) _ => [n]
  | SFor _ _ b => assigned_block b
  | SIf _ t elifs els =>
      assigned_block t ++ flat_map (fun eb => assigned_block (snd eb)) elifs
      ++ match els with Some b => assigned_block b | None => [] end
  | _ => []
  end
with assigned_block (b : block) : list name :=
  match b with Block ss _ => flat_map assigned ss end.

(** * Control flow *)

(** Statements that contain no statement and go on with the next one. *)
Definition simple (s : stmt) : bool :=
  match s with SReturn _ | SFor _ _ _ | SIf _ _ _ _ | SWhile _ _ => false | _ => true end.
(** How far a run of statements got: to the end, to a return, or to an exception. *)
Inductive reached := RanAll | Returned_ | Raised.
(** [path s l r]: [l] lists the statements started, in order, by a run of [s] (including
    [s]); [path_list] the same for a sequence of statements, [path_loop] for any number of
    turns of a loop.  An exception can come from any statement. *)
Inductive path : stmt -> list stmt -> reached -> Prop :=
  | path_return o : path (SReturn o) [SReturn o] Returned_
  | path_simple s : simple s = true -> path s [s] RanAll
  | path_no_branch c t elifs : path (SIf c t elifs None) [SIf c t elifs None] RanAll
  | path_raise s : path s [s] Raised
  | path_for x it ss fin l r : path_loop ss l r -> path (SFor x it (Block ss fin)) (SFor x it (Block ss fin) :: l) r
  | path_if c ss fin elifs els l r : path_list ss l r ->
      path (SIf c (Block ss fin) elifs els) (SIf c (Block ss fin) elifs els :: l) r
  | path_elif c t elifs els c1 ss fin l r : In (c1, Block ss fin) elifs -> path_list ss l r ->
      path (SIf c t elifs els) (SIf c t elifs els :: l) r
  | path_else c t elifs ss fin l r : path_list ss l r ->
      path (SIf c t elifs (Some (Block ss fin))) (SIf c t elifs (Some (Block ss fin)) :: l) r
with path_list : list stmt -> list stmt -> reached -> Prop :=
  | pl_nil : path_list [] [] RanAll
  | pl_cons s ss l l' r : path s l RanAll -> path_list ss l' r -> path_list (s :: ss) (l ++ l') r
  | pl_stop s ss l r : path s l r -> r <> RanAll -> path_list (s :: ss) l r
with path_loop : list stmt -> list stmt -> reached -> Prop :=
  | lp_nil ss : path_loop ss [] RanAll
  | lp_cons ss l l' r : path_list ss l RanAll -> path_loop ss l' r -> path_loop ss (l ++ l') r
  | lp_stop ss l r : path_list ss l r -> r <> RanAll -> path_loop ss l r.

(** * Termination *)

(** Nesting depth of an expression and of a statement. *)
Fixpoint edepth (e : expr) : nat :=
  S match e with
    | ELit _ _ | EId _ | ELambda _ _ => 0
    | EBin l _ r => Nat.max (edepth l) (edepth r)
    | EUn _ e | EMember e _ => edepth e
    | ECall _ args named => Nat.max (list_max (map edepth args)) (list_max (map (fun ne => edepth (snd ne)) named))
    | EMethod o _ args _ => Nat.max (edepth o) (list_max (map edepth args))
    | EIndex o i => Nat.max (edepth o) (edepth i)
    | EList l => list_max (map edepth l)
    | EComp e cls =>
        Nat.max (edepth e)
          (list_max (map (fun cl => Nat.max (edepth (snd (fst cl))) (list_max (map edepth (snd cl)))) cls))
    | ERange a b => Nat.max (edepth a) (edepth b)
    | ECond c t f => Nat.max (edepth c) (Nat.max (edepth t) (edepth f))
    | EIf c _ _ _ => edepth c
    | EMatch e arms => Nat.max (edepth e) (list_max (map (fun pe => edepth (snd pe)) arms))
    | EDict l => list_max (map (fun ne => edepth (snd ne)) l)
    end.
Definition odepth (o : option expr) : nat := match o with Some e => edepth e | None => 0%nat end.
Fixpoint sdepth (s : stmt) : nat :=
  S match s with
    | SVar _ _ o | SReturn o => odepth o
    | SAssign _ e | SAssert e _ | SExpr e => edepth e
    | SEmit e m => Nat.max (edepth e) (list_max (map (fun ne => edepth (snd ne)) m))
    | SPass | SWhile _ _ | SPython _ => 0
    | SFor _ it b => Nat.max (edepth it) (bdepth b)
    | SIf c t elifs els =>
        Nat.max (edepth c) (Nat.max (bdepth t)
          (Nat.max (list_max (map (fun eb => Nat.max (edepth (fst eb)) (bdepth (snd eb))) elifs))
                   (match els with Some b => bdepth b | None => 0%nat end)))
    end
with bdepth (b : block) : nat := match b with Block ss _ => list_max (map sdepth ss) end.
(** The deepest body or parameter default of the module's commands. *)
Definition cdepth (cmds : list fundef) : nat :=
  list_max (map (fun f => Nat.max (bdepth (f_body f)) (list_max (map (fun p => odepth (p_default p)) (f_params f)))) cmds).
(** No call `f(a=..., b=...)` with keyword arguments only. *)
Fixpoint no_keyword_calls (e : expr) : bool :=
  match e with
  | ELit _ _ | EId _ | ELambda _ _ => true
  | EBin l _ r => no_keyword_calls l && no_keyword_calls r
  | EUn _ e | EMember e _ => no_keyword_calls e
  | ECall _ args named =>
      match args, named with [], _ :: _ => false | _, _ => true end && forallb no_keyword_calls args
  | EMethod o _ args _ => no_keyword_calls o && forallb no_keyword_calls args
  | EIndex o i => no_keyword_calls o && no_keyword_calls i
  | EList l => forallb no_keyword_calls l
  | EComp e cls =>
      no_keyword_calls e
      && forallb (fun cl => no_keyword_calls (snd (fst cl)) && forallb no_keyword_calls (snd cl)) cls
  | ERange a b => no_keyword_calls a && no_keyword_calls b
  | ECond c t f => no_keyword_calls c && no_keyword_calls t && no_keyword_calls f
  | EIf c _ _ _ => no_keyword_calls c
  | EMatch e arms => no_keyword_calls e && forallb (fun pe => no_keyword_calls (snd pe)) arms
  | EDict l => forallb (fun ne => no_keyword_calls (snd ne)) l
  end.
Definition plain_defaults (cmds : list fundef) : Prop :=
  forall f p e, In f cmds -> In p (f_params f) -> p_default p = Some e -> no_keyword_calls e = true.

(** * Integer and boolean expressions *)

(** The mathematical value of an integer expression; [env] gives the integer variables.
    None: not such an expression, or a division by zero, or a negative exponent. *)
Fixpoint ival (env : name -> option Z) (e : expr) : option Z :=
  match e with
  | ELit (VInt z) INT_LITERAL => Some z
  | EId n => env n
  | EUn MINUS e => option_map Z.opp (ival env e)
  | EBin l op r =>
      match ival env l, ival env r with
      | Some x, Some y =>
          match op with
          | PLUS => Some (x + y) | MINUS => Some (x - y) | STAR => Some (x * y)
          | DOUBLE_SLASH => if y =? 0 then None else Some (x / y)      (* rounds down *)
          | PERCENT => if y =? 0 then None else Some (x - y * (x / y))
          | DOUBLE_STAR => if y <? 0 then None else Some (x ^ y)
          | _ => None
          end
      | _, _ => None
      end
  | _ => None
  end.
(** The truth value of a comparison of integers, a boolean literal, or a combination. *)
Fixpoint bval (env : name -> option Z) (e : expr) : option bool :=
  match e with
  | ELit (VBool b) BOOL_LITERAL => Some b
  | EUn NOT e => option_map negb (bval env e)
  | EBin l op r =>
      match op with
      | AND | OR =>
          match bval env l, bval env r with
          | Some x, Some y => Some (match op with AND => x && y | _ => x || y end)
          | _, _ => None
          end
      | _ =>
          match ival env l, ival env r with
          | Some x, Some y =>
              match op with
              | EQ => Some (x =? y) | NE => Some (negb (x =? y)) | LT => Some (x <? y) | GT => Some (y <? x)
              | LE => Some (x <=? y) | GE => Some (y <=? x) | _ => None
              end
          | _, _ => None
          end
      end
  | _ => None
  end.
