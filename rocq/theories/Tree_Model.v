(** TreeTransform and TransformPipeline: src/yapcad/dsl/transforms/base.py. *)
From Coq Require Import ZArith List Bool.
From Verif Require Import Lex_Model Ast.
Import ListNotations.
Open Scope list_scope.

(** The exceptions these functions raise. *)
Inductive err := AttributeE | TypeE | OtherE.
Inductive res (A : Type) := Got (a : A) | Raise (e : err).
Arguments Got {A}.
Arguments Raise {A}.
Definition bind {A B} (r : res A) (k : A -> res B) : res B := match r with Got a => k a | Raise e => Raise e end.

(** The overrides of a subclass.  Simplification: only visit_literal and
    visit_identifier (base.py:225-229) are overridable here, by functions that do
    not raise; all other visit methods are the default ones. *)
Record hooks := mkhooks { h_lit : value -> ttype -> expr; h_id : name -> expr }.
(** base.py:225-229: the default overrides return the node. *)
Definition default : hooks := mkhooks ELit EId.

(** A comprehension [[f x for x in l]]: stops at the first exception. *)
Definition map_res {A B} (f : A -> res B) : list A -> res (list B) :=
  fix go l := match l with [] => Got [] | a :: l => bind (f a) (fun b => bind (go l) (fun m => Got (b :: m))) end.
(** The same over the items of a dict. *)
Definition map_vals {A B} (f : A -> res B) : list (name * A) -> res (list (name * B)) :=
  fix go l := match l with [] => Got [] | (k, a) :: l => bind (f a) (fun b => bind (go l) (fun m => Got ((k, b) :: m))) end.

(** base.py:186-318 visit_expression and the visit_ methods of expressions.
    - visit_function_call (247-253) visits the arguments and then reads
      [node.name], a field FunctionCall does not have (ast.py:112-117);
    - visit_method_call (255-263) does not pass named_arguments on;
    - visit_list_comprehension (278-288) first reads [node.expression], a field
      ListComprehension does not have (ast.py:162-177);
    - visit_if_expr (299-308) gives its Blocks to visit_expression, which returns
      what is no expression as it is, and does not pass elif_branches on;
    - visit_match_expr (310-313) leaves the arms;
    - ConditionalExpr (ast.py:228-239) is not in the chain: returned as it is.
    Simplifications: spans and the step of a RangeExpr are not in [expr]. *)
Fixpoint visit (h : hooks) (e : expr) : res expr :=
  match e with
  | ELit v lt => Got (h_lit h v lt)
  | EId n => Got (h_id h n)
  | EBin l op r => bind (visit h l) (fun l' => bind (visit h r) (fun r' => Got (EBin l' op r')))
  | EUn op a => bind (visit h a) (fun a' => Got (EUn op a'))
  | ECall f args named => bind (map_res (visit h) args) (fun _ => Raise AttributeE)
  | EMethod o m args named => bind (visit h o) (fun o' => bind (map_res (visit h) args) (fun args' => Got (EMethod o' m args' [])))
  | EMember o m => bind (visit h o) (fun o' => Got (EMember o' m))
  | EIndex o i => bind (visit h o) (fun o' => bind (visit h i) (fun i' => Got (EIndex o' i')))
  | EList l => bind (map_res (visit h) l) (fun l' => Got (EList l'))
  | EComp _ _ => Raise AttributeE
  | ERange a b => bind (visit h a) (fun a' => bind (visit h b) (fun b' => Got (ERange a' b')))
  | ECond c t f => Got (ECond c t f)
  | EIf c t elifs els => bind (visit h c) (fun c' => Got (EIf c' t [] els))
  | EMatch s arms => bind (visit h s) (fun s' => Got (EMatch s' arms))
  | ELambda ps b => bind (visit h b) (fun b' => Got (ELambda ps b'))
  | EDict d => bind (map_vals (visit h) d) (fun d' => Got (EDict d'))
  end.

(** base.py:88-180 visit_statement and the visit_ methods of statements.
    - visit_let (112-120) reads [node.value]: VarDecl calls it initializer (ast.py:320-331);
    - visit_for (156-165) iterates over [node.body], a Block, which is not iterable;
    - PassStatement, WhileStatement and IfStatement are not in the chain: returned as they are.
    - visit_require (131-138) leaves the message, visit_assignment (122-129) the target.
    Simplification: metadata None and {} (140-150) are one list; the interpreter
    (interpreter.py:342) does not tell them apart. *)
Definition visit_statement (h : hooks) (s : stmt) : res stmt :=
  match s with
  | SVar _ _ _ => Raise AttributeE
  | SAssign t v => bind (visit h v) (fun v' => Got (SAssign t v'))
  | SAssert c m => bind (visit h c) (fun c' => Got (SAssert c' m))
  | SEmit v m => bind (visit h v) (fun v' => bind (map_vals (visit h) m) (fun m' => Got (SEmit v' m')))
  | SReturn (Some v) => bind (visit h v) (fun v' => Got (SReturn (Some v')))
  | SReturn None => Got (SReturn None)
  | SPass => Got SPass
  | SFor x it b => bind (visit h it) (fun _ => Raise TypeE)
  | SWhile c b => Got (SWhile c b)
  | SIf c t elifs els => Got (SIf c t elifs els)
  | SExpr e => bind (visit h e) (fun e' => Got (SExpr e'))
  | SPython l => Got (SPython l)
  end.

(** base.py:177-180 visit_block: final_expression (ast.py:434) is not passed on. *)
Definition visit_block (h : hooks) (b : block) : res block :=
  match b with Block ss _ => bind (map_res (visit_statement h) ss) (fun ss' => Got (Block ss' None)) end.

(** base.py:77-86 visit_command: iterates over [node.body], a Block. *)
Definition visit_command (h : hooks) (f : fundef) : res fundef := Raise TypeE.
(** base.py:65-75 transform, visit_module: Module (ast.py:567-588) has no field
    [commands] to be set (it is a property), so its constructor refuses the call. *)
Definition transform_tree (h : hooks) (m : modul) : res modul :=
  bind (map_res (visit_command h) (m_funs m)) (fun _ => Raise TypeE).

(** base.py:336-349 IdentityTransform.transform. *)
Definition identity (m : modul) : res modul := Got m.

(** base.py:325-333 TransformPipeline.apply. *)
Fixpoint apply (ts : list (modul -> res modul)) (m : modul) : res modul :=
  match ts with [] => Got m | f :: ts => bind (f m) (apply ts) end.

(** base.py:316-325: a pipeline holds a reference to a list object.  A heap is the
    content of every list object and the next free reference.  __init__
    ([transforms or []]) takes the caller's list when it is given and not empty, and
    a fresh one otherwise; add appends to the list object. *)
Section Heap.
  Context {T : Type}.
  Record heap := mkheap { cells : nat -> list T; next : nat }.
  Definition init (arg : option nat) (H : heap) : nat * heap :=
    let fresh := (next H, mkheap (fun r => if Nat.eqb r (next H) then [] else cells H r) (S (next H))) in
    match arg with
    | Some r => match cells H r with [] => fresh | _ :: _ => (r, H) end
    | None => fresh
    end.
  Definition add (p : nat) (x : T) (H : heap) : heap :=
    mkheap (fun r => if Nat.eqb r p then cells H r ++ [x] else cells H r) (next H).
End Heap.
Arguments heap : clear implicits.
Arguments mkheap : clear implicits.
