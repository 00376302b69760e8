(** The abstract syntax of the DSL: src/yapcad/dsl/ast.py.  Spans are dropped.
    PythonExpr (ast.py:303-307) is left out: no parser rule builds it.
    Names and dictionary keys are code point lists, as in Lex_Model. *)
From Coq Require Import ZArith String List Bool.
From Verif Require Import Lex_Model.
Import ListNotations.
Open Scope list_scope.

Definition name := list Z.

(** ast.py:49-72 SimpleType, GenericType, OptionalType. *)
Inductive ty := TSimple (n : name) | TGeneric (n : name) (args : list ty) | TOptional (t : ty).

(** ast.py:272-293 LiteralPattern, IdentifierPattern, WildcardPattern. *)
Inductive pattern := PLit (v : value) (lt : ttype) | PId (n : name) | PWild.

(** ast.py:84-301 (expressions), 320-434 (statements, Block).  A comprehension
    clause (149-159) is (variable, iterable, conditions); a match arm (265-269)
    (pattern, body); an elif branch (251-255) (condition, body).
    LetStatement = VarDecl, RequireStatement = AssertStatement (335, 353). *)
Inductive expr :=
  | ELit (v : value) (lt : ttype)
  | EId (n : name)
  | EBin (l : expr) (op : ttype) (r : expr)
  | EUn (op : ttype) (e : expr)
  | ECall (f : expr) (args : list expr) (named : list (name * expr))
  | EMethod (o : expr) (m : name) (args : list expr) (named : list (name * expr))
  | EMember (o : expr) (m : name)
  | EIndex (o i : expr)
  | EList (l : list expr)
  | EComp (e : expr) (clauses : list (name * expr * list expr))
  | ERange (a b : expr)
  | ECond (c t f : expr)
  | EIf (c : expr) (t : block) (elifs : list (expr * block)) (els : option block)
  | EMatch (e : expr) (arms : list (pattern * expr))
  | ELambda (ps : list name) (b : expr)
  | EDict (entries : list (name * expr))
with stmt :=
  | SVar (n : name) (t : option ty) (init : option expr)
  | SAssign (target v : expr)
  | SAssert (c : expr) (msg : option expr)
  | SEmit (v : expr) (meta : list (name * expr))
  | SReturn (v : option expr)
  | SPass
  | SFor (x : name) (it : expr) (b : block)
  | SWhile (c : expr) (b : block)
  | SIf (c : expr) (t : block) (elifs : list (expr * block)) (els : option block)
  | SExpr (e : expr)
  | SPython (lexemes : list (list Z))
with block := Block (ss : list stmt) (final : option expr).

(** JSON-safe decorator values (parser.py:1216-1242): a literal, its negation, a
    list, a dict, or a string; [HRepr] is the repr() of any other node. *)
Inductive hint :=
  | HVal (v : value) | HNegFloat (lexeme : list Z) | HList (l : list hint)
  | HDict (d : list (name * hint)) | HRepr (e : expr).

(** ast.py:454-460 Parameter. *)
Record param := Param {
  p_name : name; p_type : option ty; p_default : option expr; p_ui : option (list (name * hint)) }.
(** ast.py:447-451 Decorator. *)
Record decorator := Decorator { d_name : name; d_args : list expr }.
(** ast.py:463-478 FunctionDef (Command is an alias). *)
Record fundef := FunDef {
  f_name : name; f_params : list param; f_ret : option ty; f_body : block;
  f_decos : list decorator; f_meta : option (list (name * hint)) }.
(** ast.py:485-500 NativeFunction (the Python text is dropped), 507-515 NativeFunctionDecl. *)
Record native := Native { n_name : name; n_params : list param; n_ret : ty }.
(** ast.py:542-552 UseStatement, 561-564 ExportUseStatement. *)
Inductive use := Use (path : list name) (alias : option name) | ExportUse (path : list name).
(** ast.py:567-588 Module; a native block (518-535) is its exports. *)
Record modul := MkModule {
  m_name : option name; m_uses : list use; m_blocks : list (list native);
  m_natives : list native; m_funs : list fundef }.
