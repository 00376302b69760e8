(** Model of the DSL interpreter: src/yapcad/dsl/runtime/interpreter.py (Interpreter),
    runtime/context.py (Scope, ExecutionContext) and runtime/values.py.

    What is a parameter ([host]): Python floats, geometry objects, built-in functions
    (builtins.py), native and inline Python code, @meta application, and Python's own
    operators on operands other than ints, bools, strings and lists.  They may change a
    [world] (objects, files, printing) and may raise, but they return; they cannot reach
    the interpreter's fields, nor change a list while the interpreter iterates over it.
    Not modelled: AST transforms (113: none by default), message texts, the CPython
    recursion limit, memory exhaustion.  [fuel] counts nested _evaluate/_execute_statement
    calls and has no counterpart in the code; [log] is a ghost record of what happened. *)
From Coq Require Import ZArith String List Bool.
From Verif Require Import Dict Lex_Model Ast Types_Model.
Import ListNotations.
Open Scope string_scope.
Open Scope Z_scope.
Open Scope list_scope.

(** == on str. *)
Fixpoint name_eqb (a b : name) : bool :=
  match a, b with
  | [], [] => true
  | x :: a, y :: b => Z.eqb x y && name_eqb a b
  | _, _ => false
  end.
(** The name of a type as the string of Types_Model; type names are ASCII. *)
Fixpoint str_of (n : name) : string :=
  match n with [] => EmptyString | c :: r => String (Ascii.ascii_of_N (Z.to_N c)) (str_of r) end.

(** types.py:431-434 resolve_type_name; a non-ASCII name is no type. *)
Definition type_named (n : name) : option typ :=
  if forallb (fun c => (0 <=? c) && (c <? 128)) n then resolve_type_name (str_of n) else None.

(** Python exceptions: RuntimeError (caught by execute, interpreter.py:175) and the rest. *)
Inductive exn := ERuntime (why : string) | EOther (why : string).
Inductive res (A : Type) := Ok (a : A) | Raise (e : exn) | NoFuel.
Arguments Ok {A}. Arguments Raise {A}. Arguments NoFuel {A}.

(** The raw Python objects behind values: int, float, bool, str, list, dict, None, a
    function object, and any other object. *)
Inductive data (F O : Type) :=
  | DInt (z : Z) | DFloat (f : F) | DBool (b : bool) | DStr (s : list Z)
  | DList (l : list (data F O)) | DDict (d : list (name * data F O)) | DNone | DFun | DObj (o : O).
Arguments DInt {F O}. Arguments DFloat {F O}. Arguments DBool {F O}. Arguments DStr {F O}.
Arguments DList {F O}. Arguments DDict {F O}. Arguments DNone {F O}. Arguments DFun {F O}. Arguments DObj {F O}.

(** values.py:23-32 Value (the type may be None: resolve_type_name) and 172-191
    EmitResult, which _call_command returns in place of a Value. *)
Inductive rval (F O : Type) :=
  | Val (d : data F O) (t : option typ)
  | Emitted (v : rval F O) (meta : list (name * data F O)).
Arguments Val {F O}. Arguments Emitted {F O}.

(** The host Python (see the header): a result or an exception. *)
(** What a host operation gives back: a result or an exception. *)
Definition try (A : Type) : Type := (A + exn)%type.
Record host := Host {
  hF : Type; hO : Type; hW : Type;
  h_float_lit : list Z -> hF;                          (* float(lexeme) *)
  h_of_int : Z -> try hF;                              (* float(int): may overflow *)
  h_binop : ttype -> data hF hO -> data hF hO -> hW -> try (data hF hO);  (* other operands *)
  h_neg : data hF hO -> hW -> try (data hF hO);
  h_eq : data hF hO -> data hF hO -> hW -> bool;
  h_cmp : ttype -> data hF hO -> data hF hO -> hW -> try bool;
  h_int : data hF hO -> hW -> try Z;                   (* int(x) of a non-int *)
  h_float : data hF hO -> hW -> try hF;                (* float(x) of a non-number *)
  h_bool : data hF hO -> hW -> bool;                   (* bool(x) of a non-bool *)
  h_str : data hF hO -> hW -> list Z;                  (* str(x) of a non-str *)
  h_len : data hF hO -> hW -> try Z;                   (* len(x) of a non-list *)
  h_iter : hO -> hW -> option (list (data hF hO));     (* list(x); None: no __iter__ *)
  h_index : data hF hO -> Z -> hW -> try (data hF hO); (* x[i] of a non-list *)
  h_get : data hF hO -> name -> hW -> try (data hF hO);(* x.get(k) of a non-dict *)
  h_member : data hF hO -> name -> hW -> try (rval hF hO);
  h_builtin : name -> list (rval hF hO) -> hW -> try (rval hF hO) * hW;
  h_native_block : list native -> hW -> bool * hW;     (* false: it raised *)
  h_native : name -> list (data hF hO) -> hW -> try (rval hF hO) * hW;
  h_python : list (list Z) -> list (name * data hF hO) -> hW -> option bool * hW;
  h_meta : list (name * hint) -> data hF hO -> hW -> try unit * hW
}.

Section Interp.
  Variable H : host.
  Notation D := (data (hF H) (hO H)).
  Notation V := (rval (hF H) (hO H)).
  Notation W := (hW H).

  (** values.py:181-190 EmitResult.data/.type; Value.data/.type. *)
  Fixpoint vdata (v : V) : D := match v with Val d _ => d | Emitted v _ => vdata v end.
  Fixpoint vtype (v : V) : option typ := match v with Val _ t => t | Emitted v _ => vtype v end.

  (** Ghost events, each tagged with the call depth at which it happened: a command body
      started, a statement started, an assertion was evaluated, a value was emitted. *)
  Inductive event :=
    | EvEnter (d : Z) (cmd : name) | EvStmt (d : Z) (s : stmt)
    | EvAssert (d : Z) (ok : bool) | EvEmit (d : Z) (v : V) (meta : list (name * D)).

  (** Interpreter fields (interpreter.py:88-110) that execution changes. *)
  Record state := State { s_world : W; s_depth : Z; s_natives : list name; s_log : list event }.
  (** context.py:60-91 ExecutionContext: the scope chain (innermost first), emit_result,
      require_failures (messages as given), number of diagnostics, _should_return. *)
  Definition scope := list (name * V).
  Record ctx := Ctx {
    c_scopes : list scope; c_emit : option (V * list (name * D)); c_fails : list (option expr);
    c_diags : nat; c_ret : bool }.

  Definition M (A : Type) := ctx -> state -> res A * ctx * state.
  Definition ret {A} (a : A) : M A := fun c s => (Ok a, c, s).
  Definition raise {A} (e : exn) : M A := fun c s => (Raise e, c, s).
  Definition rte {A} (why : string) : M A := raise (ERuntime why).
  Definition bind {A B} (m : M A) (k : A -> M B) : M B := fun c s =>
    match m c s with
    | (Ok a, c, s) => k a c s
    | (Raise e, c, s) => (Raise e, c, s)
    | (NoFuel, c, s) => (NoFuel, c, s)
    end.
  Definition of_host {A} (r : try A) : res A := match r with inl a => Ok a | inr e => Raise e end.
  Definition lift {A} (r : W -> try A) : M A := fun c s => (of_host (r (s_world s)), c, s).
  Definition liftw {A} (r : W -> try A * W) : M A := fun c s =>
    let '(a, w) := r (s_world s) in (of_host a, c, State w (s_depth s) (s_natives s) (s_log s)).
  Definition emit_event (e : Z -> event) : M unit := fun c s =>
    (Ok tt, c, State (s_world s) (s_depth s) (s_natives s) (s_log s ++ [e (s_depth s)])).

  Notation "x <- m ; k" := (bind m (fun x => k)) (at level 61, m at next level, right associativity).
  Notation "m ;; k" := (bind m (fun _ => k)) (at level 61, right associativity).

  Fixpoint mapM {A B} (f : A -> M B) (l : list A) : M (list B) :=
    match l with [] => ret [] | a :: l => b <- f a; bs <- mapM f l; ret (b :: bs) end.

  (** * Scopes (context.py:19-57, 93-127) *)

  Definition sget (n : name) (s : scope) : option V := dget name_eqb n s.
  Definition sset (n : name) (v : V) (s : scope) : scope := dset name_eqb n v s.
  (** context.py:30-36 Scope.get *)
  Fixpoint lookup (n : name) (ss : list scope) : option V :=
    match ss with
    | [] => None
    | s :: ss => match sget n s with Some v => Some v | None => lookup n ss end
    end.
  (** context.py:42-54 Scope.update *)
  Fixpoint update (n : name) (v : V) (ss : list scope) : option (list scope) :=
    match ss with
    | [] => None
    | s :: ss =>
        match sget n s with
        | Some _ => Some (sset n v s :: ss)
        | None => option_map (cons s) (update n v ss)
        end
    end.
  (** context.py:38-40, 97-99 set_variable: in the current scope. *)
  Definition set_scopes (ss : list scope) (c : ctx) : ctx :=
    Ctx ss (c_emit c) (c_fails c) (c_diags c) (c_ret c).
  Definition set_variable (n : name) (v : V) : M unit := fun c s =>
    match c_scopes c with
    | [] => (Ok tt, c, s)
    | sc :: ss => (Ok tt, set_scopes (sset n v sc :: ss) c, s)
    end.
  (** context.py:101-103, 134-143 update_variable; add_error when it finds nothing
      (interpreter.py:330-331). *)
  Definition update_variable (n : name) (v : V) : M unit := fun c s =>
    match update n v (c_scopes c) with
    | Some ss => (Ok tt, set_scopes ss c, s)
    | None => (Ok tt, Ctx (c_scopes c) (c_emit c) (c_fails c) (S (c_diags c)) (c_ret c), s)
    end.
  (** The scope object that was current when k scopes were open, with its parents. *)
  Definition last_n {A} (k : nat) (l : list A) : list A := skipn (List.length l - k) l.
  (** context.py:105-121 new_scope: push, run, restore even if the body raised. *)
  Definition new_scope {A} (m : M A) : M A := fun c s =>
    let k := List.length (c_scopes c) in
    let '(r, c', s') := m (set_scopes ([] :: c_scopes c) c) s in
    (r, set_scopes (last_n k (c_scopes c')) c', s').
  (** context.py:127-129 set_emit, 123-125 add_require_failure, 167-170 signal_return. *)
  Definition set_emit (v : V) (meta : list (name * D)) : M unit := fun c s =>
    (Ok tt, Ctx (c_scopes c) (Some (v, meta)) (c_fails c) (c_diags c) (c_ret c), s).
  Definition add_require_failure (m : option expr) : M unit := fun c s =>
    (Ok tt, Ctx (c_scopes c) (c_emit c) (c_fails c ++ [m]) (c_diags c) (c_ret c), s).
  Definition signal_return : M unit := fun c s =>
    (Ok tt, Ctx (c_scopes c) (c_emit c) (c_fails c) (c_diags c) true, s).
  Definition should_return : M bool := fun c s => (Ok (c_ret c), c, s).
  (** The dict of visible variables an inline Python block gets (interpreter.py:434-440):
      innermost scope first, so an outer variable overwrites an inner one. *)
  Definition namespace (ss : list scope) : list (name * D) :=
    fold_left (fun ns sc => fold_left (fun ns nv => dset name_eqb (fst nv) (vdata (snd nv)) ns) sc ns) ss [].

  (** * Values (values.py:34-77) *)

  Definition tis (t : option typ) (u : typ) : bool :=
    match t with Some t => ty_eqb t u | None => false end.
  (** int(), float(), bool(), str() as the value constructors apply them. *)
  Definition py_int (d : D) : M Z :=
    match d with
    | DInt z => ret z | DBool b => ret (if b then 1 else 0)
    | _ => lift (h_int H d)
    end.
  Definition py_float (d : D) : M (hF H) :=
    match d with
    | DFloat f => ret f
    | DInt z => lift (fun _ => h_of_int H z)
    | DBool b => lift (fun _ => h_of_int H (if b then 1 else 0))
    | _ => lift (h_float H d)
    end.
  Definition py_bool (d : D) : M bool :=
    match d with DBool b => ret b | _ => lift (fun w => inl (h_bool H d w)) end.
  Definition py_str (d : D) : M (list Z) :=
    match d with DStr s => ret s | _ => lift (fun w => inl (h_str H d w)) end.
  (** values.py:51-68 int_val, float_val, bool_val, string_val *)
  Definition int_val (d : D) : M V := z <- py_int d; ret (Val (DInt z) (Some INT)).
  Definition float_val (d : D) : M V := f <- py_float d; ret (Val (DFloat f) (Some FLOAT)).
  Definition bool_val (b : bool) : V := Val (DBool b) (Some BOOL).
  Definition string_val (s : list Z) : V := Val (DStr s) (Some STRING).
  (** values.py:71-83 list_val, dict_val, none_val; ListType(None), when the element type is
      None, is written as a list of [TUnknown]. *)
  Definition list_val (l : list V) (t : option typ) : V :=
    Val (DList (map vdata l)) (Some (TLst (match t with Some t => t | None => TUnknown end))).
  Definition none_val (t : typ) : V := Val DNone (Some (TOpt t)).
  (** len(x) > 0 *)
  Definition nonempty (d : D) : M bool :=
    match d with
    | DList l => ret (match l with [] => false | _ => true end)
    | _ => n <- lift (h_len H d); ret (0 <? n)
    end.
  (** values.py:34-46 is_truthy; an EmitResult has no such method (AttributeError). *)
  Definition truthy (v : V) : M bool :=
    match v with
    | Emitted _ _ => raise (EOther "AttributeError")
    | Val d t =>
        if tis t BOOL then py_bool d
        else match t with
             | Some (TLst _) => nonempty d
             | Some (TOpt _) => ret (match d with DNone => false | _ => true end)
             | _ => ret true
             end
    end.

  (** * Python operators (on the operands the host does not decide) *)

  Definition as_int (d : D) : option Z :=
    match d with DInt z => Some z | DBool b => Some (if b then 1 else 0) | _ => None end.
  (** +, -, *, /, %, //, ** *)
  Definition py_arith (op : ttype) (a b : D) : M D :=
    match as_int a, as_int b with
    | Some x, Some y =>
        match op with
        | PLUS => ret (DInt (x + y)) | MINUS => ret (DInt (x - y)) | STAR => ret (DInt (x * y))
        | PERCENT => if y =? 0 then raise (EOther "ZeroDivisionError") else ret (DInt (x mod y))
        | DOUBLE_SLASH => if y =? 0 then raise (EOther "ZeroDivisionError") else ret (DInt (x / y))
        | SLASH => if y =? 0 then raise (EOther "ZeroDivisionError") else lift (h_binop H op a b)
        | DOUBLE_STAR => if 0 <=? y then ret (DInt (x ^ y)) else lift (h_binop H op a b)
        | _ => lift (h_binop H op a b)
        end
    | _, _ =>
        match op, a, b with
        | PLUS, DList l, DList m => ret (DList (l ++ m))
        | PLUS, DStr l, DStr m => ret (DStr (l ++ m))
        | _, _, _ => lift (h_binop H op a b)
        end
    end.
  (** == *)
  Definition py_eq (a b : D) : M bool :=
    match as_int a, as_int b, a, b with
    | Some x, Some y, _, _ => ret (x =? y)
    | _, _, DStr s, DStr t => ret (name_eqb s t)
    | _, _, _, _ => lift (fun w => inl (h_eq H a b w))
    end.
  (** <, >, <=, >= *)
  Definition py_cmp (op : ttype) (a b : D) : M bool :=
    match as_int a, as_int b with
    | Some x, Some y =>
        ret (match op with LT => x <? y | GT => y <? x | LE => x <=? y | _ => y <=? x end)
    | _, _ => lift (h_cmp H op a b)
    end.
  (** iter(x): None when the object has no __iter__. *)
  Definition py_iter (d : D) (w : W) : option (list D) :=
    match d with
    | DList l => Some l
    | DStr s => Some (map (fun c => DStr [c]) s)
    | DDict m => Some (map (fun kv => DStr (fst kv)) m)
    | DObj o => h_iter H o w
    | _ => None
    end.
  (** x[i]; a negative index counts from the end. *)
  Definition py_index (d : D) (i : Z) : M D :=
    match d with
    | DList l =>
        let n := Z.of_nat (List.length l) in
        let j := if i <? 0 then i + n else i in
        if (j <? 0) || (n <=? j) then raise (EOther "IndexError")
        else match nth_error l (Z.to_nat j) with Some d => ret d | None => raise (EOther "IndexError") end
    | _ => lift (h_index H d i)
    end.
  (** range(a, b) *)
  Definition zrange (a b : Z) : list D :=
    map (fun k => DInt (a + Z.of_nat k)) (seq 0 (Z.to_nat (b - a))).

  (** interpreter.py:573-647 _eval_binary_op, after both operands were evaluated. *)
  Definition both_int (l r : V) : bool := tis (vtype l) INT && tis (vtype r) INT.
  Definition binop (op : ttype) (l r : V) : M V :=
    match op with
    | AND => a <- truthy l; if a then b <- truthy r; ret (bool_val b) else ret (bool_val false)
    | OR => a <- truthy l; if a then ret (bool_val true) else b <- truthy r; ret (bool_val b)
    | PLUS =>
        if tis (vtype l) STRING || tis (vtype r) STRING then
          a <- py_str (vdata l); b <- py_str (vdata r); ret (string_val (a ++ b))
        else
          match vtype l, vtype r with
          | Some (TLst e), Some (TLst _) =>
              d <- py_arith PLUS (vdata l) (vdata r); ret (Val d (Some (TLst e)))
          | _, _ =>
              d <- py_arith PLUS (vdata l) (vdata r);
              if both_int l r then int_val d else float_val d
          end
    | MINUS | STAR | PERCENT =>
        d <- py_arith op (vdata l) (vdata r);
        if both_int l r then int_val d else float_val d
    | SLASH => d <- py_arith SLASH (vdata l) (vdata r); float_val d
    | DOUBLE_SLASH => d <- py_arith DOUBLE_SLASH (vdata l) (vdata r); int_val d
    | DOUBLE_STAR =>
        d <- py_arith DOUBLE_STAR (vdata l) (vdata r);
        if both_int l r then
          (g <- py_cmp GE (vdata r) (DInt 0); if g then int_val d else float_val d)
        else float_val d
    | EQ => b <- py_eq (vdata l) (vdata r); ret (bool_val b)
    | NE => b <- py_eq (vdata l) (vdata r); ret (bool_val (negb b))
    | LT | GT | LE | GE => b <- py_cmp op (vdata l) (vdata r); ret (bool_val b)
    | _ => rte "Unknown binary operator"
    end.
  (** interpreter.py:649-661 _eval_unary_op *)
  Definition unop (op : ttype) (v : V) : M V :=
    match op with
    | MINUS =>
        d <- match as_int (vdata v) with Some z => ret (DInt (- z)) | None => lift (h_neg H (vdata v)) end;
        if tis (vtype v) INT then int_val d else float_val d
    | NOT => b <- truthy v; ret (bool_val (negb b))
    | _ => rte "Unknown unary operator"
    end.
  (** interpreter.py:545-560 _eval_literal *)
  Definition literal (v : value) (lt : ttype) : M V :=
    match lt, v with
    | INT_LITERAL, VInt z => ret (Val (DInt z) (Some INT))
    | FLOAT_LITERAL, VFloat x => ret (Val (DFloat (h_float_lit H x)) (Some FLOAT))
    | BOOL_LITERAL, VBool b => ret (bool_val b)
    | STRING_LITERAL, VStr s => ret (string_val s)
    | INT_LITERAL, _ | FLOAT_LITERAL, _ | BOOL_LITERAL, _ | STRING_LITERAL, _ => raise (EOther "TypeError")
    | _, _ => rte "Unknown literal type"
    end.
  (** The raw Python object a literal node holds (ast.py:88-93), as a pattern compares it. *)
  Definition lit_data (v : value) : D :=
    match v with
    | VNone => DNone | VInt z => DInt z | VBool b => DBool b | VStr s => DStr s
    | VFloat x => DFloat (h_float_lit H x)
    end.
  (** The element type of an iterable (interpreter.py:366-369, 923-926). *)
  Definition elem_type (v : V) : option typ :=
    match vtype v with Some (TLst e) => Some e | _ => Some INT end.

  (** * Statements and expressions, given the recursive calls *)

  Section Open.
    (** The commands of current_module (interpreter.py:142), the two limits (13-17, 97-108). *)
    Variables (cmds : list fundef) (limit : Z).
    Variables (ev : expr -> M V) (ex : stmt -> M unit).

    (** `for s in statements: execute; if should_return: stop` (254-259, 373-377, 390-393). *)
    Fixpoint stmts (ss : list stmt) : M unit :=
      match ss with
      | [] => ret tt
      | s :: ss => emit_event (fun d => EvStmt d s);; ex s;; r <- should_return; if r then ret tt else stmts ss
      end.
    Definition b_stmts (b : block) : list stmt := match b with Block ss _ => ss end.

    (** interpreter.py:371-377: one scope for all iterations; a return ends the loop. *)
    Fixpoint for_items (x : name) (t : option typ) (body : list stmt) (items : list D) : M unit :=
      match items with
      | [] => ret tt
      | i :: items =>
          set_variable x (Val i t);; stmts body;; r <- should_return;
          if r then ret tt else for_items x t body items
      end.
    (** interpreter.py:356-380 _execute_for *)
    Definition exec_for (x : name) (it : expr) (body : list stmt) : M unit :=
      v <- ev it;
      o <- lift (fun w => inl (py_iter (vdata v) w));
      match o with
      | None => match vtype v with
                | Some (TLst _) => raise (EOther "TypeError")
                | _ => rte "Cannot iterate"
                end
      | Some items => new_scope (for_items x (elem_type v) body items)
      end.
    (** interpreter.py:396-414: the first elif whose condition holds, else the else branch. *)
    Fixpoint exec_elifs (elifs : list (expr * block)) (els : option block) : M unit :=
      match elifs with
      | [] => match els with Some b => new_scope (stmts (b_stmts b)) | None => ret tt end
      | (c, b) :: elifs =>
          v <- ev c; t <- truthy v;
          if t then new_scope (stmts (b_stmts b)) else exec_elifs elifs els
      end.
    (** dict metadata of emit (interpreter.py:343-353) *)
    Fixpoint eval_meta (m : list (name * expr)) (acc : list (name * D)) : M (list (name * D)) :=
      match m with
      | [] => ret acc
      | (k, e) :: m => v <- ev e; eval_meta m (dset name_eqb k (vdata v) acc)
      end.

    (** interpreter.py:291-460 _execute_statement and the _execute_* it calls. *)
    Definition exec_body (s : stmt) : M unit :=
      match s with
      | SVar n _ (Some e) => v <- ev e; set_variable n v
      | SVar n _ None => rte "Unknown expression type"
      | SAssign t e =>
          v <- ev e;
          match t with EId n => update_variable n v | _ => raise (EOther "AttributeError") end
      | SAssert c msg =>
          v <- ev c; t <- truthy v;
          emit_event (fun d => EvAssert d t);;
          if t then ret tt else add_require_failure msg
      | SEmit e m =>
          v <- ev e; md <- eval_meta m [];
          emit_event (fun d => EvEmit d v md);; set_emit v md
      | SReturn (Some e) => ev e;; signal_return
      | SReturn None => signal_return
      | SPass => ret tt
      | SFor x it b => exec_for x it (b_stmts b)
      | SWhile _ _ => rte "Unknown statement type"
      | SIf c t elifs els =>
          v <- ev c; b <- truthy v;
          if b then new_scope (stmts (b_stmts t)) else exec_elifs elifs els
      | SExpr e => ev e;; ret tt
      | SPython code =>
          r <- (fun c s => let '(o, w) := h_python H code (namespace (c_scopes c)) (s_world s) in
                           (Ok o, c, State w (s_depth s) (s_natives s) (s_log s)));
          match r with
          | None => rte "Python block error"
          | Some true => raise (EOther "AttributeError")   (* no attribute result_var: 458-459 *)
          | Some false => ret tt
          end
      end.

    (** interpreter.py:261-289 _apply_command_meta_hint *)
    Definition apply_meta (f : fundef) (c : ctx) : W -> try unit * W := fun w =>
      match f_meta f, c_emit c with
      | Some ((_ :: _) as m), Some (v, _) => h_meta H m (vdata v) w
      | _, _ => (inl tt, w)
      end.
    (** context.py:189-222 create_context *)
    Definition create_context (params : list (name * V)) : ctx :=
      Ctx [fold_left (fun sc nv => sset (fst nv) (snd nv) sc) params []] None [] 0 false.
    (** interpreter.py:254-259 _execute_command: final_expression is not run. *)
    Definition execute_command (f : fundef) : M unit :=
      emit_event (fun d => EvEnter d (f_name f));; stmts (b_stmts (f_body f)).

    Definition has_default (p : param) : bool := match p_default p with Some _ => true | None => false end.
    (** interpreter.py:731-733 positional arguments; 736-740 defaults of the rest, evaluated
        in the caller's context. *)
    Fixpoint fill_defaults (ps : list param) (acc : list (name * V)) : M (list (name * V)) :=
      match ps with
      | [] => ret acc
      | p :: ps =>
          match p_default p with
          | Some e => v <- ev e; fill_defaults ps (dset name_eqb (p_name p) v acc)
          | None => fill_defaults ps acc
          end
      end.
    Definition bind_args (ps : list param) (args : list V) : list (name * V) :=
      fold_left (fun acc pv => dset name_eqb (p_name (fst pv)) (snd pv) acc) (combine ps args) [].
    Definition add_depth (k : Z) (s : state) : state :=
      State (s_world s) (s_depth s + k) (s_natives s) (s_log s).
    (** interpreter.py:703-760 _call_command: the caller's context is untouched except by the
        evaluation of defaults; the callee's require_failures go with its context. *)
    Definition call_command (f : fundef) (args : list V) : M V := fun c s =>
      let s := add_depth 1 s in
      if limit <? s_depth s then
        (Raise (ERuntime "Maximum recursion depth"), c, add_depth (-1) s)
      else
        let run : M V :=
          let req := List.length (filter (fun p => negb (has_default p)) (f_params f)) in
          let n := List.length args in
          if ((n <? req) || (List.length (f_params f) <? n))%nat then rte "expects arguments"
          else
            ps <- fill_defaults (skipn n (f_params f)) (bind_args (f_params f) args);
            fun c s =>
              match execute_command f (create_context ps) s with
              | (Ok _, cc, s) =>
                  let '(r, w) := apply_meta f cc (s_world s) in
                  let s := State w (s_depth s) (s_natives s) (s_log s) in
                  match r with
                  | inl _ => match c_emit cc with
                             | Some (v, md) => (Ok (Emitted v md), c, s)
                             | None => (Raise (ERuntime "did not emit a value"), c, s)
                             end
                  | inr e => (Raise e, c, s)
                  end
              | (Raise e, _, s) => (Raise e, c, s)
              | (NoFuel, _, s) => (NoFuel, c, s)
              end
        in
        let '(r, c, s) := run c s in (r, c, add_depth (-1) s).

    (** The first command of that name (interpreter.py:681-682). *)
    Definition find_command (n : name) : option fundef := find (fun f => name_eqb (f_name f) n) cmds.
    (** interpreter.py:684-697: named arguments by parameter, when there is no positional one. *)
    Fixpoint named_args (ps : list param) (named : list (name * expr)) : M (list V) :=
      match ps with
      | [] => ret []
      | p :: ps =>
          v <- match dget name_eqb (p_name p) named, p_default p with
               | Some e, _ => ev e
               | None, Some e => ev e
               | None, None => rte "missing required argument"
               end;
          vs <- named_args ps named; ret (v :: vs)
      end.
    (** interpreter.py:663-701 _eval_function_call; 762-799 _call_native_function (the host
        turns any exception into RuntimeError and wraps the result). *)
    Definition call (callee : expr) (args : list expr) (named : list (name * expr)) : M V :=
      vs <- mapM ev args;
      match callee with
      | EId n => fun c s =>
          if existsb (name_eqb n) (s_natives s) then liftw (h_native H n (map vdata vs)) c s
          else
            match find_command n with
            | Some f =>
                match named, vs with
                | _ :: _, [] => (vs <- named_args (f_params f) named; call_command f vs) c s
                | _, _ => call_command f vs c s
                end
            | None => liftw (h_builtin H n vs) c s
            end
      | _ => rte "Unsupported callee type"
      end.

    (** interpreter.py:13-17 *)
    Definition max_size : nat := Z.to_nat 100000.
    Definition max_depth : nat := 4.
    (** all(conditions), left to right, stopping at the first false one (932-940) *)
    Fixpoint conditions (cs : list expr) : M bool :=
      match cs with
      | [] => ret true
      | e :: cs => v <- ev e; t <- truthy v; if t then conditions cs else ret false
      end.
    Definition too_big (acc : list V) : bool := (max_size <=? List.length acc)%nat.
    (** interpreter.py:888-946 _eval_comprehension_clauses; [acc] is results. *)
    Fixpoint clauses (cls : list (name * expr * list expr)) (e : expr) (acc : list V) : M (list V) :=
      match cls with
      | [] => if too_big acc then rte "result size exceeds maximum"
              else v <- ev e; ret (acc ++ [v])
      | (x, it, conds) :: cls =>
          v <- ev it;
          o <- lift (fun w => inl (py_iter (vdata v) w));
          match o with
          | None => raise (EOther "TypeError")
          | Some items =>
              (fix go (items : list D) (acc : list V) : M (list V) :=
                 match items with
                 | [] => ret acc
                 | i :: items =>
                     if too_big acc then rte "result size exceeds maximum"
                     else
                       set_variable x (Val i (elem_type v));;
                       ok <- conditions conds;
                       if ok then acc <- clauses cls e acc; go items acc
                       else go items acc
                 end) items acc
          end
      end.
    (** interpreter.py:854-886 _eval_list_comprehension *)
    Definition comprehension (e : expr) (cls : list (name * expr * list expr)) : M V :=
      if (max_depth <? List.length cls)%nat then rte "nesting depth exceeds maximum"
      else
        vs <- new_scope (clauses cls e []);
        ret (match vs with [] => list_val [] (Some INT) | v :: _ => list_val vs (vtype v) end).
    (** interpreter.py:957-962 _eval_dict_literal *)
    Fixpoint dict_entries (l : list (name * expr)) (acc : list (name * D)) : M (list (name * D)) :=
      match l with
      | [] => ret acc
      | (k, e) :: l => v <- ev e; dict_entries l (dset name_eqb k (vdata v) acc)
      end.
    (** interpreter.py:995-1007 _pattern_matches *)
    Definition pattern_matches (p : pattern) (v : V) : M bool :=
      match p with
      | PWild => ret true
      | PLit l _ => py_eq (vdata v) (lit_data l)
      | PId n => set_variable n v;; ret true
      end.
    (** interpreter.py:989-993 *)
    Fixpoint match_arms (v : V) (arms : list (pattern * expr)) : M V :=
      match arms with
      | [] => rte "No match arm matched"
      | (p, e) :: arms => b <- pattern_matches p v; if b then ev e else match_arms v arms
      end.

    (** interpreter.py:505-543 _evaluate and the _eval_* it calls. *)
    Definition eval_body (e : expr) : M V :=
      match e with
      | ELit v lt => literal v lt
      | EId n => fun c s =>                                              (* 562-567 *)
          match lookup n (c_scopes c) with
          | Some v => (Ok v, c, s)
          | None => (Raise (ERuntime "Undefined variable"), c, s)
          end
      | EBin l op r => a <- ev l; b <- ev r; binop op a b                (* 571-572 *)
      | EUn op e => v <- ev e; unop op v
      | ECall f args named => call f args named
      | EMethod o m args named =>                                        (* 801-809; no method is registered *)
          ev o;; mapM ev args;; rte "Unknown method"
      | EMember o m =>                                                   (* 811-832 *)
          v <- ev o;
          match vtype v with
          | Some TDict =>
              d <- match vdata v with
                   | DDict l => ret (match dget name_eqb m l with Some d => d | None => DNone end)
                   | d => lift (h_get H d m)
                   end;
              ret (Val d (Some STRING))
          | _ => lift (h_member H (vdata v) m)
          end
      | EIndex o i =>                                                    (* 834-843 *)
          v <- ev o; k <- ev i; z <- py_int (vdata k); d <- py_index (vdata v) z;
          ret (Val d (match vtype v with Some (TLst e) => Some e | _ => Some FLOAT end))
      | EList [] => ret (list_val [] (Some INT))                         (* 845-852 *)
      | EList es =>
          vs <- mapM ev es;
          ret (list_val vs (match vs with v :: _ => vtype v | [] => Some INT end))
      | EComp e cls => comprehension e cls
      | ERange a b =>                                                    (* 948-955 *)
          x <- ev a; y <- ev b; m <- py_int (vdata x); n <- py_int (vdata y);
          ret (Val (DList (zrange m n)) (Some (TLst INT)))
      | ECond c t f => v <- ev c; b <- truthy v; if b then ev t else ev f   (* 964-973 *)
      | EIf c _ _ els =>                                                 (* 975-983: a Block is no expression *)
          v <- ev c; b <- truthy v;
          if b then rte "Unknown expression type: Block"
          else match els with Some _ => rte "Unknown expression type: Block" | None => ret (none_val INT) end
      | EMatch e arms => v <- ev e; match_arms v arms
      | ELambda _ _ => ret (Val DFun (Some (TFun [] FLOAT)))             (* 1009-1026; nothing calls it *)
      | EDict l => d <- dict_entries l []; ret (Val (DDict d) (Some TDict))
      end.
  End Open.

  (** The recursion. *)
  Fixpoint eval (cmds : list fundef) (limit : Z) (fuel : nat) (e : expr) {struct fuel} : M V :=
    match fuel with
    | O => fun c s => (NoFuel, c, s)
    | S n => eval_body cmds limit (eval cmds limit n) (exec cmds limit n) e
    end
  with exec (cmds : list fundef) (limit : Z) (fuel : nat) (st : stmt) {struct fuel} : M unit :=
    match fuel with
    | O => fun c s => (NoFuel, c, s)
    | S n => exec_body (eval cmds limit n) (exec cmds limit n) st
    end.

  (** * execute (interpreter.py:113-252) *)

  (** interpreter.py:48-76 ExecutionResult (provenance: see Prov_Model) *)
  Record result := Result {
    r_success : bool; r_emit : option (V * list (name * D)); r_fails : list (option expr); r_error : option string }.
  (** What a call of execute() does: return a result, let an exception escape, or (in the
      model only) run out of fuel. *)
  Inductive outcome := Returned (r : result) | Escaped (e : exn) | OutOfFuel.

  (** interpreter.py:229-246: the wrapped type of a parameter value. *)
  Definition param_type (t : option ty) (d : D) : option typ :=
    match t with
    | Some (TSimple n) | Some (TGeneric n _) => type_named n
    | _ => Some (match d with
                 | DBool _ => BOOL | DInt _ => INT | DFloat _ => FLOAT | DStr _ => STRING | _ => FLOAT end)
    end.
  (** interpreter.py:220-252 _wrap_parameters *)
  Fixpoint wrap_parameters (ev : expr -> M V) (ps : list param) (given : list (name * D)) (acc : list (name * V))
    : M (list (name * V)) :=
    match ps with
    | [] => ret acc
    | p :: ps =>
        match dget name_eqb (p_name p) given, p_default p with
        | Some d, _ => wrap_parameters ev ps given (dset name_eqb (p_name p) (Val d (param_type (p_type p) d)) acc)
        | None, Some e => v <- ev e; wrap_parameters ev ps given (dset name_eqb (p_name p) v acc)
        | None, None => wrap_parameters ev ps given acc
        end
    end.
  (** interpreter.py:145-152: run the native blocks in order, registering their exports;
      false when one raised (it may then have registered some exports: simplified). *)
  Fixpoint native_blocks (bs : list (list native)) (s : state) : bool * state :=
    match bs with
    | [] => (true, s)
    | b :: bs =>
        let '(ok, w) := h_native_block H b (s_world s) in
        if ok then native_blocks bs (State w (s_depth s) (map n_name b ++ s_natives s) (s_log s))
        else (false, State w (s_depth s) (s_natives s) (s_log s))
    end.
  Definition failed (fails : list (option expr)) (msg : string) : result := Result false None fails (Some msg).

  (** interpreter.py:113-218 execute; [s_log] starts at the ghost log so far. *)
  Definition execute (limit : Z) (fuel : nat) (m : modul) (cmd : name) (given : list (name * D)) (s : state)
    : outcome * state :=
    let cmds := m_funs m in
    let '(ok, s) := native_blocks (m_blocks m) s in
    if negb ok then (Returned (failed [] "Error in native block"), s) else
    match find_command cmds cmd with
    | None => (Returned (failed [] "not found"), s)
    | Some f =>
        match wrap_parameters (eval cmds limit fuel) (f_params f) given [] (create_context []) s with
        | (Raise e, _, s) => (Escaped e, s)
        | (NoFuel, _, s) => (OutOfFuel, s)
        | (Ok params, _, s) =>
            match execute_command (exec cmds limit fuel) f (create_context params) s with
            | (Raise (ERuntime why), c, s) => (Returned (failed (c_fails c) why), s)
            | (Raise e, _, s) => (Escaped e, s)
            | (NoFuel, _, s) => (OutOfFuel, s)
            | (Ok _, c, s) =>
                let '(r, w) := apply_meta f c (s_world s) in
                let s := State w (s_depth s) (s_natives s) (s_log s) in
                match r with
                | inr e => (Escaped e, s)
                | inl _ =>
                    match c_fails c, c_emit c with
                    | _ :: _, _ => (Returned (Result false (c_emit c) (c_fails c) None), s)
                    | [], None => (Returned (failed [] "Command did not emit any geometry"), s)
                    | [], Some _ => (Returned (Result true (c_emit c) [] None), s)
                    end
                end
            end
        end
    end.
End Interp.
