(** Model of the DSL's static checker: src/yapcad/dsl/checker.py (TypeChecker) and
    symbols.py (Scope, SymbolTable).
    Parameters: the signatures of the built-in functions (symbols.py:101-770) and of the
    methods (832-978), and max_errors (20 by default).  Diagnostics are reduced to their
    codes; the warnings for unknown @meta keys (checker.py:275-328) are dropped.  [None] is
    an AttributeError escaping from check().  DSL names are code point lists. *)
From Coq Require Import ZArith String List Bool.
From Verif Require Import Dict Lex_Model Ast Types_Model Interp_Model.
Import ListNotations.
Open Scope string_scope.
Open Scope list_scope.

(** symbols.py:25-45 SymbolKind, Symbol (spans and flags dropped) *)
Inductive kind := KVariable | KParameter | KFunction | KCommand.
Definition symbol : Type := kind * typ.
(** symbols.py:47-53 FunctionSignature; a parameter is (name, type, has a default). *)
Record signature := Signature { g_name : name; g_params : list (name * typ * bool); g_ret : typ }.

(** checker.py:76-86 the fields checking changes: scopes (innermost first, global last),
    error codes and warning codes in order, _has_python_blocks, _call_graph as edges. *)
Record kst := Kst {
  k_scopes : list (list (name * symbol)); k_errs : list string; k_warns : list string;
  k_python : bool; k_calls : list (name * name) }.

Definition C (A : Type) := kst -> option (A * kst).
Definition cret {A} (a : A) : C A := fun k => Some (a, k).
Definition crash {A} : C A := fun _ => None.
Definition cbind {A B} (m : C A) (f : A -> C B) : C B := fun k =>
  match m k with Some (a, k) => f a k | None => None end.
Notation "x <~ m ; k" := (cbind m (fun x => k)) (at level 61, m at next level, right associativity).
Notation "m ;~ k" := (cbind m (fun _ => k)) (at level 61, right associativity).
(** for x in l: f(x) *)
Definition each {A} (f : A -> C unit) : list A -> C unit :=
  fix go l := match l with [] => cret tt | a :: l => f a;~ go l end.

(** checker.py:1283-1299 _error, _warning; 127, 162, 547, 551 _has_python_blocks = True *)
Definition error (code : string) : C unit := fun k =>
  Some (tt, Kst (k_scopes k) (k_errs k ++ [code]) (k_warns k) (k_python k) (k_calls k)).
Definition warning (code : string) : C unit := fun k =>
  Some (tt, Kst (k_scopes k) (k_errs k) (k_warns k ++ [code]) (k_python k) (k_calls k)).
Definition error_if (b : bool) (code : string) : C unit := if b then error code else cret tt.
Definition python_flag : C unit := fun k =>
  Some (tt, Kst (k_scopes k) (k_errs k) (k_warns k) true (k_calls k)).
Definition add_call (a b : name) : C unit := fun k =>
  Some (tt, Kst (k_scopes k) (k_errs k) (k_warns k) (k_python k) (k_calls k ++ [(a, b)])).

(** symbols.py:62-81, 785-808: push_scope, pop_scope (the global scope stays), define (false:
    already in the current scope), lookup. *)
Definition set_kscopes (ss : list (list (name * symbol))) (k : kst) : kst :=
  Kst ss (k_errs k) (k_warns k) (k_python k) (k_calls k).
Definition push_scope : C unit := fun k => Some (tt, set_kscopes ([] :: k_scopes k) k).
Definition pop_scope : C unit := fun k =>
  Some (tt, match k_scopes k with _ :: ((_ :: _) as r) => set_kscopes r k | _ => k end).
Definition define (n : name) (s : symbol) : C bool := fun k =>
  match k_scopes k with
  | [] => Some (true, k)
  | sc :: ss =>
      match dget name_eqb n sc with
      | Some _ => Some (false, k)
      | None => Some (true, set_kscopes (dset name_eqb n s sc :: ss) k)
      end
  end.
Fixpoint find_symbol (n : name) (ss : list (list (name * symbol))) : option symbol :=
  match ss with
  | [] => None
  | sc :: ss => match dget name_eqb n sc with Some s => Some s | None => find_symbol n ss end
  end.
Definition lookup_symbol (n : name) : C (option symbol) := fun k => Some (find_symbol n (k_scopes k), k).

Definition is_error (t : typ) : bool := ty_eqb t TError.
Definition is_unknown (t : typ) : bool := ty_eqb t TUnknown.
(** cond_type != BOOL and cond_type != ERROR *)
Definition not_bool (t : typ) : bool := negb (ty_eqb t BOOL) && negb (is_error t).
Definition not_int (t : typ) : bool := negb (ty_eqb t INT) && negb (is_error t).

(** checker.py:1238-1277 _resolve_type_node *)
Fixpoint resolve_node (t : ty) : C typ :=
  match t with
  | TSimple n => match type_named n with Some t => cret t | None => error "E299";~ cret TError end
  | TGeneric n args =>
      if name_eqb n (codes "list") then
        match args with
        | [a] => e <~ resolve_node a; cret (TLst e)
        | _ => error "E298";~ cret TError
        end
      else error "E297";~ cret TError
  | TOptional t => i <~ resolve_node t; cret (TOpt i)
  end.
Definition resolve_opt (t : option ty) : C typ :=
  match t with Some t => resolve_node t | None => cret TUnknown end.

(** checker.py:609-620 _check_literal *)
Definition literal_type (lt : ttype) : typ :=
  match lt with
  | INT_LITERAL => INT | FLOAT_LITERAL => FLOAT | STRING_LITERAL => STRING | BOOL_LITERAL => BOOL
  | _ => TError
  end.
(** checker.py:646-723 _check_binary_op, after the operands *)
Definition is_geo (t : typ) : bool := match t with TGeo _ _ => true | _ => false end.
Definition binary_type (op : ttype) (l r : typ) : C typ :=
  match op with
  | PLUS | MINUS | STAR | SLASH | PERCENT | DOUBLE_SLASH | DOUBLE_STAR =>
      if is_numeric l && is_numeric r then
        cret (match op with
              | DOUBLE_SLASH => INT
              | SLASH => FLOAT
              | _ => if ty_eqb l FLOAT || ty_eqb r FLOAT then FLOAT else INT
              end)
      else if is_geo l && is_numeric r then cret l
      else if is_geo l && is_geo r && match op with PLUS | MINUS => true | _ => false end then
        cret (match common_type l r with Some t => t | None => l end)
      else
        match op, l, r with
        | PLUS, TLst a, TLst b => cret (match common_type a b with Some t => TLst t | None => l end)
        | _, _, _ => error_if (negb (is_error l) && negb (is_error r)) "E250";~ cret TError
        end
  | LT | GT | LE | GE =>
      if is_numeric l && is_numeric r then cret BOOL
      else error_if (negb (is_error l) && negb (is_error r)) "E251";~ cret TError
  | EQ | NE => cret BOOL
  | AND | OR => error_if (not_bool l) "E252";~ error_if (not_bool r) "E253";~ cret BOOL
  | _ => cret TError
  end.
(** checker.py:725-751 _check_unary_op, after the operand *)
Definition unary_type (op : ttype) (t : typ) : C typ :=
  match op with
  | NOT => error_if (not_bool t) "E260";~ cret BOOL
  | MINUS =>
      if is_numeric t then cret t
      else if is_geo t then cret t
      else error_if (negb (is_error t)) "E261";~ cret TError
  | _ => cret TError
  end.
(** checker.py:852-867: inferred result types of some built-ins *)
Definition builtin_type (g : signature) (ts : list typ) : typ :=
  match g_ret g with
  | TLst TUnknown =>
      if existsb (name_eqb (g_name g)) (map codes ["concat"; "reverse"; "flatten"]) then
        match ts with
        | TLst (TLst e) :: _ => if name_eqb (g_name g) (codes "flatten") then TLst e else TLst (TLst e)
        | TLst e :: _ => TLst e
        | _ => g_ret g
        end
      else if existsb (name_eqb (g_name g)) (map codes ["radial_pattern"; "linear_pattern"]) then
        match ts with t :: _ => TLst t | [] => g_ret g end
      else g_ret g
  | t => t
  end.
(** isinstance(t, ListType): the element type; otherwise int (checker.py:479-486, 1049-1052) *)
Definition iter_type (t : typ) : typ := match t with TLst e => e | _ => INT end.
(** checker.py:970-974 known members *)
Definition member_ok (t : typ) (m : name) : bool :=
  match t with
  | TGeo n _ => (prefix "point" n || prefix "vector" n) && existsb (name_eqb m) (map codes ["x"; "y"; "z"])
  | _ => false
  end.

Section Check.
  Variables (builtins : name -> option signature) (methods : typ -> name -> option signature) (max_errors : nat).
  (** checker.py:112-116: the commands of the module (_command_names). *)
  Variable commands : list name.

  (** if error_count >= max_errors: return *)
  Definition unless_full {A} (a : A) (m : C A) : C A := fun k =>
    if (max_errors <=? length (k_errs k))%nat then Some (a, k) else m k.

  (** checker.py:622-644 _check_identifier *)
  Definition identifier (n : name) : C typ :=
    s <~ lookup_symbol n;
    match s with
    | Some (_, t) => cret t
    | None =>
        match type_named n, builtins n with
        | None, None => error "E240";~ cret TError
        | _, _ => cret TUnknown
        end
    end.

  Section Command.
    (** _current_command *)
    Variable cur : fundef.

    (** enumerate(arguments), each checked against the parameter at its place (792-803,
        826-839, 950-962) *)
    Definition arguments (f : expr -> C typ) (code : string) : list typ -> list expr -> C (list typ) :=
      fix go ps args :=
        match args with
        | [] => cret []
        | a :: args =>
            t <~ f a;
            match ps with
            | p :: _ => error_if (negb (is_unknown p) && negb (is_assignable_from p t) && negb (is_error t)) code
            | [] => cret tt
            end;~
            ts <~ go (tl ps) args; cret (t :: ts)
        end.
    (** elements after the first of a list literal (1013-1026) *)
    Definition elements (f : expr -> C typ) : typ -> list expr -> C typ :=
      fix go t es :=
        match es with
        | [] => cret t
        | e :: es =>
            u <~ f e;
            (if is_assignable_from t u then go t es
             else match common_type t u with
                  | Some c => go c es
                  | None => error "E293";~ go t es
                  end)
        end.
    (** match arms (1163-1177, 1179-1195); the type so far *)
    Definition arms_type (f : expr -> C typ) (subject : typ) : option typ -> list (pattern * expr) -> C (option typ) :=
      fix go r arms :=
        match arms with
        | [] => cret r
        | (p, e) :: arms =>
            match p with
            | PLit _ lt => if is_assignable_from subject (literal_type lt) then cret tt else warning "W231"
            | _ => cret tt
            end;~
            t <~ f e;
            go (match r with
                | None => Some t
                | Some u => Some (match common_type u t with Some c => c | None => u end)
                end) arms
        end.

    (** checker.py:562-607 _check_expression, 344-375 _check_statement, 334-342 _check_block
        and the methods they call. *)
    Section Open.
    Variables (check_expr : expr -> C typ) (check_stmt : stmt -> C unit) (check_block : block -> C (option typ)).
    Definition expr_body (e : expr) : C typ :=
      match e with
      | ELit _ lt => cret (literal_type lt)
      | EId n => identifier n
      | EBin l op r => a <~ check_expr l; b <~ check_expr r; binary_type op a b
      | EUn op e => t <~ check_expr e; unary_type op t
      | ECall f args named =>                                   (* 753-811 *)
          match f with
          | EId n =>
              match builtins n with
              | Some g =>                                       (* 813-869 *)
                  error_if (length args <? length (filter (fun p => negb (snd p)) (g_params g)))%nat "E271";~
                  ts <~ arguments check_expr "E272" (map (fun p => snd (fst p)) (g_params g)) args;
                  each (fun ne => check_expr (snd ne);~
                          error_if (negb (existsb (fun p => name_eqb (fst ne) (fst (fst p))) (g_params g))) "E273") named;~
                  cret (builtin_type g ts)
              | None =>
                  match type_named n with
                  | Some t =>
                      each (fun a => check_expr a;~ cret tt) args;~
                      each (fun ne => check_expr (snd ne);~ cret tt) named;~ cret t
                  | None =>
                      s <~ lookup_symbol n;
                      match s with
                      | Some ((KCommand | KFunction), t) =>
                          (if existsb (name_eqb n) commands then add_call (f_name cur) n else cret tt);~
                          match t with
                          | TFun ps r => arguments check_expr "E274" ps args;~ cret r
                          | _ => cret TUnknown
                          end
                      | _ => error "E270";~ cret TError
                      end
                  end
              end
          | f => check_expr f;~ cret TUnknown
          end
      | EMethod o m args _ =>                                   (* 935-964 *)
          t <~ check_expr o;
          match methods t m with
          | None => error_if (negb (is_error t)) "E280";~ cret TError
          | Some g => arguments check_expr "E281" (map (fun p => snd (fst p)) (g_params g)) args;~ cret (g_ret g)
          end
      | EMember o m =>                                          (* 966-982 *)
          t <~ check_expr o;
          if member_ok t m then cret FLOAT else error_if (negb (is_error t)) "E290";~ cret TError
      | EIndex o i =>                                           (* 984-1005 *)
          t <~ check_expr o; u <~ check_expr i;
          error_if (not_int u) "E291";~
          match t with TLst e => cret e | _ => error_if (negb (is_error t)) "E292";~ cret TError end
      | EList [] => cret (TLst TUnknown)                        (* 1007-1028 *)
      | EList (e :: es) => t <~ check_expr e; u <~ elements check_expr t es; cret (TLst u)
      | EComp e cls =>                                          (* 1030-1077 *)
          push_scope;~
          each (fun cl => match cl with (x, it, conds) =>
                  t <~ check_expr it;
                  define x (KVariable, iter_type t);~
                  each (fun c => t <~ check_expr c; error_if (not_bool t) "E294") conds end) cls;~
          t <~ check_expr e;
          pop_scope;~ cret (TLst t)
      | ERange a b =>                                           (* 1079-1097 *)
          t <~ check_expr a; u <~ check_expr b;
          error_if (not_int t) "E295";~ error_if (not_int u) "E296";~ cret (TLst INT)
      | ECond c a b =>                                          (* 1099-1124 *)
          v <~ check_expr c; error_if (not_bool v) "E310";~
          t <~ check_expr a; u <~ check_expr b;
          if negb (is_error t) && negb (is_error u) then
            match common_type t u with
            | Some w => cret w
            | None => error_if (negb (ty_eqb t u)) "E311";~ cret t
            end
          else cret (if is_error t then u else t)
      | EIf c t _ els =>                                        (* 1126-1155; elif branches ignored *)
          v <~ check_expr c; error_if (not_bool v) "E297";~
          a <~ check_block t;
          match els with
          | None => cret (match a with Some a => a | None => TUnknown end)
          | Some b =>
              b <~ check_block b;
              match a, b with
              | Some a, Some b =>
                  match common_type a b with
                  | Some t => cret t
                  | None => (if negb (is_error a) && negb (is_error b) then warning "W230" else cret tt);~ cret a
                  end
              | Some a, None => cret a
              | None, _ => cret TUnknown
              end
          end
      | EMatch e arms =>                                        (* 1157-1195 *)
          s <~ check_expr e; r <~ arms_type check_expr s None arms;
          cret (match r with Some t => t | None => TUnknown end)
      | EDict l => each (fun ne => check_expr (snd ne);~ cret tt) l;~ cret TDict   (* 1197-1201 *)
      | ELambda ps b =>                                         (* 1203-1222 *)
          push_scope;~
          each (fun p => define p (KParameter, TUnknown);~ cret tt) ps;~
          t <~ check_expr b;
          pop_scope;~ cret (TFun (map (fun _ => TUnknown) ps) t)
      end.
    Definition stmt_body (s : stmt) : C unit :=
      match s with
      | SVar n t init =>                                        (* 377-406 *)
          it <~ match init with Some e => check_expr e | None => crash end;
          vt <~ match t with
                | Some t => d <~ resolve_node t; error_if (negb (is_assignable_from d it)) "E210";~ cret d
                | None => cret it
                end;
          ok <~ define n (KVariable, vt);
          error_if (negb ok) "E211"
      | SAssign t v =>                                          (* 408-426 *)
          a <~ check_expr t; b <~ check_expr v;
          error_if (negb (is_assignable_from a b)) "E212"
      | SAssert c msg =>                                        (* 428-446 *)
          t <~ check_expr c; error_if (not_bool t) "E220";~
          match msg with
          | Some m => u <~ check_expr m; error_if (negb (ty_eqb u STRING) && negb (is_error u)) "E221"
          | None => cret tt
          end
      | SEmit v m =>                                            (* 448-472 *)
          t <~ check_expr v;
          match f_ret cur with
          | Some r => rt <~ resolve_node r; error_if (negb (is_assignable_from rt t)) "E230"
          | None => cret tt
          end;~
          each (fun ne => check_expr (snd ne);~ cret tt) m
      | SReturn v =>                                            (* 540-547: ReturnStatement has no return_type *)
          match v with Some e => check_expr e;~ crash | None => crash end
      | SPass => cret tt
      | SFor x it b =>                                          (* 474-501 *)
          t <~ check_expr it;
          push_scope;~ define x (KVariable, iter_type t);~ check_block b;~ pop_scope
      | SWhile _ _ => warning "W201"
      | SIf c t elifs els =>                                    (* 505-538 *)
          v <~ check_expr c; error_if (not_bool v) "E226";~
          push_scope;~ check_block t;~ pop_scope;~
          each (fun cb => v <~ check_expr (fst cb); error_if (not_bool v) "E227";~
                          push_scope;~ check_block (snd cb);~ pop_scope) elifs;~
          match els with Some b => push_scope;~ check_block b;~ pop_scope | None => cret tt end
      | SExpr e => check_expr e;~ cret tt
      | SPython _ => python_flag;~ warning "W210"               (* 549-556 *)
      end.
    Definition block_body (b : block) : C (option typ) :=
      match b with
      | Block ss fin =>
          each check_stmt ss;~
          match fin with Some e => t <~ check_expr e; cret (Some t) | None => cret None end
      end.
    End Open.
    Fixpoint check_expr (e : expr) : C typ := unless_full TError (expr_body check_expr check_block e)
    with check_stmt (s : stmt) : C unit := unless_full tt (stmt_body check_expr check_block s)
    with check_block (b : block) : C (option typ) := block_body check_expr check_stmt b.
  End Command.

  (** checker.py:235-260 parameters and their defaults *)
  Definition check_param (cur : fundef) (p : param) : C unit :=
    t <~ resolve_opt (p_type p);
    ok <~ define (p_name p) (KParameter, t);
    error_if (negb ok) "E202";~
    match p_default p with
    | Some e => d <~ check_expr cur e; error_if (negb (is_unknown t) && negb (is_assignable_from t d)) "E203"
    | None => cret tt
    end.
  (** checker.py:230-273 _check_command *)
  Definition check_command (f : fundef) : C unit :=
    push_scope;~ each (check_param f) (f_params f);~ check_block f (f_body f);~ pop_scope.
  Definition param_types : list param -> C (list typ) :=
    fix go ps := match ps with [] => cret [] | p :: ps => t <~ resolve_opt (p_type p); ts <~ go ps; cret (t :: ts) end.
  (** checker.py:125-158, 160-195 native functions: result type, parameter types, define *)
  Definition register_native (n : native) : C unit :=
    r <~ resolve_node (n_ret n); ps <~ param_types (n_params n);
    ok <~ define (n_name n) (KFunction, TFun ps r); error_if (negb ok) "E205".
  (** checker.py:197-228 _register_command *)
  Definition register_command (f : fundef) : C unit :=
    r <~ resolve_opt (f_ret f); ps <~ param_types (f_params f);
    ok <~ define (f_name f) (KCommand, TFun ps r); error_if (negb ok) "E201".
End Check.

(** checker.py:87-123 check, _check_module, up to the recursion warnings (Cycle_Model, over
    the graph [k_calls]). *)
Definition check builtins methods max_errors (m : modul) : option kst :=
  option_map snd
   ((each (fun b => python_flag;~ each register_native b;~ warning "W212") (m_blocks m);~
     each (fun n => python_flag;~ register_native n;~ warning "W213") (m_natives m);~
     each register_command (m_funs m);~
     each (check_command builtins methods max_errors (map f_name (m_funs m))) (m_funs m))
    (Kst [[]] [] [] false [])).
