(** Model of the DSL parser: src/yapcad/dsl/parser.py (class Parser, parse).

    The parser's state (tokens, pos) is the list of tokens not yet consumed.
    Simplifications, once for the whole file: spans and the text of native Python
    code are dropped; a ParserError keeps its kind and the tokens at which it was
    raised; the CPython recursion limit is not modelled.  [PCrash] is a TypeError
    escaping the parser, [PFuel] means the model's recursion fuel ran out, which
    the theorems exclude. *)
From Coq Require Import ZArith String List Bool.
From Verif Require Import Dict Lex_Model Ast.
Import ListNotations.
Open Scope Z_scope.
Open Scope list_scope.

Inductive perr := EUnexpected | EWhile.
Inductive pres (A : Type) :=
  | POk (a : A) (rest : list token)
  | PErr (e : perr) (at_ : list token)
  | PCrash
  | PFuel.
Arguments POk {A}. Arguments PErr {A}. Arguments PCrash {A}. Arguments PFuel {A}.
Definition parser (A : Type) := list token -> pres A.
Definition bind {A B} (p : pres A) (f : A -> list token -> pres B) : pres B :=
  match p with
  | POk a r => f a r | PErr e a => PErr e a | PCrash => PCrash | PFuel => PFuel end.
Notation "'do' x , r <- p ; q" := (bind p (fun x r => q))
  (at level 200, x name, r name, p at level 100, q at level 200).

(** parser.py:93-97 _current, 106-116 _is_at_end, _check, _check_any (tokens past the end read as EOF). *)
Definition cur (ts : list token) : ttype := match ts with t :: _ => t_type t | [] => EOF end.
Definition curval (ts : list token) : value := match ts with t :: _ => t_value t | [] => VNone end.
Definition check (ty : ttype) (ts : list token) : bool := teqb (cur ts) ty.
Definition check_any (tys : list ttype) (ts : list token) : bool := existsb (teqb (cur ts)) tys.
Definition at_end (ts : list token) : bool := check EOF ts.
(** parser.py:99-104 _peek(1). *)
Definition peek1 (ts : list token) : ttype := cur (tl ts).
(** parser.py:122-127 _advance: does not move at EOF. *)
Definition adv (ts : list token) : list token := if at_end ts then ts else tl ts.
(** token.value where the code uses it as a string (identifiers and keywords). *)
Definition strval (v : value) : name := match v with VStr s => s | _ => [] end.
Definition err {A} (ts : list token) : pres A := PErr EUnexpected ts.
(** parser.py:129-133 _consume, returning the token's value. *)
Definition consume (ty : ttype) : parser value := fun ts =>
  if check ty ts then POk (curval ts) (adv ts) else err ts.
(** parser.py:141-144 _skip_newlines. *)
Fixpoint skip_newlines (ts : list token) : list token :=
  match ts with t :: r => if teqb (t_type t) NEWLINE then skip_newlines r else ts | [] => [] end.
(** parser.py:146-162 _expect_newline_or_eof. *)
Definition expect_eol : parser unit := fun ts =>
  if check EOF ts then POk tt ts
  else if check NEWLINE ts then POk tt (adv ts)
  else if check DEDENT ts then POk tt ts
  else if check RBRACE ts then POk tt ts
  else if check SEMICOLON ts then POk tt (adv ts)
  else err ts.
(** `if not self._match(SEMICOLON): self._expect_newline_or_eof()`, e.g. parser.py:842-843. *)
Definition semi_or_eol : parser unit := fun ts =>
  if check SEMICOLON ts then POk tt (adv ts) else expect_eol ts.

(** A Python `while` loop: the body says whether to go round again. *)
Fixpoint loop {S} (body : S -> parser (S * bool)) (n : nat) (s : S) (ts : list token) : pres S :=
  match n with
  | O => PFuel
  | Datatypes.S n' =>
      match body s ts with
      | POk (s', true) r => loop body n' s' r
      | POk (s', false) r => POk s' r
      | PErr e a => PErr e a | PCrash => PCrash | PFuel => PFuel
      end
  end.
Definition while {S} (body : S -> parser (S * bool)) (s : S) : parser S := fun ts =>
  loop body (Datatypes.S (length ts)) s ts.

(** `while self._match(COMMA): [if self._check(stop): break] items.append(p())`. *)
Definition comma_list {A} (stop : option ttype) (p : parser A) (acc : list A) : parser (list A) :=
  while (fun acc ts =>
    if check COMMA ts then
      let ts := adv ts in
      if match stop with Some ty => check ty ts | None => false end then POk (acc, false) ts
      else do a, r <- p ts; POk (acc ++ [a], true) r
    else POk (acc, false) ts) acc.

(** tokens.py:299-301 is_type_token. *)
Definition is_type_token (t : ttype) : bool := (33 <=? tcode t) && (tcode t <=? 62).

(** The parser's methods that call one another recursively. *)
Record rec := Rec {
  r_type : parser ty; r_un : parser expr; r_bin : Z -> parser expr; r_cond : parser expr;
  r_stmt : parser stmt; r_block : parser block }.

Section Step.
  Variable R : rec.
  (** parser.py:230-236 _parse_expression. *)
  Definition r_expr : parser expr := r_cond R.

  (** parser.py:182-224 _parse_type. *)
  Definition type_args (close : ttype) : parser (list ty) := fun ts =>
    do a, r <- r_type R ts;
    do l, r <- comma_list None (r_type R) [a] r;
    do _u, r <- consume close r;
    POk l r.
  Definition parse_type : parser ty := fun ts =>
    if is_type_token (cur ts) || check IDENTIFIER ts then
      let n := strval (curval ts) in
      let ts := adv ts in
      do t, r <-
        (if check LBRACKET ts then
           do l, r <- type_args RBRACKET (adv ts); POk (TGeneric n l) r
         else if check LT ts then
           do l, r <- type_args GT (adv ts); POk (TGeneric n l) r
         else POk (TSimple n) ts);
      if check QUESTION r then POk (TOptional t) (adv r) else POk t r
    else err ts.

  (** parser.py:393-404 _parse_argument on (positional, named). *)
  Definition args_st := (list expr * list (name * expr))%type.
  Definition parse_argument (a : args_st) : parser args_st := fun ts =>
    if check IDENTIFIER ts && teqb (peek1 ts) ASSIGN then
      let n := strval (curval ts) in
      do v, r <- r_expr (adv (adv ts));
      POk (fst a, dset leqb n v (snd a)) r
    else
      do v, r <- r_expr ts;
      POk (fst a ++ [v], snd a) r.
  (** parser.py:374-391 _parse_arguments. *)
  Definition parse_arguments : parser args_st := fun ts =>
    do _u, ts <- consume LPAREN ts;
    do a, ts <-
      (if check RPAREN ts then POk ([], []) ts
       else
         do a, ts <- parse_argument ([], []) ts;
         while (fun a ts =>
           if check COMMA ts then
             let ts := adv ts in
             if check RPAREN ts then POk (a, false) ts
             else do a, r <- parse_argument a ts; POk (a, true) r
           else POk (a, false) ts) a ts);
    do _u, ts <- consume RPAREN ts;
    POk a ts.

  (** parser.py:479-513 _parse_grouped_or_lambda.  [param_names]: the identifiers
      after the first, 496-502. *)
  Definition param_names (first : name) : parser (list name) :=
    while (fun acc ts =>
      if check COMMA ts then
        let ts := adv ts in
        if check IDENTIFIER ts then POk (acc ++ [strval (curval ts)], true) (adv ts)
        else POk (acc, false) ts
      else POk (acc, false) ts) [first].
  Definition parse_grouped : parser expr := fun ts =>
    do e, r <- r_expr ts;
    do _u, r <- consume RPAREN r;
    POk e r.
  Definition parse_grouped_or_lambda : parser expr := fun ts =>
    let ts := adv ts in
    if check RPAREN ts then
      let ts := adv ts in
      if check DOUBLE_ARROW ts then
        do b, r <- r_expr (adv ts); POk (ELambda [] b) r
      else err ts
    else if check IDENTIFIER ts then
      do ps, r <- param_names (strval (curval ts)) (adv ts);
      if check RPAREN r && check DOUBLE_ARROW (adv r) then
        do b, r <- r_expr (adv (adv r)); POk (ELambda ps b) r
      else parse_grouped ts
    else parse_grouped ts.

  (** parser.py:515-582 _parse_list_literal; one comprehension clause is 537-558. *)
  Definition parse_conditions : parser (list expr) :=
    while (fun acc ts =>
      if check IF ts then do c, r <- r_expr (adv ts); POk (acc ++ [c], true) r
      else POk (acc, false) ts) [].
  Definition parse_clause : parser (name * expr * list expr) := fun ts =>
    do v, r <- consume IDENTIFIER (adv ts);
    do _u, r <- consume IN r;
    do it, r <- r_expr r;
    do cs, r <- parse_conditions r;
    POk (strval v, it, cs) r.
  Definition parse_list_literal : parser expr := fun ts =>
    let ts := adv ts in
    if check RBRACKET ts then POk (EList []) (adv ts)
    else
      do first, ts <- r_expr ts;
      if check FOR ts then
        do cl, ts <- while (fun acc ts =>
          if check FOR ts then do c, r <- parse_clause ts; POk (acc ++ [c], true) r
          else POk (acc, false) ts) [] ts;
        do _u, ts <- consume RBRACKET ts;
        POk (EComp first cl) ts
      else if check RANGE ts then
        do e, ts <- r_expr (adv ts);
        do _u, ts <- consume RBRACKET ts;
        POk (ERange first e) ts
      else
        do l, ts <- comma_list (Some RBRACKET) r_expr [first] ts;
        do _u, ts <- consume RBRACKET ts;
        POk (EList l) ts.

  (** parser.py:584-611 _parse_dict_literal. *)
  Definition parse_entry (d : list (name * expr)) : parser (list (name * expr)) := fun ts =>
    do k, r <- (if check STRING_LITERAL ts then POk (curval ts) (adv ts) else consume IDENTIFIER ts);
    do _u, r <- consume COLON r;
    do v, r <- r_expr r;
    POk (dset leqb (strval k) v d) r.
  Definition parse_dict_entries : parser (list (name * expr)) := fun ts =>
    let ts := adv ts in
    do d, ts <-
      (if check RBRACE ts then POk [] ts
       else
         do d, ts <- parse_entry [] ts;
         while (fun d ts =>
           if check COMMA ts then
             let ts := adv ts in
             if check RBRACE ts then POk (d, false) ts
             else do d, r <- parse_entry d ts; POk (d, true) r
           else POk (d, false) ts) d ts);
    do _u, ts <- consume RBRACE ts;
    POk d ts.

  (** parser.py:613-643 _parse_if_expr and 935-965 _parse_if_statement: the same
      steps; returns the four parts of the node. *)
  Definition parse_if_parts : parser (expr * block * list (expr * block) * option block) := fun ts =>
    do c, ts <- r_expr (adv ts);
    do _u, ts <- consume COLON ts;
    do t, ts <- r_block R ts;
    do el, ts <- while (fun acc ts =>
      if check ELIF ts then
        do c, r <- r_expr (adv ts);
        do _u, r <- consume COLON r;
        do b, r <- r_block R r;
        POk (acc ++ [(c, b)], true) r
      else POk (acc, false) ts) [] ts;
    if check ELSE ts then
      do _u, ts <- consume COLON (adv ts);
      do b, ts <- r_block R ts;
      POk (c, t, el, Some b) ts
    else POk (c, t, el, None) ts.

  (** parser.py:675-710 _parse_pattern. *)
  Definition parse_pattern : parser pattern := fun ts =>
    if check UNDERSCORE ts then POk PWild (adv ts)
    else if check STRING_LITERAL ts || check INT_LITERAL ts || check FLOAT_LITERAL ts
            || check BOOL_LITERAL ts then POk (PLit (curval ts) (cur ts)) (adv ts)
    else if check IDENTIFIER ts then POk (PId (strval (curval ts))) (adv ts)
    else err ts.
  (** parser.py:663-673 _parse_match_arm. *)
  Definition parse_match_arm : parser (pattern * expr) := fun ts =>
    let ts := if check IDENTIFIER ts then adv ts else ts in
    do p, r <- parse_pattern ts;
    do _u, r <- consume COLON r;
    do b, r <- r_expr r;
    POk (p, b) (skip_newlines r).
  (** parser.py:645-661 _parse_match_expr. *)
  Definition parse_match_expr : parser expr := fun ts =>
    do s, ts <- r_expr (adv ts);
    do _u, ts <- consume COLON ts;
    do _u, ts <- consume NEWLINE ts;
    do _u, ts <- consume INDENT ts;
    do arms, ts <- while (fun acc ts =>
      if negb (check DEDENT ts) && negb (at_end ts) then
        let ts := skip_newlines ts in
        if check DEDENT ts then POk (acc, false) ts
        else do a, r <- parse_match_arm ts; POk (acc ++ [a], true) r
      else POk (acc, false) ts) [] ts;
    do _u, ts <- consume DEDENT ts;
    POk (EMatch s arms) ts.

  (** parser.py:406-477 _parse_primary_expr. *)
  Definition is_literal (t : ttype) : bool :=
    match t with INT_LITERAL | FLOAT_LITERAL | STRING_LITERAL | BOOL_LITERAL => true | _ => false end.
  Definition parse_primary : parser expr := fun ts =>
    if is_literal (cur ts) then POk (ELit (curval ts) (cur ts)) (adv ts)
    else if check IDENTIFIER ts then POk (EId (strval (curval ts))) (adv ts)
    else if is_type_token (cur ts) then POk (EId (strval (curval ts))) (adv ts)
    else if check LPAREN ts then parse_grouped_or_lambda ts
    else if check LBRACKET ts then parse_list_literal ts
    else if check LBRACE ts then do d, r <- parse_dict_entries ts; POk (EDict d) r
    else if check IF ts then
      do p, r <- parse_if_parts ts;
      let '(c, t, el, e) := p in POk (EIf c t el e) r
    else if check MATCH ts then parse_match_expr ts
    else err ts.

  (** parser.py:319-362 _parse_postfix_expr (364-372 _parse_call). *)
  Definition postfix_step (e : expr) : parser (expr * bool) := fun ts =>
    if check LPAREN ts then
      do a, r <- parse_arguments ts; POk (ECall e (fst a) (snd a), true) r
    else if check DOT ts then
      do m, r <- consume IDENTIFIER (adv ts);
      if check LPAREN r then
        do a, r <- parse_arguments r; POk (EMethod e (strval m) (fst a) (snd a), true) r
      else POk (EMember e (strval m), true) r
    else if check LBRACKET ts then
      do i, r <- r_expr (adv ts);
      do _u, r <- consume RBRACKET r;
      POk (EIndex e i, true) r
    else POk (e, false) ts.
  Definition parse_postfix : parser expr := fun ts =>
    do e, r <- parse_primary ts; while postfix_step e r.

  (** parser.py:306-317 _parse_unary_expr. *)
  Definition parse_unary : parser expr := fun ts =>
    if check NOT ts || check MINUS ts then
      do e, r <- r_un R (adv ts); POk (EUn (cur ts) e) r
    else parse_postfix ts.

  (** parser.py:61-81 PRECEDENCE, RIGHT_ASSOCIATIVE. *)
  Definition precedence (t : ttype) : option Z :=
    match t with
    | OR => Some 1 | AND => Some 2 | EQ => Some 3 | NE => Some 3
    | LT => Some 4 | GT => Some 4 | LE => Some 4 | GE => Some 4
    | PLUS => Some 5 | MINUS => Some 5
    | STAR => Some 6 | SLASH => Some 6 | DOUBLE_SLASH => Some 6 | PERCENT => Some 6
    | DOUBLE_STAR => Some 7
    | _ => None
    end.
  Definition right_associative (t : ttype) : bool := teqb t DOUBLE_STAR.
  (** parser.py:280-304 _parse_binary_expr. *)
  Definition binary_step (min : Z) (left : expr) : parser (expr * bool) := fun ts =>
    match precedence (cur ts) with
    | None => POk (left, false) ts
    | Some p =>
        if p <? min then POk (left, false) ts
        else
          do right, r <- r_bin R (if right_associative (cur ts) then p else p + 1) (adv ts);
          POk (EBin left (cur ts) right, true) r
    end.
  Definition parse_binary (min : Z) : parser expr := fun ts =>
    do l, r <- r_un R ts; while (binary_step min) l r.

  (** parser.py:238-278 _parse_conditional_expr. *)
  Definition parse_conditional : parser expr := fun ts =>
    do t, r <- r_bin R 0 ts;
    if check IF r then
      do c, r2 <- r_bin R 0 (adv r);
      if check ELSE r2 then
        do f, r3 <- r_cond R (adv r2); POk (ECond c t f) r3
      else POk t r
    else POk t r.

  (** parser.py:795-812 _parse_var_decl. *)
  Definition parse_var_decl : parser stmt := fun ts =>
    do n, r <- consume IDENTIFIER ts;
    do _u, r <- consume COLON r;
    do t, r <- r_type R r;
    do i, r <- (if check ASSIGN r then do e, r <- r_expr (adv r); POk (Some e) r else POk None r);
    do _u, r <- expect_eol r;
    POk (SVar (strval n) (Some t) i) r.
  (** parser.py:814-827 _parse_simple_var_decl. *)
  Definition parse_simple_var_decl : parser stmt := fun ts =>
    do n, r <- consume IDENTIFIER ts;
    do _u, r <- consume ASSIGN r;
    do e, r <- r_expr r;
    do _u, r <- expect_eol r;
    POk (SVar (strval n) None (Some e)) r.
  (** parser.py:829-850 _parse_let_statement. *)
  Definition parse_let : parser stmt := fun ts =>
    do n, r <- consume IDENTIFIER (adv ts);
    do t, r <- (if check COLON r then do t, r <- r_type R (adv r); POk (Some t) r else POk None r);
    do _u, r <- consume ASSIGN r;
    do e, r <- r_expr r;
    do _u, r <- semi_or_eol r;
    POk (SVar (strval n) t (Some e)) r.
  (** `if self._match(COMMA): message = self._parse_expression()`. *)
  Definition parse_message : parser (option expr) := fun ts =>
    if check COMMA ts then do e, r <- r_expr (adv ts); POk (Some e) r else POk None ts.
  (** parser.py:852-869 _parse_require_statement, 871-885 _parse_assert_statement. *)
  Definition parse_assert (eol : parser unit) : parser stmt := fun ts =>
    do c, r <- r_expr (adv ts);
    do m, r <- parse_message r;
    do _u, r <- eol r;
    POk (SAssert c m) r.
  (** parser.py:887-915 _parse_emit_statement. *)
  Definition parse_emit : parser stmt := fun ts =>
    do v, r <- r_expr (adv ts);
    do m, r <- while (fun d ts =>
      if check COMMA ts then
        let ts := adv ts in
        if check IDENTIFIER ts && teqb (peek1 ts) ASSIGN then
          let k := strval (curval ts) in
          do e, r <- r_expr (adv (adv ts)); POk (dset leqb k e d, true) r
        else POk (d, false) ts
      else POk (d, false) ts) [] r;
    do m, r <- (if check WITH r then
                  do d, r <- parse_dict_entries (adv r);
                  POk (fold_left (fun m kv => dset leqb (fst kv) (snd kv) m) d m) r
                else POk m r);
    do _u, r <- semi_or_eol r;
    POk (SEmit v m) r.
  (** parser.py:917-931 _parse_for_statement. *)
  Definition parse_for : parser stmt := fun ts =>
    do x, r <- consume IDENTIFIER (adv ts);
    do _u, r <- consume IN r;
    do it, r <- r_expr r;
    do _u, r <- consume COLON r;
    do b, r <- r_block R r;
    POk (SFor (strval x) it b) r.
  (** parser.py:979-991 the brace-counting loop of _parse_python_block, and
      1396-1404 of _parse_native_block; returns the lexemes before the closing brace. *)
  Fixpoint skip_braces (depth : nat) (acc : list (list Z)) (ts : list token) : list (list Z) * list token :=
    match depth, ts with
    | O, _ => (acc, ts)
    | S d, [] => (acc, [])
    | S d, t :: r =>
        if teqb (t_type t) EOF then (acc, ts)
        else if teqb (t_type t) LBRACE then skip_braces (S depth) (acc ++ [t_lexeme t]) r
        else if teqb (t_type t) RBRACE then
          match d with O => (acc, r) | _ => skip_braces d (acc ++ [t_lexeme t]) r end
        else skip_braces depth (acc ++ [t_lexeme t]) r
    end.
  Definition parse_python_block : parser stmt := fun ts =>
    do _u, r <- consume LBRACE (adv ts);
    let (code, r) := skip_braces 1 [] r in
    POk (SPython code) r.
  (** parser.py:995-1013 _parse_return_statement. *)
  Definition parse_return : parser stmt := fun ts =>
    let ts := adv ts in
    do v, r <- (if check_any [NEWLINE; DEDENT; EOF] ts then POk None ts
                else do e, r <- r_expr ts; POk (Some e) r);
    do _u, r <- (if check AS r then do _t, r <- r_type R (adv r); POk tt r else POk tt r);
    do _u, r <- semi_or_eol r;
    POk (SReturn v) r.

  (** parser.py:716-793 _parse_statement. *)
  Definition parse_statement : parser stmt := fun ts =>
    let ts := skip_newlines ts in
    if check LET ts then parse_let ts
    else if check REQUIRE ts then parse_assert semi_or_eol ts
    else if check ASSERT ts then parse_assert expect_eol ts
    else if check EMIT ts then parse_emit ts
    else if check FOR ts then parse_for ts
    else if check WHILE ts then PErr EWhile ts
    else if check IF ts then
      do p, r <- parse_if_parts ts;
      let '(c, t, el, e) := p in POk (SIf c t el e) r
    else if check PASS ts then do _u, r <- expect_eol (adv ts); POk SPass r
    else if check RETURN ts then parse_return ts
    else if check PYTHON ts then parse_python_block ts
    else if check IDENTIFIER ts && teqb (peek1 ts) COLON then parse_var_decl ts
    else if check IDENTIFIER ts && teqb (peek1 ts) ASSIGN then parse_simple_var_decl ts
    else
      do e, r <- r_expr ts;
      if check ASSIGN r then
        do v, r <- r_expr (adv r);
        do _u, r <- expect_eol r;
        POk (SAssign e v) r
      else
        do _u, r <- expect_eol r;
        POk (SExpr e) r.

  (** The end of parser.py:1036-1040 / 1061-1064: a last expression statement
      becomes the block's final expression. *)
  Definition make_block (ss : list stmt) : block :=
    match rev ss with
    | SExpr e :: r => Block (rev r) (Some e)
    | _ => Block ss None
    end.
  Definition parse_statements (close : ttype) : parser (list stmt) :=
    while (fun acc ts =>
      if negb (check close ts) && negb (at_end ts) then
        let ts := skip_newlines ts in
        if check close ts then POk (acc, false) ts
        else do s, r <- r_stmt R ts; POk (acc ++ [s], true) r
      else POk (acc, false) ts) [].
  (** parser.py:1015-1046 _parse_block, 1048-1070 _parse_brace_block. *)
  Definition parse_block : parser block := fun ts =>
    let ts := skip_newlines ts in
    let '(open, close) := if check LBRACE ts then (LBRACE, RBRACE) else (INDENT, DEDENT) in
    do _u, r <- consume open ts;
    do ss, r <- parse_statements close r;
    do _u, r <- consume close r;
    POk (make_block ss) r.
End Step.

(** One unrolling of the mutually recursive methods. *)
Definition step (R : rec) : rec :=
  Rec (parse_type R) (parse_unary R) (parse_binary R) (parse_conditional R)
      (parse_statement R) (parse_block R).
(** The methods with [n] levels of recursion left. *)
Fixpoint build (n : nat) : rec :=
  match n with
  | O => Rec (fun _ => PFuel) (fun _ => PFuel) (fun _ _ => PFuel) (fun _ => PFuel)
             (fun _ => PFuel) (fun _ => PFuel)
  | S n => step (build n)
  end.

(** parser.py:1216-1242 _ui_hint_value; None is the TypeError of `-"text"`. *)
Fixpoint hint_value (e : expr) : option hint :=
  match e with
  | ELit v _ => Some (HVal v)
  | EUn MINUS (ELit v _) =>
      match v with
      | VInt z => Some (HVal (VInt (- z)))
      | VBool b => Some (HVal (VInt (if b then -1 else 0)))
      | VFloat l => Some (HNegFloat l)
      | VStr _ | VNone => None
      end
  | EList l =>
      option_map HList
        ((fix go (l : list expr) : option (list hint) :=
            match l with
            | [] => Some []
            | a :: r => match hint_value a, go r with
                        | Some h, Some t => Some (h :: t) | _, _ => None end
            end) l)
  | EDict d =>
      option_map HDict
        ((fix go (l : list (name * expr)) : option (list (name * hint)) :=
            match l with
            | [] => Some []
            | (k, a) :: r => match hint_value a, go r with
                             | Some h, Some t => Some ((k, h) :: t) | _, _ => None end
            end) d)
  | EId n => Some (HVal (VStr n))
  | _ => Some (HRepr e)
  end.

Section Decl.
  Variable R : rec.
  Definition d_expr : parser expr := r_cond R.
  (** `hint[key] = self._ui_hint_value(val_expr)`. *)
  Definition parse_hint : parser hint := fun ts =>
    do e, r <- d_expr ts;
    match hint_value e with Some h => POk h r | None => PCrash end.
  (** parser.py:1183-1214 _parse_param_ui_hint. *)
  Definition parse_ui_arg (d : list (name * hint)) : parser (list (name * hint)) := fun ts =>
    do k, r <- consume IDENTIFIER ts;
    do _u, r <- consume ASSIGN r;
    do h, r <- parse_hint r;
    POk (dset leqb (strval k) h d) r.
  Definition parse_ui_hint : parser (list (name * hint)) := fun ts =>
    do n, r <- consume IDENTIFIER (adv ts);
    if negb (leqb (strval n) (codes "ui")) then err r
    else
      do _u, r <- consume LPAREN r;
      do d, r <-
        (if check RPAREN r then POk [] r
         else
           do d, r <- parse_ui_arg [] r;
           while (fun d ts =>
             if check COMMA ts then do d, r <- parse_ui_arg d (adv ts); POk (d, true) r
             else POk (d, false) ts) d r);
      do _u, r <- consume RPAREN r;
      POk d r.
  (** parser.py:1076-1109 _parse_parameter. *)
  Definition parse_parameter : parser param := fun ts =>
    do n, r <- consume IDENTIFIER ts;
    do t, r <- (if check COLON r then do t, r <- r_type R (adv r); POk (Some t) r else POk None r);
    do u, r <- (if check AT r then do h, r <- parse_ui_hint r; POk (Some h) r else POk None r);
    do d, r <- (if check ASSIGN r then do e, r <- d_expr (adv r); POk (Some e) r else POk None r);
    POk (Param (strval n) t d u) r.
  (** The parameter list, e.g. parser.py:1269-1277. *)
  Definition parse_params : parser (list param) := fun ts =>
    do _u, r <- consume LPAREN ts;
    do ps, r <-
      (if check RPAREN r then POk [] r
       else do p, r <- parse_parameter r; comma_list (Some RPAREN) parse_parameter [p] r);
    do _u, r <- consume RPAREN r;
    POk ps r.

  (** parser.py:1171-1181 _consume_identifier_or_type_keyword. *)
  Definition id_or_type : parser name := fun ts =>
    if check IDENTIFIER ts || is_type_token (cur ts) then POk (strval (curval ts)) (adv ts)
    else err ts.
  (** parser.py:1152-1169 _parse_meta_key: the segments joined by '.' (46). *)
  Definition parse_meta_key : parser name := fun ts =>
    do k, r <- id_or_type ts;
    while (fun k ts =>
      if check DOT ts then do s, r <- id_or_type (adv ts); POk (k ++ 46 :: s, true) r
      else POk (k, false) ts) k r.
  (** parser.py:1111-1150 _parse_meta_decorator. *)
  Definition parse_meta_decorator : parser (list (name * hint)) := fun ts =>
    do n, r <- consume IDENTIFIER (adv ts);
    if negb (leqb (strval n) (codes "meta")) then err r
    else
      do _u, r <- consume LPAREN r;
      do d, r <- while (fun d ts =>
        if check RPAREN ts then POk (d, false) ts
        else
          do k, r <- parse_meta_key ts;
          do _u, r <- consume ASSIGN r;
          do h, r <- parse_hint (skip_newlines r);
          let r := skip_newlines r in
          let d := dset leqb k h d in
          if check COMMA r then POk (d, true) (skip_newlines (adv r)) else POk (d, false) r)
        [] (skip_newlines r);
      do _u, r <- consume RPAREN r;
      POk d r.
  (** parser.py:1244-1258 _parse_decorator. *)
  Definition parse_decorator : parser decorator := fun ts =>
    do n, r <- consume IDENTIFIER (adv ts);
    do a, r <-
      (if check LPAREN r then
         let r := adv r in
         do a, r <-
           (if check RPAREN r then POk [] r
            else do e, r <- d_expr r; comma_list None d_expr [e] r);
         do _u, r <- consume RPAREN r;
         POk a r
       else POk [] r);
    do _u, r <- expect_eol r;
    POk (Decorator (strval n) a) r.

  (** parser.py:1260-1294 _parse_function_def. *)
  Definition parse_function_def (ds : list decorator) (meta : option (list (name * hint)))
    : parser fundef := fun ts =>
    do n, r <- consume IDENTIFIER (adv ts);
    do ps, r <- parse_params r;
    do t, r <- (if check ARROW r then do t, r <- r_type R (adv r); POk (Some t) r else POk None r);
    do _u, r <- consume COLON r;
    do b, r <- r_block R r;
    POk (FunDef (strval n) ps t b ds meta) r.
  (** parser.py:1296-1328 _parse_command, with the meta hint set at 1546-1551. *)
  Definition parse_command (meta : option (list (name * hint))) : parser fundef := fun ts =>
    do n, r <- consume IDENTIFIER (adv ts);
    do ps, r <- parse_params r;
    do _u, r <- consume ARROW r;
    do t, r <- r_type R r;
    let r := if check COLON r then adv r else r in
    do b, r <- r_block R r;
    POk (FunDef (strval n) ps (Some t) b [] meta) r.
  (** parser.py:1330-1339 _parse_module_path_component. *)
  Definition path_component : parser name := fun ts =>
    if check IDENTIFIER ts then POk (strval (curval ts)) (adv ts)
    else match curval ts with VStr s => POk s (adv ts) | _ => err ts end.
  (** parser.py:1341-1361 _parse_use_statement. *)
  Definition parse_use : parser use := fun ts =>
    let ex := check EXPORT ts in
    let ts := if ex then adv ts else ts in
    do _u, r <- consume USE ts;
    do c, r <- path_component r;
    do p, r <- while (fun acc ts =>
      if check DOT ts then do c, r <- path_component (adv ts); POk (acc ++ [c], true) r
      else POk (acc, false) ts) [c] r;
    do a, r <- (if negb ex && check AS r then
                  do n, r <- consume IDENTIFIER (adv r); POk (Some (strval n)) r
                else POk None r);
    do _u, r <- semi_or_eol r;
    POk (if ex then ExportUse p else Use p a) r.
  (** parser.py:1363-1388 _parse_native_function_decl. *)
  Definition parse_native_decl : parser native := fun ts =>
    do n, r <- consume IDENTIFIER (adv ts);
    do ps, r <- parse_params r;
    do _u, r <- consume ARROW r;
    do t, r <- r_type R r;
    do _u, r <- consume SEMICOLON r;
    POk (Native (strval n) ps t) r.
  (** parser.py:1390-1427 _parse_native_block (its exports). *)
  Definition parse_native_block : parser (list native) := fun ts =>
    do _u, r <- consume PYTHON (adv ts);
    do _u, r <- consume LBRACE r;
    let r := snd (skip_braces 1 [] r) in
    do _u, r <- consume EXPORTS r;
    do _u, r <- consume LBRACE r;
    do l, r <- while (fun acc ts =>
      if check FN ts && negb (at_end ts) then
        do d, r <- parse_native_decl ts; POk (acc ++ [d], true) r
      else POk (acc, false) ts) [] r;
    do _u, r <- consume RBRACE r;
    POk l r.
  (** parser.py:1429-1477 _parse_native_function; [skip_to_dedent] is 1462-1463. *)
  Fixpoint skip_to_dedent (ts : list token) : list token :=
    match ts with
    | [] => []
    | t :: r => if teqb (t_type t) DEDENT || teqb (t_type t) EOF then ts else skip_to_dedent r
    end.
  Definition parse_native_function : parser native := fun ts =>
    do n, r <- consume IDENTIFIER (adv ts);
    do ps, r <- parse_params r;
    do _u, r <- consume ARROW r;
    do t, r <- r_type R r;
    do _u, r <- consume COLON r;
    let r := if check NEWLINE r then adv r else r in
    do _u, r <- (if check INDENT r then consume DEDENT (skip_to_dedent (adv r)) else POk VNone r);
    POk (Native (strval n) ps t) r.

  (** parser.py:1512-1529, the decorators before a definition. *)
  Definition val_is_meta (v : value) : bool :=
    match v with VStr s => leqb s (codes "meta") | _ => false end.
  Definition deco_st := (list decorator * list (name * hint))%type.
  Definition parse_decorators : parser deco_st :=
    while (fun (s : deco_st) ts =>
      if check AT ts then
        if val_is_meta (curval (tl ts)) then
          do m, r <- parse_meta_decorator ts;
          POk (fst s, fold_left (fun d kv => dset leqb (fst kv) (snd kv) d) m (snd s), true) (skip_newlines r)
        else
          do d, r <- parse_decorator ts;
          POk (fst s ++ [d], snd s, true) (skip_newlines r)
      else POk (s, false) ts) ([], []).

  (** parser.py:1479-1564 parse_module; [decls] is the loop 1507-1555. *)
  Definition mod_st := (list (list native) * list native * list fundef)%type.
  Definition parse_decl (s : mod_st) : parser (mod_st * bool) := fun ts =>
    if at_end ts then POk (s, false) ts
    else
      let ts := skip_newlines ts in
      if at_end ts then POk (s, false) ts
      else
        do dm, ts <- parse_decorators ts;
        let '(ds, meta) := dm in
        let meta := match meta with [] => None | _ => Some meta end in
        let '(nb, nf, fs) := s in
        if at_end ts then POk (s, false) ts
        else if check NATIVE ts then
          do b, r <- parse_native_block ts; POk ((nb ++ [b], nf, fs), true) (skip_newlines r)
        else if check DEF ts then
          if existsb (fun d => leqb (d_name d) (codes "native")) ds then
            do f, r <- parse_native_function ts; POk ((nb, nf ++ [f], fs), true) (skip_newlines r)
          else
            do f, r <- parse_function_def ds meta ts; POk ((nb, nf, fs ++ [f]), true) (skip_newlines r)
        else if check COMMAND ts then
          do f, r <- parse_command meta ts; POk ((nb, nf, fs ++ [f]), true) (skip_newlines r)
        else err ts.
  Definition parse_module : parser modul := fun ts =>
    let ts := skip_newlines ts in
    do n, r <-
      (if check MODULE ts then
         do n, r <- consume IDENTIFIER (adv ts);
         do _u, r <- semi_or_eol r;
         POk (Some (strval n)) r
       else POk None ts);
    do us, r <- while (fun acc ts =>
      if check_any [USE; EXPORT] ts then
        if check EXPORT ts && negb (teqb (peek1 ts) USE) then POk (acc, false) ts
        else do u, r <- parse_use ts; POk (acc ++ [u], true) (skip_newlines r)
      else POk (acc, false) ts) [] (skip_newlines r);
    do s, r <- while parse_decl ([], [], []) r;
    let '(nb, nf, fs) := s in
    POk (MkModule n us nb nf fs) r.
End Decl.

(** The recursion depth that always suffices for [n] tokens (proved). *)
Definition parse_fuel (n : nat) : nat := (4 * n + 4)%nat.
(** parser.py:1567-1583 parse. *)
Definition parse_with (fuel : nat) : parser modul := parse_module (build fuel).
Definition parse (ts : list token) : pres modul := parse_with (parse_fuel (length ts)) ts.
