(** Specification vocabulary for the parser theorems. *)
From Coq Require Import ZArith String List Bool.
From Verif Require Import Lex_Model Ast.
Import ListNotations.
Open Scope list_scope.

(** A program without while loops: every statement and expression form is allowed,
    with while-free parts, except [SWhile]. *)
Inductive nw_e : expr -> Prop :=
  | nw_ELit v lt : nw_e (ELit v lt)
  | nw_EId n : nw_e (EId n)
  | nw_EBin l op r : nw_e l -> nw_e r -> nw_e (EBin l op r)
  | nw_EUn op e : nw_e e -> nw_e (EUn op e)
  | nw_ECall f a na : nw_e f -> Forall nw_e a -> Forall (fun kv => nw_e (snd kv)) na -> nw_e (ECall f a na)
  | nw_EMethod o m a na : nw_e o -> Forall nw_e a -> Forall (fun kv => nw_e (snd kv)) na -> nw_e (EMethod o m a na)
  | nw_EMember o m : nw_e o -> nw_e (EMember o m)
  | nw_EIndex o i : nw_e o -> nw_e i -> nw_e (EIndex o i)
  | nw_EList l : Forall nw_e l -> nw_e (EList l)
  | nw_EComp e cl : nw_e e -> Forall (fun c => nw_e (snd (fst c)) /\ Forall nw_e (snd c)) cl -> nw_e (EComp e cl)
  | nw_ERange a b : nw_e a -> nw_e b -> nw_e (ERange a b)
  | nw_ECond c t f : nw_e c -> nw_e t -> nw_e f -> nw_e (ECond c t f)
  | nw_EIf c t el e : nw_e c -> nw_b t -> Forall (fun cb => nw_e (fst cb) /\ nw_b (snd cb)) el ->
      (forall b, e = Some b -> nw_b b) -> nw_e (EIf c t el e)
  | nw_EMatch e arms : nw_e e -> Forall (fun a => nw_e (snd a)) arms -> nw_e (EMatch e arms)
  | nw_ELambda ps b : nw_e b -> nw_e (ELambda ps b)
  | nw_EDict d : Forall (fun kv => nw_e (snd kv)) d -> nw_e (EDict d)
with nw_s : stmt -> Prop :=
  | nw_SVar n t i : (forall e, i = Some e -> nw_e e) -> nw_s (SVar n t i)
  | nw_SAssign t v : nw_e t -> nw_e v -> nw_s (SAssign t v)
  | nw_SAssert c m : nw_e c -> (forall e, m = Some e -> nw_e e) -> nw_s (SAssert c m)
  | nw_SEmit v m : nw_e v -> Forall (fun kv => nw_e (snd kv)) m -> nw_s (SEmit v m)
  | nw_SReturn v : (forall e, v = Some e -> nw_e e) -> nw_s (SReturn v)
  | nw_SPass : nw_s SPass
  | nw_SFor x it b : nw_e it -> nw_b b -> nw_s (SFor x it b)
  | nw_SIf c t el e : nw_e c -> nw_b t -> Forall (fun cb => nw_e (fst cb) /\ nw_b (snd cb)) el ->
      (forall b, e = Some b -> nw_b b) -> nw_s (SIf c t el e)
  | nw_SExpr e : nw_e e -> nw_s (SExpr e)
  | nw_SPython l : nw_s (SPython l)
with nw_b : block -> Prop :=
  | nw_Block ss f : Forall nw_s ss -> (forall e, f = Some e -> nw_e e) -> nw_b (Block ss f).

Definition nw_param (p : param) : Prop := forall e, p_default p = Some e -> nw_e e.
(** No while loop anywhere in a module: function bodies, defaults, decorators. *)
Definition nw_fun (f : fundef) : Prop :=
  nw_b (f_body f) /\ Forall nw_param (f_params f) /\ Forall (fun d => Forall nw_e (d_args d)) (f_decos f).
Definition nw_native (n : native) : Prop := Forall nw_param (n_params n).
Definition while_free (m : modul) : Prop :=
  Forall nw_fun (m_funs m) /\ Forall nw_native (m_natives m) /\ Forall (Forall nw_native) (m_blocks m).

(** ** The expression grammar of the language reference (parser.py:44-58: lowest
    "or", then "and", "== !=", "< > <= >=", "+ -", "* / // %", highest "**"
    (right-associative); unary "not" and "-" bind tighter than any of them;
    `a if c else b` binds loosest).  [G l e ts]: the tokens [ts] are a way to write
    the tree [e] at level [l]; 0 is a whole expression, 1-7 the binary levels, 8
    unary, 9 and 10 members, calls, indexing and primaries.  (x.m applied to
    arguments is a method call, so a bare member x.m is not of level 10, the level
    of what can be called.)  Parentheses bring any expression to level 10. *)
Open Scope Z_scope.
Definition tk (ty : ttype) (t : token) : Prop := t_type t = ty.
Definition ident (n : name) (t : token) : Prop := t_type t = IDENTIFIER /\ t_value t = VStr n.
Definition left_ops : list (Z * list ttype) :=
  [(1, [OR]); (2, [AND]); (3, [EQ; NE]); (4, [LT; GT; LE; GE]); (5, [PLUS; MINUS]);
   (6, [STAR; SLASH; DOUBLE_SLASH; PERCENT])].
Definition left_op (l : Z) (op : ttype) : Prop := exists ops, In (l, ops) left_ops /\ In op ops.
Definition literal_types : list ttype := [INT_LITERAL; FLOAT_LITERAL; STRING_LITERAL; BOOL_LITERAL].
(** A later entry with the same key replaces the value, keeping its place. *)
Fixpoint put (k : name) (v : expr) (d : list (name * expr)) : list (name * expr) :=
  match d with
  | [] => [(k, v)]
  | (k', v') :: r => if list_eq_dec Z.eq_dec k k' then (k', v) :: r else (k', v') :: put k v r
  end.

Inductive G : Z -> expr -> list token -> Prop :=
  | G_up l e ts : 0 <= l <= 9 -> G (l + 1) e ts -> G l e ts
  | G_cond t tst i c tsc el f tsf : G 1 t tst -> tk IF i -> G 1 c tsc -> tk ELSE el -> G 0 f tsf ->
      G 0 (ECond c t f) (tst ++ i :: tsc ++ el :: tsf)
  | G_lambda0 lp rp ar b tsb : tk LPAREN lp -> tk RPAREN rp -> tk DOUBLE_ARROW ar -> G 0 b tsb ->
      G 0 (ELambda [] b) (lp :: rp :: ar :: tsb)
  | G_lambda lp p ps tps rp ar b tsb pt : tk LPAREN lp -> ident p pt -> GN ps tps -> tk RPAREN rp ->
      tk DOUBLE_ARROW ar -> G 0 b tsb ->
      G 0 (ELambda (p :: ps) b) (lp :: pt :: tps ++ rp :: ar :: tsb)
  | G_left l op x tsx o y tsy : left_op l op -> G l x tsx -> tk op o -> G (l + 1) y tsy ->
      G l (EBin x op y) (tsx ++ o :: tsy)
  | G_pow x tsx o y tsy : G 8 x tsx -> tk DOUBLE_STAR o -> G 7 y tsy ->
      G 7 (EBin x DOUBLE_STAR y) (tsx ++ o :: tsy)
  | G_neg o e ts : tk MINUS o -> G 8 e ts -> G 8 (EUn MINUS e) (o :: ts)
  | G_not o e ts : tk NOT o -> G 8 e ts -> G 8 (EUn NOT e) (o :: ts)
  | G_lit t : In (t_type t) literal_types -> G 10 (ELit (t_value t) (t_type t)) [t]
  | G_id n t : ident n t -> G 10 (EId n) [t]
  | G_paren lp e ts rp : tk LPAREN lp -> G 0 e ts -> tk RPAREN rp -> G 10 e (lp :: ts ++ [rp])
  | G_list0 lb rb : tk LBRACKET lb -> tk RBRACKET rb -> G 10 (EList []) [lb; rb]
  | G_list lb e ts l tl rb : tk LBRACKET lb -> G 0 e ts -> GMore l tl -> tk RBRACKET rb ->
      G 10 (EList (e :: l)) (lb :: ts ++ tl ++ [rb])
  | G_range lb a tsa r b tsb rb : tk LBRACKET lb -> G 0 a tsa -> tk RANGE r -> G 0 b tsb ->
      tk RBRACKET rb -> G 10 (ERange a b) (lb :: tsa ++ r :: tsb ++ [rb])
  | G_comp lb e ts c tc cl tcl rb : tk LBRACKET lb -> G 0 e ts -> GC c tc -> GCs cl tcl ->
      tk RBRACKET rb -> G 10 (EComp e (c :: cl)) (lb :: ts ++ tc ++ tcl ++ [rb])
  | G_dict0 lb rb : tk LBRACE lb -> tk RBRACE rb -> G 10 (EDict []) [lb; rb]
  | G_dict lb d0 t0 d td rb : tk LBRACE lb -> GE1 [] d0 t0 -> GEs d0 d td -> tk RBRACE rb ->
      G 10 (EDict d) (lb :: t0 ++ td ++ [rb])
  | G_member e ts d t m : G 9 e ts -> tk DOT d -> ident m t -> G 9 (EMember e m) (ts ++ [d; t])
  | G_index e ts lb i tsi rb : G 9 e ts -> tk LBRACKET lb -> G 0 i tsi -> tk RBRACKET rb ->
      G 10 (EIndex e i) (ts ++ lb :: tsi ++ [rb])
  | G_call f ts a na ta : G 10 f ts -> GArgs a na ta -> G 10 (ECall f a na) (ts ++ ta)
  | G_method o ts d t m a na ta : G 9 o ts -> tk DOT d -> ident m t -> GArgs a na ta ->
      G 10 (EMethod o m a na) (ts ++ d :: t :: ta)
(** more parameter names: ", x"* *)
with GN : list name -> list token -> Prop :=
  | GN_nil : GN [] []
  | GN_cons c t n l tl : tk COMMA c -> ident n t -> GN l tl -> GN (n :: l) (c :: t :: tl)
(** more list elements: (", e")* with an optional trailing comma *)
with GMore : list expr -> list token -> Prop :=
  | GMore_nil : GMore [] []
  | GMore_trail c : tk COMMA c -> GMore [] [c]
  | GMore_cons c e ts l tl : tk COMMA c -> G 0 e ts -> GMore l tl -> GMore (e :: l) (c :: ts ++ tl)
(** a comprehension clause "for x in e (if c)*", and more of them *)
with GC : (name * expr * list expr) -> list token -> Prop :=
  | GC_clause f x t i it tsi cs tcs : tk FOR f -> ident x t -> tk IN i -> G 0 it tsi -> GI cs tcs ->
      GC (x, it, cs) (f :: t :: i :: tsi ++ tcs)
with GI : list expr -> list token -> Prop :=
  | GI_nil : GI [] []
  | GI_cons i c ts l tl : tk IF i -> G 0 c ts -> GI l tl -> GI (c :: l) (i :: ts ++ tl)
with GCs : list (name * expr * list expr) -> list token -> Prop :=
  | GCs_nil : GCs [] []
  | GCs_cons c tc l tl : GC c tc -> GCs l tl -> GCs (c :: l) (tc ++ tl)
(** a dict entry "key: e" (key an identifier or a string) added to [d], and more *)
with GE1 : list (name * expr) -> list (name * expr) -> list token -> Prop :=
  | GE1_entry d k t c e ts : (t_type t = STRING_LITERAL \/ t_type t = IDENTIFIER) -> t_value t = VStr k ->
      tk COLON c -> G 0 e ts -> GE1 d (put k e d) (t :: c :: ts)
with GEs : list (name * expr) -> list (name * expr) -> list token -> Prop :=
  | GEs_nil d : GEs d d []
  | GEs_trail d c : tk COMMA c -> GEs d d [c]
  | GEs_cons c d d1 t1 d2 t2 : tk COMMA c -> GE1 d d1 t1 -> GEs d1 d2 t2 -> GEs d d2 (c :: t1 ++ t2)
(** call arguments: positional "e" and named "x=e", in any order, trailing comma allowed *)
with GArgs : list expr -> list (name * expr) -> list token -> Prop :=
  | GArgs_none lp rp : tk LPAREN lp -> tk RPAREN rp -> GArgs [] [] [lp; rp]
  | GArgs_some lp a0 n0 t0 a na t rp : tk LPAREN lp -> GA1 [] [] a0 n0 t0 -> GAs a0 n0 a na t ->
      tk RPAREN rp -> GArgs a na (lp :: t0 ++ t ++ [rp])
with GA1 : list expr -> list (name * expr) -> list expr -> list (name * expr) -> list token -> Prop :=
  | GA1_pos a na e ts : G 0 e ts -> GA1 a na (a ++ [e]) na ts
  | GA1_named a na x t q e ts : ident x t -> tk ASSIGN q -> G 0 e ts ->
      GA1 a na a (put x e na) (t :: q :: ts)
with GAs : list expr -> list (name * expr) -> list expr -> list (name * expr) -> list token -> Prop :=
  | GAs_nil a na : GAs a na a na []
  | GAs_trail a na c : tk COMMA c -> GAs a na a na [c]
  | GAs_cons c a na a1 n1 t1 a2 n2 t2 : tk COMMA c -> GA1 a na a1 n1 t1 -> GAs a1 n1 a2 n2 t2 ->
      GAs a na a2 n2 (c :: t1 ++ t2).

(** Trees of operators over literals and names, and the text that writes them with
    a pair of parentheses only where the operand binds more loosely than its
    place demands. [at_ ty v] makes the token. *)
Inductive optree :=
  | OLit (v : value) (lt : ttype) | OName (n : name)
  | OBin (l : optree) (op : ttype) (r : optree) | OUn (op : ttype) (e : optree)
  | OIf (t c f : optree).
Fixpoint tree (o : optree) : expr :=
  match o with
  | OLit v lt => ELit v lt | OName n => EId n
  | OBin l op r => EBin (tree l) op (tree r) | OUn op e => EUn op (tree e)
  | OIf t c f => ECond (tree c) (tree t) (tree f)
  end.
Definition op_level (op : ttype) : Z :=
  match op with
  | OR => 1 | AND => 2 | EQ | NE => 3 | LT | GT | LE | GE => 4 | PLUS | MINUS => 5
  | STAR | SLASH | DOUBLE_SLASH | PERCENT => 6 | DOUBLE_STAR => 7 | _ => 0
  end.
Definition tree_level (o : optree) : Z :=
  match o with
  | OLit _ _ | OName _ => 10 | OBin _ op _ => op_level op | OUn _ _ => 8 | OIf _ _ _ => 0 end.
Fixpoint opwf (o : optree) : Prop :=
  match o with
  | OLit _ lt => In lt literal_types
  | OName _ => True
  | OBin l op r => 1 <= op_level op /\ opwf l /\ opwf r
  | OUn op e => (op = NOT \/ op = MINUS) /\ opwf e
  | OIf t c f => opwf t /\ opwf c /\ opwf f
  end.
Section Print.
  Variable at_ : ttype -> value -> token.
  Definition paren (b : bool) (l : list token) : list token :=
    if b then at_ LPAREN VNone :: l ++ [at_ RPAREN VNone] else l.
  Fixpoint write (o : optree) : list token :=
    let arg lvl x := paren (tree_level x <? lvl) (write x) in
    match o with
    | OLit v lt => [at_ lt v]
    | OName n => [at_ IDENTIFIER (VStr n)]
    | OBin l op r =>
        let p := op_level op in
        match op with
        | DOUBLE_STAR => arg 8 l ++ at_ op VNone :: arg 7 r
        | _ => arg p l ++ at_ op VNone :: arg (p + 1) r
        end
    | OUn op e => at_ op VNone :: arg 8 e
    | OIf t c f => arg 1 t ++ at_ IF VNone :: arg 1 c ++ at_ ELSE VNone :: arg 0 f
    end.
End Print.
