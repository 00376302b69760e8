(** A reference semantics for programs over integers, truth values and lists of integers:
    expressions denote values, statements extend an environment; no scopes, no fuel, no
    Python.  [d] bounds the nesting of calls.  Used to state what the interpreter computes. *)
From Coq Require Import ZArith String List Bool.
From Verif Require Import Dict Lex_Model Ast Types_Model Interp_Model.
Import ListNotations.
Open Scope Z_scope.
Open Scope list_scope.

Inductive val := NI (z : Z) | NB (b : bool) | NL (l : list Z).
Definition env := name -> option val.
Definition none : env := fun _ => None.
Definition bindv (g : env) (x : name) (a : val) : env := fun y => if name_eqb y x then Some a else g y.
Fixpoint binds (xs : list name) (vs : list val) (g : env) : env :=
  match xs, vs with x :: xs, a :: vs => binds xs vs (bindv g x a) | _, _ => g end.

Definition arith (op : ttype) (x y : Z) : option Z :=
  match op with
  | PLUS => Some (x + y) | MINUS => Some (x - y) | STAR => Some (x * y)
  | DOUBLE_SLASH => if y =? 0 then None else Some (x / y)
  | PERCENT => if y =? 0 then None else Some (x - y * (x / y))
  | DOUBLE_STAR => if y <? 0 then None else Some (x ^ y)
  | _ => None
  end.
Definition compare (op : ttype) (x y : Z) : option bool :=
  match op with
  | EQ => Some (x =? y) | NE => Some (negb (x =? y)) | LT => Some (x <? y) | GT => Some (y <? x)
  | LE => Some (x <=? y) | GE => Some (y <=? x) | _ => None
  end.
(** a, a+1, ..., b-1 *)
Definition interval (a b : Z) : list Z := map (fun k => a + Z.of_nat k) (seq 0 (Z.to_nat (b - a))).
(** list element; a negative index counts from the end *)
Definition element (l : list Z) (i : Z) : option Z :=
  let n := Z.of_nat (List.length l) in
  let j := if i <? 0 then i + n else i in
  if (j <? 0) || (n <=? j) then None else nth_error l (Z.to_nat j).

(** The expressions the parameters get, in order: in a positional call the arguments, then
    (second component) the defaults of the remaining parameters; in a call with keywords
    only, each parameter's keyword or default. *)
Fixpoint positional (ps : list param) (args : list expr) : option (list expr * list expr) :=
  match ps, args with
  | [], [] => Some ([], [])
  | [], _ :: _ => None
  | _ :: ps, a :: args =>
      match positional ps args with Some (es, ds) => Some (a :: es, ds) | None => None end
  | p :: ps, [] =>
      match p_default p, positional ps [] with
      | Some e, Some (es, ds) => Some (es, e :: ds)
      | _, _ => None
      end
  end.
Fixpoint by_keyword (ps : list param) (named : list (name * expr)) : option (list expr) :=
  match ps with
  | [] => Some []
  | p :: ps =>
      match dget name_eqb (p_name p) named, p_default p with
      | Some e, _ | None, Some e => option_map (cons e) (by_keyword ps named)
      | None, None => None
      end
  end.
Definition chosen (ps : list param) (args : list expr) (named : list (name * expr)) : option (list expr * list expr) :=
  match named with
  | [] => positional ps args
  | _ => match args with [] => option_map (fun es => (es, [])) (by_keyword ps named) | _ => None end
  end.

(** The numbers a, a+s, a+2s, ... on this side of b. *)
Definition progression (a b s : Z) (l : list Z) : Prop :=
  s <> 0 /\ (forall k z, nth_error l k = Some z -> z = a + Z.of_nat k * s) /\
  (forall z, In z l -> if 0 <? s then z < b else b < z) /\
  (if 0 <? s then b <= a + Z.of_nat (List.length l) * s else a + Z.of_nat (List.length l) * s <= b).
(** The built-in functions on integers and lists. *)
Definition named (s : string) : name := map (fun c => Z.of_N (Ascii.N_of_ascii c)) (list_ascii_of_string s).
Inductive library : name -> list val -> val -> Prop :=
| lib_len l : library (named "len") [NL l] (NI (Z.of_nat (List.length l)))
| lib_range1 b : library (named "range") [NI b] (NL (interval 0 b))
| lib_range2 a b : library (named "range") [NI a; NI b] (NL (interval a b))
| lib_range3 a b s l : progression a b s l -> library (named "range") [NI a; NI b; NI s] (NL l)
| lib_concat x y : library (named "concat") [NL x; NL y] (NL (x ++ y))
| lib_reverse x : library (named "reverse") [NL x] (NL (rev x))
| lib_abs z : library (named "abs") [NI z] (NI (Z.abs z))
| lib_min zs m : In m zs -> (forall z, In z zs -> m <= z) -> library (named "min") (map NI zs) (NI m)
| lib_max zs m : In m zs -> (forall z, In z zs -> z <= m) -> library (named "max") (map NI zs) (NI m).

(** What a block has produced so far: the value emitted last, the messages of the
    requirements that failed, whether it has returned. *)
Record out := Out { o_emit : option val; o_fails : list (option expr); o_ret : bool }.
Definition start : out := Out None [] false.
Definition block_of (b : block) : list stmt := match b with Block ss _ => ss end.

Section Ref.
Variables (cmds : list fundef) (natives : list name).

Inductive ex : nat -> env -> expr -> val -> Prop :=
| X_int d g z : ex d g (ELit (VInt z) INT_LITERAL) (NI z)
| X_bool d g b : ex d g (ELit (VBool b) BOOL_LITERAL) (NB b)
| X_var d g x a : g x = Some a -> ex d g (EId x) a
| X_neg d g e z : ex d g e (NI z) -> ex d g (EUn MINUS e) (NI (- z))
| X_not d g e b : ex d g e (NB b) -> ex d g (EUn NOT e) (NB (negb b))
| X_arith d g l op r x y z : ex d g l (NI x) -> ex d g r (NI y) -> arith op x y = Some z -> ex d g (EBin l op r) (NI z)
| X_compare d g l op r x y b : ex d g l (NI x) -> ex d g r (NI y) -> compare op x y = Some b -> ex d g (EBin l op r) (NB b)
| X_and d g l r x y : ex d g l (NB x) -> ex d g r (NB y) -> ex d g (EBin l AND r) (NB (x && y))
| X_or d g l r x y : ex d g l (NB x) -> ex d g r (NB y) -> ex d g (EBin l OR r) (NB (x || y))
| X_cond d g c t f b a : ex d g c (NB b) -> ex d g (if b then t else f) a -> ex d g (ECond c t f) a
| X_list d g es zs : exs d g es (map NI zs) -> ex d g (EList es) (NL zs)
| X_concat d g l r x y : ex d g l (NL x) -> ex d g r (NL y) -> ex d g (EBin l PLUS r) (NL (x ++ y))
| X_range d g a b x y : ex d g a (NI x) -> ex d g b (NI y) -> ex d g (ERange a b) (NL (interval x y))
| X_index d g o i l k z : ex d g o (NL l) -> ex d g i (NI k) -> element l k = Some z -> ex d g (EIndex o i) (NI z)
| X_comp d g e x it conds l zs : ex d g it (NL l) -> comp d g x conds e l zs -> Z.of_nat (List.length zs) < 100000 ->
    ex d g (EComp e [(x, it, conds)]) (NL zs)
| X_call d g f fd args named es ds vs ws g' o a :
    ~ In f natives -> find (fun h => name_eqb (f_name h) f) cmds = Some fd -> f_meta fd = None ->
    chosen (f_params fd) args named = Some (es, ds) -> exs (S d) g es vs -> exs d g ds ws ->
    sts d (binds (map p_name (f_params fd)) (vs ++ ws) none) (block_of (f_body fd)) start g' o ->
    o_emit o = Some a -> (forall b, a <> NB b) ->
    ex (S d) g (ECall (EId f) args named) a
(** a built-in function; a command of the same name takes precedence *)
| X_lib d g f args vs a :
    ~ In f natives -> find (fun h => name_eqb (f_name h) f) cmds = None -> exs d g args vs -> library f vs a ->
    ex d g (ECall (EId f) args []) a
with exs : nat -> env -> list expr -> list val -> Prop :=
| XS_nil d g : exs d g [] []
| XS_cons d g e es a vs : ex d g e a -> exs d g es vs -> exs d g (e :: es) (a :: vs)
(** conditions of a comprehension, stopping at the first false one *)
with conds_are : nat -> env -> list expr -> bool -> Prop :=
| C_nil d g : conds_are d g [] true
| C_false d g e cs : ex d g e (NB false) -> conds_are d g (e :: cs) false
| C_true d g e cs b : ex d g e (NB true) -> conds_are d g cs b -> conds_are d g (e :: cs) b
with comp : nat -> env -> name -> list expr -> expr -> list Z -> list Z -> Prop :=
| M_nil d g x cs e : comp d g x cs e [] []
| M_skip d g x cs e i l zs : conds_are d (bindv g x (NI i)) cs false -> comp d g x cs e l zs -> comp d g x cs e (i :: l) zs
| M_take d g x cs e i l z zs : conds_are d (bindv g x (NI i)) cs true -> ex d (bindv g x (NI i)) e (NI z) ->
    comp d g x cs e l zs -> comp d g x cs e (i :: l) (z :: zs)
(** one statement, a list of statements, a loop over the elements of a list *)
with st : nat -> env -> stmt -> out -> env -> out -> Prop :=
| S_var d g n t e a o : ex d g e a -> st d g (SVar n t (Some e)) o (bindv g n a) o
| S_assert d g c msg b o : ex d g c (NB b) ->
    st d g (SAssert c msg) o g (Out (o_emit o) (if b then o_fails o else o_fails o ++ [msg]) (o_ret o))
| S_emit d g e a o : ex d g e a -> st d g (SEmit e []) o g (Out (Some a) (o_fails o) (o_ret o))
| S_pass d g o : st d g SPass o g o
| S_expr d g e a o : ex d g e a -> st d g (SExpr e) o g o
| S_return d g o : st d g (SReturn None) o g (Out (o_emit o) (o_fails o) true)
| S_return_value d g e a o : ex d g e a -> st d g (SReturn (Some e)) o g (Out (o_emit o) (o_fails o) true)
| S_if_true d g c t elifs els o g' o' : ex d g c (NB true) -> sts d g (block_of t) o g' o' -> st d g (SIf c t elifs els) o g o'
| S_if_elif d g c t c2 t2 elifs els o o' : ex d g c (NB false) -> st d g (SIf c2 t2 elifs els) o g o' ->
    st d g (SIf c t ((c2, t2) :: elifs) els) o g o'
| S_if_else d g c t e o g' o' : ex d g c (NB false) -> sts d g (block_of e) o g' o' -> st d g (SIf c t [] (Some e)) o g o'
| S_if_none d g c t o : ex d g c (NB false) -> st d g (SIf c t [] None) o g o
| S_for d g x it b l o g' o' : ex d g it (NL l) -> loop d g x (block_of b) l o g' o' -> st d g (SFor x it b) o g o'
with sts : nat -> env -> list stmt -> out -> env -> out -> Prop :=
| SS_nil d g o : sts d g [] o g o
| SS_stop d g s ss o g' o' : st d g s o g' o' -> o_ret o' = true -> sts d g (s :: ss) o g' o'
| SS_next d g s ss o g1 o1 g' o' : st d g s o g1 o1 -> o_ret o1 = false -> sts d g1 ss o1 g' o' -> sts d g (s :: ss) o g' o'
with loop : nat -> env -> name -> list stmt -> list Z -> out -> env -> out -> Prop :=
| L_nil d g x b o : loop d g x b [] o g o
| L_stop d g x b i l o g' o' : sts d (bindv g x (NI i)) b o g' o' -> o_ret o' = true -> loop d g x b (i :: l) o g' o'
| L_next d g x b i l o g1 o1 g' o' : sts d (bindv g x (NI i)) b o g1 o1 -> o_ret o1 = false -> loop d g1 x b l o1 g' o' ->
    loop d g x b (i :: l) o g' o'.

Scheme ex_m := Minimality for ex Sort Prop with exs_m := Minimality for exs Sort Prop
  with conds_m := Minimality for conds_are Sort Prop with comp_m := Minimality for comp Sort Prop
  with st_m := Minimality for st Sort Prop with sts_m := Minimality for sts Sort Prop
  with loop_m := Minimality for loop Sort Prop.
Combined Scheme ref_ind from ex_m, exs_m, conds_m, comp_m, st_m, sts_m, loop_m.
End Ref.

Section Repr.
Variable H : host.
(** A value of the interpreter that stands for a reference value; a command's result is
    wrapped (EmitResult), which truth values must not be. *)
Definition stands (v : rval (hF H) (hO H)) (a : val) : Prop :=
  match a with
  | NI z => vdata H v = DInt z /\ vtype H v = Some INT
  | NB b => v = Val (DBool b) (Some BOOL)
  | NL l => vdata H v = DList (map DInt l) /\ vtype H v = Some (TLst INT)
  end.
End Repr.

(** Running a command of a module: the values its parameters start with (the int or bool
    given, for a parameter annotated so or not at all; else the value of the default, on
    which no variable is visible), and what its body produces. *)
Section Command.
Variable H : host.
Definition annotated (p : param) (w : string) : Prop :=
  p_type p = None \/ p_type p = Some (TSimple (named w)).
Inductive starts (p : param) : data (hF H) (hO H) -> val -> Prop :=
| starts_int z : annotated p "int" -> starts p (DInt z) (NI z)
| starts_bool b : annotated p "bool" -> starts p (DBool b) (NB b).
Inductive inputs (cmds : list fundef) (natives : list name) (d : nat) (given : list (name * data (hF H) (hO H)))
  : list param -> list val -> Prop :=
| inputs_nil : inputs cmds natives d given [] []
| inputs_given p ps x a vs : dget name_eqb (p_name p) given = Some x -> starts p x a ->
    inputs cmds natives d given ps vs -> inputs cmds natives d given (p :: ps) (a :: vs)
| inputs_default p ps e a vs : dget name_eqb (p_name p) given = None -> p_default p = Some e -> ex cmds natives d none e a ->
    inputs cmds natives d given ps vs -> inputs cmds natives d given (p :: ps) (a :: vs).
(** Command [cmd] of module [m], given [given], produces [o] with calls nested at most [d] deep. *)
Definition produces (m : modul) (cmd : name) (given : list (name * data (hF H) (hO H))) (natives : list name) (d : nat) (o : out) : Prop :=
  exists fd vs g', find (fun h => name_eqb (f_name h) cmd) (m_funs m) = Some fd /\ f_meta fd = None /\
    inputs (m_funs m) natives d given (f_params fd) vs /\
    sts (m_funs m) natives d (binds (map p_name (f_params fd)) vs none) (block_of (f_body fd)) start g' o.
(** The result execute() should give for what was produced. *)
Definition reports (o : out) (r : result H) : Prop :=
  r_fails H r = o_fails o /\
  (r_success H r = true <-> o_fails o = [] /\ o_emit o <> None) /\
  (r_error H r = None <-> o_fails o <> [] \/ o_emit o <> None) /\
  match o_emit o with
  | None => r_emit H r = None
  | Some a => exists v, r_emit H r = Some (v, []) /\ stands H v a
  end.
End Command.
