(** Vocabulary for the statements about the static checker: which names are declared where
    they are used.  Independent of the checker's own state. *)
From Coq Require Import ZArith String List Bool.
From Verif Require Import Dict Lex_Model Ast Types_Model Interp_Model Check_Model.
Import ListNotations.
Open Scope string_scope.
Open Scope list_scope.

Definition mem (n : name) (l : list name) : bool := existsb (name_eqb n) l.
Fixpoint distinct (l : list name) : bool :=
  match l with [] => true | n :: l => negb (mem n l) && distinct l end.
Definition opt_true {A} (f : A -> bool) (o : option A) : bool := match o with Some a => f a | None => true end.

(** * Plain programs *)

(** No name in [special] is used as a variable, calls name their function and have no
    keyword arguments, and there are no method calls and no if expressions (both always fail
    at run time, C81 and C82, or are ignored). *)
Section Plain.
  Variable special : name -> bool.
  Fixpoint plain (e : expr) : bool :=
    match e with
    | ELit _ _ => true
    | EId n => negb (special n)
    | EBin l _ r => plain l && plain r
    | EUn _ e | EMember e _ | ELambda _ e => plain e
    | ECall (EId _) args named => forallb plain args && match named with [] => true | _ => false end
    | ECall _ _ _ | EMethod _ _ _ _ | EIf _ _ _ _ => false
    | EIndex o i => plain o && plain i
    | EList l => forallb plain l
    | EComp e cls => plain e && forallb (fun cl => plain (snd (fst cl)) && forallb plain (snd cl)) cls
    | ERange a b => plain a && plain b
    | ECond c t f => plain c && plain t && plain f
    | EMatch e arms => plain e && forallb (fun pe => plain (snd pe)) arms
    | EDict l => forallb (fun ne => plain (snd ne)) l
    end.
  Fixpoint plain_stmt (s : stmt) : bool :=
    match s with
    | SVar _ _ o | SReturn o => opt_true plain o
    | SAssign t v => plain t && plain v
    | SAssert c m => plain c && opt_true plain m
    | SEmit v m => plain v && forallb (fun ne => plain (snd ne)) m
    | SPass | SPython _ | SWhile _ _ => true
    | SFor _ it b => plain it && plain_block b
    | SIf c t elifs els =>
        plain c && plain_block t && forallb (fun cb => plain (fst cb) && plain_block (snd cb)) elifs
        && opt_true plain_block els
    | SExpr e => plain e
    end
  with plain_block (b : block) : bool :=
    match b with Block ss fin => forallb plain_stmt ss && opt_true plain fin end.
  Definition plain_command (f : fundef) : bool :=
    forallb (fun p => opt_true plain (p_default p)) (f_params f) && plain_block (f_body f).
End Plain.

(** * Declared before use *)

(** Every variable of the expression is one of [env], or bound by an enclosing
    comprehension or lambda of it; every called name is one of [fns]. *)
Section Scoped.
  Variable fns : name -> bool.
  Fixpoint scoped (env : list name) (e : expr) : bool :=
    match e with
    | ELit _ _ => true
    | EId n => mem n env
    | EBin l _ r => scoped env l && scoped env r
    | EUn _ e | EMember e _ => scoped env e
    | ECall f args named =>
        match f with EId n => fns n | _ => false end
        && forallb (scoped env) args && match named with [] => true | _ => false end
    | EMethod _ _ _ _ | EIf _ _ _ _ => false
    | EIndex o i => scoped env o && scoped env i
    | EList l => forallb (scoped env) l
    | EComp e cls =>
        (fix go (env : list name) cls :=
           match cls with
           | [] => scoped env e
           | (x, it, cs) :: cls => scoped env it && forallb (scoped (x :: env)) cs && go (x :: env) cls
           end) env cls
    | ERange a b => scoped env a && scoped env b
    | ECond c t f => scoped env c && scoped env t && scoped env f
    | EMatch e arms => scoped env e && forallb (fun pe => scoped env (snd pe)) arms
    | ELambda ps b => scoped (ps ++ env) b
    | EDict l => forallb (fun ne => scoped env (snd ne)) l
    end.
  (** A type annotation that names known types. *)
  Fixpoint known_type (t : ty) : bool :=
    match t with
    | TSimple n => match type_named n with Some _ => true | None => false end
    | TGeneric n [a] => name_eqb n (codes "list") && known_type a
    | TGeneric _ _ => false
    | TOptional t => known_type t
    end.
  (** The name a statement declares in the scope it stands in. *)
  Definition declared (s : stmt) : list name := match s with SVar n _ _ => [n] | _ => [] end.
  (** [cur]: the names declared so far in the current scope; [outer]: those of the enclosing
      scopes.  A declaration has a value and a name new to its scope; no return statement. *)
  Fixpoint scoped_stmt (outer cur : list name) (s : stmt) : bool :=
    match s with
    | SVar n t init =>
        match init with Some e => scoped (cur ++ outer) e | None => false end
        && opt_true known_type t && negb (mem n cur)
    | SAssign t v => scoped (cur ++ outer) t && scoped (cur ++ outer) v
    | SAssert c m => scoped (cur ++ outer) c && opt_true (scoped (cur ++ outer)) m
    | SEmit v m => scoped (cur ++ outer) v && forallb (fun ne => scoped (cur ++ outer) (snd ne)) m
    | SReturn _ => false
    | SPass | SPython _ | SWhile _ _ => true
    | SFor x it b => scoped (cur ++ outer) it && scoped_block (cur ++ outer) [x] b
    | SIf c t elifs els =>
        scoped (cur ++ outer) c && scoped_block (cur ++ outer) [] t
        && forallb (fun cb => scoped (cur ++ outer) (fst cb) && scoped_block (cur ++ outer) [] (snd cb)) elifs
        && opt_true (scoped_block (cur ++ outer) []) els
    | SExpr e => scoped (cur ++ outer) e
    end
  with scoped_block (outer cur : list name) (b : block) : bool :=
    match b with
    | Block ss fin =>
        (fix go (cur : list name) ss :=
           match ss with
           | [] => opt_true (scoped (cur ++ outer)) fin
           | s :: ss => scoped_stmt outer cur s && go (declared s ++ cur) ss
           end) cur ss
    end.
  (** Parameters: distinct, known types, and defaults that see the parameters so far. *)
  Fixpoint scoped_params (seen : list name) (ps : list param) : bool :=
    match ps with
    | [] => true
    | p :: ps =>
        negb (mem (p_name p) seen) && opt_true known_type (p_type p)
        && opt_true (scoped (p_name p :: seen)) (p_default p)
        && scoped_params (p_name p :: seen) ps
    end.
  Definition scoped_command (f : fundef) : bool :=
    scoped_params [] (f_params f) && scoped_block [] (rev (map p_name (f_params f))) (f_body f)
    && opt_true known_type (f_ret f).
End Scoped.

(** The functions a module declares. *)
Definition native_names (m : modul) : list name := map n_name (concat (m_blocks m)) ++ map n_name (m_natives m).
Definition declared_functions (m : modul) : list name := native_names m ++ map f_name (m_funs m).

(** The names that are not variables: built-ins, types and the module's functions. *)
Definition special_names (builtins : name -> option signature) (m : modul) (n : name) : bool :=
  match builtins n with Some _ => true | None => false end
  || match type_named n with Some _ => true | None => false end || mem n (declared_functions m).

(** * Calls *)

(** The names an expression, statement or command calls, in source order. *)
Fixpoint called (e : expr) : list name :=
  match e with
  | ELit _ _ | EId _ => []
  | EBin l _ r => called l ++ called r
  | EUn _ e | EMember e _ | ELambda _ e => called e
  | ECall f args named =>
      match f with EId n => [n] | f => called f end ++ flat_map called args ++ flat_map (fun ne => called (snd ne)) named
  | EMethod o _ args named => called o ++ flat_map called args ++ flat_map (fun ne => called (snd ne)) named
  | EIndex o i => called o ++ called i
  | EList l => flat_map called l
  | EComp e cls => flat_map (fun cl => called (snd (fst cl)) ++ flat_map called (snd cl)) cls ++ called e
  | ERange a b => called a ++ called b
  | ECond c t f => called c ++ called t ++ called f
  | EIf c t elifs els =>
      called c ++ called_block t ++ flat_map (fun cb => called (fst cb) ++ called_block (snd cb)) elifs
      ++ match els with Some b => called_block b | None => [] end
  | EMatch e arms => called e ++ flat_map (fun pe => called (snd pe)) arms
  | EDict l => flat_map (fun ne => called (snd ne)) l
  end
with called_stmt (s : stmt) : list name :=
  match s with
  | SVar _ _ o | SReturn o => match o with Some e => called e | None => [] end
  | SAssign t v => called t ++ called v
  | SAssert c m => called c ++ match m with Some e => called e | None => [] end
  | SEmit v m => called v ++ flat_map (fun ne => called (snd ne)) m
  | SPass | SPython _ | SWhile _ _ => []      (* the parser makes no while statement: C08 *)
  | SFor _ it b => called it ++ called_block b
  | SIf c t elifs els =>
      called c ++ called_block t ++ flat_map (fun cb => called (fst cb) ++ called_block (snd cb)) elifs
      ++ match els with Some b => called_block b | None => [] end
  | SExpr e => called e
  end
with called_block (b : block) : list name :=
  match b with Block ss fin => flat_map called_stmt ss ++ match fin with Some e => called e | None => [] end end.
Definition called_command (f : fundef) : list name :=
  flat_map (fun p => match p_default p with Some e => called e | None => [] end) (f_params f) ++ called_block (f_body f).

(** Command number [a] of the module calls command number [b]. *)
Definition command_calls (m : modul) (a b : nat) : Prop :=
  exists f g, nth_error (m_funs m) a = Some f /\ nth_error (m_funs m) b = Some g /\ In (f_name g) (called_command f).

(** * Run time *)
Definition undefined : exn := ERuntime "Undefined variable".
(** The host's own operations do not report undefined DSL variables. *)
Record honest (H : host) : Prop := Honest {
  ho_of_int : forall z, h_of_int H z <> inr undefined;
  ho_binop : forall op a b w, h_binop H op a b w <> inr undefined;
  ho_neg : forall a w, h_neg H a w <> inr undefined;
  ho_cmp : forall op a b w, h_cmp H op a b w <> inr undefined;
  ho_int : forall a w, h_int H a w <> inr undefined;
  ho_float : forall a w, h_float H a w <> inr undefined;
  ho_len : forall a w, h_len H a w <> inr undefined;
  ho_index : forall a i w, h_index H a i w <> inr undefined;
  ho_get : forall a n w, h_get H a n w <> inr undefined;
  ho_member : forall a n w, h_member H a n w <> inr undefined;
  ho_builtin : forall n vs w, fst (h_builtin H n vs w) <> inr undefined;
  ho_native : forall n vs w, fst (h_native H n vs w) <> inr undefined;
  ho_meta : forall h d w, fst (h_meta H h d w) <> inr undefined }.

(** Parameters without a default come first. *)
Fixpoint required_first (ps : list param) : bool :=
  match ps with
  | [] => true
  | p :: ps => if has_default p then forallb has_default ps else required_first ps
  end.
(** Every parameter without a default is given. *)
Definition all_given {A} (ps : list param) (given : list (name * A)) : bool :=
  forallb (fun p => has_default p || match dget name_eqb (p_name p) given with Some _ => true | None => false end) ps.
