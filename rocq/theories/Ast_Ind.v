(** Structural induction over the syntax (Ast). *)
From Coq Require Import List.
From Verif Require Import Lex_Model Ast.
Import ListNotations.

Definition opt_all {A} (P : A -> Prop) (o : option A) : Prop := match o with Some a => P a | None => True end.

Section Ind.
  Variables (P : expr -> Prop) (Q : stmt -> Prop) (R : block -> Prop).
  Hypothesis HLit : forall v lt, P (ELit v lt).
  Hypothesis HId : forall n, P (EId n).
  Hypothesis HBin : forall l op r, P l -> P r -> P (EBin l op r).
  Hypothesis HUn : forall op e, P e -> P (EUn op e).
  Hypothesis HCall : forall f args named, P f -> Forall P args -> Forall (fun ne => P (snd ne)) named -> P (ECall f args named).
  Hypothesis HMethod : forall o m args named, P o -> Forall P args -> Forall (fun ne => P (snd ne)) named -> P (EMethod o m args named).
  Hypothesis HMember : forall o m, P o -> P (EMember o m).
  Hypothesis HIndex : forall o i, P o -> P i -> P (EIndex o i).
  Hypothesis HList : forall l, Forall P l -> P (EList l).
  Hypothesis HComp : forall e cls, P e -> Forall (fun cl => P (snd (fst cl)) /\ Forall P (snd cl)) cls -> P (EComp e cls).
  Hypothesis HRange : forall a b, P a -> P b -> P (ERange a b).
  Hypothesis HCond : forall c t f, P c -> P t -> P f -> P (ECond c t f).
  Hypothesis HIf : forall c t elifs els, P c -> R t -> Forall (fun eb => P (fst eb) /\ R (snd eb)) elifs -> opt_all R els -> P (EIf c t elifs els).
  Hypothesis HMatch : forall e arms, P e -> Forall (fun pe => P (snd pe)) arms -> P (EMatch e arms).
  Hypothesis HLambda : forall ps b, P b -> P (ELambda ps b).
  Hypothesis HDict : forall l, Forall (fun ne => P (snd ne)) l -> P (EDict l).
  Hypothesis HVar : forall n t i, opt_all P i -> Q (SVar n t i).
  Hypothesis HAssign : forall t v, P t -> P v -> Q (SAssign t v).
  Hypothesis HAssert : forall c m, P c -> opt_all P m -> Q (SAssert c m).
  Hypothesis HEmit : forall v m, P v -> Forall (fun ne => P (snd ne)) m -> Q (SEmit v m).
  Hypothesis HReturn : forall v, opt_all P v -> Q (SReturn v).
  Hypothesis HPass : Q SPass.
  Hypothesis HFor : forall x it b, P it -> R b -> Q (SFor x it b).
  Hypothesis HWhile : forall c b, P c -> R b -> Q (SWhile c b).
  Hypothesis HSIf : forall c t elifs els, P c -> R t -> Forall (fun eb => P (fst eb) /\ R (snd eb)) elifs -> opt_all R els -> Q (SIf c t elifs els).
  Hypothesis HExpr : forall e, P e -> Q (SExpr e).
  Hypothesis HPython : forall l, Q (SPython l).
  Hypothesis HBlock : forall ss fin, Forall Q ss -> opt_all P fin -> R (Block ss fin).

  Definition all_of {A} {S : A -> Prop} (f : forall a, S a) : forall l, Forall S l :=
    fix go l := match l with [] => Forall_nil S | a :: l => Forall_cons a (f a) (go l) end.
  Definition opt_of {A} {S : A -> Prop} (f : forall a, S a) (o : option A) : opt_all S o :=
    match o with Some a => f a | None => I end.

  Fixpoint expr_all (e : expr) : P e :=
    match e with
    | ELit v lt => HLit v lt
    | EId n => HId n
    | EBin l op r => HBin l op r (expr_all l) (expr_all r)
    | EUn op e => HUn op e (expr_all e)
    | ECall f args named => HCall f args named (expr_all f) (all_of expr_all args) (all_of (fun ne => expr_all (snd ne)) named)
    | EMethod o m args named =>
        HMethod o m args named (expr_all o) (all_of expr_all args) (all_of (fun ne => expr_all (snd ne)) named)
    | EMember o m => HMember o m (expr_all o)
    | EIndex o i => HIndex o i (expr_all o) (expr_all i)
    | EList l => HList l (all_of expr_all l)
    | EComp e cls =>
        HComp e cls (expr_all e) (all_of (fun cl => conj (expr_all (snd (fst cl))) (all_of expr_all (snd cl))) cls)
    | ERange a b => HRange a b (expr_all a) (expr_all b)
    | ECond c t f => HCond c t f (expr_all c) (expr_all t) (expr_all f)
    | EIf c t elifs els =>
        HIf c t elifs els (expr_all c) (block_all t)
          (all_of (fun eb => conj (expr_all (fst eb)) (block_all (snd eb))) elifs) (opt_of block_all els)
    | EMatch e arms => HMatch e arms (expr_all e) (all_of (fun pe => expr_all (snd pe)) arms)
    | ELambda ps b => HLambda ps b (expr_all b)
    | EDict l => HDict l (all_of (fun ne => expr_all (snd ne)) l)
    end
  with stmt_all (s : stmt) : Q s :=
    match s with
    | SVar n t i => HVar n t i (opt_of expr_all i)
    | SAssign t v => HAssign t v (expr_all t) (expr_all v)
    | SAssert c m => HAssert c m (expr_all c) (opt_of expr_all m)
    | SEmit v m => HEmit v m (expr_all v) (all_of (fun ne => expr_all (snd ne)) m)
    | SReturn v => HReturn v (opt_of expr_all v)
    | SPass => HPass
    | SFor x it b => HFor x it b (expr_all it) (block_all b)
    | SWhile c b => HWhile c b (expr_all c) (block_all b)
    | SIf c t elifs els =>
        HSIf c t elifs els (expr_all c) (block_all t)
          (all_of (fun eb => conj (expr_all (fst eb)) (block_all (snd eb))) elifs) (opt_of block_all els)
    | SExpr e => HExpr e (expr_all e)
    | SPython l => HPython l
    end
  with block_all (b : block) : R b :=
    match b with Block ss fin => HBlock ss fin (all_of stmt_all ss) (opt_of expr_all fin) end.
  Lemma ast_ind : (forall e, P e) /\ (forall s, Q s) /\ (forall b, R b).
  Proof. split; [exact expr_all|split; [exact stmt_all|exact block_all]]. Qed.
End Ind.
