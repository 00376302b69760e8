(** Model of yapcad.dsl.compile_and_run: src/yapcad/dsl/runtime/interpreter.py:1054-1127. *)
From Coq Require Import ZArith String List Bool.
From Verif Require Import Cycle_Model Dict Lex_Model Ast Parse_Model Types_Model Interp_Model Check_Model Builtin_Model.
Import ListNotations.
Open Scope string_scope.
Open Scope list_scope.

(** checker.py:67-74: max_errors defaults to 20; CheckResult.has_errors. *)
Definition check_module (m : modul) : option kst := check checker_builtins checker_methods 20 m.
Definition has_errors (k : kst) : bool := match k_errs k with [] => false | _ => true end.

(** checker.py:871-936 _check_recursion runs over _call_graph (Cycle_Model): the commands by
    their place in the module. *)
Definition call_graph (m : modul) (k : kst) (a : nat) : list nat :=
  match nth_error (m_funs m) a with
  | None => []
  | Some f =>
      filter (fun b => match nth_error (m_funs m) b with
                       | Some g => existsb (fun p => name_eqb (fst p) (f_name f) && name_eqb (snd p) (f_name g)) (k_calls k)
                       | None => false
                       end) (seq 0 (length (m_funs m)))
  end.
Definition recursion_warnings (m : modul) (k : kst) : option (list Cycle_Model.warning) :=
  Cycle_Model.warnings (call_graph m k) (seq 0 (length (m_funs m))).

Section Compile.
  Variables (U : unicode) (H : host).
  Definition stage_error (why : string) : result H := Result H false None [] (Some why).
  (** interpreter.py:1094-1127.  Error texts are reduced to their prefix.  Only the first two
      stages are inside a try; an AttributeError in check() escapes. *)
  Definition compile_and_run (limit : Z) (fuel : nat) (src : list Z) (cmd : name) (given : list (name * data (hF H) (hO H)))
      (s : state H) : outcome H * state H :=
    match tokenize U src with
    | None => (OutOfFuel H, s)
    | Some (Lex_Model.Err _) => (Returned H (stage_error "Lexer error"), s)
    | Some (Lex_Model.Ok ts) =>
        match parse ts with
        | PFuel => (OutOfFuel H, s)
        | PErr _ _ | PCrash => (Returned H (stage_error "Parser error"), s)
        | POk m _ =>
            match check_module m with
            | None => (Escaped H (EOther "AttributeError"), s)
            | Some k => if has_errors k then (Returned H (stage_error "Type errors"), s)
                        else execute H limit fuel m cmd given s
            end
        end
    end.
End Compile.
