(** The DSL's built-in functions on integers and lists of them (yapcad/dsl/runtime/builtins.py),
    as far as they do not need floats or geometry.  [lib_call H f args] is None when this file
    says nothing about the call: other functions, other kinds of arguments, wrong counts. *)
From Coq Require Import ZArith String List Bool.
From Verif Require Import Dict Lex_Model Ast Types_Model Interp_Model.
Import ListNotations.
Open Scope Z_scope.
Open Scope list_scope.

Section Lib.
  Variable H : host.
  Notation D := (data (hF H) (hO H)).
  Notation V := (rval (hF H) (hO H)).
  Definition word (s : string) : name := map (fun c => Z.of_N (Ascii.N_of_ascii c)) (list_ascii_of_string s).
  (** .data of an argument that is an int *)
  Definition int_arg (v : V) : option Z := match vdata H v with DInt z => Some z | _ => None end.
  Fixpoint int_args (vs : list V) : option (list Z) :=
    match vs with
    | [] => Some []
    | v :: vs => match int_arg v, int_args vs with Some z, Some zs => Some (z :: zs) | _, _ => None end
    end.
  Definition ok (d : D) (t : typ) : option (try V) := Some (inl (Val d (Some t))).
  Definition err (e : string) : option (try V) := Some (inr (EOther e)).
  (** Python's range(a, b, s): its length (Objects/rangeobject.c compute_range_length), its elements *)
  Definition range_len (a b s : Z) : nat :=
    Z.to_nat (if 0 <? s then (b - a + s - 1) / s else (a - b + - s - 1) / (- s)).
  Definition py_range (a b s : Z) : list D := map (fun k => DInt (a + Z.of_nat k * s)) (seq 0 (range_len a b s)).
  Definition ints (l : list D) : option (try V) := ok (DList l) (TLst INT).
  (** builtins.py:2913-2926 _range_func: further arguments are ignored *)
  Definition lib_range (zs : list Z) : option (try V) :=
    match zs with
    | [] => err "IndexError"
    | [b] => ints (py_range 0 b 1)
    | [a; b] => ints (py_range a b 1)
    | a :: b :: s :: _ => if s =? 0 then err "ValueError" else ints (py_range a b s)
    end.
  (** min() and max() of Python: the first of the least (greatest) *)
  Definition py_min (z : Z) (zs : list Z) : Z := fold_left (fun m x => if x <? m then x else m) zs z.
  Definition py_max (z : Z) (zs : list Z) : Z := fold_left (fun m x => if m <? x then x else m) zs z.
  Definition all_int (vs : list V) : bool := forallb (fun v => tis (vtype H v) INT) vs.
  Definition lib_call (f : name) (vs : list V) : option (try V) :=
    if name_eqb f (word "len") then                                       (* 2909-2911 *)
      match vs with
      | [v] => match vdata H v with DList l => ok (DInt (Z.of_nat (List.length l))) INT | _ => None end
      | _ => None
      end
    else if name_eqb f (word "range") then
      match int_args vs with Some zs => lib_range zs | None => None end
    else if name_eqb f (word "concat") then                               (* 2933-2939 *)
      match vs with
      | [v; w] => match vdata H v, vdata H w, vtype H v with
                  | DList l, DList m, Some (TLst e) => ok (DList (l ++ m)) (TLst e)
                  | _, _, _ => None
                  end
      | _ => None
      end
    else if name_eqb f (word "reverse") then                              (* 2941-2946 *)
      match vs with
      | [v] => match vdata H v, vtype H v with
               | DList l, Some (TLst e) => ok (DList (rev l)) (TLst e)
               | _, _ => None
               end
      | _ => None
      end
    else if name_eqb f (word "abs") then                                  (* 152-155 *)
      match vs with
      | [v] => match int_arg v with Some z => if tis (vtype H v) INT then ok (DInt (Z.abs z)) INT else None | None => None end
      | _ => None
      end
    else if name_eqb f (word "min") then                                  (* 166-171 *)
      match int_args vs with
      | Some (z :: zs) => if all_int vs then ok (DInt (py_min z zs)) INT else None
      | Some [] => err "ValueError"
      | None => None
      end
    else if name_eqb f (word "max") then                                  (* 173-178 *)
      match int_args vs with
      | Some (z :: zs) => if all_int vs then ok (DInt (py_max z zs)) INT else None
      | Some [] => err "ValueError"
      | None => None
      end
    else None.
  (** The host's built-in functions include these. *)
  Definition has_library : Prop := forall f vs r w, lib_call f vs = Some r -> h_builtin H f vs w = (r, w).
End Lib.
(** Any host with these functions put in place (for examples). *)
Definition with_library (H : host) : host := {|
  hF := hF H; hO := hO H; hW := hW H;
  h_float_lit := h_float_lit H; h_of_int := h_of_int H; h_binop := h_binop H; h_neg := h_neg H; h_eq := h_eq H;
  h_cmp := h_cmp H; h_int := h_int H; h_float := h_float H; h_bool := h_bool H; h_str := h_str H; h_len := h_len H;
  h_iter := h_iter H; h_index := h_index H; h_get := h_get H; h_member := h_member H;
  h_builtin := fun f vs w => match lib_call H f vs with Some r => (r, w) | None => h_builtin H f vs w end;
  h_native_block := h_native_block H; h_native := h_native H; h_python := h_python H; h_meta := h_meta H |}.
