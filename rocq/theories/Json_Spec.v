(** When two pieces of JSON data are the same but for the order of dictionary keys. *)
From Coq Require Import ZArith String List Permutation.
From Verif Require Import Json_Model.
Import ListNotations.
Open Scope Z_scope.
Open Scope list_scope.

Inductive same_data : json -> json -> Prop :=
  | sd_null : same_data JNull JNull
  | sd_bool b : same_data (JBool b) (JBool b)
  | sd_int z : same_data (JInt z) (JInt z)
  | sd_float f : same_data (JFloat f) (JFloat f)
  | sd_str s : same_data (JStr s) (JStr s)
  | sd_list a b : Forall2 same_data a b -> same_data (JList a) (JList b)
  | sd_obj a b c : Permutation b c ->
      Forall2 (fun x y => fst x = fst y /\ same_data (snd x) (snd y)) a c -> same_data (JObj a) (JObj b).

(** Ordinary text: code points, no lone surrogates. *)
Definition ordinary (s : text) : Prop := Forall (fun c => 0 <= c < 55296 \/ 57344 <= c < 1114112) s.
(** Data as yaml.safe_load builds it from text without lone surrogates: keys are distinct. *)
Fixpoint wf (j : json) : Prop :=
  match j with
  | JStr s => ordinary s
  | JList l => fold_right (fun x P => wf x /\ P) True l
  | JObj d => NoDup (map fst d) /\ fold_right (fun kv P => (ordinary (fst kv) /\ wf (snd kv)) /\ P) True d
  | JOpaque _ => False
  | _ => True
  end.
(** What is assumed of the printed form of floats: digits, sign, point, exponent or a name
    (no delimiter, no quote), never the form of an int or of null, true, false, and different
    for different floats (Python's repr; all NaNs print alike and are taken as one). *)
Definition float_repr (frepr : Z -> text) : Prop :=
  (forall f g, frepr f = frepr g -> f = g) /\
  (forall f, frepr f <> [] /\ Forall (fun c => ~ In c [44; 93; 125; 34; 91; 123]) (frepr f)) /\
  (forall f z, frepr f <> decimal z) /\
  (forall f, frepr f <> t "null" /\ frepr f <> t "true" /\ frepr f <> t "false").
