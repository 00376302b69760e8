(** JSON-like Python data (None, bool, int, float, str, list, dict with string keys) and
    json.dumps(data, sort_keys=True, separators=(',', ':')).
    Text is a list of code points.  A float is an opaque identity with a printed form. *)
From Coq Require Import ZArith Ascii String List Bool.
From Verif Require Import Dict.
Import ListNotations.
Open Scope Z_scope.
Open Scope list_scope.

Definition text := list Z.
Fixpoint t (s : string) : text :=
  match s with EmptyString => [] | String c r => Z.of_nat (nat_of_ascii c) :: t r end.
Definition teq (a b : text) : bool := if list_eq_dec Z.eq_dec a b then true else false.

(** [JOpaque]: any other Python object (a Path, a numpy scalar, ...). *)
Inductive json :=
  | JNull | JBool (b : bool) | JInt (z : Z) | JFloat (f : Z) | JStr (s : text)
  | JList (l : list json) | JObj (d : list (text * json)) | JOpaque (n : Z).
Definition dict := list (text * json).

(** json.dumps raises TypeError on other objects. *)
Fixpoint representable (j : json) : bool :=
  match j with
  | JOpaque _ => false
  | JList l => forallb representable l
  | JObj d => forallb (fun kv => representable (snd kv)) d
  | _ => true
  end.

(** str ordering: by code points, a proper prefix first *)
Fixpoint tle (a b : text) : bool :=
  match a, b with
  | [], _ => true
  | _ :: _, [] => false
  | x :: a', y :: b' => if x <? y then true else if y <? x then false else tle a' b'
  end.
(** sorted(dict.items()): keys are distinct, so the values are never compared *)
Fixpoint insert {A} (kv : text * A) (l : list (text * A)) : list (text * A) :=
  match l with
  | [] => [kv]
  | kv' :: r => if tle (fst kv) (fst kv') then kv :: l else kv' :: insert kv r
  end.
Definition sort {A} (l : list (text * A)) : list (text * A) := fold_right insert [] l.

(** json/encoder.py py_encode_basestring_ascii: printable ASCII as is, two-character escapes,
    \uXXXX, and a pair of \uXXXX beyond the basic plane *)
Definition hexdigit (d : Z) : Z := if d <? 10 then 48 + d else 87 + d.
Definition hex4 (n : Z) : text :=
  [hexdigit (n / 4096 mod 16); hexdigit (n / 256 mod 16); hexdigit (n / 16 mod 16); hexdigit (n mod 16)].
Definition escape (c : Z) : text :=
  if c =? 34 then [92; 34] else if c =? 92 then [92; 92]
  else if c =? 10 then [92; 110] else if c =? 13 then [92; 114] else if c =? 9 then [92; 116]
  else if c =? 12 then [92; 102] else if c =? 8 then [92; 98]
  else if (32 <=? c) && (c <=? 126) then [c]
  else if c <? 65536 then 92 :: 117 :: hex4 c
  else let n := c - 65536 in
       92 :: 117 :: hex4 (55296 + n / 1024 mod 1024) ++ 92 :: 117 :: hex4 (56320 + n mod 1024).
Definition quote (s : text) : text := 34 :: flat_map escape s ++ [34].

(** int.__repr__ *)
Fixpoint digits (fuel : nat) (n : Z) (acc : text) : text :=
  match fuel with
  | O => acc
  | S f => if n <? 10 then (48 + n) :: acc else digits f (n / 10) ((48 + n mod 10) :: acc)
  end.
Definition decimal (z : Z) : text :=
  if z <? 0 then 45 :: digits (S (Z.to_nat (Z.log2 (- z)))) (- z) [] else digits (S (Z.to_nat (Z.log2 z))) z [].

Fixpoint join (l : list text) : text :=
  match l with [] => [] | [x] => x | x :: r => x ++ 44 :: join r end.

Section Dumps.
  Variable frepr : Z -> text.       (* float.__repr__, with NaN, Infinity and -Infinity *)
  Fixpoint dumps (j : json) : text :=
    match j with
    | JNull => t "null"
    | JBool true => t "true"
    | JBool false => t "false"
    | JInt z => decimal z
    | JFloat f => frepr f
    | JStr s => quote s
    | JList l => 91 :: join (map dumps l) ++ [93]
    | JObj d => 123 :: join (map (fun kv => quote (fst kv) ++ 58 :: snd kv)
                               (sort (map (fun kv => (fst kv, dumps (snd kv))) d))) ++ [125]
    | JOpaque _ => []               (* raises: see [representable] *)
    end.
End Dumps.
