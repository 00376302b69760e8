(** Model of src/yapcad/dsl/runtime/provenance.py.
    Text is a list of code points (no lone surrogates, on which .encode() raises); [space] is
    Python's str.isspace on one character, [sha] hashlib.sha256 over the UTF-8 bytes as hex
    text.  Timestamps are values supplied by the clock. *)
From Coq Require Import ZArith String List Bool.
From Verif Require Import Dict.
Import ListNotations.
Open Scope Z_scope.
Open Scope list_scope.

Definition text := list Z.
(** str.lstrip, str.strip *)
Fixpoint lstrip (space : Z -> bool) (s : text) : text :=
  match s with c :: r => if space c then lstrip space r else s | [] => [] end.
Definition strip (space : Z -> bool) (s : text) : text := rev (lstrip space (rev (lstrip space s))).
(** s.replace('\r\n', '\n'), left to right *)
Fixpoint replace_crlf (s : text) : text :=
  match s with
  | 13 :: ((10 :: _) as r) => replace_crlf r
  | c :: r => c :: replace_crlf r
  | [] => []
  end.
(** s.replace('\r', '\n') *)
Definition replace_cr (s : text) : text := map (fun c => if c =? 13 then 10 else c) s.

Section Sig.
  Variables (space : Z -> bool) (sha : text -> text).
  (** provenance.py:74-82 compute_source_signature *)
  Definition normalized (src : text) : text := replace_cr (replace_crlf (strip space src)).
  Definition prefix : text := [115; 104; 97; 50; 53; 54; 58].     (* "sha256:" *)
  Definition compute_source_signature (src : text) : text := prefix ++ sha (normalized src).
  (** provenance.py:124-139 verify_source_signature *)
  Definition verify_source_signature (src sig : text) : bool :=
    if list_eq_dec Z.eq_dec (compute_source_signature src) sig then true else false.
End Sig.

(** JSON-like Python data: what parameters and extra hold. *)
Inductive json :=
  | JNull | JBool (b : bool) | JInt (z : Z) | JFloat (f : Z) (* an opaque float *) | JStr (s : string)
  | JList (l : list json) | JTuple (l : list json) | JArray (l : list json) | JObj (d : list (string * json)).
Definition dict := list (string * json).

(** provenance.py:14-36 Provenance *)
Record provenance := Provenance {
  p_module : string; p_command : string; p_version : string; p_params : dict;
  p_signature : string; p_time : string; p_extra : dict }.

(** provenance.py:38-50 to_dict *)
Open Scope string_scope.
Definition to_dict (p : provenance) : dict :=
  [("invocation", JObj [("module", JStr (p_module p)); ("command", JStr (p_command p)); ("version", JStr (p_version p));
      ("parameters", JObj (p_params p)); ("sourceSignature", JStr (p_signature p)); ("timestamp", JStr (p_time p))]);
   ("extra", JObj (p_extra p))].
(** d.get(key, default); a value of the wrong kind is [None] (from_dict itself would carry
    it on: out of scope). *)
Definition get_str (k : string) (d : dict) (default : string) : option string :=
  match dget String.eqb k d with None => Some default | Some (JStr s) => Some s | Some _ => None end.
Definition get_obj (k : string) (d : dict) : option dict :=
  match dget String.eqb k d with None => Some [] | Some (JObj o) => Some o | Some _ => None end.
Definition obind {A B} (o : option A) (f : A -> option B) : option B := match o with Some a => f a | None => None end.
(** provenance.py:56-68 from_dict *)
Definition from_dict (d : dict) : option provenance :=
  obind (get_obj "invocation" d) (fun i =>
  obind (get_str "module" i "") (fun m => obind (get_str "command" i "") (fun c => obind (get_str "version" i "0.0.0") (fun v =>
  obind (get_obj "parameters" i) (fun ps => obind (get_str "sourceSignature" i "") (fun s => obind (get_str "timestamp" i "") (fun t =>
  obind (get_obj "extra" d) (fun e => Some (Provenance m c v ps s t e))))))))).

(** provenance.py:108-114: arrays and other iterables become lists, strings and dicts stay. *)
Definition serialize (j : json) : json :=
  match j with JTuple l | JArray l => JList l | j => j end.
(** provenance.py:85-122 create_provenance; [sig] is compute_source_signature on the text. *)
Definition create_provenance (sig : string -> string) (m c : string) (params : dict) (source version time : string) (extra : dict) : provenance :=
  Provenance m c version (map (fun kv => (fst kv, serialize (snd kv))) params)
    (if String.eqb source "" then "" else sig source) time extra.
