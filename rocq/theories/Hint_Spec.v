(** What a normalised hint says, key by key. *)
From Coq Require Import ZArith String List Bool.
From Verif Require Import Dict Json_Model Meta_Model Meta_Spec.
Import ListNotations.
Open Scope Z_scope.
Open Scope list_scope.

(** Splitting at commas and trimming. *)
Fixpoint joined (pieces : list text) : text :=
  match pieces with [] => [] | [p] => p | p :: r => p ++ 44 :: joined r end.
Definition trimmed (H : host) (p w : text) : Prop :=
  exists a b, p = a ++ w ++ b /\ Forall (fun c => space H c = true) a /\ Forall (fun c => space H c = true) b /\
    (forall c r, w = c :: r -> space H c = false) /\ (forall r c, w = r ++ [c] -> space H c = false).
Definition words (H : host) (s : text) (ws : list text) : Prop :=
  exists pieces trims, pieces <> [] /\ s = joined pieces /\ Forall (fun p => ~ In 44 p) pieces /\ Forall2 (trimmed H) pieces trims /\
    ws = filter (fun w => match w with [] => false | _ => true end) trims.

Definition enum_keys := [(t "assembly.joint_kind", t_joint_kinds); (t "operation.kind", operation_kinds);
  (t "operation.policy", operation_policies); (t "operation.feature_kind", t_feature_kinds)].
Definition flag_keys := [t "assembly.no_cut"; t "operation.through"; t "operation.consume"].
Definition text_keys := [t "operation.feature_id"; t "operation.stage"].
Definition root_keys := [t "layer"; t "tags"; []].
Definition known_keys := map fst enum_keys ++ flag_keys ++ list_keys ++ text_keys ++ root_keys ++ [t "operation.priority"; t "operation.target_filter"].
Definition yes_words := [t "true"; t "1"; t "yes"].
Definition no_words := [t "false"; t "0"; t "no"].
Definition complaint (k : text) (v : json) : list diag := [mkdiag LError k (Some v)].

(** The value v given for key k becomes v', with these diagnostics. *)
Inductive treated (H : host) : text -> json -> json -> list diag -> Prop :=
| T_enum k allowed v : In (k, allowed) enum_keys -> one_of v allowed -> treated H k v v []
| T_enum_bad k allowed v : In (k, allowed) enum_keys -> ~ one_of v allowed -> treated H k v v (complaint k v)
| T_flag k b : In k flag_keys -> treated H k (JBool b) (JBool b) []
| T_flag_yes k s : In k flag_keys -> In (lower H s) yes_words -> treated H k (JStr s) (JBool true) []
| T_flag_no k s : In k flag_keys -> In (lower H s) no_words -> treated H k (JStr s) (JBool false) []
| T_flag_bad k v : In k flag_keys -> (forall b, v <> JBool b) -> (forall s, v = JStr s -> ~ In (lower H s) (yes_words ++ no_words)) -> treated H k v v (complaint k v)
| T_entries k l : In k list_keys -> (forall e, In e l -> exists d, e = JObj d) -> treated H k (JList l) (JList l) []
| T_entries_bad k v : In k list_keys -> ~ (exists l, v = JList l /\ forall e, In e l -> exists d, e = JObj d) -> treated H k v v (complaint k v)
| T_number v f : to_float H v = Ok f -> treated H (t "operation.priority") v (JFloat f) []
| T_number_bad v e : to_float H v = Err e -> e <> OverflowErr -> treated H (t "operation.priority") v v (complaint (t "operation.priority") v)
| T_words s ws : words H s ws -> treated H (t "operation.target_filter") (JStr s) (JList (map JStr ws)) []
| T_words_list l : treated H (t "operation.target_filter") (JList l) (JList (map (fun x => JStr (to_str H x)) l)) []
| T_words_bad v : (forall s, v <> JStr s) -> (forall l, v <> JList l) -> treated H (t "operation.target_filter") v v (complaint (t "operation.target_filter") v)
| T_text k v : In k text_keys -> treated H k v (JStr (to_str H v)) []
| T_root k v : In k root_keys -> treated H k v v []
| T_unknown k v : ~ In k known_keys -> treated H k v v [mkdiag LWarning k None].

(** Remarks about the hint as a whole. *)
Definition has_key (h : dict) (k : text) : Prop := exists v, In (k, v) h.
Definition about_operation (h : dict) : Prop := exists r, has_key h (t "operation." ++ r).
Definition remark (h : dict) (d : diag) : Prop :=
  (d = mkdiag LError (t "operation.kind") None /\ about_operation h /\ ~ has_key h (t "operation.kind")) \/
  (d = mkdiag LWarning (t "assembly.no_cut") None /\ get (t "assembly.no_cut") h = Some (JBool true) /\ get (t "operation.kind") h = Some (JStr (t "subtract"))) \/
  (d = mkdiag LInfo (t "operation.target_filter") None /\ about_operation h /\ ~ has_key h (t "operation.target_filter")).

(** What an add_* helper stores for an argument it may be given: nothing when it is None. *)
Inductive reading := Same | Text | Number | Three | Dictionary.
Definition reads (H : host) (r : reading) (v c : json) : Prop :=
  match r with
  | Same => c = v
  | Text => c = JStr (to_str H v)
  | Number => exists f, to_float H v = Ok f /\ c = JFloat f
  | Three => exists x y z a b d, to_list v = Ok [x; y; z] /\ to_float H x = Ok a /\ to_float H y = Ok b /\ to_float H z = Ok d /\
      c = JList [JFloat a; JFloat b; JFloat d]
  | Dictionary => c = v /\ exists d, v = JObj d
  end.
Definition stored (H : host) (kw e : dict) (k : text) (r : reading) : Prop :=
  (arg k kw = JNull /\ get k e = None) \/ (arg k kw <> JNull /\ exists c, reads H r (arg k kw) c /\ get k e = Some c).
(** The arguments that may be left out, and how each is read. *)
Definition datum_options := [(t "ring", Same); (t "R_mm", Number); (t "z_mm", Number); (t "origin_mm", Three); (t "direction", Three)].
Definition surface_options := [(t "mate_to", Text); (t "finish", Text); (t "tolerance_mm", Number)].
Definition keepout_options := [(t "shape", Dictionary); (t "reason", Text)].
Definition bolt_options := [(t "theta0_deg", Number); (t "tolerance_mm", Number)].
Definition given (v : json) : option json := match v with JNull => None | _ => Some v end.
Definition fastener_of (H : host) (spec f : dict) : Prop :=
  get (t "designation") f = match arg (t "designation") spec with JNull => None | v => Some (JStr (to_str H v)) end /\
  get (t "thread") f = given (arg (t "thread") spec) /\ get (t "head") f = given (arg (t "head") spec) /\
  one_of_or_none (arg (t "thread") spec) fastener_threads /\ one_of_or_none (arg (t "head") spec) fastener_heads.
