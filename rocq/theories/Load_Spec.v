(** Vocabulary for the statements about load cases. *)
From Coq Require Import Reals ZArith String List Bool.
From Verif Require Import Json_Model Load_Model.
Import ListNotations.
Open Scope string_scope.
Open Scope list_scope.

(** [v] is one of these texts; [v] is a list (text, mapping) with these entries. *)
Definition named (l : list text) (v : json) : Prop := exists s, v = JStr s /\ In s l.
Inductive lists : json -> list json -> Prop :=
| L_list l : lists (JList l) l
| L_text s : lists (JStr s) (map (fun c => JStr [c]) s)
| L_keys d : lists (JObj d) (map (fun e => JStr (fst e)) d).
(** What a load case must have. *)
Definition sound (x : load) : Prop :=
  named [t "inertial"; t "recovery"; t "pressure"; t "handling"; t "custom"] (l_group x) /\
  named [t "vehicle"; t "mesh"] (l_frame x) /\
  named [t "confirmed"; t "estimated"; t "tribal"; t "placeholder"] (l_status x) /\
  (l_n x <> JNull \/ l_g x <> JNull) /\ exists a b c, lists (l_direction x) [a; b; c].
(** The same case, with its two sequences as lists and its flag as a bool. *)
Definition same_case (warn : bool) (dir pos : list json) (x y : load) : Prop :=
  l_id y = l_id x /\ l_name y = l_name x /\ l_group y = l_group x /\ l_direction y = JList dir /\
  l_n y = l_n x /\ l_g y = l_g x /\ l_frame y = l_frame x /\ l_description y = l_description x /\ l_source y = l_source x /\
  l_status y = l_status x /\ l_warn y = JBool warn /\
  a_part (l_attach y) = a_part (l_attach x) /\ a_position (l_attach y) = JList pos /\ a_interface (l_attach y) = a_interface (l_attach x) /\
  a_clock (l_attach y) = a_clock (l_attach x) /\ a_bolt (l_attach y) = a_bolt (l_attach x).
(** The first occurrence of each element, in order. *)
Inductive firsts {A} : list A -> list A -> Prop :=
| F_nil : firsts [] []
| F_old l m a : firsts l m -> In a l -> firsts (l ++ [a]) m
| F_new l m a : firsts l m -> ~ In a l -> firsts (l ++ [a]) (m ++ [a]).
