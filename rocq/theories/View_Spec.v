(** Specification vocabulary for the viewer's configuration. *)
From Coq Require Import ZArith String List Bool.
From Verif Require Import Json_Model View_Model.
Import ListNotations.
Open Scope list_scope.

(** str(Path(...)) names the same path again. *)
Definition path_like (H : host) : Prop :=
  (forall s, norm H (norm H s) = norm H s) /\ (forall p s, norm H (join H p s) = join H p s).

Definition is_str (v : val) : Prop := exists s, v = VStr s.
Definition is_tuple (v : val) : Prop := exists l, v = VTup l.
(** Sizes and colours are tuples, the palette a dict of tuples, and so is the text of a
    path not empty. *)
Definition tidy (H : host) (c : config) : Prop :=
  is_tuple (win (raw c)) /\ is_tuple (bg (raw c)) /\ is_tuple (color (raw c)) /\
  (exists d, palette (raw c) = VDict d /\ Forall (fun kv => is_tuple (snd kv)) d) /\ shots_path c <> [].

(** The same configuration, with the default screenshot directory spelt out and
    paths that were falsy None. *)
Definition explicit (c c' : config) : Prop :=
  stl (raw c') = stl (raw c) /\
  positions (raw c') = (if truthy (positions (raw c)) then positions (raw c) else VNone) /\
  command (raw c') = (if truthy (command (raw c)) then command (raw c) else VNone) /\
  shots (raw c') = VStr (shots_path c) /\
  win (raw c') = win (raw c) /\ title (raw c') = title (raw c) /\ bg (raw c') = bg (raw c) /\
  opacity (raw c') = opacity (raw c) /\ xray (raw c') = xray (raw c) /\ color (raw c') = color (raw c) /\
  palette (raw c') = palette (raw c) /\ multi (raw c') = multi (raw c) /\ poll (raw c') = poll (raw c) /\
  stl_path c' = stl_path c /\ positions_path c' = positions_path c /\ command_path c' = command_path c /\
  shots_path c' = shots_path c.
