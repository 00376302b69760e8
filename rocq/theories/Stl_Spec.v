(** Vocabulary for the STL properties. *)
From Coq Require Import ZArith List Bool.
From Verif Require Import Dict Stl_Model.
Import ListNotations.
Open Scope Z_scope.
Open Scope list_scope.

(** the header text begins with "solid" (in any case, after white space) *)
Definition named_solid (name : list Z) : bool := starts solid_word (map lower (lstrip (map ascii (firstn 80 name)))).

Section Spec.
  Context {F : Type}.
  Variables (pack : F -> option (list Z)) (unpack : list Z -> F).
  (** the float that comes back *)
  Definition single (f : F) : F := match pack f with Some b => unpack b | None => f end.
  Definition single3 (v : v3 (F := F)) : v3 := let '(x, y, z) := v in (single x, single y, single z).
  Definition single_triangle (t : triangle (F := F)) : triangle := Triangle (single3 (normal t)) (single3 (v0 t)) (single3 (v1 t)) (single3 (v2 t)).
  Definition packable (f : F) : Prop := pack f <> None.
  Definition packable3 (v : v3 (F := F)) : Prop := let '(x, y, z) := v in packable x /\ packable y /\ packable z.
  Definition packable_triangle (t : triangle (F := F)) : Prop := packable3 (normal t) /\ packable3 (v0 t) /\ packable3 (v1 t) /\ packable3 (v2 t).

  (** one of the first 116 bytes of the triangles begins "facet" or "vertex" *)
  Definition marked (ts : list (triangle (F := F))) : bool :=
    match records pack ts with Some b => contains facet_word (firstn 116 b) || contains vertex_word (firstn 116 b) | None => false end.
  (** the highest byte of the single (sign and exponent) is no lower-case letter: |f| < 2^67, about 1.4e20 *)
  Definition moderate (f : F) : Prop := forall b, pack f = Some b -> nth 3 b 0 < 97 \/ 122 < nth 3 b 0.
  Definition moderate3 (v : v3 (F := F)) : Prop := let '(x, y, z) := v in moderate x /\ moderate y /\ moderate z.
  Definition moderate_triangle (t : triangle (F := F)) : Prop := moderate3 (normal t) /\ moderate3 (v0 t) /\ moderate3 (v1 t) /\ moderate3 (v2 t).
End Spec.
Section Corners.
  Context {F K : Type}.
  Variable key : v3 (F := F) -> K.
  (** vertex number [i] has the same key as [v] *)
  Definition corner (vs : list (v3 (F := F))) (i : nat) (v : v3 (F := F)) : Prop := exists w, nth_error vs i = Some w /\ key w = key v.
  Definition face_of (vs : list (v3 (F := F))) (f : list nat) (t : triangle (F := F)) : Prop := Forall2 (corner vs) f [v0 t; v1 t; v2 t].
End Corners.

Section Ascii.
  Context {F : Type}.
  Variables (fmt : F -> list Z) (number : list Z -> F).
  (** the number that comes back from the text *)
  Definition through3 (v : v3 (F := F)) : v3 := let '(x, y, z) := v in (number (fmt x), number (fmt y), number (fmt z)).
  Definition through (t : triangle (F := F)) : triangle := Triangle (through3 (normal t)) (through3 (v0 t)) (through3 (v1 t)) (through3 (v2 t)).
  (** written with digits, '.', 'e', '+' and '-' only: true of finite numbers, false of inf and nan *)
  Definition decimal_char (c : Z) : bool := ((48 <=? c) && (c <=? 57)) || (c =? 46) || (c =? 101) || (c =? 43) || (c =? 45).
  Definition decimal (f : F) : Prop := fmt f <> [] /\ forallb decimal_char (fmt f) = true.
  Definition decimal3 (v : v3 (F := F)) : Prop := let '(x, y, z) := v in decimal x /\ decimal y /\ decimal z.
  Definition decimal_triangle (t : triangle (F := F)) : Prop := decimal3 (normal t) /\ decimal3 (v0 t) /\ decimal3 (v1 t) /\ decimal3 (v2 t).
End Ascii.
(** what is used of Python's \s and \d: the ASCII blanks and digits *)
Definition ascii_classes (blank digit : Z -> bool) : Prop :=
  forall c, 0 <= c < 128 -> blank c = space c /\ digit c = (48 <=? c) && (c <=? 57).
(** the word "facet" occurs, in any case *)
Definition mentions_facet (name : list Z) : bool := contains facet_word (map lower name).
