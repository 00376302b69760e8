(** Specification vocabulary for the type theorems. *)
From Coq Require Import ZArith String List.
From Verif Require Import Types_Model.
Import ListNotations.
Open Scope string_scope.
Open Scope list_scope.

(** The built-in types by name, as the language documents them. *)
Definition scalar := ["int"; "float"; "bool"; "string"].
Definition curve := ["line_segment"; "arc"; "circle"; "ellipse"; "parabola"; "hyperbola"; "catmullrom"; "nurbs"; "bezier"].
Definition compound := ["path2d"; "path3d"; "profile2d"; "region2d"; "loop3d"].
Definition surf := ["surface"; "shell"].
(** Types a program can mention or an expression can have: the built-in ones, and
    lists, optionals, functions over them, none, and the recovery types. *)
Inductive type_ok : typ -> Prop :=
  | ok_scalar n : In n scalar -> type_ok (TPrim n)
  | ok_point : type_ok (TGeo "point" None) | ok_point2d : type_ok (TGeo "point2d" (Some 2%Z))
  | ok_point3d : type_ok (TGeo "point3d" (Some 3%Z))
  | ok_vector : type_ok (TGeo "vector" None) | ok_vector2d : type_ok (TGeo "vector2d" (Some 2%Z))
  | ok_vector3d : type_ok (TGeo "vector3d" (Some 3%Z))
  | ok_other n : In n ["transform"; "assembly"; "edge"] -> type_ok (TGeo n None)
  | ok_curve n : In n curve -> type_ok (TCurve n)
  | ok_comp n : In n compound -> type_ok (TComp n)
  | ok_surf n : In n surf -> type_ok (TSurf n)
  | ok_solid : type_ok (TSol "solid")
  | ok_list t : type_ok t -> type_ok (TLst t)
  | ok_opt t : type_ok t -> type_ok (TOpt t)
  | ok_dict : type_ok TDict | ok_none : type_ok TNone
  | ok_fun ps r : type_ok (TFun ps r)
  | ok_unknown : type_ok TUnknown | ok_error : type_ok TError.

Inductive not_opt : typ -> Prop :=
  not_opt_intro t : (forall i, t <> TOpt i) -> not_opt t.
(** The assignments the language permits: [accepts a b], a variable of type a takes a
    value of type b. *)
Inductive accepts : typ -> typ -> Prop :=
  | acc_same t : accepts t t
  | acc_promote : accepts (TPrim "float") (TPrim "int")
  | acc_point b : In b [POINT2D; POINT3D] -> accepts POINT b
  | acc_vector b : In b [VECTOR2D; VECTOR3D] -> accepts VECTOR b
  | acc_point' a : In a [POINT2D; POINT3D] -> accepts a POINT
  | acc_vector' a : In a [VECTOR2D; VECTOR3D] -> accepts a VECTOR
  | acc_region : accepts (TComp "region2d") (TComp "profile2d")
  | acc_list a b : accepts a b -> accepts (TLst a) (TLst b)
  | acc_opt_opt a b : accepts a b -> accepts (TOpt a) (TOpt b)
  | acc_opt a b : not_opt b -> accepts a b -> accepts (TOpt a) b
  | acc_unknown b : accepts TUnknown b
  | acc_error b : accepts TError b.

(** Types in which neither points or vectors nor a recovery type occur (outside the
    signature of a function). *)
Inductive rigid : typ -> Prop :=
  | rg_prim n : rigid (TPrim n) | rg_curve n : rigid (TCurve n) | rg_comp n : rigid (TComp n)
  | rg_surf n : rigid (TSurf n) | rg_sol n : rigid (TSol n)
  | rg_geo n d : In n ["transform"; "assembly"; "edge"] -> rigid (TGeo n d)
  | rg_list t : rigid t -> rigid (TLst t) | rg_opt t : rigid t -> rigid (TOpt t)
  | rg_dict : rigid TDict | rg_none : rigid TNone | rg_fun ps r : rigid (TFun ps r).
