(** Model of the DSL's types: src/yapcad/dsl/types.py.
    Simplification: tiers and CURVE_METHODS are dropped; abstract `Type` is the sum of
    its subclasses; names are strings. *)
From Coq Require Import ZArith String List Bool.
Import ListNotations.
Open Scope string_scope.
Open Scope list_scope.

(** types.py:58-299, one constructor per dataclass: PrimitiveType, GeometricPrimitiveType,
    CurveType, CompoundCurveType, SurfaceType, SolidType, ListType, DictType,
    OptionalTypeWrapper, NoneType, FunctionType, UnknownType, ErrorType. *)
Inductive typ :=
  | TPrim (n : string)
  | TGeo (n : string) (dim : option Z)
  | TCurve (n : string)
  | TComp (n : string)
  | TSurf (n : string)
  | TSol (n : string)
  | TLst (t : typ)
  | TDict
  | TOpt (t : typ)
  | TNone
  | TFun (ps : list typ) (r : typ)
  | TUnknown
  | TError.

(** == on frozen dataclasses: same class, equal fields. *)
Definition dim_eqb (a b : option Z) : bool :=
  match a, b with Some x, Some y => Z.eqb x y | None, None => true | _, _ => false end.
Fixpoint ty_eqb (a b : typ) : bool :=
  match a, b with
  | TPrim m, TPrim n | TCurve m, TCurve n | TComp m, TComp n | TSurf m, TSurf n | TSol m, TSol n => String.eqb m n
  | TGeo m d, TGeo n e => String.eqb m n && dim_eqb d e
  | TLst s, TLst t | TOpt s, TOpt t => ty_eqb s t
  | TDict, TDict | TNone, TNone | TUnknown, TUnknown | TError, TError => true
  | TFun ps r, TFun qs s =>
      (fix go (ps qs : list typ) : bool :=
         match ps, qs with
         | [], [] => true | p :: ps, q :: qs => ty_eqb p q && go ps qs | _, _ => false end) ps qs
      && ty_eqb r s
  | _, _ => false
  end.

Definition isin (n : string) (l : list string) : bool := existsb (String.eqb n) l.

(** types.py:50-52, 69-76, 98-121, 148-159, 207-210, 243-247, 284-299 is_assignable_from:
    can [self] accept a value of type [other]. *)
Fixpoint is_assignable_from (self other : typ) : bool :=
  match self with
  | TPrim n =>
      ty_eqb self other ||
      (String.eqb n "float" && match other with TPrim m => String.eqb m "int" | _ => false end)
  | TGeo n _ =>
      ty_eqb self other ||
      match other with
      | TGeo m _ =>
          (String.eqb n "point" && isin m ["point2d"; "point3d"; "point"]) ||
          (String.eqb n "vector" && isin m ["vector2d"; "vector3d"; "vector"]) ||
          (String.eqb n "point2d" && isin m ["point2d"; "point"]) ||
          (String.eqb n "point3d" && isin m ["point3d"; "point"]) ||
          (String.eqb n "vector2d" && isin m ["vector2d"; "vector"]) ||
          (String.eqb n "vector3d" && isin m ["vector3d"; "vector"])
      | _ => false
      end
  | TComp n =>
      ty_eqb self other ||
      match other with TComp m => String.eqb n "region2d" && String.eqb m "profile2d" | _ => false end
  | TLst e => match other with TLst f => is_assignable_from e f | _ => false end
  | TOpt i => match other with TOpt j => is_assignable_from i j | _ => is_assignable_from i other end
  | TUnknown | TError => true
  | TCurve _ | TSurf _ | TSol _ | TDict | TNone | TFun _ _ => ty_eqb self other
  end.

(** types.py:306-360, the built-in instances. *)
Definition INT := TPrim "int". Definition FLOAT := TPrim "float".
Definition BOOL := TPrim "bool". Definition STRING := TPrim "string".
Definition POINT := TGeo "point" None. Definition POINT2D := TGeo "point2d" (Some 2%Z).
Definition POINT3D := TGeo "point3d" (Some 3%Z). Definition VECTOR := TGeo "vector" None.
Definition VECTOR2D := TGeo "vector2d" (Some 2%Z). Definition VECTOR3D := TGeo "vector3d" (Some 3%Z).
Definition TRANSFORM := TGeo "transform" None.
Definition ASSEMBLY := TGeo "assembly" None. Definition EDGE := TGeo "edge" None.
Definition SOLID := TSol "solid".
Definition PROFILE2D := TComp "profile2d". Definition REGION2D := TComp "region2d".

(** types.py:368-423 BUILTIN_TYPES and resolve_type_name. *)
Definition BUILTIN_TYPES : list (string * typ) :=
  [("int", INT); ("float", FLOAT); ("bool", BOOL); ("string", STRING);
   ("point", POINT); ("point2d", POINT2D); ("point3d", POINT3D);
   ("vector", VECTOR); ("vector2d", VECTOR2D); ("vector3d", VECTOR3D); ("transform", TRANSFORM)]
  ++ map (fun n => (n, TCurve n))
       ["line_segment"; "arc"; "circle"; "ellipse"; "parabola"; "hyperbola"; "catmullrom"; "nurbs"; "bezier"]
  ++ map (fun n => (n, TComp n)) ["path2d"; "path3d"; "profile2d"; "region2d"; "loop3d"]
  ++ [("surface", TSurf "surface"); ("shell", TSurf "shell"); ("solid", SOLID);
      ("edge", EDGE); ("assembly", ASSEMBLY); ("dict", TDict)].
Definition resolve_type_name (n : string) : option typ :=
  option_map snd (find (fun kv => String.eqb (fst kv) n) BUILTIN_TYPES).

(** types.py:440-442 is_numeric. *)
Definition is_numeric (t : typ) : bool :=
  match t with TPrim n => isin n ["int"; "float"] | _ => false end.
(** types.py:476-500 common_type. *)
Definition common_type (a b : typ) : option typ :=
  if is_assignable_from a b then Some a
  else if is_assignable_from b a then Some b
  else if is_numeric a && is_numeric b then Some FLOAT
  else match a, b with
       | TGeo m _, TGeo n _ =>
           if String.prefix "point" m && String.prefix "point" n then Some POINT
           else if String.prefix "vector" m && String.prefix "vector" n then Some VECTOR
           else None
       | _, _ => None
       end.
