(** The tables of built-in functions and methods: src/yapcad/dsl/symbols.py (what the static
    checker knows) and src/yapcad/dsl/runtime/builtins.py (what the interpreter can call),
    transcribed entry by entry; the number after each entry is its line. *)
From Coq Require Import ZArith String List Bool.
From Verif Require Import Dict Lex_Model Ast Types_Model Interp_Model Check_Model.
Import ListNotations.
Open Scope string_scope.
Open Scope list_scope.

(** types.py:329-348 *)
Definition LINE_SEGMENT := TCurve "line_segment". Definition ARC := TCurve "arc".
Definition CIRCLE := TCurve "circle". Definition ELLIPSE := TCurve "ellipse".
Definition CATMULLROM := TCurve "catmullrom". Definition NURBS := TCurve "nurbs".
Definition BEZIER := TCurve "bezier". Definition PATH2D := TComp "path2d".
Definition PATH3D := TComp "path3d". Definition LOOP3D := TComp "loop3d".
Definition SURFACE := TSurf "surface". Definition SHELL := TSurf "shell".

(** A required and an optional parameter; a signature. *)
Definition req (n : string) (t : typ) : name * typ * bool := (codes n, t, false).
Definition opt (n : string) (t : typ) : name * typ * bool := (codes n, t, true).
Definition sig (n : string) (ps : list (name * typ * bool)) (r : typ) : string * signature :=
  (n, Signature (codes n) ps r).

(** symbols.py:101-770 _init_builtins (the second registration of text_solid wins). *)
Definition builtin_table : list (string * signature) := [
  sig "point" [req "x" FLOAT; req "y" FLOAT; opt "z" FLOAT] POINT;  (* 104 *)
  sig "point2d" [req "x" FLOAT; req "y" FLOAT] POINT2D;  (* 111 *)
  sig "vector" [req "dx" FLOAT; req "dy" FLOAT; req "dz" FLOAT] VECTOR;  (* 116 *)
  sig "vector2d" [req "dx" FLOAT; req "dy" FLOAT] VECTOR2D;  (* 123 *)
  sig "translate" [req "s" SOLID; req "x" FLOAT; req "y" FLOAT; req "z" FLOAT] SOLID;  (* 129 *)
  sig "rotate" [req "s" SOLID; req "x" FLOAT; req "y" FLOAT; req "z" FLOAT] SOLID;  (* 135 *)
  sig "scale" [req "s" SOLID; req "x" FLOAT; req "y" FLOAT; req "z" FLOAT] SOLID;  (* 141 *)
  sig "translate_xform" [req "v" VECTOR] TRANSFORM;  (* 149 *)
  sig "rotate_xform" [req "axis" VECTOR3D; req "angle" FLOAT] TRANSFORM;  (* 150 *)
  sig "rotate_2d" [req "angle" FLOAT] TRANSFORM;  (* 154 *)
  sig "scale_xform" [req "factors" VECTOR] TRANSFORM;  (* 155 *)
  sig "scale_uniform" [req "factor" FLOAT] TRANSFORM;  (* 156 *)
  sig "mirror" [req "s" SOLID; req "plane_normal" VECTOR3D] SOLID;  (* 157 *)
  sig "mirror_2d" [req "axis" VECTOR2D] TRANSFORM;  (* 158 *)
  sig "mirror_y" [] TRANSFORM;  (* 159 *)
  sig "identity_transform" [] TRANSFORM;  (* 160 *)
  sig "line" [req "start" POINT; req "end" POINT] LINE_SEGMENT;  (* 163 *)
  sig "arc" [req "center" POINT; req "radius" FLOAT; req "start_angle" FLOAT; req "end_angle" FLOAT] ARC;  (* 168 *)
  sig "circle" [req "center" POINT; req "radius" FLOAT] CIRCLE;  (* 175 *)
  sig "ellipse" [req "center" POINT; req "semi_major" FLOAT; req "semi_minor" FLOAT; opt "rotation" FLOAT; opt "start" FLOAT; opt "end" FLOAT] ELLIPSE;  (* 180 *)
  sig "bezier" [req "control_points" (TLst POINT)] BEZIER;  (* 189 *)
  sig "catmullrom" [req "points" (TLst POINT); opt "closed" BOOL; opt "alpha" FLOAT] CATMULLROM;  (* 193 *)
  sig "nurbs" [req "points" (TLst POINT); opt "weights" (TLst FLOAT); opt "degree" INT] NURBS;  (* 199 *)
  sig "sample_curve" [req "curve" TUnknown; req "t" FLOAT] POINT;  (* 206 *)
  sig "sample_curve_n" [req "curve" TUnknown; req "n" INT] (TLst POINT);  (* 211 *)
  sig "curve_length" [req "curve" TUnknown] FLOAT;  (* 216 *)
  sig "path" [req "segments" (TLst TUnknown)] PATH2D;  (* 221 *)
  sig "join" [req "p1" PATH2D; req "p2" PATH2D] PATH2D;  (* 225 *)
  sig "make_path3d" [req "segment" PATH3D] PATH3D;  (* 231, variadic *)
  sig "path3d_line" [req "start" POINT3D; req "end" POINT3D] PATH3D;  (* 235 *)
  sig "path3d_arc" [req "center" POINT3D; req "start" POINT3D; req "end" POINT3D; req "normal" VECTOR3D] PATH3D;  (* 240 *)
  sig "path3d_arc_auto" [req "center" POINT3D; req "start" POINT3D; req "end" POINT3D; req "flip" BOOL] PATH3D;  (* 250 *)
  sig "close" [req "p" PROFILE2D] REGION2D;  (* 257 *)
  sig "closeC0" [req "p" PROFILE2D] REGION2D;  (* 258 *)
  sig "closeC1" [req "p" PROFILE2D] REGION2D;  (* 259 *)
  sig "rectangle" [req "width" FLOAT; req "height" FLOAT; opt "center" POINT2D] REGION2D;  (* 261 *)
  sig "regular_polygon" [req "n" INT; req "radius" FLOAT; opt "center" POINT2D] REGION2D;  (* 267 *)
  sig "polygon" [req "points" (TLst POINT)] REGION2D;  (* 274 *)
  sig "disk" [req "center" POINT; req "radius" FLOAT; opt "segments" INT] REGION2D;  (* 279 *)
  sig "union2d" [req "a" REGION2D; req "b" REGION2D] REGION2D;  (* 286 *)
  sig "difference2d" [req "a" REGION2D; req "b" REGION2D] REGION2D;  (* 291 *)
  sig "intersection2d" [req "a" REGION2D; req "b" REGION2D] REGION2D;  (* 296 *)
  sig "union2d_all" [req "regions" (TLst REGION2D)] REGION2D;  (* 302 *)
  sig "difference2d_all" [req "base" REGION2D; req "tools" (TLst REGION2D)] REGION2D;  (* 306 *)
  sig "intersection2d_all" [req "regions" (TLst REGION2D)] REGION2D;  (* 311 *)
  sig "make_path2d" [req "curves" (TLst TUnknown)] PATH2D;  (* 316 *)
  sig "close_path" [req "path" PATH2D] REGION2D;  (* 320 *)
  sig "region_from_spline" [req "spline" TUnknown; opt "segments" INT] REGION2D;  (* 325 *)
  sig "planar_surface" [req "boundary" LOOP3D] SURFACE;  (* 331 *)
  sig "cylindrical_surface" [req "axis" VECTOR3D; req "radius" FLOAT; req "height" FLOAT] SURFACE;  (* 335 *)
  sig "loft_surface" [req "profiles" (TLst PATH3D)] SURFACE;  (* 341 *)
  sig "shell" [req "surfaces" (TLst SURFACE)] SHELL;  (* 345 *)
  sig "extrude" [req "profile" REGION2D; req "height" FLOAT; opt "direction" VECTOR3D] SOLID;  (* 350 *)
  sig "revolve" [req "profile" REGION2D; req "axis" VECTOR3D; req "angle" FLOAT] SOLID;  (* 356 *)
  sig "sweep" [req "profile" REGION2D; req "spine" PATH3D] SOLID;  (* 362 *)
  sig "sweep_hollow" [req "outer_profile" REGION2D; req "inner_profile" REGION2D; req "spine" PATH3D] SOLID;  (* 367 *)
  sig "sweep_adaptive" [req "profile" REGION2D; req "spine" PATH3D; req "threshold" FLOAT] SOLID;  (* 373 *)
  sig "sweep_adaptive_hollow" [req "outer_profile" REGION2D; req "inner_profiles" REGION2D; req "spine" PATH3D; req "threshold" FLOAT] SOLID;  (* 379 *)
  sig "sweep_adaptive_frenet" [req "profile" REGION2D; req "spine" PATH3D; req "threshold" FLOAT] SOLID;  (* 387 *)
  sig "sweep_adaptive_hollow_frenet" [req "outer_profile" REGION2D; req "inner_profiles" REGION2D; req "spine" PATH3D; req "threshold" FLOAT] SOLID;  (* 393 *)
  sig "loft" [req "profiles" (TLst REGION2D)] SOLID;  (* 400 *)
  sig "box" [req "width" FLOAT; req "depth" FLOAT; req "height" FLOAT] SOLID;  (* 404 *)
  sig "cylinder" [req "radius" FLOAT; req "height" FLOAT] SOLID;  (* 410 *)
  sig "sphere" [req "radius" FLOAT] SOLID;  (* 415 *)
  sig "oblate_spheroid" [req "equatorial_diameter" FLOAT; req "oblateness" FLOAT] SOLID;  (* 419 *)
  sig "cone" [req "radius1" FLOAT; req "radius2" FLOAT; req "height" FLOAT] SOLID;  (* 424 *)
  sig "involute_gear" [req "teeth" INT; req "module_mm" FLOAT; req "pressure_angle" FLOAT; req "face_width" FLOAT] SOLID;  (* 431 *)
  sig "herringbone_gear" [req "teeth" INT; req "module_mm" FLOAT; req "face_width" FLOAT; req "helix_angle" FLOAT] SOLID;  (* 439 *)
  sig "sun_gear_with_hub" [req "teeth" INT; req "module_mm" FLOAT; req "face_width" FLOAT; req "helix_angle" FLOAT; req "hub_diameter" FLOAT; req "hub_height" FLOAT; req "bolt_circle" FLOAT; req "num_bolts" INT; req "bolt_hole_diameter" FLOAT] SOLID;  (* 447 *)
  sig "dodecahedron" [req "diameter" FLOAT] SOLID;  (* 460 *)
  sig "tube" [req "outer_diameter" FLOAT; req "wall_thickness" FLOAT; req "length" FLOAT] SOLID;  (* 464 *)
  sig "conic_tube" [req "bottom_od" FLOAT; req "top_od" FLOAT; req "wall_thickness" FLOAT; req "length" FLOAT] SOLID;  (* 470 *)
  sig "spherical_shell" [req "outer_diameter" FLOAT; req "wall_thickness" FLOAT] SOLID;  (* 477 *)
  sig "helical_extrude" [req "profile" REGION2D; req "height" FLOAT; req "twist_angle" FLOAT] SOLID;  (* 482 *)
  sig "text_solid" [req "text" STRING; req "height" FLOAT; req "depth" FLOAT] SOLID;  (* 560 *)
  sig "engrave_text" [req "target" SOLID; req "text" STRING; req "position" VECTOR3D; req "normal" VECTOR3D; req "height" FLOAT; req "depth" FLOAT; req "spacing" FLOAT] SOLID;  (* 496 *)
  sig "text_width" [req "text" STRING; req "height" FLOAT; req "spacing" FLOAT] FLOAT;  (* 506 *)
  sig "path3d_eval" [req "path" PATH3D; req "t" FLOAT] POINT3D;  (* 513 *)
  sig "path3d_length" [req "path" PATH3D] FLOAT;  (* 518 *)
  sig "split_solid" [req "s" SOLID; req "plane_point" POINT3D; req "plane_normal" VECTOR3D] SOLID;  (* 522 *)
  sig "planet_gear_with_hub" [req "teeth" INT; req "module_mm" FLOAT; req "face_width" FLOAT; req "helix_angle" FLOAT; req "bore_diameter" FLOAT] SOLID;  (* 530 *)
  sig "metric_hex_bolt" [req "size" STRING; req "length" FLOAT] SOLID;  (* 540 *)
  sig "metric_hex_nut" [req "size" STRING] SOLID;  (* 545 *)
  sig "unified_hex_bolt" [req "size" STRING; req "length" FLOAT] SOLID;  (* 550 *)
  sig "unified_hex_nut" [req "size" STRING] SOLID;  (* 555 *)
  sig "text_solid_fitted" [req "text" STRING; req "max_width" FLOAT; req "depth" FLOAT] SOLID;  (* 566 *)
  sig "text_on_surface" [req "text" STRING; req "surface_center" POINT3D; req "surface_normal" POINT3D; req "up_direction" POINT3D; req "max_width" FLOAT; req "depth" FLOAT] SOLID;  (* 574 *)
  sig "union" [req "a" SOLID; req "b" SOLID] SOLID;  (* 584, variadic *)
  sig "difference" [req "a" SOLID; req "b" SOLID] SOLID;  (* 589, variadic *)
  sig "intersection" [req "a" SOLID; req "b" SOLID] SOLID;  (* 594, variadic *)
  sig "compound" [req "a" SOLID; req "b" SOLID] SOLID;  (* 599, variadic *)
  sig "union_all" [req "solids" (TLst SOLID)] SOLID;  (* 605 *)
  sig "difference_all" [req "base" SOLID; req "tools" (TLst SOLID)] SOLID;  (* 609 *)
  sig "intersection_all" [req "solids" (TLst SOLID)] SOLID;  (* 614 *)
  sig "fillet" [req "s" SOLID; req "radius" FLOAT] SOLID;  (* 619 *)
  sig "chamfer" [req "s" SOLID; req "distance" FLOAT] SOLID;  (* 624 *)
  sig "radial_pattern" [req "shape" TUnknown; req "count" INT; req "axis" VECTOR3D; req "center" POINT] TUnknown;  (* 630 *)
  sig "linear_pattern" [req "shape" TUnknown; req "count" INT; req "spacing" VECTOR] TUnknown;  (* 637 *)
  sig "volume" [req "s" SOLID] FLOAT;  (* 644 *)
  sig "surface_area" [req "s" SOLID] FLOAT;  (* 645 *)
  sig "area" [req "r" REGION2D] FLOAT;  (* 646 *)
  sig "perimeter" [req "r" REGION2D] FLOAT;  (* 647 *)
  sig "centroid" [req "s" SOLID] POINT3D;  (* 648 *)
  sig "distance" [req "a" POINT; req "b" POINT; req "tolerance" FLOAT] FLOAT;  (* 649 *)
  sig "apply" [req "t" TRANSFORM; req "shape" SOLID] SOLID;  (* 656 *)
  sig "apply_surface" [req "t" TRANSFORM; req "shape" SURFACE] SURFACE;  (* 660 *)
  sig "apply_point" [req "t" TRANSFORM; req "p" POINT] POINT;  (* 664 *)
  sig "apply_vector" [req "t" TRANSFORM; req "v" VECTOR3D] VECTOR3D;  (* 668 *)
  sig "sin" [req "x" FLOAT] FLOAT;  (* 674 *)
  sig "cos" [req "x" FLOAT] FLOAT;  (* 675 *)
  sig "tan" [req "x" FLOAT] FLOAT;  (* 676 *)
  sig "asin" [req "x" FLOAT] FLOAT;  (* 677 *)
  sig "acos" [req "x" FLOAT] FLOAT;  (* 678 *)
  sig "atan" [req "x" FLOAT] FLOAT;  (* 679 *)
  sig "atan2" [req "y" FLOAT; req "x" FLOAT] FLOAT;  (* 680 *)
  sig "sqrt" [req "x" FLOAT] FLOAT;  (* 681 *)
  sig "abs" [req "x" FLOAT] FLOAT;  (* 682 *)
  sig "min" [req "a" FLOAT; req "b" FLOAT] FLOAT;  (* 683 *)
  sig "max" [req "a" FLOAT; req "b" FLOAT] FLOAT;  (* 684 *)
  sig "radians" [req "degrees" FLOAT] FLOAT;  (* 685 *)
  sig "degrees" [req "radians" FLOAT] FLOAT;  (* 686 *)
  sig "floor" [req "x" FLOAT] INT;  (* 687 *)
  sig "ceil" [req "x" FLOAT] INT;  (* 688 *)
  sig "round" [req "x" FLOAT] INT;  (* 689 *)
  sig "pow" [req "base" FLOAT; req "exp" FLOAT] FLOAT;  (* 690 *)
  sig "exp" [req "x" FLOAT] FLOAT;  (* 691 *)
  sig "log" [req "x" FLOAT] FLOAT;  (* 692 *)
  sig "log10" [req "x" FLOAT] FLOAT;  (* 693 *)
  sig "pi" [] FLOAT;  (* 694 *)
  sig "tau" [] FLOAT;  (* 695 *)
  sig "len" [req "list" (TLst TUnknown)] INT;  (* 698 *)
  sig "range" [req "end" INT] (TLst INT);  (* 699, variadic *)
  sig "concat" [req "list1" (TLst TUnknown); req "list2" (TLst TUnknown)] (TLst TUnknown);  (* 700 *)
  sig "reverse" [req "list" (TLst TUnknown)] (TLst TUnknown);  (* 704 *)
  sig "flatten" [req "list" (TLst (TLst TUnknown))] (TLst TUnknown);  (* 707 *)
  sig "print" [req "value" TUnknown] BOOL;  (* 710, variadic *)
  sig "sum" [req "values" (TLst FLOAT)] FLOAT;  (* 713 *)
  sig "product" [req "values" (TLst FLOAT)] FLOAT;  (* 716 *)
  sig "any_true" [req "values" (TLst BOOL)] BOOL;  (* 719 *)
  sig "all_true" [req "values" (TLst BOOL)] BOOL;  (* 722 *)
  sig "min_of" [req "values" (TLst FLOAT)] FLOAT;  (* 725 *)
  sig "max_of" [req "values" (TLst FLOAT)] FLOAT;  (* 728 *)
  sig "is_empty" [req "s" SOLID] BOOL;  (* 733 *)
  sig "empty_solid" [] SOLID;  (* 734 *)
  sig "empty_region" [] REGION2D;  (* 735 *)
  sig "assembly" [req "name" STRING] ASSEMBLY;  (* 744 *)
  sig "add_part" [req "asm" ASSEMBLY; req "solid" SOLID; req "name" STRING] ASSEMBLY;  (* 747 *)
  sig "add_mate" [req "asm" ASSEMBLY; req "kind" STRING; req "part_a" STRING; req "datum_a" STRING; req "part_b" STRING; req "datum_b" STRING] ASSEMBLY;  (* 752 *)
  sig "validate_assembly" [req "asm" ASSEMBLY] BOOL;  (* 760 *)
  sig "assembly_report" [req "asm" ASSEMBLY] STRING;  (* 763 *)
  sig "emit_assembly" [req "asm" ASSEMBLY] STRING  (* 766 *)
].
(** symbols.py:806-808 lookup_builtin *)
Definition in_table {A} (tab : list (string * A)) (n : name) : option A :=
  option_map snd (find (fun kv => name_eqb n (codes (fst kv))) tab).
Definition checker_builtins : name -> option signature := in_table builtin_table.

(** symbols.py:832-960 the method tables *)
Definition curve_methods := [
  sig "at" [req "t" FLOAT] POINT; sig "tangent_at" [req "t" FLOAT] VECTOR; sig "normal_at" [req "t" FLOAT] VECTOR;
  sig "curvature_at" [req "t" FLOAT] FLOAT; sig "length" [] FLOAT].
Definition solid_methods := [
  sig "union" [req "other" SOLID] SOLID; sig "difference" [req "other" SOLID] SOLID;
  sig "intersection" [req "other" SOLID] SOLID; sig "translate" [req "v" VECTOR] SOLID;
  sig "rotate" [req "axis" VECTOR3D; req "angle" FLOAT] SOLID; sig "scale" [req "factors" VECTOR] SOLID;
  sig "apply" [req "t" TRANSFORM] SOLID].
Definition region2d_methods := [
  sig "union" [req "other" REGION2D] REGION2D; sig "difference" [req "other" REGION2D] REGION2D;
  sig "intersection" [req "other" REGION2D] REGION2D].
Definition transform_methods := [
  sig "compose" [req "other" TRANSFORM] TRANSFORM; sig "inverse" [] TRANSFORM;
  sig "translation" [] VECTOR3D; sig "is_rigid" [] BOOL].
(** symbols.py:963-980 get_method_signature *)
Definition checker_methods (t : typ) (n : name) : option signature :=
  match t with
  | TCurve _ => in_table curve_methods n
  | TSol _ => in_table solid_methods n
  | TComp c => if String.eqb c "region2d" then in_table region2d_methods n else None
  | TGeo g _ => if String.eqb g "transform" then in_table transform_methods n else None
  | _ => None
  end.

(** builtins.py:53-3860: the registered functions, with the least and the greatest number of
    positional arguments of their implementation ([None]: *args). *)
Definition runtime_table : list (string * (nat * option nat)) := [
  ("min", (0, None));  (* 164 *)
  ("max", (0, None));  (* 171 *)
  ("pi", (0, Some 0));  (* 187 *)
  ("tau", (0, Some 0));  (* 190 *)
  ("point", (0, None));  (* 263 *)
  ("point2d", (2, Some 2));  (* 285 *)
  ("vector", (0, None));  (* 275 *)
  ("vector2d", (2, Some 2));  (* 290 *)
  ("translate", (4, Some 4));  (* 348 *)
  ("rotate", (4, Some 4));  (* 355 *)
  ("scale", (4, Some 4));  (* 373 *)
  ("scale_uniform", (1, Some 1));  (* 397 *)
  ("rotate_2d", (1, Some 1));  (* 403 *)
  ("mirror_2d", (1, Some 1));  (* 409 *)
  ("mirror_y", (0, Some 0));  (* 426 *)
  ("mirror", (2, Some 2));  (* 431 *)
  ("translate_xform", (1, Some 1));  (* 328 *)
  ("rotate_xform", (2, Some 2));  (* 333 *)
  ("scale_xform", (1, Some 1));  (* 338 *)
  ("identity_transform", (0, Some 0));  (* 343 *)
  ("apply", (2, Some 2));  (* 493 *)
  ("apply_surface", (2, Some 2));  (* 493 *)
  ("apply_point", (2, Some 2));  (* 493 *)
  ("apply_vector", (2, Some 2));  (* 493 *)
  ("line", (2, Some 2));  (* 572 *)
  ("arc", (4, Some 4));  (* 577 *)
  ("circle", (2, Some 2));  (* 585 *)
  ("ellipse", (3, None));  (* 609 *)
  ("catmullrom", (1, None));  (* 644 *)
  ("nurbs", (1, None));  (* 685 *)
  ("bezier", (1, Some 1));  (* 744 *)
  ("sample_curve", (2, Some 2));  (* 788 *)
  ("sample_curve_n", (2, Some 2));  (* 816 *)
  ("curve_length", (1, Some 1));  (* 848 *)
  ("make_path3d", (0, None));  (* 900 *)
  ("path3d_line", (2, Some 2));  (* 925 *)
  ("path3d_arc", (4, Some 4));  (* 947 *)
  ("path3d_arc_auto", (4, Some 4));  (* 991 *)
  ("rectangle", (2, None));  (* 1063 *)
  ("regular_polygon", (2, None));  (* 1090 *)
  ("polygon", (1, Some 1));  (* 1124 *)
  ("disk", (2, None));  (* 1158 *)
  ("union2d", (2, Some 2));  (* 1193 *)
  ("difference2d", (2, Some 2));  (* 1207 *)
  ("intersection2d", (2, Some 2));  (* 1295 *)
  ("union2d_all", (1, Some 1));  (* 1326 *)
  ("difference2d_all", (2, Some 2));  (* 1339 *)
  ("intersection2d_all", (1, Some 1));  (* 1352 *)
  ("make_path2d", (1, Some 1));  (* 1382 *)
  ("close_path", (1, Some 1));  (* 1400 *)
  ("region_from_spline", (1, None));  (* 1458 *)
  ("box", (3, Some 3));  (* 1519 *)
  ("cylinder", (2, Some 2));  (* 1524 *)
  ("sphere", (1, Some 1));  (* 1532 *)
  ("oblate_spheroid", (2, Some 2));  (* 1537 *)
  ("cone", (3, Some 3));  (* 1558 *)
  ("extrude", (2, None));  (* 1565 *)
  ("revolve", (3, Some 3));  (* 1578 *)
  ("sweep", (2, Some 2));  (* 1583 *)
  ("sweep_hollow", (3, Some 3));  (* 1596 *)
  ("sweep_adaptive", (3, Some 3));  (* 1662 *)
  ("sweep_adaptive_hollow", (4, Some 4));  (* 1684 *)
  ("sweep_adaptive_frenet", (3, Some 3));  (* 1717 *)
  ("sweep_adaptive_hollow_frenet", (4, Some 4));  (* 1744 *)
  ("loft", (1, Some 1));  (* 1778 *)
  ("involute_gear", (4, Some 4));  (* 1831 *)
  ("herringbone_gear", (4, Some 4));  (* 1874 *)
  ("sun_gear_with_hub", (9, Some 9));  (* 1979 *)
  ("dodecahedron", (1, Some 1));  (* 2182 *)
  ("tube", (3, Some 3));  (* 2188 *)
  ("conic_tube", (4, Some 4));  (* 2193 *)
  ("spherical_shell", (2, Some 2));  (* 2198 *)
  ("helical_extrude", (3, Some 3));  (* 2203 *)
  ("text_solid", (4, Some 4));  (* 2239 *)
  ("engrave_text", (7, Some 7));  (* 2247 *)
  ("text_width", (3, Some 3));  (* 2258 *)
  ("path3d_eval", (2, Some 2));  (* 2286 *)
  ("path3d_length", (1, Some 1));  (* 2293 *)
  ("split_solid", (3, Some 3));  (* 2298 *)
  ("text_solid_fitted", (3, Some 3));  (* 2331 *)
  ("text_on_surface", (6, Some 8));  (* 2358 *)
  ("metric_hex_bolt", (2, Some 2));  (* 2436 *)
  ("metric_hex_nut", (1, Some 1));  (* 2449 *)
  ("unified_hex_bolt", (2, Some 2));  (* 2461 *)
  ("unified_hex_nut", (1, Some 1));  (* 2474 *)
  ("union", (0, None));  (* 2515 *)
  ("difference", (1, None));  (* 2530 *)
  ("intersection", (0, None));  (* 2543 *)
  ("compound", (0, None));  (* 2558 *)
  ("union_all", (1, Some 1));  (* 2644 *)
  ("difference_all", (2, Some 2));  (* 2648 *)
  ("intersection_all", (1, Some 1));  (* 2657 *)
  ("radial_pattern", (4, Some 4));  (* 2678 *)
  ("linear_pattern", (3, Some 3));  (* 2713 *)
  ("centroid", (1, Some 1));  (* 2830 *)
  ("distance", (3, Some 3));  (* 2867 *)
  ("volume", (1, Some 1));  (* 2762 *)
  ("surface_area", (1, Some 1));  (* 2767 *)
  ("area", (1, Some 1));  (* 2772 *)
  ("perimeter", (1, Some 1));  (* 2804 *)
  ("len", (1, Some 1));  (* 2910 *)
  ("range", (0, None));  (* 2914 *)
  ("concat", (2, Some 2));  (* 2931 *)
  ("reverse", (1, Some 1));  (* 2939 *)
  ("flatten", (1, Some 1));  (* 2946 *)
  ("print", (0, None));  (* 2926 *)
  ("sum", (1, Some 1));  (* 2995 *)
  ("product", (1, Some 1));  (* 3003 *)
  ("any_true", (1, Some 1));  (* 3011 *)
  ("all_true", (1, Some 1));  (* 3019 *)
  ("min_of", (1, Some 1));  (* 3027 *)
  ("max_of", (1, Some 1));  (* 3034 *)
  ("fillet", (2, Some 2));  (* 3077 *)
  ("chamfer", (2, Some 2));  (* 3118 *)
  ("select_vertical_edges", (1, Some 2));  (* 3177 *)
  ("select_horizontal_edges", (1, Some 2));  (* 3201 *)
  ("select_edges_by_direction", (2, Some 3));  (* 3225 *)
  ("select_edges_by_length", (1, Some 3));  (* 3253 *)
  ("select_edges_at_z", (2, Some 3));  (* 3281 *)
  ("select_edges_in_z_range", (3, Some 4));  (* 3307 *)
  ("select_top_edges", (1, Some 2));  (* 3335 *)
  ("select_bottom_edges", (1, Some 2));  (* 3359 *)
  ("union_edges", (2, Some 2));  (* 3385 *)
  ("intersect_edges", (2, Some 2));  (* 3400 *)
  ("subtract_edges", (2, Some 2));  (* 3415 *)
  ("fillet_edges", (3, Some 3));  (* 3432 *)
  ("chamfer_edges", (3, Some 3));  (* 3466 *)
  ("assembly", (1, Some 1));  (* 3753 *)
  ("add_part", (3, Some 3));  (* 3757 *)
  ("add_mate", (6, Some 6));  (* 3769 *)
  ("validate_assembly", (1, Some 1));  (* 3795 *)
  ("assembly_report", (1, Some 1));  (* 3805 *)
  ("emit_assembly", (1, Some 1));  (* 3809 *)
  ("sin", (1, Some 1));  (* 126 *)
  ("cos", (1, Some 1));  (* 129 *)
  ("tan", (1, Some 1));  (* 132 *)
  ("asin", (1, Some 1));  (* 135 *)
  ("acos", (1, Some 1));  (* 138 *)
  ("atan", (1, Some 1));  (* 141 *)
  ("atan2", (2, Some 2));  (* 144 *)
  ("sqrt", (1, Some 1));  (* 147 *)
  ("abs", (1, Some 1));  (* 150 *)
  ("floor", (1, Some 1));  (* 155 *)
  ("ceil", (1, Some 1));  (* 158 *)
  ("round", (1, Some 1));  (* 161 *)
  ("pow", (2, Some 2));  (* 178 *)
  ("radians", (1, Some 1));  (* 181 *)
  ("degrees", (1, Some 1));  (* 184 *)
  ("exp", (1, Some 1));  (* 193 *)
  ("log", (1, Some 1));  (* 202 *)
  ("log10", (1, Some 1))  (* 205 *)
]%nat.
Definition runtime_arity : name -> option (nat * option nat) := in_table runtime_table.

(** builtins.py:3875-3886 call_builtin: what every implementation shares.  The host's
    built-ins are the registered ones: an unknown name is a RuntimeError, a wrong number of
    arguments Python's TypeError, in both cases before anything else happens. *)
Definition takes (ar : nat * option nat) (n : nat) : bool :=
  (fst ar <=? n)%nat && match snd ar with Some hi => (n <=? hi)%nat | None => true end.
Record real_host (H : host) : Prop := RealHost {
  rh_unknown : forall n vs w, runtime_arity n = None -> h_builtin H n vs w = (inr (ERuntime "Unknown built-in function"), w);
  rh_arity : forall n ar vs w, runtime_arity n = Some ar -> takes ar (length vs) = false ->
    h_builtin H n vs w = (inr (EOther "TypeError"), w) }.
