{
 "claims": [
  {
   "property": "C01",
   "status": "proved",
   "theorems": [
    "c01_tokenize_finishes",
    "c01_bound_immaterial"
   ],
   "note": "Termination for every text (fuel shown sufficient and immaterial); last token is the only EOF. CPython recursion limit for >~1000 consecutive newlines inside brackets is not modelled."
  },
  {
   "property": "C02",
   "status": "proved",
   "theorems": [
    "c02_token_spans",
    "c02_source_order",
    "c02_nothing_dropped"
   ],
   "note": "Spans, positions, order, and completeness (nothing dropped)."
  },
  {
   "property": "C03",
   "status": "proved",
   "theorems": [
    "c03_every_indent_is_closed",
    "c03_enough_dedents",
    "c03_balanced_iff_counts_agree"
   ],
   "note": "Every INDENT closed; balance iff counts agree. The converse direction (no stray DEDENT) is refuted in C63."
  },
  {
   "property": "C04",
   "status": "proved",
   "theorems": [
    "c04_string_literal",
    "c04_triple_quoted_literal",
    "c04_every_string_has_a_spelling"
   ],
   "note": "Any spelling, three quote styles; every string has a spelling."
  },
  {
   "property": "C05",
   "status": "proved",
   "theorems": [
    "c05_decimal_literal",
    "c05_decimal_over_limit_is_an_error",
    "c05_hex_literal",
    "c05_binary_literal",
    "c05_every_natural_has_digits",
    "c05_decimal_underscore_splits"
   ],
   "note": "Decimal, hex, binary. Underscores in decimal literals split the token (shown)."
  },
  {
   "property": "C06",
   "status": "proved",
   "theorems": [
    "c06_parsing_finishes",
    "c06_bound_immaterial"
   ],
   "note": "parse is total on every token list; result independent of the recursion bound. CPython recursion limit not modelled. The TypeError escape is C66."
  },
  {
   "property": "C07",
   "status": "proved",
   "theorems": [
    "c07_reads_back",
    "c07_minimal_parentheses_roundtrip",
    "c07_writer_in_grammar",
    "c07_unambiguous"
   ],
   "note": "grammar relation G and minimal-parentheses writer in Parse_Spec; proved for whole programs around the expression. if/match expressions (indented blocks) are outside G."
  },
  {
   "property": "C08",
   "status": "proved",
   "theorems": [
    "c08_no_while",
    "c08_while_rejected"
   ],
   "note": "while_free is an inductive over the whole AST."
  },
  {
   "property": "C09",
   "status": "proved",
   "theorems": [
    "c09_assignable_exactly",
    "c09_reflexive",
    "c09_int_to_float_only",
    "c09_list_covariant",
    "c09_common_accepts_both",
    "c09_transitive_without_points",
    "c09_resolved_types_ok"
   ],
   "note": "exact characterisation for every nesting; full transitivity is C68."
  },
  {
   "property": "C10",
   "status": "proved",
   "theorems": [
    "c10_reports_iff_recursive",
    "c10_warnings_name_cycles"
   ],
   "note": "graph-level model: the call graph is given; how calls are collected from the bodies is not part of this model."
  },
  {
   "property": "C11",
   "status": "partial",
   "theorems": [
    "c11_emitted_type_refuted",
    "c11_parameter_type_refuted",
    "c11_list_element_type_refuted"
   ],
   "note": "REFUTED: a command declared `-> int` emits a string (a variable declared in a loop body survives into the next turn, while the checker resolves the name to the outer variable); parameter values are not checked; list elements carry the type of the first element."
  },
  {
   "property": "C12",
   "status": "proved",
   "theorems": [
    "c12_block_scope",
    "c12_expressions_change_nothing"
   ],
   "note": "Exception made explicit in the statement: names bound by match patterns (see C76)."
  },
  {
   "property": "C13",
   "status": "proved",
   "theorems": [
    "c13_execution_ends",
    "c13_fuel_immaterial"
   ],
   "note": "Host built-ins and inline Python are assumed to return; the exception is C72."
  },
  {
   "property": "C14",
   "status": "proved",
   "theorems": [
    "c14_depth_bounded_and_restored",
    "c14_runaway_recursion_reported"
   ],
   "note": "The limit is also shown exact for unbounded recursion."
  },
  {
   "property": "C15",
   "status": "proved",
   "theorems": [
    "c15_requirement_recorded",
    "c15_failed_requirement_fails"
   ],
   "note": "Requirements of called commands: see C73."
  },
  {
   "property": "C16",
   "status": "proved",
   "theorems": [
    "c16_success_iff",
    "c16_emit_recorded"
   ],
   "note": ""
  },
  {
   "property": "C17",
   "status": "proved",
   "theorems": [
    "c17_connectives",
    "c17_conditional"
   ],
   "note": "Short-circuiting does not hold: see C74."
  },
  {
   "property": "C18",
   "status": "proved",
   "theorems": [
    "c18_comprehension_limits",
    "c18_too_deep_refused"
   ],
   "note": ""
  },
  {
   "property": "C19",
   "status": "proved",
   "theorems": [
    "c19_statements_in_order",
    "c19_straight_line_all_run"
   ],
   "note": "An expression ending a body is not a statement: see C75."
  },
  {
   "property": "C20",
   "status": "partial",
   "theorems": [
    "c20_loop_leaves_outer_variables",
    "c20_accumulate_refuted"
   ],
   "note": "REFUTED: `x = e` parses as a declaration in the loop scope; after any loop without assignment statements every outer variable is unchanged, and summing [1,2,3] gives 0."
  },
  {
   "property": "C21",
   "status": "proved",
   "theorems": [
    "c21_signature_line_endings",
    "c21_every_text_is_read",
    "c21_verify",
    "c21_round_trip",
    "c21_created"
   ],
   "note": "sha256 and str.isspace are parameters; strings with lone surrogates, on which encode() raises, are outside."
  },
  {
   "property": "C22",
   "status": "proved",
   "theorems": [
    "c22_valid_iff",
    "c22_not_a_manifest",
    "c22_altered_file_detected",
    "c22_answer_matches_messages"
   ],
   "note": "YAML, hashing and geometry_from_json are parameters; ill-typed manifests may raise instead of answering."
  },
  {
   "property": "C23",
   "status": "proved",
   "theorems": [
    "c23_created_package_stays_valid"
   ],
   "note": "Assumes that YAML gives back what it was given and that geometry_from_json reads what geometry_to_json wrote."
  },
  {
   "property": "C24",
   "status": "proved",
   "theorems": [
    "c24_paths_unique",
    "c24_last_addition_recorded"
   ],
   "note": ""
  },
  {
   "property": "C25",
   "status": "proved",
   "theorems": [
    "c25_order_and_signatures_irrelevant",
    "c25_digest_covers_the_rest",
    "c25_signing_changes_signatures_only"
   ],
   "note": "Ordinary text: no lone surrogates; string keys; float repr is injective and never looks like another JSON token."
  },
  {
   "property": "C26",
   "status": "proved",
   "theorems": [
    "c26_valid_means_accepted",
    "c26_rejected_is_invalid",
    "c26_altered_manifest_detected",
    "c26_signature_stays_valid",
    "c26_verification_answers",
    "c26_overall",
    "c26_signed_manifest_pins_files"
   ],
   "note": "gpg and ssh-keygen are parameters. Which signer made it: see C103; earlier signatures overwritten: see C104."
  },
  {
   "property": "C27",
   "status": "proved",
   "theorems": [
    "c27_operation_keys",
    "c27_targeted_part",
    "c27_success_means_all_applied",
    "c27_untargeted_part"
   ],
   "note": "For every geometry type and boolean engine (an arbitrary partial function)."
  },
  {
   "property": "C28",
   "status": "proved",
   "theorems": [
    "c28_result_parts",
    "c28_success_iff_no_errors",
    "c28_errors_exact",
    "c28_invalid"
   ],
   "note": "A cutter whose target does not exist is C56 (refuted)."
  },
  {
   "property": "C29",
   "status": "proved",
   "theorems": [
    "c29_staged",
    "c29_stage_isolation",
    "c29_single_stage_is_basic"
   ],
   "note": "Warnings and retained cutters: C58 (refuted)."
  },
  {
   "property": "C30",
   "status": "proved",
   "theorems": [
    "c30_lookup",
    "c30_last_source",
    "c30_last_datum"
   ],
   "note": "Names shared by a file and its part_name: see C117 and C118."
  },
  {
   "property": "C31",
   "status": "proved",
   "theorems": [
    "c31_world_is_current",
    "c31_path_unique",
    "c31_unknown_part_raises",
    "c31_query_changes_nothing",
    "c31_operations_terminate",
    "c31_add_part_errors",
    "c31_set_joint_frame",
    "c31_add_part_effect"
   ],
   "note": "For arbitrary transforms and joints. Replacing an occupied frame and assigning joint.value directly: C59 (refuted). CPython's recursion limit and external datum frames are not modelled."
  },
  {
   "property": "C32",
   "status": "proved",
   "theorems": [
    "c32_assoc",
    "c32_identity",
    "c32_inverse",
    "c32_inverse_point",
    "c32_apply_product",
    "c32_isometry",
    "c32_constructors_rigid",
    "c32_closed",
    "c32_joint_rigid",
    "c32_axis_angle_additive",
    "c32_axis_fixed",
    "c32_zero_angle",
    "c32_coordinate_axes",
    "c32_quarter_turn",
    "c32_translation_moves",
    "c32_prismatic_distance",
    "c32_world_rigid",
    "c32_relative"
   ],
   "note": "Exact over the reals; rounding is not modelled. Euler angle extraction: C60 (refuted)."
  },
  {
   "property": "C33",
   "status": "proved",
   "theorems": [
    "c33_clamped_in_limits",
    "c33_clamp_nearest",
    "c33_unclamped_exact",
    "c33_other_joints_kept"
   ],
   "note": "NaN is outside the real-number model."
  },
  {
   "property": "C34",
   "status": "proved",
   "theorems": [
    "c34_save_load",
    "c34_save_load_generic",
    "c34_joint_round_trip",
    "c34_exported_world"
   ],
   "note": "Excluded cases are C61 (refuted)."
  },
  {
   "property": "C35",
   "status": "proved",
   "theorems": [
    "c35_lookups_agree",
    "c35_answers",
    "c35_verdict",
    "c35_names"
   ],
   "note": "Histories that do not assign to fields of registered interfaces; see C108 for those."
  },
  {
   "property": "C36",
   "status": "proved",
   "theorems": [
    "c36_roundtrip",
    "c36_separate",
    "c36_merged",
    "c36_tolerance"
   ],
   "note": "Rounding to single and key rounding are parameters. Names beginning with \"solid\" together with huge numbers: see C128."
  },
  {
   "property": "C37",
   "status": "proved",
   "theorems": [
    "c37_query",
    "c37_no_exception",
    "c37_boxoverlap2"
   ],
   "note": "Real arithmetic; sampled curves are not modelled. See C133-C137."
  },
  {
   "property": "C38",
   "status": "proved",
   "theorems": [
    "c38_mul_is_matrix_product",
    "c38_mul_assoc",
    "c38_mul_apply",
    "c38_identity_apply",
    "c38_translation_inverse",
    "c38_scale_inverse",
    "c38_scale_inverse_defined",
    "c38_rotation_total",
    "c38_rotation_inverse",
    "c38_rotation_isometry",
    "c38_rotation_quarter_turn",
    "c38_rotation_nonunit_always_raises",
    "c38_set_then_get",
    "c38_setrow_getrow",
    "c38_setcol_getcol"
   ],
   "note": "Exact over the reals; transposed views included."
  },
  {
   "property": "C39",
   "status": "proved",
   "theorems": [
    "c39_values",
    "c39_get_set"
   ],
   "note": "Real entries; indices 0..3 (others raise ValueError). See C140-C142 for programs that hand a row on."
  },
  {
   "property": "C40",
   "status": "proved",
   "theorems": [
    "c40_rotate_isometry",
    "c40_rotate_center_fixed",
    "c40_rotate_center_near",
    "c40_rotate_axis_fixed",
    "c40_scale_origin",
    "c40_scale_center_formula",
    "c40_scale_two_factors_ignored",
    "c40_mirror_involutive",
    "c40_mirror_isometry",
    "c40_mirror_fixed",
    "c40_rotate_sense",
    "c40_cross",
    "c40_cross_right_handed",
    "c40_translate_isometry",
    "c40_translate_is_matrix",
    "c40_translate_back"
   ],
   "note": "See Xform_Props.v."
  },
  {
   "property": "C41",
   "status": "proved",
   "theorems": [
    "c41_isinsidebbox_decides",
    "c41_line",
    "c41_poly_vertices",
    "c41_poly_samples",
    "c41_poly_tight",
    "c41_circle"
   ],
   "note": "Partial arcs are C51 (refuted)."
  },
  {
   "property": "C42",
   "status": "proved",
   "theorems": [
    "c42_line_endpoints",
    "c42_line_arclength",
    "c42_line_unsample",
    "c42_segment",
    "c42_poly_arclength",
    "c42_poly_total",
    "c42_poly_start",
    "c42_poly_end",
    "c42_poly_closed_wraps",
    "c42_arc_radius",
    "c42_arc_endpoints"
   ],
   "note": "Lines, polylines and arcs."
  },
  {
   "property": "C43",
   "status": "proved",
   "theorems": [
    "c43_sound",
    "c43_complete_above_tolerance"
   ],
   "note": "Segments below the tolerance: C52 (refuted)."
  },
  {
   "property": "C44",
   "status": "proved",
   "theorems": [
    "c44_triangle_exact",
    "c44_convex_true_sound"
   ],
   "note": "False answers for polygons: C53 (refuted)."
  },
  {
   "property": "C45",
   "status": "proved",
   "theorems": [
    "c45_line_distance",
    "c45_line_closest_point",
    "c45_segment_distance"
   ],
   "note": "inside=True points and params=True: C54 (refuted)."
  },
  {
   "property": "C46",
   "status": "proved",
   "theorems": [
    "c46_bezier_bernstein",
    "c46_bezier_hull",
    "c46_bezier_ends",
    "c46_bezier_curve",
    "c46_bezier_tangent",
    "c46_bezier_errors",
    "c46_bspline_weights",
    "c46_bspline_hull",
    "c46_bspline_ends",
    "c46_bspline_local",
    "c46_bspline_too_few",
    "c46_nurbs_weights",
    "c46_nurbs_ends",
    "c46_nurbs_default",
    "c46_catmull_through",
    "c46_catmull_samples"
   ],
   "note": "Real arithmetic. B-splines with fewer than 10^12 spans; Catmull-Rom with alpha >= 0 and neighbours equal or at least 1e-12 apart (to the power alpha). See C138, C139."
  },
  {
   "property": "C47",
   "status": "proved",
   "theorems": [
    "c47_properties",
    "c47_surface"
   ],
   "note": "BREP elements (OpenCASCADE) and the subclasses Polygon and Boolean are outside the model. The excluded histories are C143-C146."
  },
  {
   "property": "C48",
   "status": "proved",
   "theorems": [
    "c48_reverse_list",
    "c48_arc_flag_reverses",
    "c48_line_reverse",
    "c48_translate_moves",
    "c48_translate_keeps_length",
    "c48_arclength_nonneg"
   ],
   "note": "Polylines and double reversal: C55 (refuted)."
  },
  {
   "property": "C49",
   "status": "partial",
   "theorems": [
    "c49_rotation_any_axis_refuted"
   ],
   "note": "REFUTED: a non-unit axis raises AttributeError (xform.py:206 evaluates geom.geom.scale3)."
  },
  {
   "property": "C50",
   "status": "partial",
   "theorems": [
    "c50_scale_center_fixed_refuted"
   ],
   "note": "REFUTED: geom.py:4141-4143 composes the two translations in the wrong order."
  },
  {
   "property": "C51",
   "status": "partial",
   "theorems": [
    "c51_arcbbox_refuted"
   ],
   "note": "REFUTED: arcbbox uses five samples; the arc 0..100 degrees leaves its box at 90 degrees."
  },
  {
   "property": "C52",
   "status": "partial",
   "theorems": [
    "c52_intersection_complete_refuted"
   ],
   "note": "REFUTED: two segments of length 0.04 crossing at right angles are reported as not meeting (denom^2 < epsilon)."
  },
  {
   "property": "C53",
   "status": "partial",
   "theorems": [
    "c53_convex_complete_refuted",
    "c53_evenodd_refuted"
   ],
   "note": "REFUTED: isInsideConvexPolyXY triangulates as a strip and misses interior points; isinsidepolyXY counts a vertex crossing twice and reports the centre of the unit square as outside."
  },
  {
   "property": "C54",
   "status": "partial",
   "theorems": [
    "c54_params_refuted",
    "c54_closest_point_refuted"
   ],
   "note": "REFUTED: params is |1-u| instead of u; with inside=True the mirrored candidate is returned for points closer than about 1e-3 to the line."
  },
  {
   "property": "C55",
   "status": "partial",
   "theorems": [
    "c55_reverse_poly_refuted",
    "c55_reverse_arc_twice_refuted"
   ],
   "note": "REFUTED: a polyline becomes None (list.reverse() returns None) and an arc reversed twice stays reversed."
  },
  {
   "property": "C56",
   "status": "partial",
   "theorems": [
    "c56_unknown_target_refuted"
   ],
   "note": "REFUTED: a misspelt target_filter makes the cutter vanish with success=True and no message."
  },
  {
   "property": "C57",
   "status": "partial",
   "theorems": [
    "c57_through_refuted"
   ],
   "note": "REFUTED: the flag is never read; erasing it changes nothing."
  },
  {
   "property": "C58",
   "status": "partial",
   "theorems": [
    "c58_staged_drops_warnings_refuted",
    "c58_repeated_stage_refuted"
   ],
   "note": "REFUTED: ResolvedPart is rebuilt with empty lists; a stage name listed twice runs its operations twice."
  },
  {
   "property": "C59",
   "status": "partial",
   "theorems": [
    "c59_replaced_frame_refuted",
    "c59_assigned_value_refuted"
   ],
   "note": "REFUTED: no cache is invalidated; both leave a stale world transform."
  },
  {
   "property": "C60",
   "status": "partial",
   "theorems": [
    "c60_euler_round_trip_refuted"
   ],
   "note": "REFUTED: to_euler_xyz extracts Rz*Ry*Rx angles but from_euler_xyz composes Rx*Ry*Rz; (45,0,45) is a witness away from gimbal lock."
  },
  {
   "property": "C61",
   "status": "partial",
   "theorems": [
    "c61_datum_frame_lost_refuted",
    "c61_empty_name_refuted"
   ],
   "note": "REFUTED: to_dict skips GLOBAL_DATUM, so its frames are lost and children fall back to ORIGIN; the topological sort ignores an empty parent name and from_dict can raise ValueError."
  },
  {
   "property": "C62",
   "status": "proved",
   "theorems": [
    "c62_descendants",
    "c62_chain_to_root"
   ],
   "note": "get_chain_to_root assumes non-empty part names (an empty name ends the walk)."
  },
  {
   "property": "C63",
   "status": "partial",
   "theorems": [
    "c63_stray_dedent_refuted"
   ],
   "note": "REFUTED: a line indented between two open levels ('a', '    b', '  c') yields two DEDENTs for one INDENT, without an error (lexer.py:204-207 pushes the level silently)."
  },
  {
   "property": "C64",
   "status": "partial",
   "theorems": [
    "c64_comment_changes_tokens_refuted",
    "c64_string_changes_line_start_refuted"
   ],
   "note": "REFUTED: after a leading /* */ comment, or a string containing a line break, at_line_start is still set, so an INDENT (and later a DEDENT) appears in the middle of the line."
  },
  {
   "property": "C65",
   "status": "proved",
   "theorems": [
    "c65_names",
    "c65_reserved_words",
    "c65_operators"
   ],
   "note": "Names universally; reserved words and operators over the whole table of the reference."
  },
  {
   "property": "C66",
   "status": "partial",
   "theorems": [
    "c66_only_parser_errors_refuted"
   ],
   "note": "REFUTED: @meta(x=-\"s\") applies unary minus to a Python str while building the hint and lets TypeError escape."
  },
  {
   "property": "C67",
   "status": "partial",
   "theorems": [
    "c67_native_decorator_refuted"
   ],
   "note": "REFUTED: the lexer makes `native` a keyword token and the decorator parser demands an identifier, so every program that starts with @native is refused."
  },
  {
   "property": "C68",
   "status": "partial",
   "theorems": [
    "c68_transitive_refuted"
   ],
   "note": "REFUTED: point2d accepts point and point accepts point3d, but point2d does not accept point3d."
  },
  {
   "property": "C69",
   "status": "partial",
   "theorems": [
    "c69_common_type_found_refuted"
   ],
   "note": "REFUTED: list<point2d> and list<point3d> both fit list<point>, yet common_type gives None."
  },
  {
   "property": "C70",
   "status": "partial",
   "theorems": [
    "c70_none_fits_optional_refuted"
   ],
   "note": "REFUTED: OptionalTypeWrapper only asks the inner type, which refuses none."
  },
  {
   "property": "C71",
   "status": "partial",
   "theorems": [
    "c71_every_recursive_command_named_refuted"
   ],
   "note": "REFUTED: with calls 0->1, 0->2, 1->0, 2->1 only the cycle 0,1 is reported; 2, on the cycle 0,2,1, is never named."
  },
  {
   "property": "C72",
   "status": "partial",
   "theorems": [
    "c72_every_program_terminates_refuted"
   ],
   "note": "REFUTED: def f(x: int = f(y=1), y: int = 0) evaluates its default, which calls f again, before the depth counter is incremented, so no recursion limit stops it (in CPython: RecursionError escapes)."
  },
  {
   "property": "C73",
   "status": "partial",
   "theorems": [
    "c73_called_requirement_fails_refuted"
   ],
   "note": "REFUTED: a requirement that fails in a called command is recorded in the callee context only and dropped; the caller reports success."
  },
  {
   "property": "C74",
   "status": "partial",
   "theorems": [
    "c74_right_operand_always_evaluated",
    "c74_short_circuit_refuted"
   ],
   "note": "REFUTED: both operands are always evaluated first: `y != 0 and 10 // y > 1` raises ZeroDivisionError for y = 0."
  },
  {
   "property": "C75",
   "status": "partial",
   "theorems": [
    "c75_final_expressions_ignored",
    "c75_last_expression_evaluated_refuted"
   ],
   "note": "REFUTED: the parser turns it into the block's final expression, which the interpreter never evaluates (replacing all of them changes no execution)."
  },
  {
   "property": "C76",
   "status": "partial",
   "theorems": [
    "c76_match_names_local_refuted"
   ],
   "note": "REFUTED: the pattern overwrites the variable in the current scope."
  },
  {
   "property": "C77",
   "status": "partial",
   "theorems": [
    "c77_exceptions_reported_refuted"
   ],
   "note": "REFUTED: only RuntimeError is caught: `1 // 0` escapes as ZeroDivisionError, and so do AttributeErrors and TypeErrors."
  },
  {
   "property": "C78",
   "status": "partial",
   "theorems": [
    "c78_defaults_independent_of_caller_refuted"
   ],
   "note": "REFUTED: defaults are evaluated in the scope of the caller, so they see its local variables."
  },
  {
   "property": "C79",
   "status": "partial",
   "theorems": [
    "c79_keywords_dropped",
    "c79_keywords_honoured_refuted"
   ],
   "note": "REFUTED: they are dropped: for every call with a positional argument, removing all keyword arguments changes nothing."
  },
  {
   "property": "C80",
   "status": "partial",
   "theorems": [
    "c80_command_as_condition_refuted"
   ],
   "note": "REFUTED: the result is an EmitResult without is_truthy: every such condition raises AttributeError."
  },
  {
   "property": "C81",
   "status": "partial",
   "theorems": [
    "c81_method_calls_fail_refuted"
   ],
   "note": "REFUTED: no method is ever registered: every method call fails."
  },
  {
   "property": "C82",
   "status": "partial",
   "theorems": [
    "c82_if_expressions_refuted"
   ],
   "note": "REFUTED: selecting a block raises; only an if expression with no selected block has a value (none)."
  },
  {
   "property": "C83",
   "status": "partial",
   "theorems": [
    "c83_python_sees_outermost",
    "c83_python_sees_innermost_refuted"
   ],
   "note": "REFUTED: the namespace is filled so that the outermost binding wins."
  },
  {
   "property": "C84",
   "status": "proved",
   "theorems": [
    "c84_integer_expressions",
    "c84_boolean_expressions"
   ],
   "note": ""
  },
  {
   "property": "C85",
   "status": "proved",
   "theorems": [
    "c85_declared_before_use",
    "c85_functions_distinct"
   ],
   "note": ""
  },
  {
   "property": "C86",
   "status": "proved",
   "theorems": [
    "c86_no_undefined_variables"
   ],
   "note": "The host's own operations (floats, geometry) are assumed not to report undefined DSL variables."
  },
  {
   "property": "C87",
   "status": "proved",
   "theorems": [
    "c87_only_checked_programs_run",
    "c87_type_errors_reported",
    "c87_syntax_errors_reported"
   ],
   "note": ""
  },
  {
   "property": "C88",
   "status": "partial",
   "theorems": [
    "c88_return_checks_refuted",
    "c88_return_escapes_refuted"
   ],
   "note": "REFUTED: check() raises AttributeError on every return statement; it escapes from compile_and_run."
  },
  {
   "property": "C89",
   "status": "partial",
   "theorems": [
    "c89_earlier_parameter_in_default_refuted",
    "c89_type_name_as_value_refuted",
    "c89_keyword_argument_refuted",
    "c89_default_before_required_refuted"
   ],
   "note": "REFUTED: accepted but failing: a default that mentions an earlier parameter, a type or built-in name used as a value, an undeclared name in a keyword argument of a command, a required parameter after a default one."
  },
  {
   "property": "C90",
   "status": "partial",
   "theorems": [
    "c90_command_arity_refuted"
   ],
   "note": "REFUTED: the checker never compares the number of arguments of a command call; too few and too many are accepted and fail at run time."
  },
  {
   "property": "C91",
   "status": "partial",
   "theorems": [
    "c91_unannotated_parameter_refuted",
    "c91_empty_list_refuted",
    "c91_string_concatenation_refuted"
   ],
   "note": "REFUTED: arithmetic on a parameter without annotation, `x: list<int> = []` and concatenation of two strings are rejected although they run."
  },
  {
   "property": "C92",
   "status": "proved",
   "theorems": [
    "c92_recursion_warned"
   ],
   "note": ""
  },
  {
   "property": "C93",
   "status": "partial",
   "theorems": [
    "c93_builtin_name_hides_recursion_refuted"
   ],
   "note": "REFUTED: a command named like a built-in that calls itself gets none; the interpreter then exceeds the recursion limit."
  },
  {
   "property": "C94",
   "status": "proved",
   "theorems": [
    "c94_shared_builtins_agree"
   ],
   "note": ""
  },
  {
   "property": "C95",
   "status": "partial",
   "theorems": [
    "c95_checker_only_builtins_refuted",
    "c95_accepted_and_fails_refuted"
   ],
   "note": "REFUTED: 13 built-ins (close, closeC0, closeC1, cylindrical_surface, empty_region, empty_solid, is_empty, join, loft_surface, path, planar_surface, planet_gear_with_hub, shell) are accepted and always fail at run time."
  },
  {
   "property": "C96",
   "status": "partial",
   "theorems": [
    "c96_runtime_only_builtins_refuted"
   ],
   "note": "REFUTED: 13 registered built-ins (chamfer_edges, fillet_edges, select_*_edges, union_edges, ...) are unknown to the checker, so every program calling them is rejected."
  },
  {
   "property": "C97",
   "status": "partial",
   "theorems": [
    "c97_extra_arguments_refuted",
    "c97_type_error_escapes_refuted"
   ],
   "note": "REFUTED: extra arguments are never rejected (sin(1.0, 2.0)), text_solid is accepted with three arguments but takes four; the TypeError escapes from compile_and_run."
  },
  {
   "property": "C98",
   "status": "partial",
   "theorems": [
    "c98_other_algorithm_refuted"
   ],
   "note": "REFUTED: the validator always computes SHA-256: with sha512 the intact package fails, for all contents."
  },
  {
   "property": "C99",
   "status": "partial",
   "theorems": [
    "c99_overwriting_keeps_valid_refuted"
   ],
   "note": "REFUTED: with overwrite=True a file listed in another section becomes stale; metadata can override the hash; all calls succeed and validation fails."
  },
  {
   "property": "C100",
   "status": "partial",
   "theorems": [
    "c100_failed_save_refuted"
   ],
   "note": "REFUTED: the file is truncated before yaml.safe_dump raises RepresenterError: the manifest is lost."
  },
  {
   "property": "C101",
   "status": "partial",
   "theorems": [
    "c101_failed_addition_refuted"
   ],
   "note": "REFUTED: an unsupported category raises after the destination file was overwritten, which invalidates the package."
  },
  {
   "property": "C102",
   "status": "partial",
   "theorems": [
    "c102_digest_covers_surrogates_refuted"
   ],
   "note": "REFUTED: a surrogate pair and the character it stands for (both accepted by YAML escapes) give the same digest, for every key."
  },
  {
   "property": "C103",
   "status": "partial",
   "theorems": [
    "c103_reported_signer_refuted"
   ],
   "note": "REFUTED: the name comes from the unsigned manifest entry: replacing every signer by any text leaves all statuses as they were."
  },
  {
   "property": "C104",
   "status": "partial",
   "theorems": [
    "c104_second_signature_refuted"
   ],
   "note": "REFUTED: all GPG signatures share manifest.sig.asc, and SSH file names keep 20 characters of the signer: the second overwrites the first."
  },
  {
   "property": "C105",
   "status": "partial",
   "theorems": [
    "c105_untrusted_is_a_signature_refuted"
   ],
   "note": "REFUTED: without allowed_signers any text file counts as a valid SSH signature of an untrusted signer."
  },
  {
   "property": "C106",
   "status": "partial",
   "theorems": [
    "c106_altered_files_refuted"
   ],
   "note": "REFUTED: verification reads only the manifest and the signature files; the answer is the same whatever the other files hold."
  },
  {
   "property": "C107",
   "status": "partial",
   "theorems": [
    "c107_summaries_agree_refuted"
   ],
   "note": "REFUTED: one valid signature beside one of unknown method: is_valid is True, overall_status is ERROR."
  },
  {
   "property": "C108",
   "status": "partial",
   "theorems": [
    "c108_renamed_refuted"
   ],
   "note": "REFUTED: the indices keep the old part; after unregistering, looking up the old part raises KeyError."
  },
  {
   "property": "C109",
   "status": "proved",
   "theorems": [
    "c109_every_pair_once",
    "c109_one_check",
    "c109_summary",
    "c109_cache_invisible",
    "c109_summary_failures"
   ],
   "note": "The geometric test is a parameter."
  },
  {
   "property": "C110",
   "status": "proved",
   "theorems": [
    "c110_parallel_never_missed"
   ],
   "note": "Real arithmetic."
  },
  {
   "property": "C111",
   "status": "partial",
   "theorems": [
    "c111_crossing_refuted"
   ],
   "note": "REFUTED: for non-parallel axes only the distance of the centers is compared with the radii: long cylinders crossing away from their centers are missed."
  },
  {
   "property": "C112",
   "status": "partial",
   "theorems": [
    "c112_fit_symmetric_refuted"
   ],
   "note": "REFUTED: the module tolerance is relative to the first gear's module."
  },
  {
   "property": "C113",
   "status": "partial",
   "theorems": [
    "c113_empty_registry_refuted"
   ],
   "note": "REFUTED: an empty registry is false (it has __len__) and is replaced by a new one, so later registrations are not seen."
  },
  {
   "property": "C114",
   "status": "partial",
   "theorems": [
    "c114_placement_ignored_refuted"
   ],
   "note": "REFUTED: the transforms are not applied to the interfaces; the verdict is the same for all placements."
  },
  {
   "property": "C115",
   "status": "proved",
   "theorems": [
    "c115_gearbox"
   ],
   "note": "Real arithmetic."
  },
  {
   "property": "C116",
   "status": "partial",
   "theorems": [
    "c116_planets_interfere_refuted"
   ],
   "note": "REFUTED: every two gears of one module that touch are excused, also 6 planets of 36 teeth around a sun of 18."
  },
  {
   "property": "C117",
   "status": "partial",
   "theorems": [
    "c117_other_sources_refuted",
    "c117_shared_always"
   ],
   "note": "REFUTED: a loaded file and the part it names share one object: a datum registered for the part shows up in the file."
  },
  {
   "property": "C118",
   "status": "partial",
   "theorems": [
    "c118_overwritten_refuted"
   ],
   "note": "REFUTED: loading a file replaces whatever was registered under its part_name."
  },
  {
   "property": "C119",
   "status": "partial",
   "theorems": [
    "c119_file_hidden_refuted"
   ],
   "note": "REFUTED: registering before the first lookup marks the source as loaded: the file is never read."
  },
  {
   "property": "C120",
   "status": "partial",
   "theorems": [
    "c120_search_again_refuted",
    "c120_ghost_sources_refuted"
   ],
   "note": "REFUTED: a failed lookup registers an empty source, which is listed and never searched for again."
  },
  {
   "property": "C121",
   "status": "partial",
   "theorems": [
    "c121_register_part_refuted"
   ],
   "note": "REFUTED: it iterates over the keys of the datum dictionary and raises AttributeError for every part that has datums."
  },
  {
   "property": "C122",
   "status": "proved",
   "theorems": [
    "c122_transform",
    "c122_compose",
    "c122_rigid_motions"
   ],
   "note": "Real arithmetic; composition for datums without vectors of other kinds (see C123)."
  },
  {
   "property": "C123",
   "status": "partial",
   "theorems": [
    "c123_extra_vectors_refuted"
   ],
   "note": "REFUTED: vectors other than those of its kind come back with w = 1, so the next translation is added to them."
  },
  {
   "property": "C124",
   "status": "proved",
   "theorems": [
    "c124_placement"
   ],
   "note": "Real arithmetic. Frames: see C125."
  },
  {
   "property": "C125",
   "status": "partial",
   "theorems": [
    "c125_frame_refuted"
   ],
   "note": "REFUTED: axes are neither required nor made orthogonal or of unit length."
  },
  {
   "property": "C126",
   "status": "proved",
   "theorems": [
    "c126_duplicates"
   ],
   "note": "Within epsilon; real arithmetic."
  },
  {
   "property": "C127",
   "status": "partial",
   "theorems": [
    "c127_parallel_refuted"
   ],
   "note": "REFUTED: the dot product of vectors that need not have unit length is compared with 1."
  },
  {
   "property": "C128",
   "status": "partial",
   "theorems": [
    "c128_solid_refuted"
   ],
   "note": "REFUTED: a name beginning with \"solid\" and a number whose bytes spell \"facet\" make the file read as an empty text file."
  },
  {
   "property": "C129",
   "status": "proved",
   "theorems": [
    "c129_ascii",
    "c129_not_binary"
   ],
   "note": "Formatting and parsing of one number are parameters; names with the word facet: see C132."
  },
  {
   "property": "C130",
   "status": "proved",
   "theorems": [
    "c130_normal",
    "c130_area",
    "c130_orient",
    "c130_mesh_view"
   ],
   "note": "Real arithmetic."
  },
  {
   "property": "C131",
   "status": "partial",
   "theorems": [
    "c131_small_triangle_refuted",
    "c131_quad_refuted"
   ],
   "note": "REFUTED: triangles with twice the area at most 5e-6 (sides of 0.002) and all faces with more than three corners are dropped silently."
  },
  {
   "property": "C132",
   "status": "partial",
   "theorems": [
    "c132_name_refuted"
   ],
   "note": "REFUTED: the name is copied into the file unescaped and can contain facets."
  },
  {
   "property": "C133",
   "status": "partial",
   "theorems": [
    "c133_empty_refuted"
   ],
   "note": "REFUTED: it raises AttributeError."
  },
  {
   "property": "C134",
   "status": "partial",
   "theorems": [
    "c134_retry_refuted"
   ],
   "note": "REFUTED: when the centre lies outside the elements the first query raises and the next returns nothing, because the tree is marked as built before it is."
  },
  {
   "property": "C135",
   "status": "partial",
   "theorems": [
    "c135_points_refuted"
   ],
   "note": "REFUTED: the tree's own box does not include the margin of the points' boxes, so points at its border can be missed."
  },
  {
   "property": "C136",
   "status": "partial",
   "theorems": [
    "c136_callers_list_refuted",
    "c136_append_refuted"
   ],
   "note": "REFUTED: the constructor keeps the caller's list and addElement extends it in place; elements the caller appends are in the tree but never found."
  },
  {
   "property": "C137",
   "status": "partial",
   "theorems": [
    "c137_center_refuted"
   ],
   "note": "REFUTED: a tree that got its elements by addElement has no bounding box before its first query: AttributeError."
  },
  {
   "property": "C138",
   "status": "partial",
   "theorems": [
    "c138_nurbs_end_refuted"
   ],
   "note": "REFUTED: with an interior knot every non-empty span counts at the last parameter: the default quadratic through x = 0,1,2,3 ends at x = 2.5."
  },
  {
   "property": "C139",
   "status": "partial",
   "theorems": [
    "c139_closed_refuted",
    "c139_closed_curve_refuted"
   ],
   "note": "REFUTED: the knot vector is too short for the extended control points: every closed B-spline of degree two or more raises IndexError."
  },
  {
   "property": "C140",
   "status": "partial",
   "theorems": [
    "c140_copies_independent_refuted"
   ],
   "note": "REFUTED: Matrix(A) of an untransposed A keeps A's row lists: B = Matrix(A); B.set(0,0,5) sets A too."
  },
  {
   "property": "C141",
   "status": "partial",
   "theorems": [
    "c141_row_copied_refuted"
   ],
   "note": "REFUTED: setrow keeps the list that getrow hands out, so A.set then changes B."
  },
  {
   "property": "C142",
   "status": "partial",
   "theorems": [
    "c142_column_from_own_row_refuted"
   ],
   "note": "REFUTED: the list is read while it is being overwritten: with row 0 = 1 2 3 4, A.setcol(1, A.getrow(0)) stores 1 1 3 4."
  },
  {
   "property": "C143",
   "status": "partial",
   "theorems": [
    "c143_surface_follows_changes_refuted"
   ],
   "note": "REFUTED: the cached triangulation is not cleared: after g.surface(); g.translate(d), g.surface() is the surface of the old figure (all figures other than solids)."
  },
  {
   "property": "C144",
   "status": "partial",
   "theorems": [
    "c144_solid_box_follows_changes_refuted"
   ],
   "note": "REFUTED: the box is recomputed only if there is none: after g.bbox; g.translate(d), g.bbox is the old box."
  },
  {
   "property": "C145",
   "status": "partial",
   "theorems": [
    "c145_assignment_seen_refuted"
   ],
   "note": "REFUTED: assigning elem does not mark the object for update."
  },
  {
   "property": "C146",
   "status": "partial",
   "theorems": [
    "c146_failure_repeats_refuted"
   ],
   "note": "REFUTED: the update flag is cleared first: the second query returns the length of the previous figure."
  },
  {
   "property": "C147",
   "status": "proved",
   "theorems": [
    "c147_other_keys",
    "c147_other_fields",
    "c147_operation_stored",
    "c147_material_stored",
    "c147_assembly_stored",
    "c147_bolt_added",
    "c147_datum_added",
    "c147_surface_added",
    "c147_keepout_added"
   ],
   "note": "Whole helpers over JSON-like data; aliasing between argument and stored value is not modelled."
  },
  {
   "property": "C148",
   "status": "proved",
   "theorems": [
    "c148_helpers",
    "c148_helpers_from",
    "c148_hints",
    "c148_rejected"
   ],
   "note": "None is accepted: see C151."
  },
  {
   "property": "C149",
   "status": "proved",
   "theorems": [
    "c149_idempotent"
   ],
   "note": "List fields are C152."
  },
  {
   "property": "C150",
   "status": "proved",
   "theorems": [
    "c150_idempotent",
    "c150_keys",
    "c150_then_apply"
   ],
   "note": "float(float) and str(str) are assumed to be identities (honest)."
  },
  {
   "property": "C151",
   "status": "partial",
   "theorems": [
    "c151_kind_none_refuted"
   ],
   "note": "REFUTED: kind=None passes _validate_enum and is stored as None."
  },
  {
   "property": "C152",
   "status": "partial",
   "theorems": [
    "c152_reapply_refuted"
   ],
   "note": "REFUTED: tags and list fields (bolt_patterns, datums, surfaces, keepouts) are appended again each time."
  },
  {
   "property": "C153",
   "status": "partial",
   "theorems": [
    "c153_joint_kinds_refuted",
    "c153_runtime_kinds_refuted",
    "c153_feature_kinds_refuted"
   ],
   "note": "REFUTED: the two joint_kind vocabularies are disjoint: all seven kinds the transform accepts raise ValueError when applied, all four runtime kinds are reported as errors; the feature_kind vocabularies share only pocket."
  },
  {
   "property": "C154",
   "status": "proved",
   "theorems": [
    "c154_id_kept",
    "c154_id_given_once"
   ],
   "note": ""
  },
  {
   "property": "C155",
   "status": "partial",
   "theorems": [
    "c155_read_modifies_refuted"
   ],
   "note": "REFUTED: it stores a root dictionary (schema, tags, layer) into the solid, even one that had no metadata."
  },
  {
   "property": "C156",
   "status": "proved",
   "theorems": [
    "c156_failed_add"
   ],
   "note": "An empty assembly namespace may have been created (add_bolt_pattern with a bad number); set_operation is C157."
  },
  {
   "property": "C157",
   "status": "partial",
   "theorems": [
    "c157_failed_operation_refuted"
   ],
   "note": "REFUTED: kind (and the fields before the failing one) are already stored: set_operation(s, kind='union', priority='x') raises and leaves kind='union'."
  },
  {
   "property": "C158",
   "status": "proved",
   "theorems": [
    "c158_tags",
    "c158_tags_start"
   ],
   "note": ""
  },
  {
   "property": "C159",
   "status": "proved",
   "theorems": [
    "c159_execute_computes",
    "c159_factorial",
    "c159_deterministic"
   ],
   "note": "The reference semantics is a separate inductive definition (Interp_Ref.v). Not in the fragment: floats, strings, geometry, native code, assignment to an outer variable, match, lambda, nested comprehensions, truth values returned by a command (see C80: they raise when used as conditions)."
  },
  {
   "property": "C160",
   "status": "proved",
   "theorems": [
    "c160_volume",
    "c160_closed",
    "c160_open_rejected",
    "c160_oriented"
   ],
   "note": "Over the reals; BREP fallback not modelled."
  },
  {
   "property": "C161",
   "status": "proved",
   "theorems": [
    "c161_translate",
    "c161_mirror",
    "c161_rotate",
    "c161_scale"
   ],
   "note": "For scaling both volumes are assumed defined (shrinking may merge corners within the tolerance)."
  },
  {
   "property": "C162",
   "status": "proved",
   "theorems": [
    "c162_area",
    "c162_translate",
    "c162_mirror",
    "c162_reverse",
    "c162_rotate",
    "c162_scale"
   ],
   "note": ""
  },
  {
   "property": "C163",
   "status": "proved",
   "theorems": [
    "c163_translate",
    "c163_reverse",
    "c163_mirror",
    "c163_rotate",
    "c163_scale_uniform",
    "c163_scale"
   ],
   "note": "Non-uniform factors up to 1e9 and not closer than the tolerance unless equal."
  },
  {
   "property": "C164",
   "status": "proved",
   "theorems": [
    "c164_surfacebbox",
    "c164_solidbbox"
   ],
   "note": ""
  },
  {
   "property": "C165",
   "status": "proved",
   "theorems": [
    "c165_build",
    "c165_defined"
   ],
   "note": ""
  },
  {
   "property": "C166",
   "status": "proved",
   "theorems": [
    "c166_lines",
    "c166_defined"
   ],
   "note": ""
  },
  {
   "property": "C167",
   "status": "proved",
   "theorems": [
    "c167_plane",
    "c167_degenerate",
    "c167_basis",
    "c167_sound",
    "c167_complete",
    "c167_named_sound",
    "c167_named_complete"
   ],
   "note": ""
  },
  {
   "property": "C168",
   "status": "partial",
   "theorems": [
    "c168_refuted"
   ],
   "note": "REFUTED: issolidclosed counts sides without regard to direction, so a tetrahedron with one face turned round is accepted; its volume is 1/6 and after translation by (1,0,0) 1/2."
  },
  {
   "property": "C169",
   "status": "partial",
   "theorems": [
    "c169_refuted"
   ],
   "note": "REFUTED: the translations are applied the wrong way round: with k=2 about (1,0,0) the vertex (1,0,0) moves to (3,0,0)."
  },
  {
   "property": "C170",
   "status": "partial",
   "theorems": [
    "c170_refuted"
   ],
   "note": "REFUTED: factor -1 leaves the index order alone, so the signed volume becomes negative (inside out)."
  },
  {
   "property": "C171",
   "status": "partial",
   "theorems": [
    "c171_refuted"
   ],
   "note": "REFUTED: with sz omitted the default False is divided by: ZeroDivisionError for scalesurface(s, 2, 3)."
  },
  {
   "property": "C172",
   "status": "partial",
   "theorems": [
    "c172_refuted"
   ],
   "note": "REFUTED: the filter keeps only non-integers, so face (0,1,7) of a 4-vertex surface passes and surfacearea raises IndexError."
  },
  {
   "property": "C173",
   "status": "partial",
   "theorems": [
    "c173_refuted"
   ],
   "note": "REFUTED: raises ValueError for every such argument."
  },
  {
   "property": "C174",
   "status": "partial",
   "theorems": [
    "c174_refuted"
   ],
   "note": "REFUTED: the triangle test is applied regardless; (5,5,0) is not found for the unit triangle."
  },
  {
   "property": "C175",
   "status": "partial",
   "theorems": [
    "c175_refuted"
   ],
   "note": "REFUTED: a triangle smaller than the tolerance becomes face (0,0,0)."
  },
  {
   "property": "C176",
   "status": "partial",
   "theorems": [
    "c176_refuted"
   ],
   "note": "REFUTED: a shared vertex keeps the first triangle's normal."
  },
  {
   "property": "C177",
   "status": "proved",
   "theorems": [
    "c177_prism",
    "c177_volume"
   ],
   "note": "A centre within the tolerance of the origin is ignored by the code (box placed at the origin); the statement says so. Over the reals; BREP attachment not modelled."
  },
  {
   "property": "C178",
   "status": "proved",
   "theorems": [
    "c178_frustum",
    "c178_cone",
    "c178_rejects",
    "c178_default"
   ],
   "note": "The mesh path (no OCC). The smallness condition is needed: see C179."
  },
  {
   "property": "C179",
   "status": "partial",
   "theorems": [
    "c179_refuted"
   ],
   "note": "REFUTED: conic(0.0005, 0.0005, 0.0005, angr=30) raises ValueError (the facets' cross products are below the tolerance), and conic(0.0005, 0, 0.0005, angr=30) returns a solid without side faces on which volumeof raises ValueError, though both are 100 times the tolerance."
  },
  {
   "property": "C180",
   "status": "proved",
   "theorems": [
    "c180_range",
    "c180_chord",
    "c180_sagitta",
    "c180_default",
    "c180_angr"
   ],
   "note": "Over the reals."
  },
  {
   "property": "C181",
   "status": "proved",
   "theorems": [
    "c181_sphere",
    "c181_spheroid",
    "c181_vertex"
   ],
   "note": "Over the reals; a centre within the tolerance of the origin is ignored. Merging of midpoints closer than the tolerance is part of the model."
  },
  {
   "property": "C182",
   "status": "partial",
   "theorems": [
    "c182_refuted"
   ],
   "note": "REFUTED: the hash key is the coordinates printed with two decimals, so (0.004999,0,0) and (0.005001,0,0), 2e-6 apart, have different keys and are both stored."
  },
  {
   "property": "C183",
   "status": "proved",
   "theorems": [
    "c183_dodecahedron"
   ],
   "note": "Over the reals."
  },
  {
   "property": "C184",
   "status": "partial",
   "theorems": [
    "c184_refuted"
   ],
   "note": "REFUTED: for every d > 0 two vertices are farther apart than d (the circumscribed diameter is 1.07*d), and all vertices lie at or above the given centre's z."
  },
  {
   "property": "C185",
   "status": "proved",
   "theorems": [
    "c185_extrude",
    "c185_swept",
    "c185_rejects"
   ],
   "note": ""
  },
  {
   "property": "C186",
   "status": "partial",
   "theorems": [
    "c186_refuted",
    "c186_witness"
   ],
   "note": "REFUTED: the walls are dropped whenever chord times distance is below the tolerance (an area compared with a length tolerance): a square of side 0.001 extruded by 0.001 has no wall, is not a valid solid and volumeof raises ValueError."
  },
  {
   "property": "C187",
   "status": "proved",
   "theorems": [
    "c187_loft",
    "c187_rejects",
    "c187_repeats"
   ],
   "note": ""
  },
  {
   "property": "C188",
   "status": "partial",
   "theorems": [
    "c188_refuted"
   ],
   "note": "REFUTED: it consists of the band alone, without lids: for all loops as in C187 issolidclosed is False and volumeof raises ValueError."
  },
  {
   "property": "C189",
   "status": "proved",
   "theorems": [
    "c189_solid",
    "c189_rejects"
   ],
   "note": ""
  },
  {
   "property": "C190",
   "status": "partial",
   "theorems": [
    "c190_refuted",
    "c190_surface"
   ],
   "note": "REFUTED: the slot is chosen by emptiness, so the construction becomes the material (every primitive calls solid(surfaces, [], ['procedure', call])) and surface(v, n, f, [], holes) raises TypeError."
  },
  {
   "property": "C191",
   "status": "proved",
   "theorems": [
    "c191_solids",
    "c191_saves",
    "c191_empty_id"
   ],
   "note": "Dictionaries are objects in a heap, so sharing is modelled. Bounding boxes and sampled polylines are not modelled."
  },
  {
   "property": "C192",
   "status": "proved",
   "theorems": [
    "c192_sketches",
    "c192_surfaces"
   ],
   "note": "Reals for floats."
  },
  {
   "property": "C193",
   "status": "proved",
   "theorems": [
    "c193_kept",
    "c193_nothing_added",
    "c193_others",
    "c193_ids"
   ],
   "note": ""
  },
  {
   "property": "C194",
   "status": "partial",
   "theorems": [
    "c194_refuted",
    "c194_always"
   ],
   "note": "REFUTED: _serialize_surface writes vertices, normals and faces only, so every loaded surface has empty boundary and holes (proved); extruding a loaded surface then makes no side walls."
  },
  {
   "property": "C195",
   "status": "partial",
   "theorems": [
    "c195_refuted"
   ],
   "note": "REFUTED: The second list, which solid() documents as material, is read as a list of voids: ['steel'] comes back as [[]] (proved), a number raises TypeError (proved), and the third list leaves no trace in the document (proved). Since the primitives' construction record lands in the second list (C190), every saved primitive comes back with two empty voids."
  },
  {
   "property": "C196",
   "status": "partial",
   "theorems": [
    "c196_refuted"
   ],
   "note": "REFUTED: If there is a solid, sketches and stand-alone surfaces are dropped; if there is a sketch, surfaces are; and a surface and its translated copy, which has a copy of its metadata and so its entityId, are saved as one entry (setdefault): the second is lost. Witnesses proved."
  },
  {
   "property": "C197",
   "status": "partial",
   "theorems": [
    "c197_refuted"
   ],
   "note": "REFUTED: Lines lose their z coordinate, reversed arcs come back forwards (arc() overwrites the orientation it is given), points vanish, and a list with a nested list of two lines raises TypeError. Proved."
  },
  {
   "property": "C198",
   "status": "partial",
   "theorems": [
    "c198_refuted"
   ],
   "note": "REFUTED: A solid's layer is written into its surfaces on the first save; when the solid moves to another layer and is saved again its surfaces stay on the old one. A surface used by two solids gets a new id at the second use, and the first entry, which shares the metadata dictionary, no longer has the id of its metadata. Witnesses proved."
  },
  {
   "property": "C199",
   "status": "proved",
   "theorems": [
    "c199_angle_unique",
    "c199_facing",
    "c199_facing_refused",
    "c199_parallel",
    "c199_perpendicular",
    "c199_tangent",
    "c199_at_radius",
    "c199_radial",
    "c199_incomplete"
   ],
   "note": ""
  },
  {
   "property": "C200",
   "status": "partial",
   "theorems": [
    "c200_exactly_radial_refuted"
   ],
   "note": "REFUTED: the comparison is strict, so a zero tolerance never passes although the other types accept it."
  },
  {
   "property": "C201",
   "status": "partial",
   "theorems": [
    "c201_zero_axis_refuted"
   ],
   "note": "REFUTED: a zero axis gives NaN, min(1.0, NaN) is 1.0, and every datum passes."
  },
  {
   "property": "C202",
   "status": "partial",
   "theorems": [
    "c202_radius_unused",
    "c202_touching_refuted"
   ],
   "note": "REFUTED: the radius is required but never used: any line perpendicular to the radial direction passes, whatever its distance."
  },
  {
   "property": "C203",
   "status": "partial",
   "theorems": [
    "c203_unsupported_refuted"
   ],
   "note": "REFUTED: ON_CIRCLE, IN_PLANE, MIN_DISTANCE and NO_INTERFERENCE are not implemented and always fail."
  },
  {
   "property": "C204",
   "status": "proved",
   "theorems": [
    "c204_angle_between",
    "c204_helpers_agree"
   ],
   "note": ""
  },
  {
   "property": "C205",
   "status": "proved",
   "theorems": [
    "c205_satisfied",
    "c205_error",
    "c205_violations",
    "c205_unlimited"
   ],
   "note": ""
  },
  {
   "property": "C206",
   "status": "partial",
   "theorems": [
    "c206_rates_unchecked",
    "c206_satisfied_means_no_violation_refuted"
   ],
   "note": "REFUTED: velocity and effort violations are listed but never change satisfied or error."
  },
  {
   "property": "C207",
   "status": "proved",
   "theorems": [
    "c207_round_trip",
    "c207_minimal",
    "c207_required",
    "c207_unknown_type"
   ],
   "note": "metadata is modelled as a dictionary of numbers; axis lists as lists of numbers"
  },
  {
   "property": "C208",
   "status": "partial",
   "theorems": [
    "c208_range",
    "c208_zero_to_six_refuted"
   ],
   "note": "REFUTED: it is -1 exactly for GEAR, RACK_PINION and CAM."
  },
  {
   "property": "C209",
   "status": "proved",
   "theorems": [
    "c209_who",
    "c209_ratio",
    "c209_screw_turn",
    "c209_idler"
   ],
   "note": ""
  },
  {
   "property": "C210",
   "status": "partial",
   "theorems": [
    "c210_documented_screw_refuted",
    "c210_screw_reverse_ignored",
    "c210_reverse_refuted"
   ],
   "note": "REFUTED: it moves 1.0, and a screw with a pitch ignores coupling_reverse, coupling_ratio and coupling_offset."
  },
  {
   "property": "C211",
   "status": "proved",
   "theorems": [
    "c211_distance",
    "c211_point_on_plane",
    "c211_unique",
    "c211_aligned",
    "c211_near",
    "c211_moves"
   ],
   "note": "For the remaining mixed pairs (such as point and axis) only the distance of the origins is compared."
  },
  {
   "property": "C212",
   "status": "partial",
   "theorems": [
    "c212_symmetric_refuted"
   ],
   "note": "REFUTED: the distance is measured along the first normal only; two planes 1 degree apart are coincident one way round and not the other."
  },
  {
   "property": "C213",
   "status": "proved",
   "theorems": [
    "c213_refused",
    "c213_sound",
    "c213_plain",
    "c213_slack"
   ],
   "note": ""
  },
  {
   "property": "C214",
   "status": "partial",
   "theorems": [
    "c214_offset_is_error",
    "c214_same_pattern_refuted"
   ],
   "note": "REFUTED: the offset itself is counted as the error (the chord 2 r sin(offset/2)): the documented 45 degree example, and a rotation by exactly one hole spacing, are refused."
  },
  {
   "property": "C215",
   "status": "proved",
   "theorems": [
    "c215_names",
    "c215_datums",
    "c215_mates",
    "c215_constraints",
    "c215_load_cases",
    "c215_bolt_patterns",
    "c215_stable"
   ],
   "note": ""
  },
  {
   "property": "C216",
   "status": "proved",
   "theorems": [
    "c216_add_mate",
    "c216_add_part",
    "c216_add_constraint",
    "c216_add_load_case",
    "c216_add_bolt_pattern",
    "c216_effects",
    "c216_refused"
   ],
   "note": ""
  },
  {
   "property": "C217",
   "status": "partial",
   "theorems": [
    "c217_matrix_refuted"
   ],
   "note": "REFUTED: with a yapCAD Matrix as transform it raises AttributeError (Matrix has no copy method) after the part was added; the part has no transform, so its datums raise KeyError and its name is taken."
  },
  {
   "property": "C218",
   "status": "proved",
   "theorems": [
    "c218_world",
    "c218_total",
    "c218_verdict",
    "c218_recorded"
   ],
   "note": ""
  },
  {
   "property": "C219",
   "status": "partial",
   "theorems": [
    "c219_arrays_ignored",
    "c219_import_refuted"
   ],
   "note": "REFUTED: Matrix(ndarray) is the identity, so arrays, and every imported transform, move nothing."
  },
  {
   "property": "C220",
   "status": "partial",
   "theorems": [
    "c220_never_assembly_error",
    "c220_passes",
    "c220_documented_error_refuted"
   ],
   "note": "REFUTED: it reads cr.message, which ConstraintResult does not have, and raises AttributeError instead."
  },
  {
   "property": "C221",
   "status": "partial",
   "theorems": [
    "c221_failed_means_failed_refuted"
   ],
   "note": "REFUTED: constraints of the same name overwrite each other's result."
  },
  {
   "property": "C222",
   "status": "proved",
   "theorems": [
    "c222_value",
    "c222_when"
   ],
   "note": ""
  },
  {
   "property": "C223",
   "status": "proved",
   "theorems": [
    "c223_accepted",
    "c223_effect"
   ],
   "note": ""
  },
  {
   "property": "C224",
   "status": "partial",
   "theorems": [
    "c224_other_mates",
    "c224_total_refuted"
   ],
   "note": "REFUTED: any other mate type raises AttributeError: the code names MateType.FLUSH, which does not exist."
  },
  {
   "property": "C225",
   "status": "partial",
   "theorems": [
    "c225_failed_import_refuted",
    "c225_unknown_names_refuted"
   ],
   "note": "REFUTED: earlier parts have already been updated when a later one is faulty; unknown names are skipped silently."
  },
  {
   "property": "C226",
   "status": "proved",
   "theorems": [
    "c226_face_to_face"
   ],
   "note": ""
  },
  {
   "property": "C227",
   "status": "proved",
   "theorems": [
    "c227_concentric"
   ],
   "note": ""
  },
  {
   "property": "C228",
   "status": "proved",
   "theorems": [
    "c228_revolute",
    "c228_parallel"
   ],
   "note": ""
  },
  {
   "property": "C229",
   "status": "partial",
   "theorems": [
    "c229_angle_tolerance_refuted"
   ],
   "note": "REFUTED: directions (0,0,1) and (1,0,100), 0.57 degrees apart, are reported solved with the identity transform (the cut-off is cosine 0.9999, about 0.81 degrees)."
  },
  {
   "property": "C230",
   "status": "proved",
   "theorems": [
    "c230_perpendicular"
   ],
   "note": ""
  },
  {
   "property": "C231",
   "status": "proved",
   "theorems": [
    "c231_distance"
   ],
   "note": ""
  },
  {
   "property": "C232",
   "status": "partial",
   "theorems": [
    "c232_distance_refuted"
   ],
   "note": "REFUTED: the second datum is not looked at: with its origin 5 above its part's origin an offset of 2 leaves it 7 away."
  },
  {
   "property": "C233",
   "status": "proved",
   "theorems": [
    "c233_angle"
   ],
   "note": ""
  },
  {
   "property": "C234",
   "status": "partial",
   "theorems": [
    "c234_angle_refuted"
   ],
   "note": "REFUTED: the second datum is not looked at: two parallel planes stay parallel whatever the angle."
  },
  {
   "property": "C235",
   "status": "partial",
   "theorems": [
    "c235_frames_refuted"
   ],
   "note": "REFUTED: frames have no normal, so +Z is used for both: the solved frames end up perpendicular."
  },
  {
   "property": "C236",
   "status": "proved",
   "theorems": [
    "c236_axis_keeps_place",
    "c236_axis_z"
   ],
   "note": ""
  },
  {
   "property": "C237",
   "status": "partial",
   "theorems": [
    "c237_axis_xy_refuted"
   ],
   "note": "REFUTED: for every motion they send it to the opposite axis (the matrices are transposed)."
  },
  {
   "property": "C238",
   "status": "partial",
   "theorems": [
    "c238_axis_breaks_mate_refuted"
   ],
   "note": "REFUTED: with '-Z' the part is turned about its own origin, so a COINCIDENT datum away from that origin no longer touches."
  },
  {
   "property": "C239",
   "status": "proved",
   "theorems": [
    "c239_cache_transparent",
    "c239_invalidate",
    "c239_no_cache",
    "c239_failures_not_kept"
   ],
   "note": ""
  },
  {
   "property": "C240",
   "status": "partial",
   "theorems": [
    "c240_parent_ignored_refuted"
   ],
   "note": "REFUTED: a second call with another parent returns the first parent's answer: the cache key is the mate's name and the axis."
  },
  {
   "property": "C241",
   "status": "partial",
   "theorems": [
    "c241_stale_datum_refuted"
   ],
   "note": "REFUTED: after a datum was moved in the registry the old transform is returned."
  },
  {
   "property": "C242",
   "status": "proved",
   "theorems": [
    "c242_chain",
    "c242_chain_stops"
   ],
   "note": ""
  },
  {
   "property": "C243",
   "status": "partial",
   "theorems": [
    "c243_branches_refuted"
   ],
   "note": "REFUTED: two children of the same base: the second is placed relative to the first child."
  },
  {
   "property": "C244",
   "status": "proved",
   "theorems": [
    "c244_solve_all",
    "c244_no_others"
   ],
   "note": ""
  },
  {
   "property": "C245",
   "status": "proved",
   "theorems": [
    "c245_motions_pass",
    "c245_passing_is_nearly_motion",
    "c245_solutions_pass"
   ],
   "note": ""
  },
  {
   "property": "C246",
   "status": "proved",
   "theorems": [
    "c246_solvable"
   ],
   "note": ""
  },
  {
   "property": "C247",
   "status": "proved",
   "theorems": [
    "c247_flush"
   ],
   "note": ""
  },
  {
   "property": "C248",
   "status": "proved",
   "theorems": [
    "c248_concentric",
    "c248_parallel"
   ],
   "note": ""
  },
  {
   "property": "C249",
   "status": "partial",
   "theorems": [
    "c249_compute_transform_refuted"
   ],
   "note": "REFUTED: it never does: MateType has no member ALIGNED, so line 184 raises AttributeError for every constraint (and validate, which catches only KeyError and ValueError, lets it through)."
  },
  {
   "property": "C250",
   "status": "proved",
   "theorems": [
    "c250_evaluate",
    "c250_determined",
    "c250_ends",
    "c250_on_circle"
   ],
   "note": ""
  },
  {
   "property": "C251",
   "status": "proved",
   "theorems": [
    "c251_tangent"
   ],
   "note": ""
  },
  {
   "property": "C252",
   "status": "proved",
   "theorems": [
    "c252_sub_path",
    "c252_refuses"
   ],
   "note": ""
  },
  {
   "property": "C253",
   "status": "proved",
   "theorems": [
    "c253_sum",
    "c253_adds",
    "c253_whole"
   ],
   "note": ""
  },
  {
   "property": "C254",
   "status": "partial",
   "theorems": [
    "c254_start_refuted"
   ],
   "note": "REFUTED: at t = 0 it raises ValueError for every path (the sub-path from 0 to 0 is refused)."
  },
  {
   "property": "C255",
   "status": "partial",
   "theorems": [
    "c255_inverse_refuted"
   ],
   "note": "REFUTED: on segments of lengths 1 and 3 the length 1 becomes the parameter 1/4, whose length is 1/2: one conversion is by arc length, the other by segment."
  },
  {
   "property": "C256",
   "status": "proved",
   "theorems": [
    "c256_inverse"
   ],
   "note": ""
  },
  {
   "property": "C257",
   "status": "partial",
   "theorems": [
    "c257_clamped",
    "c257_out_of_range_refuted"
   ],
   "note": "REFUTED: they are clamped: t = 2 gives the end point, and the sub-path from 1 to 2 is empty, without error."
  },
  {
   "property": "C258",
   "status": "proved",
   "theorems": [
    "c258_segments",
    "c258_count"
   ],
   "note": ""
  },
  {
   "property": "C259",
   "status": "proved",
   "theorems": [
    "c259_tabs"
   ],
   "note": ""
  },
  {
   "property": "C260",
   "status": "partial",
   "theorems": [
    "c260_graph_refuted"
   ],
   "note": "REFUTED: the entry of a segment is copied before its successor exists, so it names the predecessor only: for one cut the first segment's entry is empty although it mates with the second."
  },
  {
   "property": "C261",
   "status": "partial",
   "theorems": [
    "c261_type_refuted"
   ],
   "note": "REFUTED: cuts at 0.3 ('b') and 0.6 ('none'): the last segment is 'female' though its only joint has a separate connector."
  },
  {
   "property": "C262",
   "status": "partial",
   "theorems": [
    "c262_length_refuted",
    "c262_length_used_refuted"
   ],
   "note": "REFUTED: it is never read: the result is the same whatever it is, and the length is always three times the larger side of the profile."
  },
  {
   "property": "C263",
   "status": "partial",
   "theorems": [
    "c263_ids_refuted"
   ],
   "note": "REFUTED: the id has the cut parameter in whole percent: cuts at 0.101 and 0.105 both give e_conn_10."
  },
  {
   "property": "C264",
   "status": "proved",
   "theorems": [
    "c264_material"
   ],
   "note": ""
  },
  {
   "property": "C265",
   "status": "proved",
   "theorems": [
    "c265_short",
    "c265_cuts",
    "c265_pieces"
   ],
   "note": ""
  },
  {
   "property": "C266",
   "status": "partial",
   "theorems": [
    "c266_uneven_refuted"
   ],
   "note": "REFUTED: on straight segments of lengths 1 and 9 with maximum 5 the last piece is 6 long: the parameter is not proportional to length."
  },
  {
   "property": "C267",
   "status": "proved",
   "theorems": [
    "c267_profile"
   ],
   "note": ""
  },
  {
   "property": "C268",
   "status": "proved",
   "theorems": [
    "c268_centred",
    "c268_ends"
   ],
   "note": ""
  },
  {
   "property": "C269",
   "status": "partial",
   "theorems": [
    "c269_uneven_refuted"
   ],
   "note": "REFUTED: on straight segments of lengths 1 and 9 the connector of length 1 for the cut at x = 1 runs from x = 0.1 to 0.3: a fifth of the length, short of the cut."
  },
  {
   "property": "C270",
   "status": "proved",
   "theorems": [
    "c270_terminal"
   ],
   "note": ""
  },
  {
   "property": "C271",
   "status": "proved",
   "theorems": [
    "c271_ring",
    "c271_attachment",
    "c271_corner"
   ],
   "note": ""
  },
  {
   "property": "C272",
   "status": "partial",
   "theorems": [
    "c272_ring_refuted"
   ],
   "note": "REFUTED: with exact half spaces a square ring cut at 3/4 loses every point outside its first side (x + y > 1): a piece longer than half a turn is cut by two planes that overlap on the far side."
  },
  {
   "property": "C273",
   "status": "proved",
   "theorems": [
    "c273_cuts",
    "c273_segments",
    "c273_even_when_allowed"
   ],
   "note": ""
  },
  {
   "property": "C274",
   "status": "partial",
   "theorems": [
    "c274_hits_hole_refuted"
   ],
   "note": "REFUTED: when no place is far enough the evenly spaced cuts are returned silently, possibly through a hole (circumference 100, hole at 180 degrees, distance 60)."
  },
  {
   "property": "C275",
   "status": "partial",
   "theorems": [
    "c275_too_long_refuted"
   ],
   "note": "REFUTED: circumference 100, maximum 50, hole at 180 degrees, distance 5: the cut moves to 0.5505 and a piece is 55.05 long."
  },
  {
   "property": "C276",
   "status": "proved",
   "theorems": [
    "c276_on_both",
    "c276_circle_complete",
    "c276_arc_complete",
    "c276_arc_only",
    "c276_outcome",
    "c276_params"
   ],
   "note": ""
  },
  {
   "property": "C277",
   "status": "partial",
   "theorems": [
    "c277_segment_refuted"
   ],
   "note": "REFUTED: the segment (0,0)-(1,0) and the unit circle: the reported point is (-1,0), which is not on the segment, and (1,0), which is on both, is not reported."
  },
  {
   "property": "C278",
   "status": "partial",
   "theorems": [
    "c278_near_miss_refuted",
    "c278_short_line_refuted"
   ],
   "note": "REFUTED: a line of length 20 half an epsilon outside the unit circle raises ValueError; a line of length 1e-4 that is 0.99 from the centre reports one point, 2000 epsilon off the circle."
  },
  {
   "property": "C279",
   "status": "proved",
   "theorems": [
    "c279_sample_unsample",
    "c279_unsample_sample",
    "c279_off_circle",
    "c279_segment",
    "c279_arccenter"
   ],
   "note": ""
  },
  {
   "property": "C280",
   "status": "partial",
   "theorems": [
    "c280_unsample_end_refuted",
    "c280_whole_circle_refuted"
   ],
   "note": "REFUTED: for the arc 180-360 the end point's parameter is -1; segmentarc(circle, 0, 1) is an arc of zero extent at the start point."
  },
  {
   "property": "C281",
   "status": "proved",
   "theorems": [
    "c281_on_both",
    "c281_complete",
    "c281_outcome",
    "c281_arcs",
    "c281_params"
   ],
   "note": ""
  },
  {
   "property": "C282",
   "status": "partial",
   "theorems": [
    "c282_unit_chord_refuted",
    "c282_params_refuted"
   ],
   "note": "REFUTED: circles of radius 5/4 with centres 3/2 apart meet in two points, one is reported; the second arc's parameter is computed with the first arc's end: (3,4) on the arc 280-100 gets -19/18."
  },
  {
   "property": "C283",
   "status": "proved",
   "theorems": [
    "c283_tangents",
    "c283_from_point"
   ],
   "note": ""
  },
  {
   "property": "C284",
   "status": "partial",
   "theorems": [
    "c284_too_close_refuted"
   ],
   "note": "REFUTED: it raises ValueError for every such pair."
  },
  {
   "property": "C285",
   "status": "proved",
   "theorems": [
    "c285_circle",
    "c285_sector"
   ],
   "note": ""
  },
  {
   "property": "C286",
   "status": "partial",
   "theorems": [
    "c286_on_arc_refuted"
   ],
   "note": "REFUTED: a point half the radius from the centre is accepted: the whole sector counts."
  },
  {
   "property": "C287",
   "status": "proved",
   "theorems": [
    "c287_length",
    "c287_place",
    "c287_start",
    "c287_end",
    "c287_continuous",
    "c287_closed",
    "c287_empty"
   ],
   "note": ""
  },
  {
   "property": "C288",
   "status": "partial",
   "theorems": [
    "c288_points_refuted"
   ],
   "note": "REFUTED: A point at the start (u=0) or end (u=1) makes sample raise ZeroDivisionError; the empty list samples to None."
  },
  {
   "property": "C289",
   "status": "proved",
   "theorems": [
    "c289_slice",
    "c289_bad"
   ],
   "note": ""
  },
  {
   "property": "C290",
   "status": "partial",
   "theorems": [
    "c290_joints_refuted"
   ],
   "note": "REFUTED: The slice then contains an element of length 0 at its end (start), so sampling the slice at 1 (0) raises ZeroDivisionError."
  },
  {
   "property": "C291",
   "status": "proved",
   "theorems": [
    "c291_slice"
   ],
   "note": ""
  },
  {
   "property": "C292",
   "status": "partial",
   "theorems": [
    "c292_seam_refuted"
   ],
   "note": "REFUTED: segment(polygon,0,1) is two equal points; on an open polyline u2 < u1 always raises TypeError (deepcopy(a).reverse() is None); on a polygon with u1 > 1-epsilon the call recurses for ever."
  },
  {
   "property": "C293",
   "status": "proved",
   "theorems": [
    "c293_sound",
    "c293_complete"
   ],
   "note": ""
  },
  {
   "property": "C294",
   "status": "partial",
   "theorems": [
    "c294_inside_refuted"
   ],
   "note": "REFUTED: The start point is reported as not on it (parameter 0.0 == False), and points on the extension of the first or last edge are reported as on it."
  },
  {
   "property": "C295",
   "status": "proved",
   "theorems": [
    "c295_sound",
    "c295_complete",
    "c295_params",
    "c295_params_complete"
   ],
   "note": ""
  },
  {
   "property": "C296",
   "status": "partial",
   "theorems": [
    "c296_missed_refuted"
   ],
   "note": "REFUTED: A polyline of three points is never reported to intersect anything (len(lines) > 2); intersectXY of two polylines with params=True returns one list twice, with the parameters of both taking turns, and the first ones are not advanced by the edges passed."
  },
  {
   "property": "C297",
   "status": "proved",
   "theorems": [
    "c297_plane",
    "c297_sphere",
    "c297_cylinder",
    "c297_cone",
    "c297_torus",
    "c297_on",
    "c297_onto"
   ],
   "note": ""
  },
  {
   "property": "C298",
   "status": "proved",
   "theorems": [
    "c298_perpendicular",
    "c298_right_handed",
    "c298_sphere_outward",
    "c298_cylinder_outward"
   ],
   "note": ""
  },
  {
   "property": "C299",
   "status": "partial",
   "theorems": [
    "c299_inward_refuted"
   ],
   "note": "REFUTED: On every cone, at every point, cone_surface_normal (documented \"outward-pointing\") points towards the axis and is opposite to d/du x d/dv."
  },
  {
   "property": "C300",
   "status": "proved",
   "theorems": [
    "c300_vertices",
    "c300_triangles",
    "c300_succeeds"
   ],
   "note": ""
  },
  {
   "property": "C301",
   "status": "proved",
   "theorems": [
    "c301_hull",
    "c301_start",
    "c301_rejects"
   ],
   "note": ""
  },
  {
   "property": "C302",
   "status": "partial",
   "theorems": [
    "c302_edge_refuted",
    "c302_edge_v_refuted",
    "c302_corner_refuted"
   ],
   "note": "REFUTED: At the end of a clamped knot vector of degree >= 1 all basis functions vanish (0/0 terms are dropped), so every point of the far edge evaluates to the first control point; a bilinear patch at (1,1) gives its first corner, and tessellating it folds the last row and column back there."
  },
  {
   "property": "C303",
   "status": "proved",
   "theorems": [
    "c303_translate",
    "c303_similarity",
    "c303_rigid",
    "c303_plane",
    "c303_spline"
   ],
   "note": ""
  },
  {
   "property": "C304",
   "status": "partial",
   "theorems": [
    "c304_cylinder_refuted",
    "c304_patch_refuted",
    "c304_scale_refuted"
   ],
   "note": "REFUTED: transform_topology_graph leaves the reference direction of cylinders, cones and tori: after a quarter turn a unit cylinder evaluates to points of its axis. Read back, a turned plane gets new in-plane axes, so a turned rectangle is not turned; scaling by 2 does not change the parameter ranges, so a scaled cylinder keeps its height."
  },
  {
   "property": "C305",
   "status": "proved",
   "theorems": [
    "c305_reload",
    "c305_spline"
   ],
   "note": ""
  },
  {
   "property": "C306",
   "status": "proved",
   "theorems": [
    "c306_gears_fit",
    "c306_threads_fit",
    "c306_search",
    "c306_gear_reach",
    "c306_thread_reach",
    "c306_screw_in_hole"
   ],
   "note": ""
  },
  {
   "property": "C307",
   "status": "proved",
   "theorems": [
    "c307_closure",
    "c307_no_shell",
    "c307_two_faces"
   ],
   "note": ""
  },
  {
   "property": "C308",
   "status": "partial",
   "theorems": [
    "c308_one_face_refuted",
    "c308_empty_shell_refuted",
    "c308_rejected_stays_refuted"
   ],
   "note": "REFUTED: A single face that uses each edge twice is a closed shell; so is a shell without faces or whose faces are not in the graph (add_shell accepts it with closed=True); a shell refused with ShellClosureError stays in the graph, says closed=True, and its faces name it as their shell."
  },
  {
   "property": "C309",
   "status": "proved",
   "theorems": [
    "c309_vertex_edges",
    "c309_edge_faces",
    "c309_face_edges",
    "c309_owners",
    "c309_closed_stays",
    "c309_no_dangling"
   ],
   "note": ""
  },
  {
   "property": "C310",
   "status": "partial",
   "theorems": [
    "c310_edge_first_refuted",
    "c310_added_again_refuted",
    "c310_seam_refuted"
   ],
   "note": "REFUTED: An edge added before its vertices is never listed at them; an edge added twice is listed twice; the face of a seam edge is listed twice."
  },
  {
   "property": "C311",
   "status": "proved",
   "theorems": [
    "c311_add_shell",
    "c311_add_solid"
   ],
   "note": ""
  },
  {
   "property": "C312",
   "status": "partial",
   "theorems": [
    "c312_void_around_body_refuted",
    "c312_refused_stays_refuted"
   ],
   "note": "REFUTED: Only the centre of a void's bounding box is tested: with exact tests, two concentric boxes are accepted with the outer shell strictly inside its void. A refused solid stays in the graph and its shells name it."
  },
  {
   "property": "C313",
   "status": "proved",
   "theorems": [
    "c313_reload"
   ],
   "note": ""
  },
  {
   "property": "C314",
   "status": "partial",
   "theorems": [
    "c314_incidence_refuted",
    "c314_plain_arc_refuted"
   ],
   "note": "REFUTED: vertex_edges and edge_faces are empty for everything; every edge has sense True and the default tolerance; every shell is \"outer\", voids included; a graph with an arc edge without bulge and centre cannot be read back (ValueError)."
  },
  {
   "property": "C315",
   "status": "proved",
   "theorems": [
    "c315_line_goes",
    "c315_centre_arc_goes",
    "c315_centre_arc_sweep",
    "c315_evaluate"
   ],
   "note": ""
  },
  {
   "property": "C316",
   "status": "partial",
   "theorems": [
    "c316_bulge_misses_refuted",
    "c316_orientation_refuted",
    "c316_long_way_refuted",
    "c316_chord_refuted"
   ],
   "note": "REFUTED: An arc given by its bulge misses its ends unless 2 bulge^2 = 1 (the centre is computed from the middle of the arc by radius - height). The orientation of a centre arc is ignored (arc() overwrites it): the clockwise quarter from (0,1) to (1,0) about the origin passes (-1,0). Circle, B-spline and NURBS edges are drawn as chords."
  },
  {
   "property": "C317",
   "status": "proved",
   "theorems": [
    "c317_topology",
    "c317_parts",
    "c317_lines",
    "c317_arcs"
   ],
   "note": ""
  },
  {
   "property": "C318",
   "status": "partial",
   "theorems": [
    "c318_left_behind_refuted",
    "c318_circle_radius_refuted",
    "c318_mirrored_bulge_refuted"
   ],
   "note": "REFUTED: TopologyGraph.transform leaves circle centres, B-spline control points and all surfaces where they were; scaling a solid leaves the radii of circle edges; mirroring leaves the bulge, so an arc mirrored in the line through its ends does not change sides."
  },
  {
   "property": "C319",
   "status": "proved",
   "theorems": [
    "c319_fields",
    "c319_raises",
    "c319_layer",
    "c319_datum",
    "c319_surface",
    "c319_keepout",
    "c319_bolt"
   ],
   "note": ""
  },
  {
   "property": "C320",
   "status": "proved",
   "theorems": [
    "c320_failed",
    "c320_pending",
    "c320_order",
    "c320_sound"
   ],
   "note": ""
  },
  {
   "property": "C321",
   "status": "partial",
   "theorems": [
    "c321_passed_over_refuted",
    "c321_equality_refuted",
    "c321_order_refuted"
   ],
   "note": "REFUTED: the native back end passes over a criterion whose metric is missing, whose limit is written limit_mm or whose comparison is unknown; calculix and fenics pass any value for \"==\" and \"~=\", which the schema allows; fenics stops at the first missing metric, so the same criteria in another order are failed or pending"
  },
  {
   "property": "C322",
   "status": "proved",
   "theorems": [
    "c322_calculix_failed",
    "c322_calculix_passed",
    "c322_fenics_passed",
    "c322_fenics_failed",
    "c322_without",
    "c322_calculix_order"
   ],
   "note": ""
  },
  {
   "property": "C323",
   "status": "proved",
   "theorems": [
    "c323_results",
    "c323_failed",
    "c323_agree"
   ],
   "note": ""
  },
  {
   "property": "C324",
   "status": "partial",
   "theorems": [
    "c324_no_reason_refuted",
    "c324_no_value_refuted"
   ],
   "note": "REFUTED: an equality that does not hold fails the analysis but is not among the failed criteria; a metric found only under the name with dots fails the analysis while its result has neither value nor passed"
  },
  {
   "property": "C325",
   "status": "proved",
   "theorems": [
    "c325_report",
    "c325_valid",
    "c325_raises"
   ],
   "note": ""
  },
  {
   "property": "C326",
   "status": "proved",
   "theorems": [
    "c326_report",
    "c326_raises"
   ],
   "note": ""
  },
  {
   "property": "C327",
   "status": "proved",
   "theorems": [
    "c327_others",
    "c327_one_place",
    "c327_last",
    "c327_once",
    "c327_fresh",
    "c327_plans"
   ],
   "note": ""
  },
  {
   "property": "C328",
   "status": "partial",
   "theorems": [
    "c328_stale_refuted"
   ],
   "note": "REFUTED: a run without metrics (as after an error) keeps the metrics of an earlier run in the entry, under the new status and timestamp; so do artifacts, notes and summary"
  },
  {
   "property": "C329",
   "status": "proved",
   "theorems": [
    "c329_ok",
    "c329_used",
    "c329_boundary",
    "c329_too_often",
    "c329_warnings"
   ],
   "note": ""
  },
  {
   "property": "C330",
   "status": "partial",
   "theorems": [
    "c330_refuted"
   ],
   "note": "REFUTED: a surface without faces, a single quadrilateral, any triangle listed twice and a tetrahedron with one face turned round are all accepted without a warning"
  },
  {
   "property": "C331",
   "status": "proved",
   "theorems": [
    "c331_ok",
    "c331_warnings",
    "c331_raises",
    "c331_normal",
    "c331_closed"
   ],
   "note": ""
  },
  {
   "property": "C332",
   "status": "partial",
   "theorems": [
    "c332_consistent_refuted",
    "c332_inconsistent_refuted"
   ],
   "note": "REFUTED: a closed tetrahedron with every side once in each direction is rejected (as is any closed solid that has a face looking away from its first one), and two triangles that run along their common side in the same direction are accepted"
  },
  {
   "property": "C333",
   "status": "proved",
   "theorems": [
    "c333_centre",
    "c333_only",
    "c333_defined",
    "c333_one_centre"
   ],
   "note": "Over the reals; attached BREP data (OCC) left out."
  },
  {
   "property": "C334",
   "status": "proved",
   "theorems": [
    "c334_translate",
    "c334_mirror",
    "c334_rotate",
    "c334_scale"
   ],
   "note": "A displacement below the tolerance is ignored by translatesurface and leaves the centroid where it was."
  },
  {
   "property": "C335",
   "status": "proved",
   "theorems": [
    "c335_inside",
    "c335_box"
   ],
   "note": ""
  },
  {
   "property": "C336",
   "status": "proved",
   "theorems": [
    "c336_order",
    "c336_reverse"
   ],
   "note": ""
  },
  {
   "property": "C337",
   "status": "proved",
   "theorems": [
    "c337_tetrahedron",
    "c337_together"
   ],
   "note": ""
  },
  {
   "property": "C338",
   "status": "proved",
   "theorems": [
    "c338_volume",
    "c338_volume_defined",
    "c338_alone",
    "c338_area"
   ],
   "note": ""
  },
  {
   "property": "C339",
   "status": "proved",
   "theorems": [
    "c339_mass"
   ],
   "note": ""
  },
  {
   "property": "C340",
   "status": "proved",
   "theorems": [
    "c340_box"
   ],
   "note": ""
  },
  {
   "property": "C341",
   "status": "proved",
   "theorems": [
    "c341_assembly"
   ],
   "note": ""
  },
  {
   "property": "C342",
   "status": "partial",
   "theorems": [
    "c342_refuted"
   ],
   "note": "REFUTED: whatever the units, the number is the one in cubic millimetres (only the key changes); the entities are read and ignored, and with more than one solid in the package all are measured even when aggregate is false."
  },
  {
   "property": "C343",
   "status": "proved",
   "theorems": [
    "c343_accepted",
    "c343_read",
    "c343_bolts"
   ],
   "note": "Bolt patterns: finite real numbers."
  },
  {
   "property": "C344",
   "status": "proved",
   "theorems": [
    "c344_round_trip",
    "c344_writable",
    "c344_stable",
    "c344_bolts"
   ],
   "note": ""
  },
  {
   "property": "C345",
   "status": "proved",
   "theorems": [
    "c345_load_case",
    "c345_bolt_pattern",
    "c345_found",
    "c345_pattern_found"
   ],
   "note": ""
  },
  {
   "property": "C346",
   "status": "proved",
   "theorems": [
    "c346_interfaces",
    "c346_complete",
    "c346_equal_pairs"
   ],
   "note": ""
  },
  {
   "property": "C347",
   "status": "partial",
   "theorems": [
    "c347_refuted"
   ],
   "note": "REFUTED: a load case read with position null cannot be written (TypeError); half a bolt is accepted and written as no bolts, which is refused on reading; a pattern registered for (child, parent) of a mate, or for a pair without a mate, is silently dropped from the export."
  },
  {
   "property": "C348",
   "status": "proved",
   "theorems": [
    "c348_unchanged",
    "c348_raises",
    "c348_only"
   ],
   "note": "Spans and RangeExpr.step are not modelled."
  },
  {
   "property": "C349",
   "status": "proved",
   "theorems": [
    "c349_renames"
   ],
   "note": "Places entered: see C351 for those that are not."
  },
  {
   "property": "C350",
   "status": "partial",
   "theorems": [
    "c350_refuted_method",
    "c350_refuted_if",
    "c350_refuted_call",
    "c350_refuted_block"
   ],
   "note": "REFUTED: named arguments of a method call and the elif branches of an if expression are dropped, the final expression of a block is dropped, and every function call raises AttributeError (the visit method reads a field the node does not have)."
  },
  {
   "property": "C351",
   "status": "partial",
   "theorems": [
    "c351_refuted_ternary",
    "c351_refuted_loops",
    "c351_refuted_target"
   ],
   "note": "REFUTED: conditional expressions, while and if statements, assignment targets, match arms and blocks of if expressions are returned as they are."
  },
  {
   "property": "C352",
   "status": "partial",
   "theorems": [
    "c352_refuted",
    "c352_refuted_pipeline"
   ],
   "note": "REFUTED: for every module, even an empty one, and whatever visit_literal and visit_identifier do, transform raises TypeError: a command body is a Block, which cannot be iterated over, and Module has no commands argument; so does every pipeline that reaches such a transform."
  },
  {
   "property": "C353",
   "status": "proved",
   "theorems": [
    "c353_steps",
    "c353_raises",
    "c353_identity",
    "c353_add",
    "c353_fresh"
   ],
   "note": ""
  },
  {
   "property": "C354",
   "status": "partial",
   "theorems": [
    "c354_refuted"
   ],
   "note": "REFUTED: the constructor keeps a non-empty list it is given: add then changes the list of the caller and every other pipeline made from it (but not if the list was empty)."
  },
  {
   "property": "C355",
   "status": "proved",
   "theorems": [
    "c355_accepted",
    "c355_screenshots",
    "c355_round_trip"
   ],
   "note": "pathlib is a parameter: str(Path(s)) names itself again; of numbers only whether they are zero is modelled."
  },
  {
   "property": "C356",
   "status": "proved",
   "theorems": [
    "c356_found",
    "c356_default",
    "c356_case"
   ],
   "note": "str.lower is a parameter."
  },
  {
   "property": "C357",
   "status": "partial",
   "theorems": [
    "c357_refuted"
   ],
   "note": "REFUTED: the name is lower-cased but the keys are not: a key with an upper-case letter (\"Gold\") always yields the default colour."
  },
  {
   "property": "C358",
   "status": "partial",
   "theorems": [
    "c358_refuted",
    "c358_refuted_failure"
   ],
   "note": "REFUTED: sizes, colours and the palette of the caller's dictionary are replaced by tuples in place, even when the call then fails."
  },
  {
   "property": "C359",
   "status": "proved",
   "theorems": [
    "c359_found",
    "c359_names",
    "c359_refused"
   ],
   "note": "str.lower and issubclass are parameters."
  }
 ]
}