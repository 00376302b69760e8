# What Print Assumptions lists for each theorem

Generated by tools/design.py from the output of the Print Assumptions commands of the *_Props.v files.

## Closed under the global context (no axioms)

c01_bound_immaterial, c01_tokenize_finishes, c02_nothing_dropped, c02_source_order, c02_token_spans, c03_balanced_iff_counts_agree, c03_enough_dedents, c03_every_indent_is_closed, c04_every_string_has_a_spelling, c04_string_literal, c04_triple_quoted_literal, c05_binary_literal, c05_decimal_literal, c05_decimal_over_limit_is_an_error, c05_decimal_underscore_splits, c05_every_natural_has_digits, c05_hex_literal, c06_bound_immaterial, c06_parsing_finishes, c07_minimal_parentheses_roundtrip, c07_reads_back, c07_unambiguous, c07_writer_in_grammar, c08_no_while, c08_while_rejected, c09_assignable_exactly, c09_common_accepts_both, c09_int_to_float_only, c09_list_covariant, c09_reflexive, c09_resolved_types_ok, c09_transitive_without_points, c100_failed_save_refuted, c101_failed_addition_refuted, c102_digest_covers_surrogates_refuted, c103_reported_signer_refuted, c104_second_signature_refuted, c105_untrusted_is_a_signature_refuted, c106_altered_files_refuted, c107_summaries_agree_refuted, c108_renamed_refuted, c109_cache_invisible, c109_summary, c109_summary_failures, c10_reports_iff_recursive, c10_warnings_name_cycles, c113_empty_registry_refuted, c117_other_sources_refuted, c117_shared_always, c118_overwritten_refuted, c119_file_hidden_refuted, c11_emitted_type_refuted, c11_list_element_type_refuted, c11_parameter_type_refuted, c120_ghost_sources_refuted, c120_search_again_refuted, c121_register_part_refuted, c128_solid_refuted, c129_ascii, c129_not_binary, c12_block_scope, c12_expressions_change_nothing, c131_quad_refuted, c132_name_refuted, c13_execution_ends, c13_fuel_immaterial, c147_assembly_stored, c147_bolt_added, c147_datum_added, c147_keepout_added, c147_material_stored, c147_operation_stored, c147_other_fields, c147_other_keys, c147_surface_added, c148_helpers, c148_helpers_from, c148_hints, c148_rejected, c149_idempotent, c14_depth_bounded_and_restored, c14_runaway_recursion_reported, c150_idempotent, c150_keys, c150_then_apply, c151_kind_none_refuted, c152_reapply_refuted, c153_feature_kinds_refuted, c153_joint_kinds_refuted, c153_runtime_kinds_refuted, c154_id_given_once, c154_id_kept, c155_read_modifies_refuted, c156_failed_add, c157_failed_operation_refuted, c158_tags, c158_tags_start, c159_deterministic, c159_execute_computes, c159_factorial, c15_failed_requirement_fails, c15_requirement_recorded, c166_defined, c166_lines, c16_emit_recorded, c16_success_iff, c173_refuted, c17_conditional, c17_connectives, c189_rejects, c189_solid, c18_comprehension_limits, c18_too_deep_refused, c190_refuted, c19_statements_in_order, c19_straight_line_all_run, c208_range, c20_accumulate_refuted, c20_loop_leaves_outer_variables, c216_add_bolt_pattern, c216_add_constraint, c216_add_load_case, c216_add_mate, c216_effects, c21_created, c21_every_text_is_read, c21_round_trip, c21_signature_line_endings, c21_verify, c223_accepted, c223_effect, c225_unknown_names_refuted, c22_altered_file_detected, c22_answer_matches_messages, c22_not_a_manifest, c22_valid_iff, c23_created_package_stays_valid, c24_last_addition_recorded, c24_paths_unique, c25_digest_covers_the_rest, c25_order_and_signatures_irrelevant, c25_signing_changes_signatures_only, c26_altered_manifest_detected, c26_overall, c26_rejected_is_invalid, c26_signature_stays_valid, c26_signed_manifest_pins_files, c26_valid_means_accepted, c26_verification_answers, c27_operation_keys, c27_success_means_all_applied, c27_targeted_part, c27_untargeted_part, c28_errors_exact, c28_invalid, c28_result_parts, c28_success_iff_no_errors, c29_single_stage_is_basic, c29_stage_isolation, c29_staged, c307_closure, c307_no_shell, c307_two_faces, c308_empty_shell_refuted, c308_rejected_stays_refuted, c309_closed_stays, c309_edge_faces, c309_face_edges, c309_no_dangling, c309_owners, c309_vertex_edges, c30_last_datum, c30_last_source, c30_lookup, c311_add_shell, c311_add_solid, c312_refused_stays_refuted, c315_line_goes, c319_bolt, c319_datum, c319_fields, c319_keepout, c319_layer, c319_raises, c319_surface, c31_add_part_effect, c31_add_part_errors, c31_operations_terminate, c31_path_unique, c31_query_changes_nothing, c31_set_joint_frame, c31_unknown_part_raises, c31_world_is_current, c325_raises, c325_report, c325_valid, c326_raises, c326_report, c327_fresh, c327_last, c327_once, c327_one_place, c327_others, c327_plans, c328_stale_refuted, c329_boundary, c329_ok, c329_too_often, c329_used, c329_warnings, c343_accepted, c343_read, c344_round_trip, c344_stable, c344_writable, c345_bolt_pattern, c345_found, c345_load_case, c345_pattern_found, c346_complete, c346_equal_pairs, c346_interfaces, c348_only, c348_raises, c348_unchanged, c349_renames, c34_exported_world, c34_save_load_generic, c350_refuted_block, c350_refuted_call, c350_refuted_if, c350_refuted_method, c351_refuted_loops, c351_refuted_target, c351_refuted_ternary, c352_refuted, c352_refuted_pipeline, c353_add, c353_fresh, c353_identity, c353_raises, c353_steps, c354_refuted, c355_accepted, c355_round_trip, c355_screenshots, c356_case, c356_default, c356_found, c357_refuted, c358_refuted, c358_refuted_failure, c359_found, c359_names, c359_refused, c35_answers, c35_lookups_agree, c36_merged, c36_roundtrip, c36_separate, c38_set_then_get, c38_setcol_getcol, c38_setrow_getrow, c55_reverse_poly_refuted, c56_unknown_target_refuted, c57_through_refuted, c58_repeated_stage_refuted, c58_staged_drops_warnings_refuted, c62_chain_to_root, c62_descendants, c63_stray_dedent_refuted, c64_comment_changes_tokens_refuted, c64_string_changes_line_start_refuted, c65_names, c65_operators, c65_reserved_words, c66_only_parser_errors_refuted, c67_native_decorator_refuted, c68_transitive_refuted, c69_common_type_found_refuted, c70_none_fits_optional_refuted, c71_every_recursive_command_named_refuted, c72_every_program_terminates_refuted, c73_called_requirement_fails_refuted, c74_right_operand_always_evaluated, c74_short_circuit_refuted, c75_last_expression_evaluated_refuted, c76_match_names_local_refuted, c77_exceptions_reported_refuted, c78_defaults_independent_of_caller_refuted, c79_keywords_dropped, c79_keywords_honoured_refuted, c80_command_as_condition_refuted, c81_method_calls_fail_refuted, c82_if_expressions_refuted, c83_python_sees_innermost_refuted, c83_python_sees_outermost, c84_boolean_expressions, c84_integer_expressions, c85_declared_before_use, c85_functions_distinct, c86_no_undefined_variables, c87_only_checked_programs_run, c87_syntax_errors_reported, c87_type_errors_reported, c88_return_checks_refuted, c88_return_escapes_refuted, c89_default_before_required_refuted, c89_earlier_parameter_in_default_refuted, c89_keyword_argument_refuted, c89_type_name_as_value_refuted, c90_command_arity_refuted, c91_empty_list_refuted, c91_string_concatenation_refuted, c91_unannotated_parameter_refuted, c92_recursion_warned, c93_builtin_name_hides_recursion_refuted, c94_shared_builtins_agree, c95_accepted_and_fails_refuted, c95_checker_only_builtins_refuted, c96_runtime_only_builtins_refuted, c97_extra_arguments_refuted, c97_type_error_escapes_refuted, c98_other_algorithm_refuted, c99_overwriting_keeps_valid_refuted

## ClassicalDedekindReals.sig_forall_dec

c207_minimal, c207_required, c207_round_trip, c207_unknown_type, c208_zero_to_six_refuted, c216_add_part, c301_rejects, c318_left_behind_refuted, c330_refuted, c38_mul_is_matrix_product, c39_get_set, c39_values

## FunctionalExtensionality.functional_extensionality_dep

c75_final_expressions_ignored

## ClassicalDedekindReals.sig_forall_dec, FunctionalExtensionality.functional_extensionality_dep

c112_fit_symmetric_refuted, c133_empty_refuted, c134_retry_refuted, c135_points_refuted, c136_append_refuted, c136_callers_list_refuted, c137_center_refuted, c138_nurbs_end_refuted, c139_closed_curve_refuted, c139_closed_refuted, c140_copies_independent_refuted, c141_row_copied_refuted, c142_column_from_own_row_refuted, c143_surface_follows_changes_refuted, c144_solid_box_follows_changes_refuted, c145_assignment_seen_refuted, c146_failure_repeats_refuted, c160_oriented, c160_volume, c163_mirror, c163_reverse, c164_solidbbox, c164_surfacebbox, c190_surface, c193_ids, c193_kept, c193_nothing_added, c193_others, c198_refuted, c205_error, c205_satisfied, c205_unlimited, c205_violations, c206_rates_unchecked, c206_satisfied_means_no_violation_refuted, c236_axis_keeps_place, c236_axis_z, c237_axis_xy_refuted, c245_motions_pass, c262_length_used_refuted, c263_ids_refuted, c267_profile, c273_cuts, c273_even_when_allowed, c273_segments, c274_hits_hole_refuted, c275_too_long_refuted, c297_sphere, c306_gears_fit, c306_search, c306_threads_fit, c308_one_face_refuted, c310_added_again_refuted, c310_edge_first_refuted, c310_seam_refuted, c312_void_around_body_refuted, c320_failed, c320_order, c320_pending, c320_sound, c321_equality_refuted, c321_order_refuted, c321_passed_over_refuted, c322_calculix_failed, c322_calculix_order, c322_calculix_passed, c322_fenics_failed, c322_fenics_passed, c322_without, c323_agree, c323_failed, c323_results, c324_no_reason_refuted, c324_no_value_refuted, c32_apply_product, c32_assoc, c32_closed, c32_identity, c32_inverse, c32_inverse_point, c32_translation_moves, c333_centre, c333_defined, c333_one_centre, c333_only, c334_mirror, c335_box, c335_inside, c336_order, c336_reverse, c337_tetrahedron, c337_together, c338_alone, c338_volume, c338_volume_defined, c339_mass, c33_clamp_nearest, c341_assembly, c342_refuted, c343_bolts, c344_bolts, c347_refuted, c36_tolerance, c37_boxoverlap2, c37_no_exception, c37_query, c38_identity_apply, c38_mul_apply, c38_mul_assoc, c38_scale_inverse, c38_scale_inverse_defined, c38_translation_inverse, c40_cross, c40_cross_right_handed, c40_mirror_fixed, c40_mirror_involutive, c40_translate_back, c40_translate_is_matrix, c41_isinsidebbox_decides, c41_line, c41_poly_tight, c41_poly_vertices, c42_line_endpoints, c42_segment, c43_complete_above_tolerance, c43_sound, c44_convex_true_sound, c44_triangle_exact, c46_bezier_bernstein, c46_bezier_curve, c46_bezier_ends, c46_bezier_errors, c46_bezier_hull, c46_bezier_tangent, c46_bspline_ends, c46_bspline_hull, c46_bspline_local, c46_bspline_too_few, c46_bspline_weights, c46_nurbs_default, c46_nurbs_ends, c46_nurbs_weights, c47_properties, c47_surface, c48_line_reverse, c53_convex_complete_refuted

## ClassicalDedekindReals.sig_forall_dec, ClassicalDedekindReals.sig_not_dec, FunctionalExtensionality.functional_extensionality_dep

c109_every_pair_once, c109_one_check, c110_parallel_never_missed, c111_crossing_refuted, c114_placement_ignored_refuted, c115_gearbox, c116_planets_interfere_refuted, c122_compose, c122_rigid_motions, c122_transform, c123_extra_vectors_refuted, c124_placement, c125_frame_refuted, c126_duplicates, c127_parallel_refuted, c130_area, c130_mesh_view, c130_normal, c130_orient, c131_small_triangle_refuted, c160_closed, c160_open_rejected, c161_mirror, c161_rotate, c161_scale, c161_translate, c162_area, c162_mirror, c162_reverse, c162_rotate, c162_scale, c162_translate, c163_rotate, c163_scale, c163_scale_uniform, c163_translate, c165_build, c165_defined, c167_basis, c167_complete, c167_degenerate, c167_named_complete, c167_named_sound, c167_plane, c167_sound, c168_refuted, c169_refuted, c170_refuted, c171_refuted, c172_refuted, c174_refuted, c175_refuted, c176_refuted, c177_prism, c177_volume, c181_vertex, c182_refuted, c183_dodecahedron, c184_refuted, c185_extrude, c185_rejects, c185_swept, c186_refuted, c186_witness, c187_loft, c187_rejects, c187_repeats, c188_refuted, c191_empty_id, c191_saves, c191_solids, c192_sketches, c192_surfaces, c194_always, c194_refuted, c195_refuted, c196_refuted, c197_refuted, c209_idler, c209_ratio, c209_screw_turn, c209_who, c210_documented_screw_refuted, c210_reverse_refuted, c210_screw_reverse_ignored, c211_unique, c215_bolt_patterns, c215_constraints, c215_datums, c215_load_cases, c215_mates, c215_names, c215_stable, c216_refused, c217_matrix_refuted, c218_world, c219_arrays_ignored, c219_import_refuted, c222_value, c222_when, c224_other_mates, c224_total_refuted, c225_failed_import_refuted, c245_passing_is_nearly_motion, c247_flush, c248_concentric, c248_parallel, c249_compute_transform_refuted, c250_on_circle, c271_attachment, c271_corner, c271_ring, c279_arccenter, c279_segment, c280_whole_circle_refuted, c287_closed, c287_continuous, c287_empty, c287_end, c287_length, c287_place, c287_start, c288_points_refuted, c289_bad, c289_slice, c290_joints_refuted, c291_slice, c292_seam_refuted, c293_complete, c293_sound, c294_inside_refuted, c295_complete, c295_params, c295_params_complete, c295_sound, c296_missed_refuted, c297_cone, c297_cylinder, c297_on, c297_plane, c297_torus, c298_cylinder_outward, c298_perpendicular, c298_right_handed, c298_sphere_outward, c299_inward_refuted, c300_succeeds, c300_triangles, c300_vertices, c301_hull, c301_start, c302_corner_refuted, c302_edge_refuted, c302_edge_v_refuted, c303_plane, c303_rigid, c303_similarity, c303_spline, c303_translate, c304_cylinder_refuted, c304_patch_refuted, c304_scale_refuted, c305_reload, c305_spline, c306_gear_reach, c306_screw_in_hole, c306_thread_reach, c314_incidence_refuted, c314_plain_arc_refuted, c317_parts, c317_topology, c318_circle_radius_refuted, c32_axis_angle_additive, c32_axis_fixed, c32_constructors_rigid, c32_coordinate_axes, c32_isometry, c32_joint_rigid, c32_prismatic_distance, c32_quarter_turn, c32_zero_angle, c331_closed, c331_normal, c331_ok, c331_raises, c331_warnings, c332_consistent_refuted, c332_inconsistent_refuted, c334_rotate, c334_scale, c334_translate, c338_area, c340_box, c35_names, c35_verdict, c38_rotation_inverse, c38_rotation_isometry, c38_rotation_nonunit_always_raises, c38_rotation_quarter_turn, c38_rotation_total, c40_mirror_isometry, c40_rotate_axis_fixed, c40_rotate_center_fixed, c40_rotate_center_near, c40_rotate_isometry, c40_rotate_sense, c40_scale_center_formula, c40_scale_origin, c40_scale_two_factors_ignored, c40_translate_isometry, c41_circle, c41_poly_samples, c42_arc_endpoints, c42_arc_radius, c42_line_arclength, c42_line_unsample, c42_poly_arclength, c42_poly_closed_wraps, c42_poly_end, c42_poly_start, c42_poly_total, c45_line_closest_point, c45_line_distance, c45_segment_distance, c48_arc_flag_reverses, c48_arclength_nonneg, c48_reverse_list, c48_translate_keeps_length, c48_translate_moves, c49_rotation_any_axis_refuted, c50_scale_center_fixed_refuted, c51_arcbbox_refuted, c52_intersection_complete_refuted, c53_evenodd_refuted, c54_closest_point_refuted, c54_params_refuted, c55_reverse_arc_twice_refuted

## ClassicalDedekindReals.sig_forall_dec, ClassicalDedekindReals.sig_not_dec, Classical_Prop.classic, FunctionalExtensionality.functional_extensionality_dep

c178_cone, c178_default, c178_frustum, c178_rejects, c179_refuted, c180_angr, c180_chord, c180_default, c180_range, c180_sagitta, c181_sphere, c181_spheroid, c199_angle_unique, c199_at_radius, c199_facing, c199_facing_refused, c199_incomplete, c199_parallel, c199_perpendicular, c199_radial, c199_tangent, c200_exactly_radial_refuted, c201_zero_axis_refuted, c202_radius_unused, c202_touching_refuted, c203_unsupported_refuted, c204_angle_between, c204_helpers_agree, c211_aligned, c211_distance, c211_moves, c211_near, c211_point_on_plane, c212_symmetric_refuted, c213_plain, c213_refused, c213_slack, c213_sound, c214_offset_is_error, c214_same_pattern_refuted, c218_recorded, c218_total, c218_verdict, c220_documented_error_refuted, c220_never_assembly_error, c220_passes, c221_failed_means_failed_refuted, c226_face_to_face, c227_concentric, c228_parallel, c228_revolute, c229_angle_tolerance_refuted, c230_perpendicular, c231_distance, c232_distance_refuted, c233_angle, c234_angle_refuted, c235_frames_refuted, c238_axis_breaks_mate_refuted, c239_cache_transparent, c239_failures_not_kept, c239_invalidate, c239_no_cache, c240_parent_ignored_refuted, c241_stale_datum_refuted, c242_chain, c242_chain_stops, c243_branches_refuted, c244_no_others, c244_solve_all, c245_solutions_pass, c246_solvable, c250_determined, c250_ends, c250_evaluate, c251_tangent, c252_refuses, c252_sub_path, c253_adds, c253_sum, c253_whole, c254_start_refuted, c255_inverse_refuted, c256_inverse, c257_clamped, c257_out_of_range_refuted, c258_count, c258_segments, c259_tabs, c260_graph_refuted, c261_type_refuted, c262_length_refuted, c264_material, c265_cuts, c265_pieces, c265_short, c266_uneven_refuted, c268_centred, c268_ends, c269_uneven_refuted, c270_terminal, c272_ring_refuted, c276_arc_complete, c276_arc_only, c276_circle_complete, c276_on_both, c276_outcome, c276_params, c277_segment_refuted, c278_near_miss_refuted, c278_short_line_refuted, c279_off_circle, c279_sample_unsample, c279_unsample_sample, c280_unsample_end_refuted, c281_arcs, c281_complete, c281_on_both, c281_outcome, c281_params, c282_params_refuted, c282_unit_chord_refuted, c283_from_point, c283_tangents, c284_too_close_refuted, c285_circle, c285_sector, c286_on_arc_refuted, c297_onto, c313_reload, c315_centre_arc_goes, c315_centre_arc_sweep, c315_evaluate, c316_bulge_misses_refuted, c316_chord_refuted, c316_long_way_refuted, c316_orientation_refuted, c317_arcs, c317_lines, c318_mirrored_bulge_refuted, c32_relative, c32_world_rigid, c33_clamped_in_limits, c33_other_joints_kept, c33_unclamped_exact, c34_joint_round_trip, c34_save_load, c46_catmull_samples, c46_catmull_through, c59_assigned_value_refuted, c59_replaced_frame_refuted, c60_euler_round_trip_refuted, c61_datum_frame_lost_refuted, c61_empty_name_refuted
