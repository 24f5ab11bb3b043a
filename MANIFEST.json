{"claims": [
  {"property": "C01", "status": "proved", "theorems": ["C01_access_is_row_major"], "note": ""},
  {"property": "C02", "status": "proved", "theorems": ["C02_access_is_bijective"], "note": ""},
  {"property": "C03", "status": "proved", "theorems": ["C03_access_styles_agree"], "note": ""},
  {"property": "C04", "status": "proved", "theorems": ["C04_any_path", "C04_bounds_check_exact", "C04_compile_time_bounds"], "note": ""},
  {"property": "C05", "status": "proved", "theorems": ["C05_any_path", "C05_unchecked_access", "C05_unchecked_access_iff", "C05_never_accepted_unchecked_refuted", "C05_never_accepted_consteval_refuted"], "note": "Exact characterisation of unchecked accesses, plus refutations of 'never silently accepted' (unchecked, and during constant evaluation with checks on)."},
  {"property": "C06", "status": "proved", "theorems": ["C06_shape"], "note": ""},
  {"property": "C07", "status": "proved", "theorems": ["C07_list_initialisation"], "note": ""},
  {"property": "C08", "status": "proved", "theorems": ["C08_slice"], "note": ""},
  {"property": "C09", "status": "proved", "theorems": ["C09_no_overflow"], "note": ""},
  {"property": "C10", "status": "proved", "theorems": ["C10_array_is_a_map"], "note": "Histories of any length, any access path, against an abstract map."},
  {"property": "C11", "status": "proved", "theorems": ["C11_enumeration_exists_unique", "C11_forRange_visits_box_in_order"], "note": ""},
  {"property": "C12", "status": "proved", "theorems": ["C12_linearIndex_injective_refuted", "C12_linearIndex_in_bounds_refuted", "C12_linearIndex_no_overflow_refuted", "C12_linearIndex_row_major_iff", "C12_linearIndex_row_major_iff_palindrome", "C12_scalar_index"], "note": "The positive claim is false of the code; proved: three refutations with witnesses and the exact condition on the ranges under which it holds."},
  {"property": "C13", "status": "proved", "theorems": ["C13_forSequence"], "note": ""},
  {"property": "C14", "status": "proved", "theorems": ["C14_executeSequence_no_args", "C14_executeSequence_args", "C14_documented_order_refuted"], "note": "Proved for callables invocable in both argument orders; documented order alone is refuted."},
  {"property": "C15", "status": "proved", "theorems": ["C15_forNestedSequence", "C15_forNestedSequence_is_forRange_from_zero"], "note": ""},
  {"property": "C16", "status": "proved", "theorems": ["C16_IntPackPeeler"], "note": ""},
  {"property": "C17", "status": "proved", "theorems": ["C17_pow_int", "C17_pow_real"], "note": ""},
  {"property": "C18", "status": "proved", "theorems": ["C18_factorial"], "note": ""},
  {"property": "C19", "status": "proved", "theorems": ["C19_binomial"], "note": ""},
  {"property": "C20", "status": "proved", "theorems": ["C20_inverse_array", "C20_inverse_builtin", "C20_overloads_agree"], "note": ""},
  {"property": "C21", "status": "proved", "theorems": ["C21_small_overwrites_neighbours_refuted", "C21_inverse_leading_block", "C21_inverse_any_size_refuted", "C21_small_aborts", "C21_small_out_of_bounds"], "note": "Exact behaviour for every size: leading block only (n>=3), abort or out-of-bounds access (n<=2); 'inverts any square array' refuted."},
  {"property": "C22", "status": "proved", "theorems": ["C22_equal_spacing", "C22_one_point_divides_by_zero"], "note": ""},
  {"property": "C23", "status": "proved", "theorems": ["C23_gauss_legendre_nodes", "C23_other_sizes_collapse"], "note": ""},
  {"property": "C24", "status": "proved", "theorems": ["C24_gauss_lobatto_nodes", "C24_other_sizes_collapse"], "note": ""},
  {"property": "C25", "status": "proved", "theorems": ["C25_accessors_agree", "C25_accessors_agree_lobatto_refuted"], "note": "Agreement proved for every spacing, N and index outside GaussLobatto 6..9; there disagreement is proved at every point but the middle one."},
  {"property": "C26", "status": "proved", "theorems": ["C26_weights", "C26_exact_symmetry_refuted", "C26_runtime_weights", "C26_runtime_weights_equal_refuted", "C26_unsupported_rejected"], "note": "Over exact reals for the decimal literals. Exact symmetry (Lobatto 8) and exact rt/ct equality (Lobatto 4) refuted."},
  {"property": "C27", "status": "proved", "theorems": ["C27_quadrature_exactness", "C27_degree_is_sharp"], "note": "Any polynomial up to the degree, error proportional to literal precision; degree bound shown sharp."},
  {"property": "C28", "status": "proved", "theorems": ["C28_lagrange_nodal", "C28_lagrange_degree"], "note": ""},
  {"property": "C29", "status": "proved", "theorems": ["C29_unity_and_reproduction"], "note": ""},
  {"property": "C30", "status": "proved", "theorems": ["C30_gradient_is_derivative", "C30_gradient_of_interpolated_polynomial"], "note": ""},
  {"property": "C31", "status": "proved", "theorems": ["C31_bundled_bases", "C31_order_zero", "C31_unsupported_orders"], "note": ""},
  {"property": "C32", "status": "proved", "theorems": ["C32_value_is_product", "C32_shape_is_product"], "note": ""},
  {"property": "C33", "status": "proved", "theorems": ["C33_gradient_is_gradient_of_value"], "note": ""},
  {"property": "C34", "status": "proved", "theorems": ["C34_lagrange_directions", "C34_nodal", "C34_partition_of_unity", "C34_gradients_sum_to_zero", "C34_loop_visits_each_support_point", "C34_sums"], "note": ""},
  {"property": "C35", "status": "proved", "theorems": ["C35_value_at_support_points", "C35_constants", "C35_linear_in_field", "C35_value_is_sum", "C35_dimension_mismatch"], "note": ""},
  {"property": "C36", "status": "proved", "theorems": ["C36_reproduces_tensor_polynomials"], "note": ""},
  {"property": "C37", "status": "proved", "theorems": ["C37_gradient_differentiates_interpolant", "C37_gradient_of_tensor_polynomials"], "note": ""},
  {"property": "C38", "status": "proved", "theorems": ["C38_setData_stores_rows"], "note": ""},
  {"property": "C39", "status": "proved", "theorems": ["C39_distinct_rows_refuted", "C39_setData_row_of_each_point", "C39_rows_distinct_iff"], "note": "The claim is false of the code: two support points of a (2,1,1)-order cell share a row whatever the coordinates (refuted). Exact row map for all counts and the exact condition (two points in the first two directions) proved."},
  {"property": "C40", "status": "proved", "theorems": ["C40_jacobian_is_derivative"], "note": ""},
  {"property": "C41", "status": "proved", "theorems": ["C41_jacobian_accumulates", "C41_inverseJacobian_accumulates"], "note": "Incoming contents plus Jacobian, for every incoming array; the by-value functions are C40/C43."},
  {"property": "C42", "status": "proved", "theorems": ["C42_quadrature_jacobian", "C42_any_number_type"], "note": "C42_any_number_type: the two functions return the same value for every number type, hence bit for bit in doubles; it needs only that each basis function is defined at the quadrature point."},
  {"property": "C43", "status": "proved", "theorems": ["C43_inverseJacobian", "C43_small_dimensions"], "note": "Exact real arithmetic, all orders; zero determinant is a division by zero; 1-D and 2-D cells abort or read out of bounds."},
  {"property": "C44", "status": "proved", "theorems": ["C44_scaling", "C44_scaling_data"], "note": ""},
  {"property": "C45", "status": "proved", "theorems": ["C45_uniform_is_scaling", "C45_uniform_data", "C45_uniform_values"], "note": "First theorem holds for every number type of the model, including floating point."},
  {"property": "C46", "status": "proved", "theorems": ["C46_affine_cell", "C46_box_agrees_with_scaling", "C46_translation_invariant"], "note": "Box theorem runs setData, jacobian and inverseJacobian end to end."},
  {"property": "C47", "status": "proved", "theorems": ["C47_cube_face_counts", "C47_cube_named_counts"], "note": ""},
  {"property": "C48", "status": "proved", "theorems": ["C48_cube_counts_defined", "C48_cube_counts_fit_refuted", "C48_cube_counts_accepted_refuted"], "note": "Exact definedness condition proved, with refutations of 'defined whenever the count fits'."},
  {"property": "C49", "status": "proved", "theorems": ["C49_simplex_face_counts", "C49_simplex_named_counts"], "note": ""},
  {"property": "C50", "status": "proved", "theorems": ["C50_coordinates_and_volume", "C50_bad_bounds_rejected"], "note": ""},
  {"property": "C51", "status": "proved", "theorems": ["C51_check", "C51_check_symmetric", "C51_check_zero_tolerance"], "note": ""},
  {"property": "C52", "status": "proved", "theorems": ["C52_check_sound", "C52_check_complete", "C52_check_equal_values", "C52_every_tolerance_refuted", "C52_large_values_refuted"], "note": "Soundness for all triples, completeness away from under/overflow, exact criterion for equal values; the unrestricted claim is refuted in both directions."},
  {"property": "C53", "status": "proved", "theorems": ["C53_host", "C53_device", "C53_host_device_agree", "C53_closure_wrapper", "C53_hip_does_not_compile"], "note": "Host, device without failures, and agreement over any history of calls; HIP builds do not compile (a CUDA constant is used)."},
  {"property": "C54", "status": "proved", "theorems": ["C54_failures", "C54_every_allocation_freed_once", "C54_allocation_failure_undefined", "C54_failures_reported_refuted"], "note": "All failure combinations after a successful allocation; 'whatever runtime calls fail' is false: a failed allocation is used uninitialised, and failed copies/launches are unreported (both proved)."},
  {"property": "C55", "status": "proved", "theorems": ["C55_assertion_macro", "C55_assertion_failed", "C55_callAbort_respected_refuted"], "note": "Macro semantics for every context; callAbort being respected on devices is refuted."},
  {"property": "C56", "status": "proved", "theorems": ["C56_equal_spacing_double", "C56_last_point_exact_refuted", "C56_symmetric_refuted", "C56_one_point_not_finite"], "note": "Flocq binary64, round to nearest even, no contraction. Exactness of the last point and symmetry are refuted."},
  {"property": "C57", "status": "proved", "theorems": ["C57_nodal_double", "C57_bundled_nodal_double", "C57_own_value_exact_refuted"], "note": "General theorem over any separated table plus the bundled spacings. 'Exactly 1 at its own point' is refuted."},
  {"property": "C58", "status": "proved", "theorems": ["C58_aggregate"], "note": "For every file system, current directory, header list and include path; includes order, exactly-once and the exact text of each section."},
  {"property": "C59", "status": "proved", "theorems": ["C59_terminates_iff_acyclic", "C59_terminates_refuted"], "note": "The claim is false of the code (refuted: two files including each other run for ever); proved: it terminates exactly if the followed directives are acyclic."},
  {"property": "C60", "status": "proved", "theorems": ["C60_changes_only_named_files", "C60_relative_names_stay_inside", "C60_stays_inside_refuted"], "note": "The claim is false of the code (refuted: split overwrites the original headers); proved: exactly which files can change, and that relative names without .. stay inside."},
  {"property": "C61", "status": "proved", "theorems": ["C61_split_sections", "C61_aggregate_then_split", "C61_final_newline_needed_refuted"], "note": "Round trip for every include graph; the condition on the final newline is shown necessary. The files are rewritten at their original absolute paths (see C60)."},
  {"property": "C62", "status": "proved", "theorems": ["C62_compare", "C62_exactly_one", "C62_white_space"], "note": "Key sets without duplicates, exact membership of both dictionaries, for all texts."},
  {"property": "C63", "status": "proved", "theorems": ["C63_views", "C63_const_correctness"], "note": ""},
  {"property": "C64", "status": "proved", "theorems": ["C64_deallocateData"], "note": ""},
  {"property": "C65", "status": "proved", "theorems": ["C65_coordinates_same_double", "C65_weights_same_double", "C65_lobatto4_same_double_refuted"], "note": "Holds outside GaussLobatto 4 (refuted there); N=6..9 run-time coordinates are 0, see C25."},
  {"property": "C66", "status": "proved", "theorems": ["C66_value_accuracy", "C66_bundled_accuracy"], "note": "value only; gradient is covered by C84."},
  {"property": "C67", "status": "proved", "theorems": ["C67_quadrature_double"], "note": "Rounding of the tables; the weighted sum itself is over exact reals."},
  {"property": "C68", "status": "proved", "theorems": ["C68_other_files_unchanged", "C68_output_as_input"], "note": "Frame property for every run; output-as-input case characterised."},
  {"property": "C69", "status": "proved", "theorems": ["C69_indented_directive_refuted", "C69_after_unresolved_refuted", "C69_followed_is_directive", "C69_next_to_the_file"], "note": "The claim is false of the code (two refutations); the converse is proved. What happens when it holds is C58."},
  {"property": "C70", "status": "proved", "theorems": ["C70_settings_of_both_printed", "C70_all_differences_printed_refuted"], "note": "The claim is false of the code (refuted); settings present in both files are proved printed."},
  {"property": "C71", "status": "proved", "theorems": ["C71_tensor_quadrature"], "note": "Any number of directions, any mix of rules; the integral is iterated, by antiderivatives."},
  {"property": "C72", "status": "proved", "theorems": ["C72_hexahedron_volume", "C72_volume_is_integral"], "note": "Against Grandy's closed formula for a hexahedron with bilinear faces, itself proved to be the integral of the Jacobian determinant."},
  {"property": "C73", "status": "proved", "theorems": ["C73_basis_symmetry"], "note": "All bundled spacings and orders, over the reals."},
  {"property": "C74", "status": "proved", "theorems": ["C74_lumped_mass", "C74_weights_are_integrals", "C74_gauss_mass_is_exact", "C74_product_matrices"], "note": "Diagonality is exact; the integrals up to the literal precision times coefficient norms."},
  {"property": "C75", "status": "proved", "theorems": ["C75_summation_by_parts", "C75_lobatto_boundary"], "note": "Up to the literal precision times coefficient norms."},
  {"property": "C76", "status": "proved", "theorems": ["C76_outside_untouched", "C76_missing_hostconfig"], "note": "Covers every way the script can end; symbolic links and paths starting with two slashes are not modelled."},
  {"property": "C77", "status": "proved", "theorems": ["C77_fresh_directories"], "note": "The state at the moment cmake is started."},
  {"property": "C78", "status": "proved", "theorems": ["C78_command_words", "C78_command_words_refuted", "C78_dependency_graph"], "note": "Proved when every path and passed-on argument is made of characters the shell leaves alone; refuted with a space in the install path."},
  {"property": "C79", "status": "proved", "theorems": ["C79_runs_cmake", "C79_unreadable_hostconfig", "C79_failed_run_keeps_build_refuted", "C79_build_here_refuted", "C79_install_above_refuted", "C79_hostconfig_lost_refuted"], "note": "Proved under explicit conditions on the two directories; three refutations show those conditions are needed."},
  {"property": "C80", "status": "proved", "theorems": ["C80_exit_status", "C80_failure_reported_refuted"], "note": "Exact characterisation of the exit status; refuted that a failing cmake changes it."},
  {"property": "C81", "status": "proved", "theorems": ["C81_command_is_cmake", "C81_hostconfig_cmake_refuted"], "note": "The command always starts with the word cmake; refuted that the host config has a say."},
  {"property": "C82", "status": "proved", "theorems": ["C82_scaling_double", "C82_jacobian_exact", "C82_small_cell_refuted"], "note": "Assumes IEEE rounding of each operation (no fused operations). UniformScaling follows by C45, which holds for every number type."},
  {"property": "C83", "status": "proved", "theorems": ["C83_determinant_double", "C83_inverse_double", "C83_determinant_exact", "C83_inverse_exact", "C83_invertible_refuted", "C83_singular_refuted"], "note": "Stated for the built-in array overload; C20_overloads_agree (now for every number type) carries it to the array overload. Two refutations show the condition on the determinant is needed."},
  {"property": "C84", "status": "proved", "theorems": ["C84_gradient_accuracy", "C84_bundled_gradient_accuracy"], "note": "Assumes IEEE rounding of each operation (no fused operations). For the bundled spacings up to order 15; the general theorem asks (ORDER+2)(q+5) < 1024 for points 2^-q apart."},
  {"property": "C85", "status": "proved", "theorems": ["C85_value_accuracy", "C85_constant_accuracy"], "note": "Compared with the exact interpolant of the points as stored in doubles; C56 bounds how far equally spaced ones are from the exact points."},
  {"property": "C86", "status": "proved", "theorems": ["C86_gradient_accuracy"], "note": "As C85; derivatives are true partial derivatives (derivable_pt_lim)."},
  {"property": "C87", "status": "proved", "theorems": ["C87_jacobian_accuracy"], "note": "As C85; the point jacobian. C42_any_number_type carries it to the quadrature-point jacobian."},
  {"property": "C88", "status": "proved", "theorems": ["C88_exit_status", "C88_green_build"], "note": "Commands are an arbitrary function from history, directory and words to an exit status."},
  {"property": "C89", "status": "proved", "theorems": ["C89_what_ran", "C89_configuration", "C89_every_request_refuted", "C89_nothing_asked_refuted"], "note": "Exact list proved; two readings of the property that fail are refuted."},
  {"property": "C90", "status": "proved", "theorems": ["C90_cmake_status_ignored", "C90_failed_cmake_is_noticed_refuted"], "note": "Combines the CI script with the model of config-build.py (C76-C81)."},
  {"property": "C91", "status": "proved", "theorems": ["C91_variables", "C91_number_of_jobs_refuted"], "note": "Variables must not contain blanks (they are unquoted in the script); pathname expansion is not modelled. docker options with a separate value other than -e and --gpus are not modelled."},
  {"property": "C92", "status": "proved", "theorems": ["C92_coverage", "C92_report_delivered_refuted"], "note": ""},
  {"property": "C93", "status": "proved", "theorems": ["C93_unit_tests", "C93_every_source", "C93_code_checks", "C93_no_style_tests", "C93_doxygen_checked_refuted"], "note": "BLT's own smoke tests are not modelled."},
  {"property": "C94", "status": "proved", "theorems": ["C94_check_status", "C94_clean_refuted", "C94_checked_files", "C94_headers_checked_refuted"], "note": "CMake regular expressions are modelled for characters and starred characters, which is what the file uses."},
  {"property": "C95", "status": "proved", "theorems": ["C95_header", "C95_configuration_fails", "C95_version", "C95_standalone_version", "C95_standalone_version_refuted"], "note": "The case of a version without a dot is in the model and not in the theorem C95_version."},
  {"property": "C96", "status": "proved", "theorems": ["C96_constant_iff_affine", "C96_constant_iff_parallelepiped", "C96_scaling_claim", "C96_uniform_claim", "C96_linear_claim"], "note": "Exact arithmetic."},
  {"property": "C97", "status": "proved", "theorems": ["C97_jacobian", "C97_quadrature_jacobian", "C97_inverse_jacobian", "C97_inverse", "C97_setData", "C97_gradient", "C97_scaling", "C97_uniform", "C97_sizes_matter"], "note": "Any number type. inverseJacobian in 3 dimensions (in 1 and 2 the outcome depends on the checks, C43)."},
  {"property": "C98", "status": "proved", "theorems": ["C98_cell_accuracy", "C98_hexahedron"], "note": "Round-to-nearest binary64 without fused operations. The reference is the exact map of the vertices and support points as stored in doubles."},
  {"property": "C99", "status": "proved", "theorems": ["C99_value_reproducible", "C99_product_reproducible", "C99_scaling_reproducible", "C99_determinant_exact", "C99_determinant_reproducible_refuted"], "note": "Contraction as by nvcc, hipcc and gcc by default: a product and the addition or subtraction it is used in; no reassociation. Inputs are not themselves products in sight of the compiler."},
  {"property": "C100", "status": "proved", "theorems": ["C100_gradient_accuracy", "C100_value_accuracy", "C100_constant_accuracy", "C100_field_gradient_accuracy", "C100_jacobian_accuracy", "C100_determinant_accuracy", "C100_inverse_accuracy", "C100_cell_accuracy", "C100_hexahedron"], "note": "Same bounds as C83-C87 and C98 (the underflow term of single basis gradients is 2^-929 instead of 2^-930). The reference is the exact interpolation of the points and data as stored in doubles."},
  {"property": "C101", "status": "proved", "theorems": ["C101_gate", "C101_builds", "C101_unit_tests", "C101_checks", "C101_coverage", "C101_coverage_counts_refuted", "C101_missing_tag_refuted"], "note": "GitHub Actions semantics as documented; steps that are not scripts of the repository end as an oracle says. C101_unit_tests: after a successful make, ctest runs the tests the configured project registers."},
  {"property": "C102", "status": "proved", "theorems": ["C102_configurations", "C102_combinations", "C102_compilers", "C102_all_modes_refuted", "C102_only_mode", "C102_names_refuted"], "note": "Stand-alone builds through hostconfigs/environment.cmake, as in all jobs."},
  {"property": "C103", "status": "proved", "theorems": ["C103_one_run", "C103_cancelled", "C103_last_run", "C103_every_push_refuted"], "note": "Only concurrency of this workflow; manual cancellation is not an event."},
  {"property": "C104", "status": "proved", "theorems": ["C104_trace", "C104_layers_agree", "C104_continuous", "C104_gauss_legendre_continuous_refuted", "C104_cells"], "note": "Real arithmetic. C104_continuous is stated for the bundled bases; C104_layers_agree for any nodal bases."},
  {"property": "C105", "status": "proved", "theorems": ["C105_chain_rule", "C105_patch_test", "C105_moved_jacobian", "C105_moved_inverse", "C105_rigid_motion"], "note": "Real arithmetic; three dimensions where the inverse is used, because the inverse is 3x3 only (C21)."},
  {"property": "C106", "status": "proved", "theorems": ["C106_remainder", "C106_element_error", "C106_multilinear_error"], "note": "Real arithmetic."},
  {"property": "C107", "status": "proved", "theorems": ["C107_no_overshoot", "C107_higher_orders_refuted", "C107_gauss_legendre_refuted"], "note": "Real arithmetic. Holds for order 1 with end points; the _refuted theorems give the orders and spacings for which it fails."},
  {"property": "C108", "status": "proved", "theorems": ["C108_quadrature_error"], "note": "Real arithmetic. eps is 1e-33 for up to five points and 1e-13 beyond, because the larger tables have fewer digits."},
  {"property": "C109", "status": "proved", "theorems": ["C109_command_line", "C109_host_config_required", "C109_passed_on_exactly", "C109_outcomes", "C109_words_for_cmake", "C109_abbreviation_refuted", "C109_other_words_refuted", "C109_attached_values_refuted", "C109_dashed_values", "C109_together"], "note": "The model of argparse follows CPython 3.11.10 and was compared with it on 3000 random command lines. The _refuted theorems show words that are not passed on."},
  {"property": "C110", "status": "proved", "theorems": ["C110_verdict", "C110_terminates", "C110_clean_passes", "C110_broken_fails", "C110_complaints_fail_when_copied", "C110_complaints_fail_refuted", "C110_many_complaints_refuted", "C110_stale_file_refuted"], "note": "The _refuted theorems show that complaints can go unnoticed: by the race with tee, 256 lines at a time, and by a file left from an earlier run that hides or adds complaints."},
  {"property": "C111", "status": "proved", "theorems": ["C111_any_order", "C111_umbrella_refuted", "C111_assert_refuted"], "note": "The _refuted theorems concern shiva/Shiva.hpp and SHIVA_ASSERT_MSG after ShivaMacros.hpp alone."},
  {"property": "C112", "status": "proved", "theorems": ["C112_separate_elements", "C112_schedule_independent", "C112_slices", "C112_slices_schedule_independent", "C112_race", "C112_distinct_tuples_refuted"], "note": "An access is one step; in executions without data races, the only ones with defined behaviour, its duration cannot be observed."},
  {"property": "C113", "status": "proved", "theorems": ["C113_concurrent_calls", "C113_no_deadlock", "C113_terminates", "C113_completes", "C113_as_alone", "C113_own_failure_reported", "C113_abort_only_if_asked", "C113_only_own_failures_refuted", "C113_results_delivered_refuted", "C113_defined_refuted"], "note": "The device runtime is modelled after its documentation: launches queue kernels, a synchronisation waits for what is queued, a trap makes every later call fail. Runtime failures other than traps are treated in C54. The _refuted theorems show how the failure of one thread reaches another."},
  {"property": "C114", "status": "proved", "theorems": ["C114_mass_matrix"], "note": "Exact real arithmetic. The matrix is represented by its quadratic form; the library has no assembly routine, the form is the sum over the quadrature points a user writes with its weights, points and values."},
  {"property": "C115", "status": "proved", "theorems": ["C115_gradient_energy", "C115_diffusion_matrix"], "note": "Exact real arithmetic. C115_gradient_energy is the general statement, C115_diffusion_matrix its use with inverseJacobian of a hexahedron."},
  {"property": "C116", "status": "proved", "theorems": ["C116_edge_triples", "C116_one_to_one", "C116_finite_check_refuted", "C116_quadrilateral"], "note": "Exact real arithmetic, order-1 bases on the nodes -1 and 1. The position of a parent point is the interpolant of the vertex coordinates. The natural finite check is refuted (C116_finite_check_refuted)."},
  {"property": "C117", "status": "proved", "theorems": ["C117_aggregate_line", "C117_after_dashes", "C117_split_line", "C117_outcomes", "C117_unknown_option", "C117_help", "C117_wrong_number", "C117_option_before_headers_refuted", "C117_headers_kept_refuted"], "note": "The parser is argparse of CPython 3.11.10, transcribed for the three parsers the script builds; C117_option_before_headers_refuted and C117_headers_kept_refuted are findings."},
  {"property": "C118", "status": "proved", "theorems": ["C118_versions", "C118_exact_refuted", "C118_subdirectory_names", "C118_installed_names", "C118_one_name_refuted", "C118_self_contained_refuted", "C118_relocatable", "C118_include_dirs_refuted"], "note": "CMake's own commands are transcribed from CMake 3.23; searching for the package is not modelled. The _refuted theorems are findings."},
  {"property": "C119", "status": "proved", "theorems": ["C119_coordinates_same_float", "C119_weights_same_float", "C119_tables", "C119_quadrature_float", "C119_equal_spacing_float", "C119_distinct_points_refuted", "C119_last_point_exact_refuted"], "note": "The mixture of int, float and double in each expression is modelled conversion by conversion. The _refuted theorems are findings."},
  {"property": "C120", "status": "proved", "theorems": ["C120_nodal_float", "C120_bundled_nodal_float", "C120_own_value_exact_refuted", "C120_value_accuracy", "C120_bundled_accuracy"], "note": "The division 1.0 / ( a - b ) is a double division rounded to float, as in C++; it is proved equal to the float division."},
  {"property": "C121", "status": "proved", "theorems": ["C121_check_sound", "C121_check_complete", "C121_check_equal_values", "C121_every_tolerance_refuted", "C121_large_values_refuted"], "note": "The _refuted theorems are findings."},
  {"property": "C122", "status": "proved", "theorems": ["C122_division", "C122_scaling", "C122_jacobian_exact", "C122_uniform", "C122_small_cell_refuted", "C122_large_cell_refuted", "C122_determinant", "C122_inverse", "C122_determinant_exact", "C122_inverse_exact", "C122_invertible_refuted", "C122_singular_refuted"], "note": "0.5 * h, 2.0 / h and 0.125 * h0 * h1 * h2 are modelled as double expressions stored in floats, 2 / h as a float division. The _refuted theorems are findings."},
  {"property": "C123", "status": "proved", "theorems": ["C123_gradient_accuracy", "C123_bundled_gradient_accuracy", "C123_value_accuracy", "C123_constant_accuracy", "C123_field_gradient_accuracy", "C123_jacobian_accuracy", "C123_cell_accuracy", "C123_hexahedron"], "note": "Float analogue of C84-C87 and C98. Divisions 1.0 / (a - b) are double divisions stored in floats in the model; C122_division shows that they are float divisions."},
  {"property": "C124", "status": "proved", "theorems": ["C124_continuous", "C124_cells", "C124_continuous_refuted", "C124_continuous_float", "C124_cells_float"], "note": "Floating-point counterpart of C104. The excluded orders are those for which the first or last basis function is not exactly 1 at its own end point."},
  {"property": "C125", "status": "proved", "theorems": ["C125_volume", "C125_volume_float"], "note": "Floating-point counterpart of C72. The weighted sum is a real number: how a caller adds up is not part of the library."},
  {"property": "C126", "status": "proved", "theorems": ["C126_factorial", "C126_factorial_right_refuted", "C126_binomial", "C126_binomial_right_refuted", "C126_pow", "C126_unsigned_pow_defined_refuted", "C126_int"], "note": "Includes refuted statements: unsigned and narrow types accept factorials and binomial coefficients that do not fit and yield wrong numbers; pow on unsigned short can overflow int. For int the functions coincide with those of C17-C19 (C126_int)."},
  {"property": "C127", "status": "proved", "theorems": ["C127_pow_double", "C127_pow_double_exact", "C127_pow_float", "C127_pow_float_exact", "C127_shape_double", "C127_shape_double_exact", "C127_length_refuted", "C127_shape_float", "C127_float_one_rounding_refuted", "C127_shape_float_small", "C127_shape_float_exact"], "note": "Float powers are covered up to exponent 2^19. Range conditions exclude results near underflow and overflow. Includes refuted statements: length is the difference of the coordinates; one rounding in floats for integers of 2^24 and more."},
  {"property": "C128", "status": "proved", "theorems": ["C128_linear", "C128_linear_float", "C128_monotone", "C128_monotone_float", "C128_reflection", "C128_reflection_float", "C128_cubic_reflection_refuted", "C128_unit_values", "C128_unit_values_float", "C128_positive", "C128_positive_float", "C128_one", "C128_one_float", "C128_quadratic_one_refuted", "C128_legendre_one_refuted", "C128_brick_one_refuted", "C128_overshoot_refuted"], "note": "Includes refuted statements: reflection at order three, exact reproduction of constants beyond the one-dimensional linear basis, no overshoot of constants."},
  {"property": "C129", "status": "proved", "theorems": ["C129_field", "C129_field_float", "C129_cell", "C129_jacobian_float", "C129_float_inverse_refuted", "C129_factor_three_refuted", "C129_tiny_cell_refuted"], "note": "Includes refuted statements: the inverse in floats, factors that are no powers of two, cells whose determinant underflows."},
  {"property": "C130", "status": "proved", "theorems": ["C130_cell_faces", "C130_shared_face", "C130_mesh_volume", "C130_moved_mesh", "C130_mesh_volume_double", "C130_moved_mesh_double", "C130_mesh_volume_float", "C130_moved_mesh_float"], "note": "Shared faces must have the same four vertices; hanging nodes are not covered. The caller's own sum is exact."},
  {"property": "C131", "status": "proved", "theorems": ["C131_balance", "C131_moments", "C131_work", "C131_volume_change", "C131_equilibrium"], "note": "Over the reals; the caller's loop over nodes and points is part of the specification."},
  {"property": "C132", "status": "proved", "theorems": ["C132_exact_points", "C132_tables", "C132_last_digits_refuted"], "note": "Over the reals, from the literals as written; what they become in double and float is C67 and C119."},
  {"property": "C133", "status": "proved", "theorems": ["C133_float", "C133_runtime_float", "C133_double", "C133_runtime_double", "C133_runtime_double_refuted", "C133_six_points_refuted", "C133_double_error"], "note": "Literals are rounded to nearest even on conversion, in float after the conversion to double the language prescribes."},
  {"property": "C134", "status": "proved", "theorems": ["C134_stability", "C134_near_best", "C134_element_error", "C134_double_error", "C134_float_error", "C134_equal_spacing_refuted"], "note": "The factors are upper bounds; the exact constants are up to 2.05 (Gauss-Lobatto), 2.86 (Gauss-Legendre) and 512 (sixteen equally spaced points)."},
  {"property": "C135", "status": "proved", "theorems": ["C135_gradient_stability", "C135_gradient_near_best", "C135_double_gradient_error", "C135_double_jacobian_error", "C135_float_gradient_error", "C135_float_jacobian_error"], "note": "The factors are upper bounds; for Gauss-Lobatto points the exact ones are about ORDER^2."},
  {"property": "C136", "status": "proved", "theorems": ["C136_gradient_error", "C136_derivative_error"], "note": "In exact arithmetic; rounding errors are bounded in C135."},
  {"property": "C137", "status": "proved", "theorems": ["C137_value_convergence", "C137_gradient_convergence", "C137_cell_gradient"], "note": "In exact arithmetic; rounding errors are bounded in C134 and C135."},
  {"property": "C138", "status": "proved", "theorems": ["C138_box_quadrature", "C138_cell_quadrature"], "note": "In exact arithmetic, for the tables as written."},
  {"property": "C139", "status": "proved", "theorems": ["C139_cell_gradient_error"], "note": "In exact arithmetic."},
  {"property": "C140", "status": "proved", "theorems": ["C140_double_value", "C140_double_gradient", "C140_double_cell_gradient", "C140_float_value", "C140_float_gradient", "C140_float_cell_gradient"], "note": "The points are those stored in doubles and floats. For the cell gradients the inverse is the one the Scaling transform computes; its product with the gradient is exact (in C140_double_gradient and C140_float_gradient the division by half the side length is)."},
  {"property": "C141", "status": "proved", "theorems": ["C141_double_quadrature", "C141_double_cell", "C141_float_quadrature", "C141_float_cell"], "note": "The sum itself is formed exactly; the library has no function for it."},
  {"property": "C142", "status": "proved", "theorems": ["C142_double_integral", "C142_float_integral"], "note": "The sum over the quadrature points is formed exactly; the library has no function for it."},
  {"property": "C143", "status": "proved", "theorems": ["C143_value_reproducible", "C143_product_reproducible", "C143_determinant_exact", "C143_determinant_reproducible_refuted", "C143_gradient_accuracy", "C143_value_accuracy", "C143_constant_accuracy", "C143_field_gradient_accuracy", "C143_jacobian_accuracy", "C143_determinant_accuracy", "C143_inverse_accuracy", "C143_cell_accuracy", "C143_hexahedron"], "note": "The reproducibility of determinants is refuted (C143_determinant_reproducible_refuted). Products and sums of doubles that occur in float code are not contracted in the model."}
]}
