{
 "claims": [
  {
   "property": "C01",
   "status": "proved",
   "theorems": [
    "C01_first_registration_wins",
    "C01_existing_entries_kept",
    "C01_invalid_raises_and_is_noop"
   ],
   "note": "For every call history."
  },
  {
   "property": "C02",
   "status": "proved",
   "theorems": [
    "C02_history_refines_cells",
    "C02_set_then_get",
    "C02_errors_exactly_when_missing",
    "C02_module_prefix_ignored_by_get",
    "C02_setter_accepts_prefix_refuted",
    "C02_colon_name_unreadable_refuted"
   ],
   "note": "Restated: the setter does not accept the module-prefixed spelling (C02_setter_accepts_prefix_refuted) and a name containing '::' can be set but not read (C02_colon_name_unreadable_refuted)."
  },
  {
   "property": "C03",
   "status": "proved",
   "theorems": [
    "C03_registry_wellformed",
    "C03_adjust",
    "C03_adjust_to_unset_refuted"
   ],
   "note": "Proved for every history of registrations, and of default adjustments other than to 'unset' (C03_adjust_to_unset_refuted shows that exception is needed). C03_adjust: an adjustment changes exactly one default."
  },
  {
   "property": "C04",
   "status": "proved",
   "theorems": [
    "C04_bad_shape",
    "C04_bulk_is_one_by_one_when_fresh",
    "C04_bulk_result",
    "C04_bulk_equals_single_refuted",
    "C04_all_or_nothing_refuted",
    "C04_single"
   ],
   "note": "Restated: on names already registered bulk registration overwrites where single keeps the first (C04_bulk_equals_single_refuted), and a call failing midway leaves the earlier names registered (C04_all_or_nothing_refuted)."
  },
  {
   "property": "C05",
   "status": "proved",
   "theorems": [
    "C05_registry_entries_valid",
    "C05_entries_never_change",
    "C05_keys_unique",
    "C05_key_names",
    "C05_ETLegacy_group_refuted",
    "C05_tensor_basename_refuted",
    "C05_new_entries_recorded"
   ],
   "note": "Restated: ETLegacy groups are unchecked (C05_ETLegacy_group_refuted) and tensor base names ending in a digit are accepted (C05_tensor_basename_refuted)."
  },
  {
   "property": "C06",
   "status": "proved",
   "theorems": [
    "C06_lists_partition_sorted"
   ],
   "note": "Every history."
  },
  {
   "property": "C07",
   "status": "proved",
   "theorems": [
    "C07_defines_number_each_group",
    "C07_case_aliasing_refuted"
   ],
   "note": "Restated: names that differ only by case share a macro (C07_case_aliasing_refuted)."
  },
  {
   "property": "C08",
   "status": "proved",
   "theorems": [
    "C08_parity_types",
    "C08_parity_distinguishes",
    "C08_one_entry_per_name",
    "C08_unsupported_refused",
    "C08_vector_dim4_refuted"
   ],
   "note": "Restated: rank-1 gridfunctions in four dimensions get the 3D types (C08_vector_dim4_refuted)."
  },
  {
   "property": "C09",
   "status": "proved",
   "theorems": [
    "C09_rank1",
    "C09_rank2",
    "C09_rankN",
    "C09_names_injective",
    "C09_rank1_dim4_refuted",
    "C09_antisymmetric_refuted",
    "C09_dim12_name_clash_refuted",
    "C09_rank2_dim0_refuted"
   ],
   "note": "Restated: rank-1 in dimension 4, antisymmetric options, dimensions of 12 or more and dimension 0 behave otherwise (the four _refuted theorems)."
  },
  {
   "property": "C10",
   "status": "proved",
   "theorems": [
    "C10_first_derivatives_exact",
    "C10_second_derivatives_exact"
   ],
   "note": "All even orders, directions, histories and polynomials."
  },
  {
   "property": "C11",
   "status": "proved",
   "theorems": [
    "C11_inverse_two_sided_no_swaps"
   ],
   "note": "All widths and integer offsets (half-integer nodes arise for even widths)."
  },
  {
   "property": "C12",
   "status": "proved",
   "theorems": [
    "C12_KO_closed_form",
    "C12_KO_annihilates",
    "C12_KO_damps_checkerboard",
    "C14_KO_support"
   ],
   "note": "All even orders."
  },
  {
   "property": "C13",
   "status": "proved",
   "theorems": [
    "C13_up_down_mirror",
    "C13_second_derivative_even"
   ],
   "note": "All even orders."
  },
  {
   "property": "C14",
   "status": "proved",
   "theorems": [
    "C14_first_derivative_support",
    "C14_second_derivative_support",
    "C14_KO_support",
    "C14_mixed_support"
   ],
   "note": "All even orders and directions."
  },
  {
   "property": "C15",
   "status": "proved",
   "theorems": [
    "C15_mixed_is_composition",
    "C15_mixed_exact"
   ],
   "note": "All even orders and ordered pairs of distinct directions."
  },
  {
   "property": "C16",
   "status": "proved",
   "theorems": [
    "C16_matrix_independent_of_history",
    "C16_operator_independent_of_history"
   ],
   "note": "All request histories."
  },
  {
   "property": "C17",
   "status": "proved",
   "theorems": [
    "C17_parse_recovers",
    "C17_parse_rejects",
    "C17_no_confusion",
    "C17_lists",
    "C17_base_with_UD_refuted",
    "C17_no_underscore"
   ],
   "note": "Restated: base names containing U or D are rejected with TypeError (C17_base_with_UD_refuted)."
  },
  {
   "property": "C18",
   "status": "proved",
   "theorems": [
    "C18_reads_exact",
    "C18_reads_in_memory_order",
    "C18_names_injective",
    "C18_access_text",
    "C18_name_clash_refuted",
    "C18_order_refuted"
   ],
   "note": "Restated: names can clash when one gridfunction name continues another with _i... (C18_name_clash_refuted), and offsets outside [-50,49] are read out of order (C18_order_refuted)."
  },
  {
   "property": "C19",
   "status": "proved",
   "theorems": [
    "C19_declared_symmetry_holds",
    "C19_nosym_keeps_every_entry",
    "C19_overlapping_pairs_refuted"
   ],
   "note": "Restated: option lists whose pairs share a position (sym01_sym02) are accepted but leave the result unsymmetric (C19_overlapping_pairs_refuted)."
  },
  {
   "property": "C20",
   "status": "proved",
   "theorems": [
    "C20_matrix_inverters"
   ],
   "note": "All six inverters over every field with decidable equality; determinant compared as a value, not as a SymPy expression."
  },
  {
   "property": "C21",
   "status": "proved",
   "theorems": [
    "C21_levi_civita_symbol",
    "C21_levi_civita_contraction"
   ],
   "note": "Over every field in which 1+1 is not 0."
  },
  {
   "property": "C22",
   "status": "proved",
   "theorems": [
    "C22_schedule",
    "C22_sequential",
    "C22_same",
    "C22_register",
    "C22_keys_injective",
    "C22_calls_kept",
    "C22_same_name_refuted",
    "C22_changed_entry_refuted",
    "C22_shared_module_refuted"
   ],
   "note": "A call is any function that adds its own entries; workers keep what earlier calls registered. The _refuted theorems show each hypothesis is needed: same name, changed entry, shared extras module."
  },
  {
   "property": "C23",
   "status": "proved",
   "theorems": [
    "C23_last_write",
    "C23_never_written",
    "C23_simplify",
    "C23_crash_refuted",
    "C23_simplify_crash_refuted",
    "C23_unpicklable_result_refuted"
   ],
   "note": "Restated: the crash clause of the first wording is false at every crash point (C23_crash_refuted, C23_simplify_crash_refuted, C23_unpicklable_result_refuted)."
  },
  {
   "property": "C24",
   "status": "proved",
   "theorems": [
    "C24_holds",
    "C24_untouched",
    "C24_repeat",
    "C24_raise_refuted",
    "C24_blank_refuted",
    "C24_carriage_return_refuted",
    "C24_line_ends",
    "C24_strip"
   ],
   "note": "Restated: a raising body overwrites the file with the partial text (C24_raise_refuted); blank text creates no file (C24_blank_refuted); carriage returns cause a rewrite (C24_carriage_return_refuted)."
  },
  {
   "property": "C25",
   "status": "proved",
   "theorems": [
    "C25_uniq",
    "C25_flatten",
    "C25_flatten_mixed",
    "C25_repeat",
    "C25_pipe",
    "C25_reduce",
    "C25_product",
    "C25_product_repeat",
    "C25_product_refuted",
    "C25_product_repeat_ignored_refuted",
    "C25_repeat_negative_refuted"
   ],
   "note": "Restated: product of a single or no iterable raises, nested elements are spliced (C25_product_refuted), repeat is ignored with several iterables (C25_product_repeat_ignored_refuted), a negative repeat count never returns (C25_repeat_negative_refuted). The interpreter recursion depth is explicit."
  },
  {
   "property": "C26",
   "status": "proved",
   "theorems": [
    "C26_text_plain",
    "C26_text_tiled",
    "C26_plain_visits",
    "C26_range",
    "C26_tiled_visits",
    "C26_visits_once",
    "C26_braces",
    "C26_lengths_checked"
   ],
   "note": "Emitted text is the rendering of a structured nest whose big-step semantics is proved; caller expressions are opaque with values independent of the loop indices; index names distinct from each other and from the tile names."
  },
  {
   "property": "C27",
   "status": "proved",
   "theorems": [
    "C27_round_trip",
    "C27_rebuild",
    "C27_traversals",
    "C27_nodes",
    "C27_edit",
    "C27_edited_tree"
   ],
   "note": "SymPy's func(*args, evaluate=False) is taken to build exactly the application; nodes identified by path; mutation modelled as in-place update during the postorder loop."
  },
  {
   "property": "C28",
   "status": "proved",
   "theorems": [
    "C28_value",
    "C28_value_tables",
    "C28_table",
    "C28_symbols",
    "C28_declared",
    "C28_clean",
    "C28_equal_terms_refuted",
    "C28_undeclared_one_refuted"
   ],
   "note": "Restated: equal terms of a sum containing a negative product are dropped (C28_equal_terms_refuted) and exponents -1/2, -3/2, -5/2 use an undeclared constant (C28_undeclared_one_refuted). SymPy's evaluation of Mul/Add is an arbitrary reordering."
  },
  {
   "property": "C29",
   "status": "proved",
   "theorems": [
    "C29_value",
    "C29_total",
    "C29_cse"
   ],
   "note": "SymPy's evaluation after a substitution is a parameter assumed value preserving and not to add symbols; values in an arbitrary algebra."
  },
  {
   "property": "C30",
   "status": "proved",
   "theorems": [
    "C30_value",
    "C30_declared",
    "C30_substitute",
    "C30_substitute_neg",
    "C30_fractional_power_refuted",
    "C30_undeclared_one_refuted"
   ],
   "note": "Restated: with the option a fractional power of -1 is truncated (C30_fractional_power_refuted) and _Integer_1 may be missing from the table (C30_undeclared_one_refuted)."
  },
  {
   "property": "C31",
   "status": "proved",
   "theorems": [
    "C31_step",
    "C31_accepts",
    "C31_history",
    "C31_stable",
    "C31_lookup_stable",
    "C31_count",
    "C31_qualified_injective",
    "C31_qualified_injective_refuted"
   ],
   "note": "All histories, any clang-format behaviour. Qualified names are injective for coordinate systems without underscores; the unconditional form is refuted (second registration is then rejected)."
  },
  {
   "property": "C32",
   "status": "proved",
   "theorems": [
    "C32_step",
    "C32_adaptive_refused",
    "C32_builtin",
    "C32_builtin_names",
    "C32_time",
    "C32_zero_subdiagonal_refuted",
    "C32_zero_last_weight_refuted",
    "C32_one_stage_refuted",
    "C32_euler_weight_refuted",
    "C32_rk3_post_refuted"
   ],
   "note": "For every field, point set, right-hand side, table and data. The first wording (every explicit table) is refuted by the five _refuted theorems, which show each condition is needed."
  },
  {
   "property": "C33",
   "status": "proved",
   "theorems": [
    "C33_explicit",
    "C33_row_sums",
    "C33_order",
    "C33_weights_sum",
    "C33_linear",
    "C33_quadrature",
    "C33_dp8_refuted",
    "C33_near"
   ],
   "note": "Order conditions for every rooted tree up to the stated order; consequences for the generated code for every lambda, dt, data and polynomial. DP8/ADP8 hold rounded entries (C33_dp8_refuted) and meet every condition up to 1e-16 (C33_near)."
  },
  {
   "property": "C34",
   "status": "proved",
   "theorems": [
    "C34_rows",
    "C34_exact",
    "C34_size",
    "C34_order1_refuted"
   ],
   "note": "Every order and polynomial. For order 1 a spurious zero row remains in the matrix (C34_order1_refuted)."
  },
  {
   "property": "C35",
   "status": "proved",
   "theorems": [
    "C35_no_overrun",
    "C35_checks",
    "C35_owned_once",
    "C35_owner",
    "C35_reverse",
    "C35_inverse",
    "C35_interior"
   ],
   "note": "C ints modelled as unbounded naturals."
  },
  {
   "property": "C36",
   "status": "proved",
   "theorems": [
    "C36_cover",
    "C36_malloc",
    "C36_no_race",
    "C36_fill",
    "C36_schedule",
    "C36_in_bounds",
    "C36_exact",
    "C36_thin_grid_refuted"
   ],
   "note": "Restated: the original statement had no lower bound on the number of points; C36_thin_grid_refuted shows the race with two interior points."
  },
  {
   "property": "C37",
   "status": "proved",
   "theorems": [
    "C37_copies",
    "C37_schedule",
    "C37_idempotent",
    "C37_table",
    "C37_whole",
    "C37_chained_sources_refuted"
   ],
   "note": "The proviso of the statement (sources are not inner points) is needed: C37_chained_sources_refuted. C37_table shows when bcstruct_set_up's table satisfies it."
  },
  {
   "property": "C38",
   "status": "proved",
   "theorems": [
    "C38_round_trip",
    "C38_no_file",
    "C38_write_keeps",
    "C38_due",
    "C38_crash_outcomes",
    "C38_truncated",
    "C38_crash_refuted",
    "C38_due_midway_refuted"
   ],
   "note": "Restated: the first wording (a crash leaves the previous checkpoint or none) is false, see C38_crash_refuted; C38_due_midway_refuted shows a multiple lying exactly midway between two steps is missed. The file is a list of typed cells, so cuts fall between cells; maskval is the constant 1 of the code."
  },
  {
   "property": "C39",
   "status": "proved",
   "theorems": [
    "C39_malloc_free",
    "C39_no_double",
    "C39_used",
    "C39_pointers",
    "C39_struct",
    "C39_pointers_refuted"
   ],
   "note": "Every name and table. For Euler the second diagnostics pointer names an undeclared array (C39_pointers_refuted)."
  },
  {
   "property": "C40",
   "status": "proved",
   "theorems": [
    "C40_once",
    "C40_call",
    "C40_kept",
    "C40_struct_once_only",
    "C40_struct_fields"
   ],
   "note": "All histories from the empty dictionaries for the invariant, any starting state for the other two. C40_struct_once_only: building the griddata_struct text registers its own entries, so a second call always raises."
  },
  {
   "property": "C41",
   "status": "proved",
   "theorems": [
    "C41_generates",
    "C41_kernel_value",
    "C41_kernel_runs",
    "C41_polynomial_data",
    "C41_control_vector_read_refuted",
    "C41_no_control_vector_refuted",
    "C41_explicit_downwind_refuted",
    "C41_both_winds_refuted",
    "C41_stale_functions_raise_refuted",
    "C41_stale_functions_wrong_refuted"
   ],
   "note": "Restated: the claim about the control vector being read is false (C41_control_vector_read_refuted) unless the vector also occurs in the expressions; derivatives written as ddnD, a missing control vector and a stale table of finite-difference functions are further refuted cases."
  },
  {
   "property": "C42",
   "status": "proved",
   "theorems": [
    "C42_power_printing",
    "C42_abs_printing",
    "C42_power_laws",
    "C42_tables_agree_but_sixths",
    "C42_sixths_differ",
    "C42_cbrt_negative_refuted"
   ],
   "note": "Restated for real powers; meaning of C text given by a grammar with values; real arithmetic instead of floating point. Real-number axioms of the standard library."
  },
  {
   "property": "C43",
   "status": "proved",
   "theorems": [
    "C43_xy_plane",
    "C43_yz_plane",
    "C43_points_interior",
    "C43_accepted",
    "C43_azimuth_error",
    "C43_targets_on_plane",
    "C43_plane_only_there",
    "C43_y_axis",
    "C43_z_axis",
    "C43_single_cell_ghost_refuted",
    "C43_odd_azimuth_refuted",
    "C43_wedge_xy_refuted",
    "C43_no_points_stores_refuted"
   ],
   "note": "Restated; the four _refuted theorems are the excluded cases. Real-number axioms of the standard library."
  },
  {
   "property": "C44",
   "status": "proved",
   "theorems": [
    "C44_exactly_derivatives_across_axes",
    "C44_names_without_derivative_kept",
    "C44_plain_component_zeroed_refuted",
    "C44_order_misjudged_refuted"
   ],
   "note": "Restated: a base name containing _d (e.g. S_dustU) has ordinary components zeroed (C44_plain_component_zeroed_refuted) and its derivative order misjudged (C44_order_misjudged_refuted)."
  },
  {
   "property": "C45",
   "status": "proved",
   "theorems": [
    "C45_extracted_symbols",
    "C45_downwind_partner",
    "C45_upwind_duplicates_refuted",
    "C45_derivatives_extracted"
   ],
   "note": "Restated: with upwinding an explicitly written downwind derivative is listed twice (C45_upwind_duplicates_refuted)."
  },
  {
   "property": "C46",
   "status": "proved",
   "theorems": [
    "C46_root",
    "C46_depth",
    "C46_outside_refuted",
    "C46_header_found",
    "C46_includes"
   ],
   "note": "Exact characterisation for relative paths; witness for a subdirectory outside the root."
  },
  {
   "property": "C47",
   "status": "proved",
   "theorems": [
    "C47_comment",
    "C47_placed",
    "C47_lines"
   ],
   "note": ""
  },
  {
   "property": "C48",
   "status": "proved",
   "theorems": [
    "C48_prototype",
    "C48_semicolon_refuted",
    "C48_contents"
   ],
   "note": "With a semicolon in a header part the two differ (witness)."
  },
  {
   "property": "C49",
   "status": "proved",
   "theorems": [
    "C49_transparent",
    "C49_one_style",
    "C49_transparent_refuted"
   ],
   "note": "The suffix condition is needed: the concatenated identifier is ambiguous otherwise (witness)."
  },
  {
   "property": "C50",
   "status": "proved",
   "theorems": [
    "C50_step",
    "C50_trusted_kept",
    "C50_regression",
    "C50_carriage_return_refuted",
    "C50_shared_file_refuted"
   ],
   "note": "A text with a carriage return fails against its own file; two (caller, description) pairs can share a file (witnesses)."
  },
  {
   "property": "C51",
   "status": "proved",
   "theorems": [
    "C51_coordinates_agree",
    "C51_xxmin",
    "C51_tiling",
    "C51_xxmax",
    "C51_xxmax_refuted",
    "C51_invdxx",
    "C51_cell_centred"
   ],
   "note": "Exact rational arithmetic; C51_xxmax_refuted records that the stored chare xxmax is not the chare's upper edge."
  },
  {
   "property": "C52",
   "status": "proved",
   "theorems": [
    "C52_exchange",
    "C52_others_kept",
    "C52_in_bounds"
   ],
   "note": "Messages are delivered in order; C ints unbounded."
  },
  {
   "property": "C53",
   "status": "proved",
   "theorems": [
    "C53_order_free",
    "C53_comments_irrelevant",
    "C53_each_once",
    "C53_header",
    "C53_complete",
    "C53_griddata_order_refuted",
    "C53_extra_clash_refuted",
    "C53_macros",
    "C53_no_macros",
    "C53_section_order",
    "C53_struct_fields",
    "C53_supplemental",
    "C53_guard"
   ],
   "note": "Names and types without semicolons, names without blanks and brackets. griddata_struct is emitted in registration order (C53_griddata_order_refuted) and is not part of the claim; an extra commondata declaration may repeat a parameter name (C53_extra_clash_refuted). clang_format is not modelled."
  },
  {
   "property": "C54",
   "status": "proved",
   "theorems": [
    "C54_defaults",
    "C54_emitted_order",
    "C54_raises",
    "C54_locals",
    "C54_end_to_end",
    "C54_simd",
    "C54_lowercase_refuted",
    "C54_format_refuted",
    "C54_simd_clash_refuted",
    "C54_local_code",
    "C54_default_code",
    "C54_plain"
   ],
   "note": "Python's str() is a parameter; C values are kept as source text. Array types of the form base[N]. C54_lowercase_refuted: lower() damages string defaults such as M_PI; C54_format_refuted: char defaults are used as a printf format; C54_simd_clash_refuted: a parameter NOSIMDa clashes with the helper variable of a."
  },
  {
   "property": "C55",
   "status": "proved",
   "theorems": [
    "C55_macros",
    "C55_cuda_macros",
    "C55_defined",
    "C55_vector_type",
    "C55_kernel",
    "C55_compiles",
    "C55_load_store",
    "C55_horizontal_sum",
    "C55_abs",
    "C55_upwind",
    "C55_sse2_fma_refuted",
    "C55_unfused_overflow_refuted",
    "C55_undefined_macros_refuted"
   ],
   "note": "NegFusedMulSubSIMD is wrong with SSE2 and FMA (C55_sse2_fma_refuted), overflows without FMA (C55_unfused_overflow_refuted); CbrtSIMD, PowSIMD, LogSIMD and SignSIMD are never defined (C55_undefined_macros_refuted)."
  },
  {
   "property": "C56",
   "status": "proved",
   "theorems": [
    "C56_accepts",
    "C56_text",
    "C56_text_ETLegacy",
    "C56_visits",
    "C56_points",
    "C56_spill",
    "C56_serial",
    "C56_parallel",
    "C56_tasks",
    "C56_interior",
    "C56_all_points",
    "C56_in_bounds",
    "C56_stencil_reads",
    "C56_row_reads",
    "C56_mol",
    "C56_carpetx",
    "C56_all_points_out_of_bounds_refuted",
    "C56_all_points_overwrite_refuted",
    "C56_collapse_race_refuted",
    "C56_mixed_read_out_of_bounds_refuted",
    "C56_mol_braces_refuted",
    "C56_mol_text"
   ],
   "note": "The unconditional versions are false: without the divisibility the loop over all points writes past the arrays and into the next gridfunction, collapse(2) races when the spill exceeds 2*NGHOSTS, mixed x1-x2 derivatives read out of bounds when the spill exceeds NGHOSTS, and the vectorised MoL update opens two braces and closes one."
  },
  {
   "property": "C57",
   "status": "proved",
   "theorems": [
    "C57_outcome",
    "C57_same_arrays",
    "C57_read_once",
    "C57_in_scope",
    "C57_values",
    "C57_vector_inner",
    "C57_vector_outer",
    "C57_free",
    "C57_three_refuted",
    "C57_registered",
    "C57_twice",
    "C57_struct",
    "C57_text"
   ],
   "note": "C57_three_refuted: arrays of all three coordinates are accepted but the definition loop leaves xx2 undeclared; C57_values and the vector theorems therefore exclude them. SymPy expressions, their dependencies, code text and evaluation are parameters."
  },
  {
   "property": "C58",
   "status": "proved",
   "theorems": [
    "C58_orthogonal",
    "C58_jacobian",
    "C58_jacobian_spherical",
    "C58_metric",
    "C58_connection",
    "C58_derivatives",
    "C58_inverse",
    "C58_sinhsymtp_refuted",
    "C58_v2n_no_inverse_refuted",
    "C58_spherical",
    "C58_wedge_spherical_refuted",
    "C58_extent",
    "C58_accepts",
    "C58_refuses",
    "C58_unknown_refuted",
    "C58_int"
   ],
   "note": "Cart_to_xx of SinhSymTP and of the v2n families is not an inverse, xxSph of the wedges is not that of xx_to_Cart, and unknown names containing Cartesian or Wedge fail with NonInvertibleMatrixError (the _refuted theorems); the statement excludes these cases."
  },
  {
   "property": "C59",
   "status": "proved",
   "theorems": [
    "C59_accepts",
    "C59_values",
    "C59_symbols",
    "C59_registered",
    "C59_derivatives",
    "C59_arrays",
    "C59_table",
    "C59_table_suffix_refuted"
   ],
   "note": "SymPy's expression rewriting is modelled by the 0/1 simplifications of RefMetric.v; str of expressions is a parameter. C59_table_suffix_refuted: an accepted name that contains _rfm_precompute itself cannot be looked up (KeyError)."
  },
  {
   "property": "C60",
   "status": "proved",
   "theorems": [
    "C60_line_element",
    "C60_accepts",
    "C60_inverse",
    "C60_inverse_given",
    "C60_determinant",
    "C60_metric_back",
    "C60_shift_back",
    "C60_shift_exact",
    "C60_round_trip_refuted"
   ],
   "note": "the natural claim (g4DD_to_ADM inverts ADM_to_g4DD) is false: C60_round_trip_refuted; C60_shift_exact says when it holds"
  },
  {
   "property": "C61",
   "status": "proved",
   "theorems": [
    "C61_conformal",
    "C61_there_and_back",
    "C61_back_and_there",
    "C61_errors"
   ],
   "note": "real numbers instead of SymPy expressions; fractional powers of positive reals"
  },
  {
   "property": "C62",
   "status": "proved",
   "theorems": [
    "C62_tensors",
    "C62_hatted",
    "C62_phi",
    "C62_adm",
    "C62_connection",
    "C62_shift"
   ],
   "note": "Fields are functions of the coordinates; derivatives are taken along the coordinate lines in the sense of Coq's derivable_pt_lim. The det gammabar = det gammahat hypothesis is the one detgbarOverdetghat_equals_one announces."
  },
  {
   "property": "C63",
   "status": "proved",
   "theorems": [
    "C63_general",
    "C63_ricci",
    "C63_symmetric"
   ],
   "note": "Derivatives of fields along coordinate lines (Coq reals); the inverse is the one symm_matrix_inverter3x3 returns around the point."
  },
  {
   "property": "C64",
   "status": "proved",
   "theorems": [
    "C64_determinant",
    "C64_trace",
    "C64_symmetric",
    "C64_metric"
   ],
   "note": "Derivatives in the Coq reals; the flow is any function of time whose components have the derivatives given by the right-hand sides at time 0."
  },
  {
   "property": "C65",
   "status": "proved",
   "theorems": [
    "C65_mean",
    "C65_hamiltonian",
    "C65_momentum",
    "C65_Msquared",
    "C65_extrinsic",
    "C65_Msquared_refuted"
   ],
   "note": "Vacuum (no T4munu source terms) except for Msquared. C65_Msquared_refuted: Msquared is not M^i M_i, the index is lowered with gammabar."
  },
  {
   "property": "C66",
   "status": "proved",
   "theorems": [
    "C66_Lambdabar",
    "C66_constraint"
   ],
   "note": "The hypothesis that the first derivatives of h_ij change at the derivatives of the right-hand sides is the interchange of time and space derivatives for the flow."
  },
  {
   "property": "C67",
   "status": "proved",
   "theorems": [
    "C67_projections",
    "C67_decomposition",
    "C67_extrinsic",
    "C67_hamiltonian",
    "C67_momentum",
    "C67_Lambdabar",
    "C67_trace",
    "C67_symmetric"
   ],
   "note": "PI is an arbitrary real (a CodeParameter whose default is a decimal approximation)."
  },
  {
   "property": "C68",
   "status": "proved",
   "theorems": [
    "C68_second_order",
    "C68_first_order",
    "C68_other_shifts",
    "C68_lapse",
    "C68_harmonic",
    "C68_refused",
    "C68_history",
    "C68_after_frozen",
    "C68_history_refuted"
   ],
   "note": "The results of a call are independent of the earlier calls only if none froze the shift of the same coordinate system: the Frozen branch overwrites the cached BSSN_quantities BU (C68_history_refuted, C68_after_frozen). Harmonic slicing is stated with W > 0 and det gammabar = det gammahat near the point."
  },
  {
   "property": "C69",
   "status": "proved",
   "theorems": [
    "C69_exact",
    "C69_laplacian",
    "C69_exact_curvilinear",
    "C69_origin",
    "C69_positive",
    "C69_refused"
   ],
   "note": "Derivatives are real limits; twice differentiable means that the gradient and its components have a (Frechet) derivative. The zero wave vector and the zero width, where the expressions divide by zero, are outside the statement."
  },
  {
   "property": "C70",
   "status": "proved",
   "theorems": [
    "C70_curvature",
    "C70_trace",
    "C70_spin",
    "C70_source",
    "C70_background",
    "C70_hamiltonian",
    "C70_fixed_points",
    "C70_tracefree_refuted",
    "C70_source_refuted"
   ],
   "note": "The original claim, that the curvature is Bowen-York, fails for punctures with momentum (inverted Kronecker delta, C70_tracefree_refuted, C70_source_refuted); restated as what is computed."
  },
  {
   "property": "C71",
   "status": "proved",
   "theorems": [
    "C71_defined",
    "C71_identity_refuted",
    "C71_lorentz",
    "C71_roundtrip",
    "C71_rest_frame",
    "C71_along_x",
    "C71_pairings"
   ],
   "note": "Boosts with velocity zero are 0/0 in the code: C71_identity_refuted."
  },
  {
   "property": "C72",
   "status": "proved",
   "theorems": [
    "C72_vector",
    "C72_matrix",
    "C72_rotation",
    "C72_invariants",
    "C72_compose",
    "C72_errors",
    "C72_zero_axis_refuted",
    "C72_exceptions"
   ],
   "note": "A zero axis gives nan instead of an exception: C72_zero_axis_refuted."
  },
  {
   "property": "C73",
   "status": "proved",
   "theorems": [
    "C73_minimum",
    "C73_weak_bounds",
    "C73_strict_bounds",
    "C73_step_refuted"
   ],
   "note": "The documented values 1 and 0 are refuted for all four bounds in C73_step_refuted: 0/0 at one point, 1 just beyond the bound, never 1 for the strict ones."
  },
  {
   "property": "C74",
   "status": "proved",
   "theorems": [
    "C74_sound_speeds",
    "C74_signal_speeds",
    "C74_solver",
    "C74_consistency",
    "C74_divisor_refuted"
   ],
   "note": "For pressureless dust at rest both signal speeds are 0 and the flux is 0/0: C74_divisor_refuted."
  },
  {
   "property": "C75",
   "status": "proved",
   "theorems": [
    "C75_momentum",
    "C75_continuity",
    "C75_energy",
    "C75_fluid",
    "C75_conserved",
    "C75_volume"
   ],
   "note": ""
  },
  {
   "property": "C76",
   "status": "proved",
   "theorems": [
    "C76_roundtrip",
    "C76_contractions",
    "C76_basis",
    "C76_metric"
   ],
   "note": "All from the coordinate map of C58; the first-order Jacobians are those of the model of reference_metric."
  },
  {
   "property": "C77",
   "status": "proved",
   "theorems": [
    "C77_values",
    "C77_zero",
    "C77_assert_equal",
    "C77_trusted",
    "C77_regression",
    "C77_assert_equal_names_refuted",
    "C77_assert_equal_other_names_refuted",
    "C77_nan_refuted",
    "C77_collision_refuted",
    "C77_tiny_refuted"
   ],
   "note": "The numerical evaluation of one expression (cse, substitution, mpmath) is a parameter of the model; differences and means are exact. The plain reading is false in four ways, each with a witness: assert_equal passes dictionaries with other names or fewer entries, nan equals everything, a list under a and an expression under a_0 overwrite each other, and an exact value of 10^-50 is zero."
  },
  {
   "property": "C78",
   "status": "proved",
   "theorems": [
    "C78_trumpet_stationary",
    "C78_trumpet_schwarzschild",
    "C78_trumpet_vacuum",
    "C78_kerr_schild_stationary",
    "C78_kerr_schild",
    "C78_uiuc_stationary",
    "C78_uiuc_kerr",
    "C78_brill_lindquist_vacuum",
    "C78_standard_gauge",
    "C78_brill_lindquist_lapse",
    "C78_gauge_names"
   ],
   "note": "Constraints are proved directly for StaticTrumpet and BrillLindquist; for the two Kerr slices the statement is that gamma and K are those of the stationary Kerr line element."
  },
  {
   "property": "C79",
   "status": "proved",
   "theorems": [
    "C79_triad",
    "C79_null_coordinate",
    "C79_null_normal",
    "C79_default_lapse",
    "C79_refused"
   ],
   "note": "The values of BSSN_to_ADM and of the reference metric enter as numbers; tetrad_ok states what is needed of them."
  },
  {
   "property": "C80",
   "status": "proved",
   "theorems": [
    "C80_riemann",
    "C80_psi4",
    "C80_spin",
    "C80_arrays"
   ],
   "note": "Gauss, Codazzi and vacuum enter as hypotheses on the spacetime curvature tensor, in the sign convention of Baker, Campanelli and Lousto; their derivation from a four-dimensional metric is outside of psi4.py."
  },
  {
   "property": "C81",
   "status": "proved",
   "theorems": [
    "C81_raise",
    "C81_lower",
    "C81_raise_m",
    "C81_top",
    "C81_orthonormal",
    "C81_orthogonal_m",
    "C81_dispatch",
    "C81_outside",
    "C81_bounds_refuted"
   ],
   "note": "Exact real arithmetic, 0 < th < pi (the poles, where 1/tan(th/2) is not defined, are left out). The integral over th is stated through a continuous primitive on the line with the integrand as derivative on (0, pi). C81_bounds_refuted: the error message says only m in [-l, l] is defined, but l=2, m=3 with max=3 stores Y(-2,3,3) instead of exiting."
  },
  {
   "property": "C82",
   "status": "proved",
   "theorems": [
    "C82_einstein",
    "C82_hydrostatic",
    "C82_isotropic",
    "C82_exterior"
   ],
   "note": "The connection, the Ricci tensor and Einstein's equations are stated in four coordinates by their general definitions with derivable_pt_lim; rho is assumed differentiable at the point (the connection contains dM/dr). The example is the star of constant density."
  },
  {
   "property": "C83",
   "status": "proved",
   "theorems": [
    "C83_memory",
    "C83_extension",
    "C83_mass_parity_refuted",
    "C83_surface",
    "C83_exterior",
    "C83_nearest",
    "C83_interpolation",
    "C83_small_table_refuted",
    "C83_tensor",
    "C83_polytrope",
    "C83_equilibrium",
    "C83_parities"
   ],
   "note": "Real arithmetic; the GSL integrator and the allocation failures are outside the model. C83_mass_parity_refuted: the mass, an odd function of the radius, is extended as an even one. C83_small_table_refuted: with fewer radii than the stencil the first index is negative; the 22 radii that the extension guarantees make that impossible for the default sizes."
  },
  {
   "property": "C84",
   "status": "proved",
   "theorems": [
    "C84_table",
    "C84_reads",
    "C84_duplicate",
    "C84_default",
    "C84_integer",
    "C84_overflow",
    "C84_usage",
    "C84_bool_steer",
    "C84_integer_range_refuted",
    "C84_overflow_refuted",
    "C84_override_refuted",
    "C84_bool_refuted",
    "C84_default_refuted",
    "C84_characters",
    "C84_steer",
    "C84_compiles",
    "C84_array_argument_refuted"
   ],
   "note": "strtod is a parameter, as are the printed forms of Python values. Without the bounds the plain claim is false: C84_override_refuted (arguments are dropped if the file is empty or has only unknown names), C84_bool_refuted (a bool is written to the default file and ignored when read), C84_default_refuted (the default file of REAL[30] stops the program; a text with an equals sign is not read back), C84_integer_range_refuted (2^32+1 is read as 1), C84_overflow_refuted (buffers of 16 and 128 characters overflow), C84_array_argument_refuted (the argument for an array is counted and dropped)."
  },
  {
   "property": "C85",
   "status": "proved",
   "theorems": [
    "C85_AB",
    "C85_C",
    "C85_rx3",
    "C85_all",
    "C85_interior",
    "C85_distance"
   ],
   "note": "Exact real arithmetic; Pih is PI/2; the complex functions of GSL are modelled by their real and imaginary parts."
  },
  {
   "property": "C86",
   "status": "proved",
   "theorems": [
    "C86_schedule",
    "C86_fails",
    "C86_once",
    "C86_bins",
    "C86_headers_refuted",
    "C86_sources",
    "C86_files",
    "C86_compiled",
    "C86_compiled_refuted",
    "C86_empty_refuted"
   ],
   "note": "Proved for all registries. The header of the remaining bins is repeated with the same number, a scheduled function need not be compiled into its thorn, and an empty thorn leaves SRCS continued; these are the refutations."
  },
  {
   "property": "C87",
   "status": "proved",
   "theorems": [
    "C87_declares",
    "C87_unregistered",
    "C87_order"
   ],
   "note": "Proved for all registries. The text of a default value is taken as given."
  },
  {
   "property": "C88",
   "status": "proved",
   "theorems": [
    "C88_declared",
    "C88_legacy",
    "C88_legacy_refuted",
    "C88_rhs",
    "C88_parities"
   ],
   "note": "Proved for all registries; the fixed texts of the file are not modelled. That ETLegacy declares every gridfunction is refuted: AUX ones only in evolution thorns, AUXEVOL ones only beside evolved ones."
  }
 ]
}
