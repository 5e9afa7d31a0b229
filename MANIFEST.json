{
 "claims": [
  {
   "property": "C01",
   "status": "proved",
   "theorems": [
    "C01_tolerant_comparisons",
    "C01_tolerance_meaning"
   ],
   "note": "All binary64 pairs and tolerances; meaning of the tolerance over exact reals."
  },
  {
   "property": "C02",
   "status": "proved",
   "theorems": [
    "C02_min_max",
    "C02_bound"
   ],
   "note": "All binary64 values including NaN, infinities, signed zeros."
  },
  {
   "property": "C03",
   "status": "proved",
   "theorems": [
    "C03_tnorm_axioms",
    "C03_tnorm_axioms_tolerance",
    "C03_nilpotent_identity_refuted",
    "C03_hamacher_associativity_refuted"
   ],
   "note": "Exact reals, tolerance a parameter. The two axioms broken by the default tolerance are refuted at explicit degrees and every other axiom is proved for every tolerance."
  },
  {
   "property": "C04",
   "status": "proved",
   "theorems": [
    "C04_snorm_axioms",
    "C04_snorm_axioms_tolerance",
    "C04_unbounded_sum",
    "C04_nilpotent_identity_refuted",
    "C04_normalized_is_bounded"
   ],
   "note": "As C03; UnboundedSum proved without the upper bound."
  },
  {
   "property": "C05",
   "status": "proved",
   "theorems": [
    "C05_de_morgan",
    "C05_hamacher_refuted"
   ],
   "note": "Exact reals; Hamacher pair needs exact comparisons, refuted at the default tolerance."
  },
  {
   "property": "C06",
   "status": "proved",
   "theorems": [
    "C06_lattice_bounds",
    "C06_drastic_bounds",
    "C06_drastic_tolerance_refuted"
   ],
   "note": "Lattice bounds at any tolerance; drastic bounds with exact comparisons, refuted at the default tolerance."
  },
  {
   "property": "C07",
   "status": "proved",
   "theorems": [
    "C07_tnorm_rounding",
    "C07_snorm_rounding",
    "C07_hamacher_sum_refuted"
   ],
   "note": "All binary64 degrees. HamacherSum exceeds 1 by rounding: refuted with the concrete pair."
  },
  {
   "property": "C08",
   "status": "proved",
   "theorems": [
    "C08_hedges",
    "C08_hedge_lists",
    "C08_extremely_monotone_refuted",
    "C08_hedges_rounding"
   ],
   "note": "Exact reals for order/inverse laws, binary64 for range; Extremely refuted monotone at default tolerance."
  },
  {
   "property": "C09",
   "status": "proved",
   "theorems": [
    "C09_finite_range",
    "C09_infinite_argument",
    "C09_infinite_vertices",
    "C09_band_error",
    "C09_triangle_refuted",
    "C09_trapezoid_refuted",
    "C09_narrow_sshape_refuted"
   ],
   "note": "Exact reals, any tolerance >= 0; finite and infinite arguments and infinite vertices. The vertex bands of Triangle/Trapezoid and curves narrower than 5 tolerances violate the property at the default tolerance: refuted with explicit inputs, and the Triangle band error is bounded."
  },
  {
   "property": "C10",
   "status": "proved",
   "theorems": [
    "C10_nan_membership",
    "C10_nan_conjunction",
    "C10_nan_disjunction",
    "C10_nan_disjunction_refuted"
   ],
   "note": "Exact reals and binary64. The consequence 'cannot fire a rule' is proved for every T-norm and all S-norms but DrasticSum and NilpotentMaximum, for which it is refuted."
  },
  {
   "property": "C11",
   "status": "proved",
   "theorems": [
    "C11_documented_function",
    "C11_infinite_vertices",
    "C11_binary_finite_direction_refuted"
   ],
   "note": "Exact reals, any tolerance, every point equal to or at least the tolerance away from the breakpoints (all points when the tolerance is 0). Binary with a finite direction is refuted."
  },
  {
   "property": "C12",
   "status": "proved",
   "theorems": [
    "C12_monotone",
    "C12_tsukamoto_inverse",
    "C12_monotonic_flag",
    "C12_sshape_monotone_refuted",
    "C12_ramp_tsukamoto_refuted"
   ],
   "note": "Exact reals. Concave, Ramp, Sigmoid monotone at any tolerance; SShape/ZShape and the inverse off the tolerance bands, refuted inside them."
  },
  {
   "property": "C13",
   "status": "proved",
   "theorems": [
    "C13_symmetry",
    "C13_complements",
    "C13_two_points"
   ],
   "note": "Exact reals. Trapezoid and PiShape symmetry off the tolerance bands."
  },
  {
   "property": "C14",
   "status": "proved",
   "theorems": [
    "C14_polyline",
    "C14_nodes",
    "C14_between",
    "C14_outside",
    "C14_safe",
    "C14_range",
    "C14_empty"
   ],
   "note": "Exact reals; exact interpolation for x equal to or a tolerance away from every abscissa; safety and hull bounds for every sorted list and tolerance."
  },
  {
   "property": "C15",
   "status": "proved",
   "theorems": [
    "C15_conversions",
    "C15_sort",
    "C15_sort_any",
    "C15_discretize",
    "C15_discretize_any"
   ],
   "note": "Conversions for every type; std::sort modelled as the relation of its contract; discretize for any scalar and exactly over the reals."
  },
  {
   "property": "C16",
   "status": "proved",
   "theorems": [
    "C16_linear",
    "C16_extra_coefficients",
    "C16_nan_input",
    "C16_no_engine",
    "C16_constant"
   ],
   "note": "Exact reals for the sum; NaN propagation and missing engine included."
  },
  {
   "property": "C17",
   "status": "proved",
   "theorems": [
    "C17_range",
    "C17_selected_binary64",
    "C17_overflow_refuted"
   ],
   "note": "Exact reals: all five integral defuzzifiers, arbitrary (possibly failing) membership functions. Binary64: SmallestOfMaximum and LargestOfMaximum for ranges whose width is finite and at least 2^-900; false when the width overflows (refuted)."
  },
  {
   "property": "C18",
   "status": "proved",
   "theorems": [
    "C18_smallest",
    "C18_largest",
    "C18_mean",
    "C18_ordered"
   ],
   "note": "Selection proved for any scalar ordered by its value (extended reals and binary64, NaN samples ignored); the ordering of the three over exact reals."
  },
  {
   "property": "C19",
   "status": "proved",
   "theorems": [
    "C19_center_of_mass",
    "C19_no_area",
    "C19_symmetric",
    "C19_scale",
    "C19_translate"
   ],
   "note": "Exact reals."
  },
  {
   "property": "C20",
   "status": "proved",
   "theorems": [
    "C20_bisector"
   ],
   "note": "Exact reals, nonnegative memberships; also the bound on the imbalance of the chosen points."
  },
  {
   "property": "C21",
   "status": "proved",
   "theorems": [
    "C21_weighted",
    "C21_ungrouped",
    "C21_empty",
    "C21_rejects"
   ],
   "note": "Exact reals for the sums; rejection and the empty set for any scalar."
  },
  {
   "property": "C22",
   "status": "proved",
   "theorems": [
    "C22_order_independent",
    "C22_bounds",
    "C22_monotone",
    "C22_hamacher_order_refuted",
    "C22_activated",
    "C22_no_implication",
    "C22_no_aggregation",
    "C22_empty",
    "C22_nan"
   ],
   "note": "Exact reals, any tolerance; HamacherSum needs exact comparisons and is refuted at the default tolerance."
  },
  {
   "property": "C23",
   "status": "proved",
   "theorems": [
    "C23_grouped"
   ],
   "note": "Any scalar."
  },
  {
   "property": "C24",
   "status": "proved",
   "theorems": [
    "C24_maximal",
    "C24_scalars",
    "C24_degree"
   ],
   "note": "Any scalar ordered by its value, in particular binary64 with NaN."
  },
  {
   "property": "C25",
   "status": "proved",
   "theorems": [
    "C25_general",
    "C25_exception"
   ],
   "note": "Any scalars, rule lists, prior states; also what is left when a rule throws."
  },
  {
   "property": "C26",
   "status": "proved",
   "theorems": [
    "C26_first",
    "C26_last"
   ],
   "note": "Any scalars; that disabled rules use up places is part of the specification (they count as eligible) and exhibited."
  },
  {
   "property": "C27",
   "status": "proved",
   "theorems": [
    "C27_highest",
    "C27_lowest",
    "C27_highest_f64",
    "C27_lowest_f64",
    "C27_queue_exists"
   ],
   "note": "Any behaviour of std::priority_queue allowed by the C++ standard, for exact numbers and for binary64; a conforming queue is exhibited."
  },
  {
   "property": "C28",
   "status": "proved",
   "theorems": [
    "C28_shares",
    "C28_normalised",
    "C28_unit_f64"
   ],
   "note": "Shares: any scalars. Sum one / all zero / ratios: exact numbers. Range [0,1]: binary64 with rounding and overflow."
  },
  {
   "property": "C29",
   "status": "proved",
   "theorems": [
    "C29_threshold",
    "C29_operator_text",
    "C29_other_text"
   ],
   "note": "Any scalars; all operator texts."
  },
  {
   "property": "C30",
   "status": "proved",
   "theorems": [
    "C30_stale",
    "C30_settled",
    "C30_keeps"
   ],
   "note": "All seven methods, any scalars."
  },
  {
   "property": "C31",
   "status": "proved",
   "theorems": [
    "C31_load_iff",
    "C31_grammar_loads",
    "C31_throws",
    "C31_antecedent_accepted",
    "C31_odd_antecedents_refuted"
   ],
   "note": "Every text and environment: success iff the stated token shape with acceptable parts; documented antecedents all accepted, undocumented accepted ones exhibited."
  },
  {
   "property": "C32",
   "status": "proved",
   "theorems": [
    "C32_load_iff",
    "C32_otherwise_throws",
    "C32_unambiguous"
   ],
   "note": "Every text and environment; the conclusions read are unique."
  },
  {
   "property": "C33",
   "status": "proved",
   "theorems": [
    "C33_parse",
    "C33_full",
    "C33_unambiguous",
    "C33_precedence",
    "C33_function_names_refuted",
    "C33_operator_characters_refuted"
   ],
   "note": "Every tree, any rendering between minimal and full parentheses; the condition on names is shown necessary by two refutations."
  },
  {
   "property": "C34",
   "status": "proved",
   "theorems": [
    "C34_valid",
    "C34_activation",
    "C34_consequent",
    "C34_not_loaded"
   ],
   "note": "Every text, environment, any scalar; activation of a loaded antecedent is defined or fails only for a missing operator it uses."
  },
  {
   "property": "C35",
   "status": "proved",
   "theorems": [
    "C35_failed_load",
    "C35_successful_load",
    "C35_no_leftovers",
    "C35_unloaded_refused",
    "C35_load_rules",
    "C35_load_rules_failed",
    "C35_load_rules_iff",
    "C35_load_rules_throws"
   ],
   "note": "Every rule state, text and rule list."
  },
  {
   "property": "C36",
   "status": "proved",
   "theorems": [
    "C36_compositional",
    "C36_bounded",
    "C36_bounded_f64"
   ],
   "note": "Compositional: any scalars. Bounds: exact numbers and binary64."
  },
  {
   "property": "C37",
   "status": "proved",
   "theorems": [
    "C37_conclusions",
    "C37_no_failure",
    "C37_independent",
    "C37_independence_refuted"
   ],
   "note": "Any scalars; the documented independence is refuted."
  },
  {
   "property": "C38",
   "status": "proved",
   "theorems": [
    "C38_documented",
    "C38_parse",
    "C38_parse_any",
    "C38_minimal",
    "C38_value",
    "C38_cmath",
    "C38_arithmetic",
    "C38_rounding",
    "C38_comparisons",
    "C38_logic",
    "C38_call_without_parentheses_refuted",
    "C38_postfix_accepted_refuted",
    "C38_exponent_refuted"
   ],
   "note": "Any token sequence that renders an expression, and in particular the minimal one, for the registered names and for any consistent table. Calls without parentheses, postfix text and exponents exhibited."
  },
  {
   "property": "C39",
   "status": "proved",
   "theorems": [
    "C39_parse_total",
    "C39_parse_total_any",
    "C39_evaluate_total",
    "C39_evaluate_variables",
    "C39_arity0_refuted"
   ],
   "note": "Every string, any table of unary and binary elements. A table with an element of arity 0 is refuted."
  },
  {
   "property": "C40",
   "status": "proved",
   "theorems": [
    "C40_postfix",
    "C40_postfix_f64",
    "C40_prefix_unique",
    "C40_infix_refuted",
    "C40_infix_nan_refuted",
    "C40_postfix_as_formula_refuted",
    "C40_constants_refuted"
   ],
   "note": "Postfix text read by the second half of parse; binary64 constants up to the printed decimals. Infix printing, and postfix text given to parse itself, refuted."
  },
  {
   "property": "C41",
   "status": "proved",
   "theorems": [
    "C41_stale_refuted",
    "C41_failed_load",
    "C41_fresh_failed_load",
    "C41_successful_load",
    "C41_loaded_defined",
    "C41_membership",
    "C41_evaluate",
    "C41_evaluate_given",
    "C41_evaluate_remembers_refuted",
    "C41_unload",
    "C41_history_independent",
    "C41_leftover_refuted"
   ],
   "note": "All states and formulas. C41_stale_refuted: the stale function after a failed load. C41_evaluate_remembers_refuted: evaluate keeps the variables of earlier calls."
  },
  {
   "property": "C42",
   "status": "proved",
   "theorems": [
    "C42_binary64",
    "C42_exact",
    "C42_order_binary64",
    "C42_order_exact",
    "C42_set_value",
    "C42_defuzzify",
    "C42_clear",
    "C42_unlocked",
    "C42_within",
    "C42_setters_refuted"
   ],
   "note": "Binary64 and exact numbers; invariant of all command sequences. That setters do not re-clamp is exhibited."
  },
  {
   "property": "C43",
   "status": "proved",
   "theorems": [
    "C43_held",
    "C43_documented_refuted"
   ],
   "note": "Any scalars, any sequence of fuzzy outputs; the documented behaviour is refuted. OutputVariable::defuzzify_v6 is not modelled."
  },
  {
   "property": "C44",
   "status": "proved",
   "theorems": [
    "C44_get",
    "C44_get_fails",
    "C44_has",
    "C44_has_get",
    "C44_remove_named",
    "C44_remove_missing",
    "C44_insert",
    "C44_remove",
    "C44_remove_inserted",
    "C44_insert_removed"
   ],
   "note": "Any element type, all lists; one model serves terms, variables and rule blocks."
  },
  {
   "property": "C45",
   "status": "proved",
   "theorems": [
    "C45_exact",
    "C45_binary64",
    "C45_key_constant",
    "C45_key_linear",
    "C45_key_centroid"
   ],
   "note": "Any conforming priority queue, binary64 and exact numbers; keys characterised."
  },
  {
   "property": "C46",
   "status": "proved",
   "theorems": [
    "C46_history",
    "C46_run_same",
    "C46_lock_previous_refuted",
    "C46_formula_refuted"
   ],
   "note": "Any scalars; dependence through lock-previous and through formulas exhibited."
  },
  {
   "property": "C47",
   "status": "proved",
   "theorems": [
    "C47_idempotent"
   ],
   "note": "Any scalars."
  },
  {
   "property": "C48",
   "status": "proved",
   "theorems": [
    "C48_restart",
    "C48_restart_trace",
    "C48_nan_binary64",
    "C48_nan_exact"
   ],
   "note": "Any scalars whose NaN is unordered (shown of both instances)."
  },
  {
   "property": "C49",
   "status": "proved",
   "theorems": [
    "C49_copy",
    "C49_flags_refuted",
    "C49_weights_refuted"
   ],
   "note": "Any scalars, all command sequences; loss of enabled flags and weights exhibited. Copied fuzzy outputs that refer to terms of the original are outside the model."
  },
  {
   "property": "C50",
   "status": "proved",
   "theorems": [
    "C50_block",
    "C50_rule",
    "C50_input",
    "C50_output"
   ],
   "note": "Any scalars."
  },
  {
   "property": "C51",
   "status": "proved",
   "theorems": [
    "C51_fuzzy_outputs",
    "C51_values",
    "C51_maximum",
    "C51_sum_refuted"
   ],
   "note": "Fuzzy outputs: any scalars. Values: exact numbers with any commutative and associative aggregation (C51_values); binary64 bit for bit with Maximum, with no condition on terms or degrees (C51_maximum). In binary64 sums depend on the order: C51_sum_refuted, where the value moves from 0.25 to 0.75."
  },
  {
   "property": "C52",
   "status": "proved",
   "theorems": [
    "C52_exceptions"
   ],
   "note": "Any scalars."
  },
  {
   "property": "C53",
   "status": "proved",
   "theorems": [
    "C53_ready",
    "C53_ready_neat",
    "C53_glued_refuted",
    "C53_configure",
    "C53_configured"
   ],
   "note": "Any scalars; glued keywords exhibited."
  },
  {
   "property": "C54",
   "status": "proved",
   "theorems": [
    "C54_type"
   ],
   "note": "Full characterisation of all seven types."
  },
  {
   "property": "C55",
   "status": "proved",
   "theorems": [
    "C55_import_export",
    "C55_same_configuration",
    "C55_rules",
    "C55_succeeds",
    "C55_same_text",
    "C55_rules_refuted",
    "C55_height_refuted",
    "C55_formula_refuted"
   ],
   "note": "binary64, any settings whose tolerance is at most half the last decimal; what is lost is exhibited."
  },
  {
   "property": "C56",
   "status": "proved",
   "theorems": [
    "C56_fixed_point",
    "C56_any_text",
    "C56_line_break_refuted",
    "C56_name_refuted"
   ],
   "note": "binary64, also from any importable text; line breaks and unnameable terms exhibited."
  },
  {
   "property": "C57",
   "status": "proved",
   "theorems": [
    "C57_rejected",
    "C57_throws",
    "C57_comments",
    "C57_integers_refuted"
   ],
   "note": "Any scalars, all texts. C57_integers_refuted: numbers which are no int are cast to int nevertheless, which is undefined behaviour."
  },
  {
   "property": "C58",
   "status": "proved",
   "theorems": [
    "C58_split_terminates",
    "C58_split_pieces",
    "C58_join_split",
    "C58_pieces_free",
    "C58_split_join",
    "C58_split_join_char",
    "C58_split_join_refuted",
    "C58_split_empty_refuted"
   ],
   "note": "All byte strings. Restoring pieces from a join needs delimiters that do not overlap piece ends (automatic for one character); the unrestricted form is refuted."
  },
  {
   "property": "C59",
   "status": "proved",
   "theorems": [
    "C59_trim",
    "C59_trim_unique",
    "C59_trim_idempotent",
    "C59_trim_blank"
   ],
   "note": "All byte strings."
  },
  {
   "property": "C60",
   "status": "proved",
   "theorems": [
    "C60_replace_all",
    "C60_replaced_unique",
    "C60_replace_split",
    "C60_empty_pattern_refuted",
    "C60_replace_first",
    "C60_replace_first_refuted"
   ],
   "note": "All byte strings; replaceAll with an empty pattern diverges and replacing only the first occurrence truncates the text (both exhibited)."
  },
  {
   "property": "C61",
   "status": "proved",
   "theorems": [
    "C61_valid_chars",
    "C61_valid_idempotent",
    "C61_valid_keep",
    "C61_valid_empty",
    "C61_never_empty_refuted",
    "C61_idempotent_refuted"
   ],
   "note": "All byte strings; 'never empty' and unrestricted idempotence are refuted by '#', with the exact condition proved."
  },
  {
   "property": "C62",
   "status": "proved",
   "theorems": [
    "C62_round_trip",
    "C62_decimals_kept",
    "C62_specials",
    "C62_read_correct",
    "C62_print_correct",
    "C62_digits",
    "C62_value_kept_refuted"
   ],
   "note": "Every finite binary64 value and every number of decimals; correct rounding of both directions proved from Flocq."
  },
  {
   "property": "C63",
   "status": "proved",
   "theorems": [
    "C63_enumerates",
    "C63_once",
    "C63_continues",
    "C63_determined"
   ],
   "note": "All bounds, also upper below lower."
  },
  {
   "property": "C64",
   "status": "proved",
   "theorems": [
    "C64_rows",
    "C64_prepare",
    "C64_points",
    "C64_points_f64",
    "C64_above_refuted",
    "C64_values",
    "C64_values_each",
    "C64_values_refuted",
    "C64_no_inputs_refuted"
   ],
   "note": "Any scalars for the rows; XR and binary64 for the points; rounding failures exhibited."
  },
  {
   "property": "C65",
   "status": "proved",
   "theorems": [
    "C65_count",
    "C65_can",
    "C65_cannot",
    "C65_ragged",
    "C65_by_kind",
    "C65_by_output",
    "C65_zero",
    "C65_self",
    "C65_repeatable",
    "C65_rows",
    "C65_mse",
    "C65_mse_f64",
    "C65_convert"
   ],
   "note": "Any scalars; mean squared error in XR and binary64."
  },
  {
   "property": "C66",
   "status": "proved",
   "theorems": [
    "C66_construction",
    "C66_cloning",
    "C66_copy",
    "C66_tnorms",
    "C66_snorms",
    "C66_hedges",
    "C66_hedge_lookup",
    "C66_defuzzifiers",
    "C66_integral",
    "C66_weighted",
    "C66_weighted_types",
    "C66_terms",
    "C66_term_classes",
    "C66_activations",
    "C66_activation_classes",
    "C66_names",
    "C66_scalar_names"
   ],
   "note": "All histories; every built-in class; ownership of objects not modelled."
  },
  {
   "property": "C67",
   "status": "proved",
   "theorems": [
    "C67_fis_tnorms",
    "C67_fis_snorms",
    "C67_fis_defuzzifiers",
    "C67_fcl_tnorms",
    "C67_fcl_snorms",
    "C67_fcl_defuzzifiers",
    "C67_defuzzifier_refuted"
   ],
   "note": "All operators of both formats, FCL with any keyword before the colon; losing resolution and type is exhibited."
  },
  {
   "property": "C68",
   "status": "proved",
   "theorems": [
    "C68_proposition",
    "C68_rule",
    "C68_negation_refuted",
    "C68_dropped_refuted",
    "C68_hedges_refuted"
   ],
   "note": "Binary64 with std::fmod exact on non-negative arguments (satisfied by a concrete instance); what the codes cannot express is refuted."
  },
  {
   "property": "C69",
   "status": "proved",
   "theorems": [
    "C69_norm_formulas",
    "C69_hedge_formulas"
   ],
   "note": "Exact reals; excluded are only arguments in the tolerance band of a case boundary."
  },
  {
   "property": "C70",
   "status": "proved",
   "theorems": [
    "C70_consequent",
    "C70_postfix",
    "C70_infix_refuted"
   ],
   "note": "Any environment of plain names; infix printing refuted."
  },
  {
   "property": "C71",
   "status": "proved",
   "theorems": [
    "C71_lines",
    "C71_determined",
    "C71_header_refuted"
   ],
   "note": "Any scalars; header after comment exhibited."
  },
  {
   "property": "C72",
   "status": "proved",
   "theorems": [
    "C72_degrees",
    "C72_degrees_binary64",
    "C72_terms",
    "C72_integral_values",
    "C72_average_values",
    "C72_selected_values_binary64",
    "C72_consulted_refuted"
   ],
   "note": "Degrees in exact arithmetic and binary64 (there without HamacherSum, which rounds above 1, C07); values in exact arithmetic, and in binary64 for the smallest and largest of maximum."
  },
  {
   "property": "C73",
   "status": "proved",
   "theorems": [
    "C73_import_export",
    "C73_same_configuration",
    "C73_rules",
    "C73_succeeds",
    "C73_fixed_point",
    "C73_settings_refuted",
    "C73_discrete_refuted",
    "C73_block_name_refuted",
    "C73_words_refuted",
    "C73_slashes_refuted"
   ],
   "note": "Exact import of exported texts for all clear engines, same configuration up to printed numbers, fixed point after one round; losses of the format exhibited by the _refuted theorems."
  },
  {
   "property": "C74",
   "status": "proved",
   "theorems": [
    "C74_inference",
    "C74_unique",
    "C74_independent",
    "C74_mamdani",
    "C74_takagi_sugeno",
    "C74_tsukamoto"
   ],
   "note": "Any scalars for the inference; the three closed formulas over exact arithmetic (general engines, i.e. General activation)."
  },
  {
   "property": "C75",
   "status": "proved",
   "theorems": [
    "C75_activations",
    "C75_total",
    "C75_highest",
    "C75_maximal",
    "C75_text",
    "C75_output",
    "C75_read_back",
    "C75_scalars",
    "C75_blank_name_refuted"
   ],
   "note": "Extended reals and binary64; names with blanks refuted."
  },
  {
   "property": "C76",
   "status": "proved",
   "theorems": [
    "C76_exports",
    "C76_same_configuration",
    "C76_succeeds",
    "C76_fixed_point",
    "C76_settings_refuted",
    "C76_empty_refuted",
    "C76_comma_refuted"
   ],
   "note": "Export succeeds, same configuration up to printed numbers and same names, import succeeds without formulas, fixed point after one round; losses of the format exhibited by the _refuted theorems."
  },
  {
   "property": "C77",
   "status": "proved",
   "theorems": [
    "C77_centroid_limit",
    "C77_centroid_error",
    "C77_bisector",
    "C77_highest",
    "C77_plateau",
    "C77_peak",
    "C77_two_peaks_refuted",
    "C77_mamdani"
   ],
   "note": "Over the reals (Coquelicot integrals). Bounds for centroid and bisector hold for membership functions of bounded slope; the limit of the centroid for all integrable ones. C77_mamdani composes with C74 for Minimum, AlgebraicProduct, BoundedDifference and Maximum, AlgebraicSum, BoundedSum. C77_two_peaks_refuted: the smallest of maximum need not approach the smallest maximizer."
  },
  {
   "property": "C78",
   "status": "proved",
   "theorems": [
    "C78_average",
    "C78_sum",
    "C78_samples",
    "C78_centroid",
    "C78_gravity"
   ],
   "note": "binary64 (Flocq, round to nearest even; the order of operations as written, no extended precision or fused operations). The degrees and values are those computed; how far memberships as computed are from their formulas enters C78_gravity as delta."
  },
  {
   "property": "C79",
   "status": "proved",
   "theorems": [
    "C79_text",
    "C79_read",
    "C79_again",
    "C79_benchmark",
    "C79_grid",
    "C79_default_refuted",
    "C79_names_refuted",
    "C79_separator_refuted"
   ],
   "note": "binary64, every number of decimals. Streams are strings; times and file handling are left out. C79_benchmark and C79_grid ask that all outputs are enabled (run restarts the engine, which clears disabled ones) and that the inputs print exactly. C79_default_refuted, C79_names_refuted, C79_separator_refuted exhibit the limits."
  },
  {
   "property": "C80",
   "status": "proved",
   "theorems": [
    "C80_shape",
    "C80_value",
    "C80_engine"
   ],
   "note": "C80_shape for the memberships, C80_value for an output variable, C80_engine for process(). Straight-line terms only, for which no library function is needed; height of terms at most 1."
  },
  {
   "property": "C81",
   "status": "proved",
   "theorems": [
    "C81_fcl_comments",
    "C81_fcl_rejected",
    "C81_sections",
    "C81_fcl_rest",
    "C81_fis_comments",
    "C81_fis_rejected"
   ],
   "note": "C81_fcl_comments and C81_fis_comments for the contents, C81_fcl_rejected, C81_sections and C81_fis_rejected for the failures (an exception, undefined behaviour or running out of fuel: never an engine), C81_fcl_rest for what follows. A line that consists of quotes only is not covered in FIS (accepted at the end of a section, exhibited by C81_tolerated), and a line FUNCTION_BLOCK is accepted anywhere."
  },
  {
   "property": "C82",
   "status": "proved",
   "theorems": [
    "C82_same_configuration",
    "C82_rules",
    "C82_succeeds",
    "C82_quotes_refuted",
    "C82_namespace_refuted",
    "C82_linear_refuted",
    "C82_height_refuted",
    "C82_names_refuted",
    "C82_rules_refuted",
    "C82_exact",
    "C82_again"
   ],
   "note": "C82_same_configuration and C82_rules for every program that runs, C82_succeeds for engines without Function terms whose rules load (with Function terms the code may throw, as loading the engine does). C82_exact: engines whose numbers fit the decimals are rebuilt exactly. C82_again: code of the engine built by the code builds exactly that engine. C++ is represented by the small language of SpecCpp.v: tokens, statements, constructors and methods used by the generated code; anything else counts as not compiling. What is not rebuilt is exhibited by the _refuted theorems."
  },
  {
   "property": "C83",
   "status": "proved",
   "theorems": [
    "C83_linear",
    "C83_engine"
   ],
   "note": "C83_linear for Linear terms, C83_engine for process(). Aggregation is none or UnboundedSum (degrees of the same term are added up); the output variable does not lock its range; names of terms are different."
  },
  {
   "property": "C84",
   "status": "proved",
   "theorems": [
    "C84_options",
    "C84_two_names",
    "C84_unknown",
    "C84_only_target",
    "C84_convert",
    "C84_failed",
    "C84_dataset",
    "C84_grid",
    "C84_fll_again",
    "C84_overwrites_refuted",
    "C84_example_refuted"
   ],
   "note": "C84_options, C84_two_names, C84_unknown, C84_only_target for all commands; C84_convert, C84_failed, C84_dataset, C84_grid for complete requests; C84_fll_again for copies of FLL files. The exporter to Java and the texts of exceptions are parameters; the subcommands export-examples, benchmark and benchmarks are not modelled. C84_overwrites_refuted: a command that fails empties its output file. C84_example_refuted: -decimals changes the example engines."
  },
  {
   "property": "C85",
   "status": "proved",
   "theorems": [
    "C85_session",
    "C85_defuzzify_again",
    "C85_twice_refuted",
    "C85_restart_refuted",
    "C85_unfinished_refuted",
    "C85_no_inputs_refuted"
   ],
   "note": "C85_session for all sessions described by the relation transcript of SpecSession.v, in which every row is evaluated by one process() of the configuration with the values typed. Engines are memoryless (C79): no formula mentions an output and no enabled output locks its previous value; C85_twice_refuted shows why. Not described: R and H in the middle of a row, and control characters."
  },
  {
   "property": "C86",
   "status": "proved",
   "theorems": [
    "C86_interval",
    "C86_interval_nan",
    "C86_documented_interval_refuted",
    "C86_scale",
    "C86_scale_bounded",
    "C86_scale_end_refuted",
    "C86_descending_refuted",
    "C86_statistics",
    "C86_meaning",
    "C86_float"
   ],
   "note": "In exact arithmetic for all values, in binary64 for intervals of NaN, bounds and signs. C86_documented_interval_refuted: the header swaps the two half-open intervals. C86_scale_end_refuted: without bounds the end of the range may be passed by rounding. C86_descending_refuted: bounds do not work for descending target ranges."
  },
  {
   "property": "C87",
   "status": "proved",
   "theorems": [
    "C87_tnorms",
    "C87_snorms",
    "C87_unbounded_sum",
    "C87_jumps",
    "C87_hedges",
    "C87_steady",
    "C87_jump_refuted"
   ],
   "note": "All degrees and tolerances. C87_jump_refuted: no bound at the jumps. HamacherSum, which can exceed 1 (C07), has no bound here."
  },
  {
   "property": "C88",
   "status": "proved",
   "theorems": [
    "C88_hedges",
    "C88_degree",
    "C88_set",
    "C88_value",
    "C88_memberships",
    "C88_lines",
    "C88_foot_refuted"
   ],
   "note": "General norms without jumps, all hedges, Centroid. C88_foot_refuted: within the tolerance outside of its foot a Triangle has a negative membership, so these values are excepted (clear). HamacherSum and norms with jumps are excluded (C87)."
  },
  {
   "property": "C89",
   "status": "proved",
   "theorems": [
    "C89_fcl",
    "C89_locks",
    "C89_fis",
    "C89_colon_refuted"
   ],
   "note": "All scalars. C89_colon_refuted: without a blank before the colon the line is an error."
  },
  {
   "property": "C90",
   "status": "proved",
   "theorems": [
    "C90_disabled",
    "C90_result",
    "C90_held",
    "C90_default",
    "C90_memory",
    "C90_throws",
    "C90_current_refuted",
    "C90_nan_refuted"
   ],
   "note": "All scalars. C90_current_refuted: the current defuzzify() does not hold a locked value. C90_nan_refuted: the default value does not replace a result that is NaN."
  },
  {
   "property": "C91",
   "status": "proved",
   "theorems": [
    "C91_script",
    "C91_lines",
    "C91_file",
    "C91_plots",
    "C91_outcome",
    "C91_export",
    "C91_engine",
    "C91_quote_refuted",
    "C91_backslash_refuted"
   ],
   "note": "All scalars; C91_engine in binary64. C91_quote_refuted, C91_backslash_refuted: texts are not escaped, a quotation mark lets the rest of a description run as code."
  },
  {
   "property": "C92",
   "status": "proved",
   "theorems": [
    "C92_exact",
    "C92_same_configuration",
    "C92_rules",
    "C92_succeeds",
    "C92_cpp",
    "C92_again",
    "C92_text_refuted",
    "C92_quotes_refuted",
    "C92_infinite_refuted",
    "C92_names_refuted",
    "C92_height_refuted",
    "C92_rules_refuted"
   ],
   "note": "C92_same_configuration and C92_rules for every program that runs, C92_succeeds for engines without Function terms whose rules load, C92_cpp for agreement with the C++ code of C82. C92_exact: engines whose numbers fit the decimals are rebuilt exactly. C92_again: code of the engine built by the code builds exactly that engine (C92_text_refuted: the text can change). Java is represented by the small language of SpecJava.v; the classes of the Java library, which is not in the repository, are taken to behave as those of C++. What is not rebuilt is exhibited by the _refuted theorems."
  }
 ]
}