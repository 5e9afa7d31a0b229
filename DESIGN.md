# Formal model of fuzzylite: design and trusted base

Source: `/repo` (read as text; never built or run). Development: `/verif/rocq` (Coq 8.16.1).

## 1. Shape of the development

* **Scalars.** The code computes with `fl::scalar` (= `double`). The model is written once, generically,
  over a record/typeclass `Scalar T` holding the operations the code uses (add, sub, mul, div, comparisons
  that are false on NaN, literals, `sqrt`, `exp`, `cos`, `pow`, `log`, `fmod`, `floor`, ... and the global
  `macheps`). There are two instances.
  * `XR`: exact extended reals `NaN | +inf | -inf | r` with IEEE-754 conventions for the special values and
    exact real arithmetic for finite values. Algebraic laws (norm axioms, shapes, defuzzifiers) are proved here.
    Simplification: no rounding, one zero.
  * `F64`: Flocq `binary_float 53 1024` (IEEE binary64, round to nearest even). Comparisons, `min`, `max`,
    `bound`, range safety of norms, number text are proved here. Elementary functions other than `sqrt` come from a
    record argument (`libm`), because the C library does not specify them.
  * Structural properties (parsing, activation selection, state machines, process/restart/clone,
    import/export) are proved for *every* `Scalar` record, hence for both instances.
* **Effects.** C++ exceptions are `Throw kind`, undefined behaviour is `UB`, non-termination is `Diverge`
  (`res` type). Operations on mutable objects return the new state also when they throw.
* **References.** Pointers from propositions to variables/terms are indices into the engine's lists
  (pointer identity = index equality). Names are only used where the code uses names.
* **Text.** `std::string` is `list ascii`/`string`; white space is the C locale's. Bytes >= 128 are excluded
  where the code passes them to `isspace`/`isalnum` (UB for negative `char`).
* **Files.** `Model*`-style files hold definitions only, each with a citation of file and lines;
  proofs are in separate files; property theorems are in `Prop*.v` files containing only the statement, `exact`,
  `Print Assumptions`, and a concrete non-vacuity `Example`.

## 2. Per-property plan

| Id | Modelled | How proved |
|----|----------|-----------|
| C01, C02 | `Op::is*`, `min`, `max`, `bound` generically | F64: case analysis on Flocq comparison; all binary64 values |
| C03–C06 | norm `compute` | XR: real algebra (`nra`/`psatz`), tolerance `eps >= 0` a parameter; counterexamples for tolerance bands |
| C07 | norm `compute` | F64: monotonicity of rounding |
| C08 | hedges | XR: real analysis of sqrt/square |
| C09–C13 | all shape terms' `membership`/`tsukamoto` | XR: piecewise case analysis; counterexamples at tolerance bands |
| C14, C15 | `Discrete` | XR + list induction |
| C16 | `Linear`, `Constant` | induction over lists |
| C17–C20 | integral defuzzifiers over an arbitrary membership function | XR: induction over sample loop |
| C21–C24 | `Aggregated`, weighted defuzzifiers, `grouped` | list induction; XR for bounds |
| C25–C30 | activation methods over rule lists with abstract degrees and the full engine state | induction over rule list |
| C31–C35 | `Rule::load`, `Antecedent::load`, `Consequent::load` as token FSMs | spec grammar as inductive relation; both directions |
| C70 | `Proposition`, `Antecedent`, `Consequent` printing | induction on trees; printing then loading |
| C36, C37 | `activationDegree`, `Consequent::modify` | structural induction; refutation of independence |
| C38–C41 | `Function` tokenizer, shunting-yard, tree builder, evaluator, printers | induction on trees; invariants of the stack machine |
| C42–C45 | variables | state-machine invariants |
| C46–C54 | engine | relational proofs over the step functions |
| C55–C57 | FLL exporter and importer | spec of text format + round trip induction |
| C58–C62 | string and number helpers | induction on strings; F64 decimal conversion bounds |
| C63, C64, C71 | `Op::increment`, `FldExporter::write` over grids and over lines, `Benchmark::prepare` | mixed-radix counting argument; simulation between engines of equal configuration; real and binary64 bounds of grid points |
| C51 (binary64) | order of rules with Maximum | the running maximum is NaN, +0 or positive, which fixes its bits; permutations of folds (`MaxOrder.v`) |
| C65 | `Benchmark` tables, error counters, mean squared error, unit conversion | list induction; XR and F64 sums |
| C66 | `ConstructionFactory`, `CloningFactory`, the built-in factories and class names | sorted association lists against functional tables, induction over histories |
| C67, C68 | FIS and FCL exporters and importers: name tables and rule codes | finite case analysis; error bounds of binary64 codes; rule grammar of C31 |
| C72 | `Engine::process` with everything it calls | invariant over rule blocks and activation methods, for any set of degrees closed under the operators; instances for exact arithmetic and binary64 |
| C73 | FCL exporter and importer on whole engines | induction over the lines of each section; the printed engine of C55 with what FCL can express |
| C74 | whole engines with General activation against a big-step inference semantics (SpecInfer.v) | simulation of blocks, rules, antecedents and consequents; then centroid (C20) and weighted averages (C22, C23) |
| C75 | fuzzification and fuzzy values as text (`Fuzzify.v`) | list induction; unique reading of texts |
| C76 | FIS exporter and importer on whole engines | induction over the sections; rules by C68; the printed engine of C55 with what FIS can express |
| C77 | Integral defuzzifiers against integrals and maximizers | Riemann sums (Coquelicot); error of each cell from the slope; compactness for peaks; composition with C74 |
| C78 | Rounding errors of weighted and centroid defuzzifiers in binary64 | Induction over the sums with relative error 2^-53 per operation, absorbing second-order terms; quotient; composition with the resolution bounds of C77 |
| C79 | Datasets as text: written, read back, exported again, benchmarked | Tokens of lines; numbers as printed (C62); rows as independent evaluations (C64, C65, C71) |
| C80 | Mamdani engines in binary64 against the documented set over the reals | Membership errors of straight-line shapes; degrees by induction on antecedents; one-Lipschitz min/max; inference (C74) and centroid errors (C78) |
| C81 | FCL and FIS importers reject lines that do not belong where they are | Contents of lines specified apart (SpecImport); line loop refined to a run over contents; a bad line makes its section fail |
| C82 | Generated C++ code rebuilds the engine | A small language (SpecCpp: tokens, statements, library methods) with an interpreter; exporter text refined to a list of statements; running it step by step gives the engine |
| C83 | Takagi-Sugeno engines in double precision compute the documented weighted formulas | Conclusions as computed agree with conclusions over the reals (induction over rules); grouping adds up degrees (rounding of sums); rounding of Linear terms; C78 for the quotient |
| C84 | The command line tool converts the engine it is given and touches nothing else | Tables of options with equal lookups are permutations of each other, and the conversion looks only at documented keys; the disk is a function from names to contents; C55/C81 for copies of FLL files |
| C85 | The interactive console shows what the engine evaluates for the values typed | Specification as a relation between keys and text (`SpecSession.v`); invariant: the engine of the session has the configuration and input values of the specification (C46); a second defuzzification of outputs without memory is idle |
| C86 | Intervals, linear scaling and statistics | Text-book definitions over the reals (`SpecStat.v`) equal to the folds of the code; signs of sums of squares, quotients and roots in binary64 through Flocq, overflow included (`StatProofs.v`) |
| C87 | Norms and hedges in binary64 against their formulas | absolute errors of single operations through Flocq, quotients of approximations, relative errors where denominators vanish; Lipschitz constants over the reals (`NormErr.v`, `HedgeErr.v`) |
| C88 | Mamdani engines with continuous operators and hedges in binary64 | moduli of continuity of hedges, induction over antecedents and over the relational semantics of inference (C74), quadrature error of C80; memberships of straight lines are degrees by monotonicity of rounding (`GradeF64.v`, `GradeSet.v`, `GradeValue.v`, `GradeLine.v`, `GradeEngine.v`) |
| C89 | Switches in FCL and FIS lines | splitting and trimming of padded texts (`SwitchProofs.v`) |
| C90 | Defuzzification of version 6.0 | reflexive-transitive closure of steps without a result (`LegacyProofs.v`) |
| C91 | Scripts of R | the reader of literals runs through the pieces written (`RscriptProofs.v`) |
| C92 | Generated Java code rebuilds the engine | the statements in Java are an image of those of C82, read back by a small grammar (`SpecJava.v`, `JavaProofs.v`); running them is running the C++ program |

Statements that are false of the code are proved in the negative (`..._refuted`) and the strongest true variant is
proved next to them.

## 3. Trusted base

* The Coq 8.16.1 kernel and `coqc`. No axioms, parameters, admitted proofs, plugins or switched-off checks of our own.
* The standard library axioms listed by `Print Assumptions`: **N** `ClassicalDedekindReals.sig_not_dec`, **F**
  `ClassicalDedekindReals.sig_forall_dec`, **X** `FunctionalExtensionality.functional_extensionality_dep` (all three from
  `Coq.Reals`), **C** `Classical_Prop.classic` (through Flocq/Coquelicot real analysis). Section 5 lists them per theorem.
* Flocq's definition of binary64 as the meaning of `double`: round to nearest even, no extended precision, no contraction
  to fused multiply-add, no payload or sign of NaN.
* `<cmath>` functions other than `sqrt`, `floor`, `ceil`, `fabs` are arbitrary functions in the `F64` instance (nothing is
  assumed about them, except that C68 takes `fmod(x, 1)` to be exact for x >= 0); in `XR` they are the real functions, with oracles for those we never reason about.
* `s_dec`/`s_fixed`: reading a decimal is correctly rounded, printing with fixed decimals is exact round-half-even (glibc
  `strtod`, `printf`), `std::pow(10, -d)` is correctly rounded. That the *definitions* used compute these is proved (C62).
* `std::istream >> double` accepts: optional sign, digits with optional point, optional exponent (libstdc++ `num_get`).
* The reading of the C++ source by hand: each definition cites the lines it transcribes.

## 4. Modelled and unmodelled code

Modelled (see the citations in the files): `Op` comparisons, `min`, `max`, `bound`, `scale`, `round`, logical operators,
`split`, `join`, `findReplace`, `trim`, `validName`, `format`, `toScalar`, `toScalars`, `isNumeric`, `str` (`Op.v`, `Text.v`);
all registered T-norms and S-norms (`Norm.v`); all registered hedges (`Hedge.v`); all shape terms' `membership`, `tsukamoto`,
`isMonotonic` (`Shape.v`); `Discrete`, `Linear`, `Constant` (`Discrete.v`); integral and weighted defuzzifiers (`Defuzz.v`);
`Activated`, `Aggregated` (`Aggregated.v`); `Function` with its tokenizer, parser, trees, printers, evaluation and state, and the
default `FunctionFactory` table (`Function.v`); `Proposition`, `Expression`, `Antecedent`, `Consequent` and `Rule` loading, printing, activation
and triggering, `RuleBlock::loadRules` (`Rule.v`); all activation methods and `RuleBlock::activate` (`Activation.v`); `Variable`,
`InputVariable`, `OutputVariable` (`Var.v`, `Fuzzify.v`, `Legacy.v`); `Engine` (`Engine.v`); `Op::increment` and `FldExporter` (`Grid.v`); `Benchmark` without its clock and reports (`Benchmark.v`); factories (`Factory.v`); `parameters`/`configure` of terms and activation methods, `FllExporter` and `FllImporter` (`Fll.v`); `FisExporter` and `FisImporter` (`Fis.v`); `FclExporter` and `FclImporter` (`Fcl.v`); `CppExporter` without `toString(Hedge)` (`Cpp.v`); `JavaExporter` (`Java.v`); `RScriptExporter` without opening files (`Rscript.v`); `Console` without its subcommands, usage text and terminal settings (`Console.v`). `std::priority_queue` is a parameter (`drainer`) of which theorems
assume only what the C++ standard guarantees (`drain_spec`).

Not modelled: logging and debug output, locale handling, `std::ios` formats other than fixed, streams and files, memory
management (leaks, ownership), threads, `TNormFunction`/`SNormFunction`/`HedgeFunction`, the subcommands of `Console`,
bytes >= 128 in text passed to `isspace`/`isalnum` (undefined behaviour in C).

The meaning of generated C++ code (C82) is part of the specification, in `SpecCpp.v`: a language of the tokens and statements
the exporter uses, whose interpreter rejects everything else; numeric literals are converted as `Op::toScalar` converts them.

The meaning of generated Java code (C92) is in `SpecJava.v`: statements in the syntax of Java, with the classes and methods of the Java
library taken to be those of the same names in C++ (`Discrete.create` without the number of values). The Java library itself is not in /repo.

The meaning of R scripts (C91) is likewise in `SpecRscript.v`: which characters belong to code, comments and string literals. What
the code of the plots does is not specified beyond its literals and the names of the plots.

### Disagreements between code and property

Where the code violates a property as stated, the `..._refuted` theorem is the finding and the note in `MANIFEST.json` names
it; the proved variants next to it state exactly what does hold. Main ones so far: tolerance bands of Hamacher/Nilpotent/Drastic
norms and of shape terms (C03-C06, C09, C12), `HamacherSum` above 1 by rounding (C07), weighted/integral overflow (C17), sums which depend on the order of rules (C51),
`Op::replaceFirst` loses the rest of the text (C60), a failed `Function::load` keeps the old tree under the new formula and `Function::evaluate` keeps the variables of earlier calls (C41), `Op::in` documents its half-open intervals the wrong way round and the bounded `Op::scale` fails for descending ranges (C86), Triangle and Trapezoid have slightly negative memberships within the tolerance outside of their feet (C88), `ENABLED: TRUE` without a blank before the colon is an error in FCL files (C89), resolutions and numbers of rules which are no int are cast to int by the FLL importer (C57), the default value of `defuzzify_v6` does not replace a result that is NaN (C90), scripts of R contain unescaped texts, so that a description can contain code (C91), Java code has `inf` and `nan` for parameters of terms, which are not Java, though infinite ranges are written as `Double.POSITIVE_INFINITY`, and may declare variables named like keywords of Java; a height printed as 1 is left out when the rebuilt engine is exported again (C92), `Antecedent::load` accepts
undocumented orders of operands and misreads names that look like functions or contain operator characters (C31, C33), infix
printing of antecedents drops parentheses (C70), hedges of one conclusion leak into the next (C37), disabled rules use up the
places of First/Last/Highest/Lowest (C26, C27), lock-previous holds the value of two steps ago (C43), setters do not re-clamp a locked value (C42),
copying an engine enables disabled rules and resets weights (C49), `isReady` misses keywords next to parentheses (C53), the last grid point exceeds the maximum by rounding and 1000 values for three inputs give a 9x9x9 grid (C64), a comment before the header of a dataset makes the header an error (C71), FLL files keep neither whether a rule is enabled nor a weight set by `setWeight`, and lose heights printed as 1 (C55), line breaks in names or descriptions inject lines into FLL files and a term whose name has no valid character cannot be imported again (C56), FIS codes move or cancel negations, add up hedges, and drop second propositions on a variable and output variables in antecedents (C68), FIS and FCL files lose resolution and type of defuzzifiers (C67), an antecedent consulting an output variable without aggregation operator has degrees above 1 (C72), FCL files lose descriptions, enabled flags, lock-range, resolutions, activation methods, heights of discrete terms and all but the last word of a block's name, and cannot be imported with empty discrete terms or word operators in formulas (C73), FIS files lose heights, default values, lock-previous and the operators of all but the first block, and cannot be imported with empty discrete terms or commas in formulas (C76), C++ code is written with unescaped texts, names that are not identifiers or collide, unqualified weighted defuzzifiers in namespace mode, wrong numbers of variadic arguments for Linear, no heights of Discrete terms and no disabled rules (C82), the command line tool empties its output file before it fails and rounds its example engines to the decimals asked for (C84), the interactive console defuzzifies twice, R does not discard the row as documented, and P ignores the number just typed (C85). The statements in `properties.jsonl` name the exceptions.

## 5. Assumptions per theorem

Letters as in section 3; "none" means closed under the global context. Generated by `tools/gen_assumptions.py`.

<!-- assumptions -->
* **none**: `C15_conversions`, `C15_discretize_any`, `C16_constant`, `C16_no_engine`, `C21_empty`, `C21_rejects`, `C22_activated`, `C22_empty`, `C22_nan`, `C22_no_aggregation`, `C22_no_implication`, `C23_grouped`, `C24_degree`, `C25_exception`, `C25_general`, `C26_first`, `C26_last`, `C27_queue_exists`, `C28_shares`, `C29_operator_text`, `C29_other_text`, `C29_threshold`, `C30_keeps`, `C30_settled`, `C30_stale`, `C31_antecedent_accepted`, `C31_grammar_loads`, `C31_load_iff`, `C31_throws`, `C32_load_iff`, `C32_otherwise_throws`, `C32_unambiguous`, `C33_full`, `C33_parse`, `C33_precedence`, `C33_unambiguous`, `C34_activation`, `C34_consequent`, `C34_not_loaded`, `C34_valid`, `C35_failed_load`, `C35_load_rules`, `C35_load_rules_failed`, `C35_load_rules_iff`, `C35_load_rules_throws`, `C35_no_leftovers`, `C35_successful_load`, `C35_unloaded_refused`, `C36_compositional`, `C37_conclusions`, `C37_independent`, `C37_no_failure`, `C38_cmath`, `C38_documented`, `C38_minimal`, `C38_parse`, `C38_parse_any`, `C38_value`, `C39_evaluate_total`, `C39_evaluate_variables`, `C39_parse_total`, `C39_parse_total_any`, `C40_postfix`, `C40_prefix_unique`, `C41_evaluate`, `C41_evaluate_given`, `C41_failed_load`, `C41_fresh_failed_load`, `C41_history_independent`, `C41_loaded_defined`, `C41_membership`, `C41_successful_load`, `C41_unload`, `C42_clear`, `C42_defuzzify`, `C42_set_value`, `C42_unlocked`, `C42_within`, `C43_held`, `C44_get`, `C44_get_fails`, `C44_has`, `C44_has_get`, `C44_insert`, `C44_insert_removed`, `C44_remove`, `C44_remove_inserted`, `C44_remove_missing`, `C44_remove_named`, `C45_key_centroid`, `C45_key_constant`, `C45_key_linear`, `C46_history`, `C46_run_same`, `C47_idempotent`, `C48_restart`, `C48_restart_trace`, `C49_copy`, `C50_block`, `C50_input`, `C50_output`, `C50_rule`, `C51_fuzzy_outputs`, `C52_exceptions`, `C53_configure`, `C53_configured`, `C53_ready`, `C53_ready_neat`, `C54_type`, `C57_comments`, `C57_rejected`, `C57_throws`, `C58_join_split`, `C58_pieces_free`, `C58_split_empty_refuted`, `C58_split_join`, `C58_split_join_char`, `C58_split_join_refuted`, `C58_split_pieces`, `C58_split_terminates`, `C59_trim`, `C59_trim_blank`, `C59_trim_idempotent`, `C59_trim_unique`, `C60_empty_pattern_refuted`, `C60_replace_all`, `C60_replace_first`, `C60_replace_first_refuted`, `C60_replace_split`, `C60_replaced_unique`, `C61_idempotent_refuted`, `C61_never_empty_refuted`, `C61_valid_chars`, `C61_valid_empty`, `C61_valid_idempotent`, `C61_valid_keep`, `C62_digits`, `C63_continues`, `C63_determined`, `C63_enumerates`, `C63_once`, `C64_prepare`, `C64_rows`, `C64_values_each`, `C65_by_kind`, `C65_by_output`, `C65_can`, `C65_cannot`, `C65_count`, `C65_ragged`, `C65_repeatable`, `C65_rows`, `C65_self`, `C65_zero`, `C66_activation_classes`, `C66_activations`, `C66_cloning`, `C66_construction`, `C66_copy`, `C66_defuzzifiers`, `C66_hedge_lookup`, `C66_hedges`, `C66_integral`, `C66_names`, `C66_scalar_names`, `C66_snorms`, `C66_term_classes`, `C66_terms`, `C66_tnorms`, `C66_weighted`, `C66_weighted_types`, `C67_defuzzifier_refuted`, `C67_fcl_defuzzifiers`, `C67_fcl_snorms`, `C67_fcl_tnorms`, `C67_fis_defuzzifiers`, `C67_fis_snorms`, `C67_fis_tnorms`, `C68_dropped_refuted`, `C68_negation_refuted`, `C70_consequent`, `C70_postfix`, `C71_determined`, `C71_lines`, `C74_independent`, `C74_inference`, `C74_unique`, `C75_activations`, `C75_total`, `C81_fcl_comments`, `C81_fcl_rejected`, `C81_fcl_rest`, `C81_fis_comments`, `C81_fis_rejected`, `C81_sections`, `C84_convert`, `C84_dataset`, `C84_failed`, `C84_grid`, `C84_only_target`, `C84_options`, `C84_two_names`, `C84_unknown`, `C85_defuzzify_again`, `C85_session`, `C89_colon_refuted`, `C89_fcl`, `C89_fis`, `C89_locks`, `C90_default`, `C90_disabled`, `C90_held`, `C90_memory`, `C90_result`, `C90_throws`, `C91_export`, `C91_file`, `C91_lines`, `C91_outcome`, `C91_plots`, `C91_script`
* **C F N X**: `C01_tolerance_meaning`, `C01_tolerant_comparisons`, `C02_bound`, `C02_min_max`, `C03_hamacher_associativity_refuted`, `C03_nilpotent_identity_refuted`, `C03_tnorm_axioms`, `C03_tnorm_axioms_tolerance`, `C04_nilpotent_identity_refuted`, `C04_normalized_is_bounded`, `C04_snorm_axioms`, `C04_snorm_axioms_tolerance`, `C04_unbounded_sum`, `C05_de_morgan`, `C05_hamacher_refuted`, `C06_drastic_bounds`, `C06_drastic_tolerance_refuted`, `C06_lattice_bounds`, `C07_hamacher_sum_refuted`, `C07_snorm_rounding`, `C07_tnorm_rounding`, `C08_extremely_monotone_refuted`, `C08_hedge_lists`, `C08_hedges`, `C08_hedges_rounding`, `C09_band_error`, `C09_finite_range`, `C09_infinite_argument`, `C09_infinite_vertices`, `C09_narrow_sshape_refuted`, `C09_trapezoid_refuted`, `C09_triangle_refuted`, `C10_nan_conjunction`, `C10_nan_disjunction`, `C10_nan_disjunction_refuted`, `C10_nan_membership`, `C11_binary_finite_direction_refuted`, `C11_documented_function`, `C11_infinite_vertices`, `C12_monotone`, `C12_monotonic_flag`, `C12_ramp_tsukamoto_refuted`, `C12_sshape_monotone_refuted`, `C12_tsukamoto_inverse`, `C13_complements`, `C13_symmetry`, `C13_two_points`, `C14_between`, `C14_empty`, `C14_nodes`, `C14_outside`, `C14_polyline`, `C14_range`, `C14_safe`, `C15_discretize`, `C15_sort`, `C15_sort_any`, `C16_extra_coefficients`, `C16_linear`, `C16_nan_input`, `C17_overflow_refuted`, `C17_range`, `C17_selected_binary64`, `C18_ordered`, `C19_center_of_mass`, `C19_no_area`, `C19_scale`, `C19_symmetric`, `C19_translate`, `C20_bisector`, `C21_ungrouped`, `C21_weighted`, `C22_bounds`, `C22_hamacher_order_refuted`, `C22_monotone`, `C22_order_independent`, `C24_scalars`, `C27_highest`, `C27_highest_f64`, `C27_lowest`, `C27_lowest_f64`, `C28_normalised`, `C28_unit_f64`, `C31_odd_antecedents_refuted`, `C33_function_names_refuted`, `C33_operator_characters_refuted`, `C36_bounded`, `C36_bounded_f64`, `C37_independence_refuted`, `C38_arithmetic`, `C38_call_without_parentheses_refuted`, `C38_comparisons`, `C38_exponent_refuted`, `C38_logic`, `C38_postfix_accepted_refuted`, `C38_rounding`, `C39_arity0_refuted`, `C40_constants_refuted`, `C40_infix_nan_refuted`, `C40_infix_refuted`, `C40_postfix_as_formula_refuted`, `C40_postfix_f64`, `C41_evaluate_remembers_refuted`, `C41_leftover_refuted`, `C41_stale_refuted`, `C42_binary64`, `C42_exact`, `C42_order_binary64`, `C42_order_exact`, `C42_setters_refuted`, `C43_documented_refuted`, `C45_binary64`, `C45_exact`, `C46_formula_refuted`, `C46_lock_previous_refuted`, `C48_nan_binary64`, `C48_nan_exact`, `C49_flags_refuted`, `C49_weights_refuted`, `C51_maximum`, `C51_sum_refuted`, `C51_values`, `C53_glued_refuted`, `C55_formula_refuted`, `C55_height_refuted`, `C55_import_export`, `C55_rules`, `C55_rules_refuted`, `C55_same_configuration`, `C55_same_text`, `C55_succeeds`, `C56_any_text`, `C56_fixed_point`, `C56_line_break_refuted`, `C56_name_refuted`, `C57_integers_refuted`, `C62_decimals_kept`, `C62_read_correct`, `C62_round_trip`, `C62_specials`, `C62_value_kept_refuted`, `C64_above_refuted`, `C64_no_inputs_refuted`, `C64_points`, `C64_points_f64`, `C64_values`, `C64_values_refuted`, `C65_convert`, `C65_mse`, `C65_mse_f64`, `C68_hedges_refuted`, `C68_proposition`, `C68_rule`, `C69_hedge_formulas`, `C69_norm_formulas`, `C70_infix_refuted`, `C71_header_refuted`, `C72_average_values`, `C72_consulted_refuted`, `C72_degrees`, `C72_degrees_binary64`, `C72_integral_values`, `C72_selected_values_binary64`, `C72_terms`, `C73_block_name_refuted`, `C73_discrete_refuted`, `C73_fixed_point`, `C73_import_export`, `C73_rules`, `C73_same_configuration`, `C73_settings_refuted`, `C73_slashes_refuted`, `C73_succeeds`, `C73_words_refuted`, `C74_mamdani`, `C74_takagi_sugeno`, `C74_tsukamoto`, `C75_blank_name_refuted`, `C75_scalars`, `C76_comma_refuted`, `C76_empty_refuted`, `C76_exports`, `C76_fixed_point`, `C76_same_configuration`, `C76_settings_refuted`, `C76_succeeds`, `C77_bisector`, `C77_centroid_error`, `C77_centroid_limit`, `C77_highest`, `C77_mamdani`, `C77_peak`, `C77_plateau`, `C77_two_peaks_refuted`, `C78_average`, `C78_centroid`, `C78_gravity`, `C78_samples`, `C78_sum`, `C79_again`, `C79_benchmark`, `C79_default_refuted`, `C79_grid`, `C79_names_refuted`, `C79_read`, `C79_separator_refuted`, `C79_text`, `C80_engine`, `C80_shape`, `C80_value`, `C82_again`, `C82_exact`, `C82_height_refuted`, `C82_linear_refuted`, `C82_names_refuted`, `C82_namespace_refuted`, `C82_quotes_refuted`, `C82_rules`, `C82_rules_refuted`, `C82_same_configuration`, `C82_succeeds`, `C83_engine`, `C83_linear`, `C84_example_refuted`, `C84_fll_again`, `C84_overwrites_refuted`, `C85_no_inputs_refuted`, `C85_restart_refuted`, `C85_twice_refuted`, `C85_unfinished_refuted`, `C86_descending_refuted`, `C86_documented_interval_refuted`, `C86_float`, `C86_interval`, `C86_interval_nan`, `C86_scale`, `C86_scale_bounded`, `C86_scale_end_refuted`, `C86_statistics`, `C87_hedges`, `C87_jump_refuted`, `C87_jumps`, `C87_snorms`, `C87_tnorms`, `C87_unbounded_sum`, `C88_degree`, `C88_foot_refuted`, `C88_lines`, `C88_memberships`, `C88_set`, `C88_value`, `C90_current_refuted`, `C90_nan_refuted`, `C91_backslash_refuted`, `C91_engine`, `C91_quote_refuted`, `C92_again`, `C92_cpp`, `C92_exact`, `C92_height_refuted`, `C92_infinite_refuted`, `C92_names_refuted`, `C92_quotes_refuted`, `C92_rules`, `C92_rules_refuted`, `C92_same_configuration`, `C92_succeeds`, `C92_text_refuted`
* **F N X**: `C86_meaning`, `C88_hedges`
* **F X**: `C18_largest`, `C18_mean`, `C18_smallest`, `C24_maximal`, `C62_print_correct`, `C75_highest`, `C75_maximal`, `C75_output`, `C75_read_back`, `C75_text`, `C87_steady`
<!-- end assumptions -->
