{
"C01": [
"proved",
"All binary64 pairs and tolerances; meaning of the tolerance over exact reals."
],
"C02": [
"proved",
"All binary64 values including NaN, infinities, signed zeros."
],
"C03": [
"proved",
"Exact reals, tolerance a parameter. The two axioms broken by the default tolerance are refuted at explicit degrees and every other axiom is proved for every tolerance."
],
"C04": [
"proved",
"As C03; UnboundedSum proved without the upper bound."
],
"C05": [
"proved",
"Exact reals; Hamacher pair needs exact comparisons, refuted at the default tolerance."
],
"C06": [
"proved",
"Lattice bounds at any tolerance; drastic bounds with exact comparisons, refuted at the default tolerance."
],
"C07": [
"proved",
"All binary64 degrees. HamacherSum exceeds 1 by rounding: refuted with the concrete pair."
],
"C08": [
"proved",
"Exact reals for order/inverse laws, binary64 for range; Extremely refuted monotone at default tolerance."
],
"C69": [
"proved",
"Exact reals; excluded are only arguments in the tolerance band of a case boundary."
],
"C09": [
"proved",
"Exact reals, any tolerance >= 0; finite and infinite arguments and infinite vertices. The vertex bands of Triangle/Trapezoid and curves narrower than 5 tolerances violate the property at the default tolerance: refuted with explicit inputs, and the Triangle band error is bounded."
],
"C10": [
"proved",
"Exact reals and binary64. The consequence 'cannot fire a rule' is proved for every T-norm and all S-norms but DrasticSum and NilpotentMaximum, for which it is refuted."
],
"C11": [
"proved",
"Exact reals, any tolerance, every point equal to or at least the tolerance away from the breakpoints (all points when the tolerance is 0). Binary with a finite direction is refuted."
],
"C12": [
"proved",
"Exact reals. Concave, Ramp, Sigmoid monotone at any tolerance; SShape/ZShape and the inverse off the tolerance bands, refuted inside them."
],
"C13": [
"proved",
"Exact reals. Trapezoid and PiShape symmetry off the tolerance bands."
],
"C14": [
"proved",
"Exact reals; exact interpolation for x equal to or a tolerance away from every abscissa; safety and hull bounds for every sorted list and tolerance."
],
"C15": [
"proved",
"Conversions for every type; std::sort modelled as the relation of its contract; discretize for any scalar and exactly over the reals."
],
"C16": [
"proved",
"Exact reals for the sum; NaN propagation and missing engine included."
],
"C17": [
"proved",
"Exact reals: all five integral defuzzifiers, arbitrary (possibly failing) membership functions. Binary64: SmallestOfMaximum and LargestOfMaximum for ranges whose width is finite and at least 2^-900; false when the width overflows (refuted)."
],
"C18": [
"proved",
"Selection proved for any scalar ordered by its value (extended reals and binary64, NaN samples ignored); the ordering of the three over exact reals."
],
"C19": [
"proved",
"Exact reals."
],
"C20": [
"proved",
"Exact reals, nonnegative memberships; also the bound on the imbalance of the chosen points."
],
"C21": [
"proved",
"Exact reals for the sums; rejection and the empty set for any scalar."
],
"C22": [
"proved",
"Exact reals, any tolerance; HamacherSum needs exact comparisons and is refuted at the default tolerance."
],
"C23": [
"proved",
"Any scalar."
],
"C24": [
"proved",
"Any scalar ordered by its value, in particular binary64 with NaN."
],
"C58": [
"proved",
"All byte strings. Restoring pieces from a join needs delimiters that do not overlap piece ends (automatic for one character); the unrestricted form is refuted."
],
"C59": [
"proved",
"All byte strings."
],
"C60": [
"proved",
"All byte strings; replaceAll with an empty pattern diverges and replacing only the first occurrence truncates the text (both exhibited)."
],
"C61": [
"proved",
"All byte strings; 'never empty' and unrestricted idempotence are refuted by '#', with the exact condition proved."
],
"C62": [
"proved",
"Every finite binary64 value and every number of decimals; correct rounding of both directions proved from Flocq."
],
"C38": [
"proved",
"Any token sequence that renders an expression, and in particular the minimal one, for the registered names and for any consistent table. Calls without parentheses, postfix text and exponents exhibited."
],
"C39": [
"proved",
"Every string, any table of unary and binary elements. A table with an element of arity 0 is refuted."
],
"C40": [
"proved",
"Postfix text read by the second half of parse; binary64 constants up to the printed decimals. Infix printing, and postfix text given to parse itself, refuted."
],
"C41": [
"proved",
"All states and formulas. C41_stale_refuted: the stale function after a failed load. C41_evaluate_remembers_refuted: evaluate keeps the variables of earlier calls."
],
"C31": [
"proved",
"Every text and environment: success iff the stated token shape with acceptable parts; documented antecedents all accepted, undocumented accepted ones exhibited."
],
"C32": [
"proved",
"Every text and environment; the conclusions read are unique."
],
"C33": [
"proved",
"Every tree, any rendering between minimal and full parentheses; the condition on names is shown necessary by two refutations."
],
"C34": [
"proved",
"Every text, environment, any scalar; activation of a loaded antecedent is defined or fails only for a missing operator it uses."
],
"C35": [
"proved",
"Every rule state, text and rule list."
],
"C70": [
"proved",
"Any environment of plain names; infix printing refuted."
],
"C25": [
"proved",
"Any scalars, rule lists, prior states; also what is left when a rule throws."
],
"C26": [
"proved",
"Any scalars; that disabled rules use up places is part of the specification (they count as eligible) and exhibited."
],
"C27": [
"proved",
"Any behaviour of std::priority_queue allowed by the C++ standard, for exact numbers and for binary64; a conforming queue is exhibited."
],
"C28": [
"proved",
"Shares: any scalars. Sum one / all zero / ratios: exact numbers. Range [0,1]: binary64 with rounding and overflow."
],
"C29": [
"proved",
"Any scalars; all operator texts."
],
"C30": [
"proved",
"All seven methods, any scalars."
],
"C36": [
"proved",
"Compositional: any scalars. Bounds: exact numbers and binary64."
],
"C37": [
"proved",
"Any scalars; the documented independence is refuted."
],
"C42": [
"proved",
"Binary64 and exact numbers; invariant of all command sequences. That setters do not re-clamp is exhibited."
],
"C43": [
"proved",
"Any scalars, any sequence of fuzzy outputs; the documented behaviour is refuted. OutputVariable::defuzzify_v6 is not modelled."
],
"C44": [
"proved",
"Any element type, all lists; one model serves terms, variables and rule blocks."
],
"C45": [
"proved",
"Any conforming priority queue, binary64 and exact numbers; keys characterised."
],
"C46": [
"proved",
"Any scalars; dependence through lock-previous and through formulas exhibited."
],
"C47": [
"proved",
"Any scalars."
],
"C48": [
"proved",
"Any scalars whose NaN is unordered (shown of both instances)."
],
"C49": [
"proved",
"Any scalars, all command sequences; loss of enabled flags and weights exhibited. Copied fuzzy outputs that refer to terms of the original are outside the model."
],
"C50": [
"proved",
"Any scalars."
],
"C51": [
"proved",
"Fuzzy outputs: any scalars. Values: exact numbers with any commutative and associative aggregation (C51_values); binary64 bit for bit with Maximum, with no condition on terms or degrees (C51_maximum). In binary64 sums depend on the order: C51_sum_refuted, where the value moves from 0.25 to 0.75."
],
"C52": [
"proved",
"Any scalars."
],
"C53": [
"proved",
"Any scalars; glued keywords exhibited."
],
"C54": [
"proved",
"Full characterisation of all seven types."
],
"C63": [
"proved",
"All bounds, also upper below lower."
],
"C64": [
"proved",
"Any scalars for the rows; XR and binary64 for the points; rounding failures exhibited."
],
"C65": [
"proved",
"Any scalars; mean squared error in XR and binary64."
],
"C71": [
"proved",
"Any scalars; header after comment exhibited."
],
"C66": [
"proved",
"All histories; every built-in class; ownership of objects not modelled."
],
"C55": [
"proved",
"binary64, any settings whose tolerance is at most half the last decimal; what is lost is exhibited."
],
"C56": [
"proved",
"binary64, also from any importable text; line breaks and unnameable terms exhibited."
],
"C57": [
"proved",
"Any scalars, all texts. C57_integers_refuted: numbers which are no int are cast to int nevertheless, which is undefined behaviour."
],
"C67": [
"proved",
"All operators of both formats, FCL with any keyword before the colon; losing resolution and type is exhibited."
],
"C68": [
"proved",
"Binary64 with std::fmod exact on non-negative arguments (satisfied by a concrete instance); what the codes cannot express is refuted."
],
"C72": [
"proved",
"Degrees in exact arithmetic and binary64 (there without HamacherSum, which rounds above 1, C07); values in exact arithmetic, and in binary64 for the smallest and largest of maximum."
],
"C73": [
"proved",
"Exact import of exported texts for all clear engines, same configuration up to printed numbers, fixed point after one round; losses of the format exhibited by the _refuted theorems."
],
"C74": [
"proved",
"Any scalars for the inference; the three closed formulas over exact arithmetic (general engines, i.e. General activation)."
],
"C75": [
"proved",
"Extended reals and binary64; names with blanks refuted."
],
"C76": [
"proved",
"Export succeeds, same configuration up to printed numbers and same names, import succeeds without formulas, fixed point after one round; losses of the format exhibited by the _refuted theorems."
],
"C77": [
"proved",
"Over the reals (Coquelicot integrals). Bounds for centroid and bisector hold for membership functions of bounded slope; the limit of the centroid for all integrable ones. C77_mamdani composes with C74 for Minimum, AlgebraicProduct, BoundedDifference and Maximum, AlgebraicSum, BoundedSum. C77_two_peaks_refuted: the smallest of maximum need not approach the smallest maximizer."
],
"C78": [
"proved",
"binary64 (Flocq, round to nearest even; the order of operations as written, no extended precision or fused operations). The degrees and values are those computed; how far memberships as computed are from their formulas enters C78_gravity as delta."
],
"C79": [
"proved",
"binary64, every number of decimals. Streams are strings; times and file handling are left out. C79_benchmark and C79_grid ask that all outputs are enabled (run restarts the engine, which clears disabled ones) and that the inputs print exactly. C79_default_refuted, C79_names_refuted, C79_separator_refuted exhibit the limits."
],
"C80": [
"proved",
"C80_shape for the memberships, C80_value for an output variable, C80_engine for process(). Straight-line terms only, for which no library function is needed; height of terms at most 1."
],
"C81": [
"proved",
"C81_fcl_comments and C81_fis_comments for the contents, C81_fcl_rejected, C81_sections and C81_fis_rejected for the failures (an exception, undefined behaviour or running out of fuel: never an engine), C81_fcl_rest for what follows. A line that consists of quotes only is not covered in FIS (accepted at the end of a section, exhibited by C81_tolerated), and a line FUNCTION_BLOCK is accepted anywhere."
],
"C82": [
"proved",
"C82_same_configuration and C82_rules for every program that runs, C82_succeeds for engines without Function terms whose rules load (with Function terms the code may throw, as loading the engine does). C82_exact: engines whose numbers fit the decimals are rebuilt exactly. C82_again: code of the engine built by the code builds exactly that engine. C++ is represented by the small language of SpecCpp.v: tokens, statements, constructors and methods used by the generated code; anything else counts as not compiling. What is not rebuilt is exhibited by the _refuted theorems."
],
"C83": [
"proved",
"C83_linear for Linear terms, C83_engine for process(). Aggregation is none or UnboundedSum (degrees of the same term are added up); the output variable does not lock its range; names of terms are different."
],
"C84": [
"proved",
"C84_options, C84_two_names, C84_unknown, C84_only_target for all commands; C84_convert, C84_failed, C84_dataset, C84_grid for complete requests; C84_fll_again for copies of FLL files. The exporter to Java and the texts of exceptions are parameters; the subcommands export-examples, benchmark and benchmarks are not modelled. C84_overwrites_refuted: a command that fails empties its output file. C84_example_refuted: -decimals changes the example engines."
],
"C85": [
"proved",
"C85_session for all sessions described by the relation transcript of SpecSession.v, in which every row is evaluated by one process() of the configuration with the values typed. Engines are memoryless (C79): no formula mentions an output and no enabled output locks its previous value; C85_twice_refuted shows why. Not described: R and H in the middle of a row, and control characters."
],
"C86": [
"proved",
"In exact arithmetic for all values, in binary64 for intervals of NaN, bounds and signs. C86_documented_interval_refuted: the header swaps the two half-open intervals. C86_scale_end_refuted: without bounds the end of the range may be passed by rounding. C86_descending_refuted: bounds do not work for descending target ranges."
],
"C87": [
"proved",
"All degrees and tolerances. C87_jump_refuted: no bound at the jumps. HamacherSum, which can exceed 1 (C07), has no bound here."
],
"C88": [
"proved",
"General norms without jumps, all hedges, Centroid. C88_foot_refuted: within the tolerance outside of its foot a Triangle has a negative membership, so these values are excepted (clear). HamacherSum and norms with jumps are excluded (C87)."
],
"C89": [
"proved",
"All scalars. C89_colon_refuted: without a blank before the colon the line is an error."
],
"C90": [
"proved",
"All scalars. C90_current_refuted: the current defuzzify() does not hold a locked value. C90_nan_refuted: the default value does not replace a result that is NaN."
],
"C91": [
"proved",
"All scalars; C91_engine in binary64. C91_quote_refuted, C91_backslash_refuted: texts are not escaped, a quotation mark lets the rest of a description run as code."
],
"C92": [
"proved",
"C92_same_configuration and C92_rules for every program that runs, C92_succeeds for engines without Function terms whose rules load, C92_cpp for agreement with the C++ code of C82. C92_exact: engines whose numbers fit the decimals are rebuilt exactly. C92_again: code of the engine built by the code builds exactly that engine (C92_text_refuted: the text can change). Java is represented by the small language of SpecJava.v; the classes of the Java library, which is not in the repository, are taken to behave as those of C++. What is not rebuilt is exhibited by the _refuted theorems."
]
}