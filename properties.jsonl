{"id": "C01", "title": "Tolerant comparisons form a consistent trichotomy", "statement": "For any two scalars and any tolerance, Op::isLE is exactly isLt-or-isEq, Op::isGE is exactly isGt-or-isEq; when neither is NaN exactly one of isLt, isEq, isGt holds; when exactly one is NaN none holds; isEq is reflexive (also on NaN and infinities) and symmetric; isLt(a,b)=isGt(b,a).", "quantifier": "all pairs of IEEE binary64 values (including NaN, infinities, signed zeros) and all tolerances", "why_tests_cant": "The state space is 2^192; the interesting cases sit at tolerance edges and at infinities where a-b is NaN.", "anchors": ["fuzzylite/Operation.h: Operation::isLt, isLE, isEq, isGt, isGE, isClose"]}
{"id": "C02", "title": "Op::min, Op::max and Op::bound are NaN-safe lattice operations", "statement": "Op::min/Op::max return NaN iff an argument is NaN, otherwise one of their arguments that is <= (>=) both; they are commutative, associative and idempotent up to the sign of zero. Op::bound(x,lo,hi) with lo<=hi returns a value in [lo,hi] unless x is NaN (then NaN), leaves in-range values unchanged and is idempotent.", "quantifier": "all binary64 values", "why_tests_cant": "Tests sample a few numbers; NaN/infinity/zero-sign interactions need all cases.", "anchors": ["fuzzylite/Operation.h: Operation::min, max, bound"]}
{"id": "C03", "title": "Every T-norm satisfies the T-norm axioms on [0,1]", "statement": "For each registered T-norm: compute(a,b) stays in [0,1], is commutative, monotone in each argument, has 1 as identity and 0 as annihilator, and is associative, for all degrees in [0,1]. (Where the equality tolerance of the library breaks an axiom, the exact failing region is exhibited.)", "quantifier": "all registered T-norms, all degrees a,b,c in [0,1], every tolerance eps >= 0", "why_tests_cant": "Axioms quantify over triples of reals; the unit tests check a fixed grid and cannot see failures inside the 1e-6 tolerance band.", "anchors": ["src/norm/t/*.cpp: compute", "fuzzylite/Operation.h: Operation::isEq, isGt"]}
{"id": "C04", "title": "Every S-norm satisfies the S-norm axioms on [0,1]", "statement": "For each registered S-norm except UnboundedSum: compute(a,b) stays in [0,1], is commutative, monotone, has 0 as identity and 1 as annihilator, and is associative on [0,1]; UnboundedSum satisfies all but the upper bound. Failing regions caused by tolerance or by NormalizedSum's definition are exhibited.", "quantifier": "all registered S-norms, all degrees in [0,1], every tolerance eps >= 0", "why_tests_cant": "Same as for T-norms: triples of reals plus tolerance bands.", "anchors": ["src/norm/s/*.cpp: compute"]}
{"id": "C05", "title": "T-norms and S-norms are De Morgan duals", "statement": "For each dual pair (AlgebraicProduct/AlgebraicSum, BoundedDifference/BoundedSum, DrasticProduct/DrasticSum, EinsteinProduct/EinsteinSum, HamacherProduct/HamacherSum, Minimum/Maximum, NilpotentMinimum/NilpotentMaximum), S(a,b) = 1 - T(1-a,1-b), for every tolerance except for the Hamacher pair, which needs exact comparisons (its failure at the default tolerance is exhibited).", "quantifier": "all degrees a,b in [0,1], every tolerance eps >= 0 where exact", "why_tests_cant": "Needs an algebraic identity over a continuum.", "anchors": ["src/norm/t/*.cpp: compute", "src/norm/s/*.cpp: compute"]}
{"id": "C06", "title": "Norms are sandwiched between drastic and lattice norms", "statement": "For every registered T-norm, DrasticProduct(a,b) <= T(a,b) <= Minimum(a,b) and for every bounded S-norm, Maximum(a,b) <= S(a,b) <= DrasticSum(a,b), for degrees in [0,1]; the lattice bounds hold at any tolerance, the drastic ones with exact comparisons (failure at the default tolerance exhibited).", "quantifier": "all degrees in [0,1]", "why_tests_cant": "Inequality over a continuum.", "anchors": ["src/norm/t/*.cpp: compute", "src/norm/s/*.cpp: compute"]}
{"id": "C07", "title": "Norms are safe under floating-point rounding", "statement": "For binary64 degrees in [0,1], the rounded computation of the norms returns a non-NaN degree in [0,1] and is exactly commutative; HamacherSum alone can exceed 1 by rounding (exhibited).", "quantifier": "all pairs of binary64 values in [0,1]", "why_tests_cant": "2^124 pairs; rounding of a+b-a*b could in principle exceed 1.", "anchors": ["src/norm/t/*.cpp: compute", "src/norm/s/*.cpp: compute"]}
{"id": "C08", "title": "Hedges preserve degrees and order", "statement": "Each hedge maps [0,1] into [0,1]; Very, Somewhat, Extremely, Seldom are nondecreasing and fix 0 and 1; Not is nonincreasing and an involution; Any is constantly 1; Very/Somewhat are mutually inverse and so are Extremely/Seldom; Extremely(x) <= Very-side concentration and Seldom dilation hold on their documented halves. (Order and inverse laws with exact comparisons; Extremely is not monotone within the default tolerance, exhibited.)", "quantifier": "all degrees in [0,1]", "why_tests_cant": "Continuum of degrees; branch boundary at 0.5 widened by tolerance.", "anchors": ["src/hedge/*.cpp: hedge"]}
{"id": "C09", "title": "Membership values lie in [0, height]", "statement": "For each membership term with height h in [0,inf) and well-ordered parameters, membership(x) is in [0,h] for every finite or infinite x. (Violations caused by the comparison tolerance at the vertices of Triangle and Trapezoid are exhibited.)", "quantifier": "all term shapes, all valid parameters, all x", "why_tests_cant": "Continuum of x and parameters; violations are confined to 1e-6-wide bands.", "anchors": ["src/term/*.cpp: membership"]}
{"id": "C10", "title": "NaN inputs give NaN memberships", "statement": "membership(NaN) = NaN for every shape term, so that an unset input cannot silently fire a rule through any T-norm, nor through any S-norm except DrasticSum and NilpotentMaximum (exhibited).", "quantifier": "all shape terms and all parameter values (including NaN and infinities)", "why_tests_cant": "All parameter combinations.", "anchors": ["src/term/*.cpp: membership"]}
{"id": "C11", "title": "Shape terms follow their documented piecewise definition", "statement": "Each shape term agrees with its documented piecewise formula: zero outside the support, height on the core, and the stated curve in between; in particular landmark values (vertices, inflection, center) are exact. (Binary with a finite direction deviates; exhibited.)", "quantifier": "all x and all well-ordered parameters, at zero tolerance and away from tolerance bands otherwise", "why_tests_cant": "Piecewise functions on a continuum.", "anchors": ["src/term/*.cpp: membership"]}
{"id": "C12", "title": "Monotonic terms are monotone and Tsukamoto inverts membership", "statement": "For each term reporting isMonotonic() (Concave, Ramp, Sigmoid, SShape, ZShape), membership is monotone in x in the direction of its parameters, and membership(tsukamoto(y)) = y for every y strictly between 0 and height; the inverse, and monotonicity of SShape and ZShape, hold off the tolerance bands around the breakpoints, inside which both fail (exhibited).", "quantifier": "all parameters, all x and y", "why_tests_cant": "Functional inverse over a continuum.", "anchors": ["src/term/{Concave,Ramp,Sigmoid,SShape,ZShape}.cpp: membership, tsukamoto, isMonotonic"]}
{"id": "C13", "title": "Symmetric and complementary shapes", "statement": "Bell, Cosine, Gaussian, Rectangle, Spike, symmetric Triangle/Trapezoid/PiShape are symmetric about their center; SShape(s,e)+ZShape(s,e) = height everywhere; reversing a Ramp/Sigmoid mirrors it. (Trapezoid and PiShape off the tolerance bands around their vertices.)", "quantifier": "all x, parameters and heights", "why_tests_cant": "Continuum.", "anchors": ["src/term/*.cpp: membership"]}
{"id": "C14", "title": "Discrete terms interpolate their points", "statement": "For points with strictly increasing x, Discrete::membership returns the exact y at each node, a value between the neighbouring y's in between, and the first/last y outside the range (interpolated exactly for every x equal to or at least the tolerance away from each node); it never indexes outside the point list.", "quantifier": "all non-empty sorted point lists and all x", "why_tests_cant": "Arbitrary list lengths; lower_bound boundary cases.", "anchors": ["src/term/Discrete.cpp: membership, sort, lower_bound usage"]}
{"id": "C15", "title": "Discrete point conversions are lossless", "statement": "toPairs(toVector(pairs)) = pairs for every list of pairs; toPairs fails exactly on odd-length vectors; sort yields a sorted permutation; discretize yields resolution+1 points starting at start, whose y's are the term's memberships.", "quantifier": "all lists of any length", "why_tests_cant": "Unbounded list length.", "anchors": ["src/term/Discrete.cpp: toPairs, toVector, sort, discretize"]}
{"id": "C16", "title": "Linear and Constant terms compute the declared affine function", "statement": "Constant ignores x. Linear returns the sum of coefficient*input over the inputs that have a coefficient plus the last coefficient when there are more coefficients than inputs, for any number of each.", "quantifier": "all coefficient lists and all input lists", "why_tests_cant": "Unbounded lengths.", "anchors": ["src/term/Linear.cpp: membership", "src/term/Constant.cpp: membership"]}
{"id": "C17", "title": "Integral defuzzifiers stay within the range", "statement": "Centroid, Bisector, SmallestOfMaximum, LargestOfMaximum and MeanOfMaximum return NaN or a value within [minimum, maximum], for any nonnegative fuzzy set and any resolution >= 1, in exact arithmetic; in binary64 for SmallestOfMaximum and LargestOfMaximum when the width of the range is finite and not tiny (an overflowing width gives values outside, exhibited).", "quantifier": "all fuzzy sets (arbitrary membership functions), ranges and resolutions", "why_tests_cant": "Arbitrary functions and resolutions.", "anchors": ["src/defuzzifier/*.cpp: defuzzify", "fuzzylite/Operation.h: midpoints"]}
{"id": "C18", "title": "Maximum-based defuzzifiers pick true maxima and are ordered", "statement": "SmallestOfMaximum returns the first, LargestOfMaximum the last sampled x at which the sampled membership is maximal; MeanOfMaximum is the mean of all of them; hence SOM <= MOM <= LOM whenever they are numbers.", "quantifier": "all membership functions without NaN, ranges and resolutions", "why_tests_cant": "Arbitrary functions.", "anchors": ["src/defuzzifier/{Smallest,Largest,Mean}OfMaximum.cpp: defuzzify"]}
{"id": "C19", "title": "Centroid is the weighted mean of the samples", "statement": "Centroid equals sum(x*y)/sum(y) over the midpoints; it is unchanged when the set is scaled by a positive constant, equals the midpoint of the range for sets symmetric about it, translates with the set, and is NaN when the area is zero.", "quantifier": "all membership functions, ranges and resolutions >= 1", "why_tests_cant": "Arbitrary functions.", "anchors": ["src/defuzzifier/Centroid.cpp: defuzzify"]}
{"id": "C20", "title": "Bisector splits the sampled area", "statement": "Bisector returns the mean of the sampled points whose cumulative area fraction is closest to one half; it is a number whenever the total area is positive, and NaN when it is zero.", "quantifier": "all nonnegative membership functions, ranges and resolutions >= 1", "why_tests_cant": "Arbitrary functions.", "anchors": ["src/defuzzifier/Bisector.cpp: defuzzify"]}
{"id": "C21", "title": "Weighted defuzzifiers combine activated terms correctly", "statement": "WeightedAverage equals sum(w z)/sum(w) and WeightedSum equals sum(w z) over the terms grouped by name; with nonnegative weights of positive total WeightedAverage lies between the smallest and largest z; an empty set gives NaN; a set mixing Takagi-Sugeno and Tsukamoto terms, or a term of neither kind, is rejected in automatic mode.", "quantifier": "all lists of activated terms", "why_tests_cant": "Unbounded lists.", "anchors": ["src/defuzzifier/{WeightedAverage,WeightedSum,WeightedDefuzzifier}.cpp: defuzzify, inferType"]}
{"id": "C22", "title": "Aggregated membership does not depend on activation order", "statement": "For a commutative and associative aggregation, permuting the activated terms does not change the aggregated membership at any x; the aggregated membership under an S-norm is at least each contribution and at most 1. (HamacherSum with exact comparisons; order dependence at the default tolerance exhibited.)", "quantifier": "all lists of activated terms, all permutations, all x", "why_tests_cant": "All permutations of unbounded lists.", "anchors": ["src/term/Aggregated.cpp: membership"]}
{"id": "C23", "title": "Grouping activated terms is a faithful merge by name", "statement": "Aggregated::grouped yields one entry per distinct term name in order of first occurrence, whose degree is the left fold of that name's degrees with the aggregation operator (sum if none); it is idempotent.", "quantifier": "all lists of activated terms", "why_tests_cant": "Unbounded lists.", "anchors": ["src/term/Aggregated.cpp: grouped"]}
{"id": "C24", "title": "Highest activated term queries are exact", "statement": "maximallyActivatedTerms returns exactly the activated terms whose degree is the largest positive number among the degrees (exact comparison, NaN ignored), in order, and highestActivatedTerm returns the first of them, or nothing when no degree is positive.", "quantifier": "all lists of activated terms", "why_tests_cant": "Unbounded lists, ties and NaN.", "anchors": ["src/term/Aggregated.cpp: maximallyActivatedTerms, highestActivatedTerm", "src/variable/Variable.cpp: highestMembership"]}
{"id": "C25", "title": "General activation fires exactly the eligible rules", "statement": "After General activation each loaded rule's degree is weight*antecedent, a rule is triggered iff it is loaded, enabled and its degree is greater than zero, unloaded rules end deactivated, and the outputs receive contributions of exactly the triggered rules in rule order.", "quantifier": "all rule blocks (any number of rules, any degrees)", "why_tests_cant": "Unbounded rule lists and prior states.", "anchors": ["src/activation/General.cpp: activate", "src/rule/Rule.cpp: activateWith, trigger, deactivate"]}
{"id": "C26", "title": "First/Last activation fire the first/last n eligible rules", "statement": "First(n,t) triggers the first n (Last(n,t): the last n) loaded rules in order whose degree is positive and at least the threshold, and no others. (Disabled rules are found to consume quota; exhibited.)", "quantifier": "all rule blocks, n and thresholds", "why_tests_cant": "Unbounded lists.", "anchors": ["src/activation/First.cpp: activate", "src/activation/Last.cpp: activate"]}
{"id": "C27", "title": "Highest/Lowest activation fire the n strongest/weakest rules", "statement": "Highest(n) (Lowest(n)) triggers only positive-degree rules; the number considered is min(n, positives); every non-selected positive rule has degree <= (>=) every selected one, for any tie-breaking of the heap.", "quantifier": "all rule blocks, all n, all heap tie-breaking orders", "why_tests_cant": "Heap order on ties is unspecified; tests see one library's order.", "anchors": ["src/activation/Highest.cpp: activate", "src/activation/Lowest.cpp: activate"]}
{"id": "C28", "title": "Proportional activation normalises degrees", "statement": "Proportional activation sets every loaded rule's degree to its share of the total, so that degrees sum to one when the total is positive and are all zero when it is zero, preserving their ratios (exact arithmetic; in binary64 every share lies in [0,1]). The total includes disabled rules.", "quantifier": "all rule blocks", "why_tests_cant": "Unbounded lists.", "anchors": ["src/activation/Proportional.cpp: activate"]}
{"id": "C29", "title": "Threshold activation obeys its comparison", "statement": "Threshold(op,t) triggers exactly the loaded, enabled rules with positive degree whose degree compares to t by op; parsing of the operator text inverts printing for the six operators and rejects any other text.", "quantifier": "all rule blocks, operators and thresholds", "why_tests_cant": "Unbounded lists, all strings.", "anchors": ["src/activation/Threshold.cpp: activate, activatesWith, parseComparison, comparisonOperator"]}
{"id": "C30", "title": "Every activation method resets stale state and skips unloaded rules", "statement": "Whatever the previous degrees and triggered flags, after any activation method an unloaded rule has degree 0 and is not triggered, and the resulting rule states do not depend on the previous degrees or triggered flags; at most the enabled rules are triggered.", "quantifier": "all activation methods, all prior states", "why_tests_cant": "All histories.", "anchors": ["src/activation/*.cpp: activate"]}
{"id": "C31", "title": "Rule text is accepted exactly by its grammar", "statement": "Rule::load succeeds on a text iff, ignoring anything from '#', its tokens are `if A then C` or `if A then C with w` where A is an acceptable antecedent, C an acceptable consequent and w a number; the weight becomes w or 1; otherwise it throws. Every antecedent of the documented grammar is acceptable; some undocumented ones are too (exhibited).", "quantifier": "all strings", "why_tests_cant": "All strings.", "anchors": ["src/rule/Rule.cpp: load"]}
{"id": "C32", "title": "Consequents are accepted exactly by their grammar", "statement": "Consequent::load succeeds iff the tokens are `variable is hedge* term` groups joined by `and` over the engine's output variables, and yields exactly those conclusions in order.", "quantifier": "all token sequences and all engines", "why_tests_cant": "All token sequences.", "anchors": ["src/rule/Consequent.cpp: load"]}
{"id": "C33", "title": "Antecedents parse to the tree they denote", "statement": "For every proposition tree, loading its parenthesised text yields that tree; without parentheses `and` binds tighter than `or` and both associate to the left; for variable and term names that are not registered functions or operators and contain no operator characters (necessity exhibited).", "quantifier": "all expression trees over all engines", "why_tests_cant": "Unbounded trees.", "anchors": ["src/rule/Antecedent.cpp: load", "src/term/Function.cpp: toPostfix"]}
{"id": "C34", "title": "A loaded antecedent can always be evaluated safely", "statement": "If Antecedent::load succeeds, every proposition refers to an existing variable and to an existing term of that variable (or ends with `any`), and every operator is `and`/`or` with two operands, so that activation never dereferences null and only throws for a missing conjunction/disjunction operator.", "quantifier": "all strings and all engines", "why_tests_cant": "All strings.", "anchors": ["src/rule/Antecedent.cpp: load, activationDegree"]}
{"id": "C35", "title": "Failed loads leave a rule inert", "statement": "If Rule::load throws, the rule is unloaded, its degree is 0 and it is not triggered, so a subsequent RuleBlock activation skips it; RuleBlock::loadRules loads every loadable rule even if others fail.", "quantifier": "all strings, engines and prior rule states", "why_tests_cant": "All strings/histories.", "anchors": ["src/rule/Rule.cpp: load, unload", "src/rule/RuleBlock.cpp: loadRules"]}
{"id": "C36", "title": "Rule activation degree is compositional and bounded", "statement": "With memberships and weight in [0,1] and any registered norms (as disjunction other than UnboundedSum and, in binary64, other than HamacherSum, which rounding takes above 1), the activation degree of any antecedent tree lies in [0,1]; it equals the fold of the tree with conjunction and disjunction, hedges applied from the innermost outwards; disabled variables count as 0.", "quantifier": "all trees, memberships in [0,1], hedges and norms", "why_tests_cant": "Unbounded trees.", "anchors": ["src/rule/Antecedent.cpp: activationDegree", "src/rule/Rule.cpp: activateWith"]}
{"id": "C37", "title": "Degrees of the conclusions of a rule", "statement": "Triggering a rule activates the term of each conclusion on an enabled variable, in order, with the rule's activation degree modified by the hedges of that conclusion and, contrary to the independence documented in Rule.h, by those of the preceding conclusions on enabled variables (leak exhibited); without hedges on earlier conclusions the conclusions are independent.", "quantifier": "all consequents and degrees", "why_tests_cant": "Needs consequents with several hedged conclusions in all orders.", "anchors": ["src/rule/Consequent.cpp: modify", "fuzzylite/rule/Rule.h: class documentation"]}
{"id": "C38", "title": "Formulas parse according to operator precedence and associativity", "statement": "For every expression tree over the registered operators and functions, parsing its minimally parenthesised infix text yields that tree: unary ! ~ bind tightest, then right-associative ^, then left-associative * / %, + -, and, or; function calls take comma separated arguments.", "quantifier": "all expression trees", "why_tests_cant": "Unbounded trees.", "anchors": ["src/term/Function.cpp: toPostfix, parse, space", "src/factory/FunctionFactory.cpp: registerOperators"]}
{"id": "C39", "title": "Formula parsing is total and evaluation is well-defined", "statement": "For every string, Function::parse either throws or returns a tree in which every operator/function node has exactly its arity of children; evaluating it yields a number or throws only because a variable is undefined. (For registered tables of unary and binary elements; an element of arity 0 breaks it, exhibited.)", "quantifier": "all strings", "why_tests_cant": "All strings.", "anchors": ["src/term/Function.cpp: parse, Node::evaluate"]}
{"id": "C40", "title": "Tree printing round-trips", "statement": "Printing a parsed formula tree in postfix and rebuilding the tree from those tokens yields the same tree, with constants as printed. (Infix printing loses parentheses, and parse itself does not accept postfix text; exhibited.)", "quantifier": "all trees", "why_tests_cant": "Unbounded trees.", "anchors": ["src/term/Function.cpp: Node::toPostfix, toInfix, toPrefix"]}
{"id": "C41", "title": "State of a Function after failed and successful loads", "statement": "If loading a new formula throws, the term reports the new formula; a term without function keeps having none, but a term that had one keeps evaluating the previous formula (stale function, exhibited). After a successful load its values depend only on the formula, the engine and the arguments, not on earlier loads.", "quantifier": "all prior states and formulas", "why_tests_cant": "Failure paths over all histories.", "anchors": ["src/term/Function.cpp: load, updateReference"]}
{"id": "C42", "title": "Lock-range keeps values in range", "statement": "When a variable locks its value in range and minimum<=maximum, after any setValue, defuzzify, clear or restart its value is NaN or within [minimum, maximum]; this is an invariant of all sequences of setting inputs, processing and restarting. Values are changed only if they lie outside of a locked range. (setRange, setMinimum, setMaximum and setLockValueInRange do not re-clamp; exhibited.)", "quantifier": "all operation sequences and scalars", "why_tests_cant": "All histories.", "anchors": ["src/variable/Variable.cpp: setValue", "src/variable/OutputVariable.cpp: defuzzify, clear"]}
{"id": "C43", "title": "What lock-previous holds", "statement": "With lock-previous enabled, when defuzzification yields NaN the output becomes the stored previous value, or the default value when that is NaN too. In a sequence of steps the stored previous value is the value of two steps ago, y^{t-2}, not the documented y^{t-1} (disagreement exhibited).", "quantifier": "all sequences of defuzzification results", "why_tests_cant": "Needs sequences of at least two steps; the unit tests inject the previous value by hand.", "anchors": ["src/variable/OutputVariable.cpp: defuzzify, defuzzify_v6", "fuzzylite/variable/OutputVariable.h: class documentation"]}
{"id": "C44", "title": "Variable and engine lookups are consistent", "statement": "hasTerm/hasInputVariable/... hold iff the corresponding getter succeeds; the getter returns the first element with that name; insert/remove/add keep the order of the others; removing what was inserted restores the list.", "quantifier": "all lists and names", "why_tests_cant": "Unbounded lists.", "anchors": ["src/variable/Variable.cpp: getTerm, hasTerm, insertTerm, removeTerm", "src/Engine.cpp: getInputVariable, hasInputVariable, removeInputVariable, ..."]}
{"id": "C45", "title": "Variable::sort orders terms by centroid without losing any", "statement": "Variable::sort leaves a permutation of the terms in nondecreasing centroid order (for comparable centroids).", "quantifier": "all term lists, all heap tie orders", "why_tests_cant": "Unbounded lists.", "anchors": ["src/variable/Variable.cpp: sort"]}
{"id": "C46", "title": "Processing is independent of history", "statement": "If no formula reads output variables, two engines that agree on configuration and input values behave alike in process(), whatever their earlier outputs, rule degrees and fuzzy outputs: same outcome, same fuzzy outputs, same values of every enabled output that does not lock its previous value, same rule states of every enabled block (unless there was an exception). Both conditions are needed (exhibited).", "quantifier": "all engines and all histories", "why_tests_cant": "All histories.", "anchors": ["src/Engine.cpp: process", "src/rule/RuleBlock.cpp: activate", "src/variable/OutputVariable.cpp: defuzzify"]}
{"id": "C47", "title": "Processing is idempotent", "statement": "Calling process() twice with unchanged inputs gives the same outcome, values (of outputs that do not lock their previous value), fuzzy outputs and rule states as calling it once, provided no formula reads output variables.", "quantifier": "all engines", "why_tests_cant": "All engines.", "anchors": ["src/Engine.cpp: process"]}
{"id": "C48", "title": "Restart erases the run-time state", "statement": "After restart() every input value is NaN, every output value, previous value and fuzzy output is cleared, configuration is untouched, and a subsequent run behaves as on a freshly configured engine.", "quantifier": "all engines and histories", "why_tests_cant": "All histories.", "anchors": ["src/Engine.cpp: restart", "src/variable/OutputVariable.cpp: clear"]}
{"id": "C49", "title": "A cloned engine behaves like the original", "statement": "A copy of an engine whose rules are what loading their texts gives, and whose formulas and Linear terms are attached, shows the same outcomes, values and rule degrees as the original under every sequence of commands. (Rule enabled flags and programmatic weights are reset by the reload during copying; exhibited.)", "quantifier": "all engines and inputs", "why_tests_cant": "All engines.", "anchors": ["src/Engine.cpp: copyFrom", "src/rule/RuleBlock.cpp: copyFrom, loadRules", "src/rule/Rule.cpp: Rule(const Rule&), load"]}
{"id": "C50", "title": "Disabled components contribute nothing", "statement": "A disabled rule block leaves all rules and outputs untouched; a disabled rule is never triggered; a disabled input makes its propositions 0; a disabled output receives no contribution and keeps its value.", "quantifier": "all engines", "why_tests_cant": "All engines.", "anchors": ["src/Engine.cpp: process", "src/rule/Antecedent.cpp: activationDegree", "src/rule/Consequent.cpp: modify", "src/variable/OutputVariable.cpp: defuzzify"]}
{"id": "C51", "title": "Rule order does not matter for commutative associative aggregation", "statement": "Under General activation, with rules that only read input variables, permuting the rules of a block permutes the activated terms and leaves integral defuzzification results unchanged when aggregation is commutative and associative.", "quantifier": "all rule blocks and permutations", "why_tests_cant": "All permutations.", "anchors": ["src/activation/General.cpp: activate", "src/term/Aggregated.cpp: membership"]}
{"id": "C52", "title": "Exceptions during process leave output values unchanged", "statement": "If process() throws while activating rule blocks, no output variable's value or previous value has changed; if defuzzification of the k-th output throws, outputs before it are updated and the others keep their values.", "quantifier": "all engines", "why_tests_cant": "All failure points.", "anchors": ["src/Engine.cpp: process"]}
{"id": "C53", "title": "isReady guarantees operators are present", "statement": "If isReady() holds and the rule texts separate tokens by single blanks, processing does not throw for a missing conjunction, disjunction, implication, aggregation or defuzzifier. (Rules whose keywords are not delimited by single spaces escape the check; exhibited.) Engine::configure installs the given operators, and General by default, in every block and output and changes nothing else; with all operators given the engine is ready and never misses one.", "quantifier": "all engines", "why_tests_cant": "All rule texts.", "anchors": ["src/Engine.cpp: isReady, configure"]}
{"id": "C54", "title": "Engine type inference is sound", "statement": "Engine::type is Unknown iff there are no outputs or some defuzzifier is missing; Larsen or Mamdani iff all defuzzifiers are integral, Larsen iff moreover there are blocks and all imply by AlgebraicProduct; Takagi-Sugeno iff all defuzzifiers are weighted of a fitting type and all output terms are Constant, Linear or Function; Tsukamoto likewise for monotonic terms; Inverse Tsukamoto iff all are weighted otherwise; Hybrid iff integral and weighted ones are mixed.", "quantifier": "all engines", "why_tests_cant": "All engines.", "anchors": ["src/Engine.cpp: type"]}
{"id": "C55", "title": "FLL export/import round-trips", "statement": "For every engine whose names are valid identifiers and whose texts contain no comment/line/edge-space characters, importing its exported FLL text succeeds unless a formula refers to a variable that comes later (or fails to parse) and yields the same configuration (numbers as printed, rules loaded from their texts), and exporting again yields the same text unless a height other than 1 is printed as 1. (Lost, and exhibited: whether a rule is enabled, a weight set apart from the rule's text, such heights, formulas naming their own variable.)", "quantifier": "all such engines", "why_tests_cant": "All engines.", "anchors": ["src/imex/FllExporter.cpp: toString", "src/imex/FllImporter.cpp: fromString"]}
{"id": "C56", "title": "FLL export is a fixed point after one import", "statement": "Whenever an engine's texts hold no line breaks and importing its exported text succeeds, exporting the imported engine and importing again changes nothing more; the same holds from any text that can be imported. (Line breaks in texts add lines of their own, and term names consisting only of invalid characters break importability; both exhibited.)", "quantifier": "all engines, all texts", "why_tests_cant": "All engines.", "anchors": ["src/imex/FllExporter.cpp", "src/imex/FllImporter.cpp", "fuzzylite/Operation.h: validName"]}
{"id": "C57", "title": "FLL import rejects unknown keys and malformed lines", "statement": "Import fails on any non-comment line without a colon, on an unknown key inside a block and on any line before the first block other than Engine/description, with an import exception if the text without that line can be imported; comments, blank lines and surrounding blanks never change the result.", "quantifier": "all texts", "why_tests_cant": "All texts.", "anchors": ["src/imex/FllImporter.cpp: fromString, processInputVariable, processOutputVariable, processRuleBlock"]}
{"id": "C58", "title": "split and join are inverse", "statement": "Joining the pieces of a non-ignoring split with the delimiter restores the text; splitting a join of delimiter-free (non-empty when ignoring) pieces restores the pieces for one-character delimiters, and for longer ones if no piece end forms a delimiter with the start of the next delimiter (needed; exhibited); split always terminates and no piece contains the delimiter.", "quantifier": "all strings and single or multi character delimiters", "why_tests_cant": "All strings.", "anchors": ["fuzzylite/Operation.h: split, join"]}
{"id": "C59", "title": "trim removes exactly the surrounding white space", "statement": "trim(text) has no leading or trailing white space, is obtained by removing only white space from both ends, is idempotent, and never reads outside the text.", "quantifier": "all strings", "why_tests_cant": "All strings (unsigned index underflow is possible in principle).", "anchors": ["fuzzylite/Operation.h: trim"]}
{"id": "C60", "title": "findReplace replaces exactly the non-overlapping leftmost occurrences", "statement": "For a non-empty pattern, findReplace with replaceAll yields the text with all leftmost non-overlapping occurrences replaced and terminates. (An empty pattern with replaceAll never terminates, and without replaceAll everything after the first occurrence is lost; both exhibited.)", "quantifier": "all strings, patterns, replacements", "why_tests_cant": "All strings; non-termination.", "anchors": ["fuzzylite/Operation.h: findReplace"]}
{"id": "C61", "title": "validName yields a usable identifier", "statement": "validName(name) contains only letters, digits, '_' and '.', is idempotent and never empty. (Fails for names of only invalid characters; exhibited.)", "quantifier": "all strings", "why_tests_cant": "All strings.", "anchors": ["fuzzylite/Operation.h: validName"]}
{"id": "C62", "title": "Printed scalars read back consistently", "statement": "For every scalar x, toScalar(str(x)) succeeds, is within the printed precision of x, and prints as the same text again; NaN and infinities are preserved.", "quantifier": "all binary64 values", "why_tests_cant": "2^64 values; rounding of decimal conversions.", "anchors": ["fuzzylite/Operation.h: str, toScalar"]}
{"id": "C63", "title": "increment enumerates the grid exactly once", "statement": "Starting from the minimum vector, repeatedly calling Op::increment visits every vector between minimum and maximum exactly once in lexicographic order and returns false exactly after the last, leaving the minimum again.", "quantifier": "all vectors lengths and bounds", "why_tests_cant": "Unbounded lengths.", "anchors": ["fuzzylite/Operation.h: increment"]}
{"id": "C64", "title": "FLD export samples the full grid", "statement": "FldExporter::write over a grid emits exactly (resolution+1)^n rows for n active inputs, one for each grid point in lexicographic order, holding the evaluation of the engine at that point (or stops at the first failing evaluation); over the reals the points of an input divide [minimum, maximum] evenly and for AllVariables their number is the greatest whose n-th power is at most the number of values. (In binary64 the last point may exceed the maximum, the n-th root may round down a perfect power, and an engine without inputs converts infinity to int; exhibited.)", "quantifier": "all engines, resolutions", "why_tests_cant": "Unbounded.", "anchors": ["src/imex/FldExporter.cpp: write", "src/Benchmark.cpp: prepare"]}
{"id": "C65", "title": "Benchmark error counts are consistent", "statement": "numberOfErrors(All) = numberOfErrors(Accuracy) + numberOfErrors(NonFinite); counts over all outputs are the sum over each output; no error is counted iff every obtained value equals the expected within tolerance; the mean squared error is that of the accuracy errors; obtained rows are evaluations of the engine and do not depend on how often or after what the benchmark is run.", "quantifier": "all benchmark tables", "why_tests_cant": "Unbounded tables.", "anchors": ["src/Benchmark.cpp: numberOfErrors, meanSquaredError, canComputeErrors"]}
{"id": "C66", "title": "Factories behave as maps", "statement": "After registering a key the factory has it and constructs with it; deregistering removes it and leaves other keys; constructing an unregistered key throws, a null constructor gives null; the keys listed are exactly those registered; every built-in norm/term/hedge/defuzzifier/activation constructed by its class name reports that class name.", "quantifier": "all histories of registrations", "why_tests_cant": "All histories.", "anchors": ["fuzzylite/factory/ConstructionFactory.h", "fuzzylite/factory/CloningFactory.h", "src/factory/*.cpp"]}
{"id": "C67", "title": "FIS/FCL operator names round-trip", "statement": "Translating any built-in norm or defuzzifier to its FIS (FCL) name and back yields the same operator; for a defuzzifier one of the same class, with the default resolution and the automatic type, which the formats cannot express.", "quantifier": "all built-in operators", "why_tests_cant": "Finite, but both tables are written twice by hand and must agree.", "anchors": ["src/imex/FisExporter.cpp: toString", "src/imex/FisImporter.cpp: translateTNorm, translateSNorm, translateDefuzzifier", "src/imex/FclExporter.cpp", "src/imex/FclImporter.cpp"]}
{"id": "C68", "title": "FIS rule codes preserve propositions", "statement": "A proposition whose hedges have a FIS code (none, one of any/seldom/somewhat/very/extremely, or very very; optionally after a not) is exported and imported as the same proposition, and a rule with a single connective that mentions each variable at most once comes back with the same propositions in the order of the variables, the same connective and the printed weight. (Other hedge combinations, repeated variables and output variables in antecedents are silently changed; exhibited.)", "quantifier": "all engines with readable names, all rules, terms and hedge lists, every number of decimals from two, every tolerance in [2^-29, 2^-7]", "why_tests_cant": "Unbounded numbers of variables and terms, and codes in binary floating point that only approximate the decimals.", "anchors": ["src/imex/FisExporter.cpp: translate", "src/imex/FisImporter.cpp: translateProposition"]}
{"id": "C69", "title": "Norms and hedges compute their documented formulas", "statement": "For degrees a, b in [0,1] each registered norm returns the value of the formula documented in its header, and each hedge its documented formula, except for arguments within the comparison tolerance of a case boundary.", "quantifier": "all degrees in [0,1], every tolerance", "why_tests_cant": "Uncountably many arguments; sample points do not pin a formula.", "anchors": ["fuzzylite/norm/t/*.h", "fuzzylite/norm/s/*.h", "fuzzylite/hedge/*.h"]}
{"id": "C70", "title": "Printed rules read back", "statement": "Loading the printed text of a consequent restores its conclusions, and the postfix text of an antecedent determines its tree; the infix text of an antecedent loses its parentheses and may read back as another tree (exhibited).", "quantifier": "all consequents and antecedent trees over plain names", "why_tests_cant": "Unbounded trees.", "anchors": ["src/rule/Consequent.cpp: toString", "src/rule/Antecedent.cpp: toString, toInfix, toPostfix", "src/rule/Expression.cpp"]}
{"id": "C71", "title": "FLD export over lines answers every line on its own", "statement": "FldExporter::write over a stream drops comment lines, writes a blank line for a blank line, takes a malformed first line as the header, evaluates every other line independently of the lines before it, and stops with an exception at the first malformed, too short or failing line. (A comment before the header makes the header an error; exhibited.)", "quantifier": "all engines without memory, all texts", "why_tests_cant": "All texts.", "anchors": ["src/imex/FldExporter.cpp: write, parse"]}
{"id": "C72", "title": "Engines keep degrees and values in range", "statement": "If rule weights, and the terms of the input variables at their values, are degrees in [0,1], disjunctions and the aggregations of consulted output variables are proper S-norms, then after Engine::process every rule of an enabled block has an activation degree in [0,1] and every activated term of every fuzzy output has a degree in [0,1], whatever activation methods, hedges and chains of rule blocks are used; the value of an output variable with an integral defuzzifier is within its range, and with a weighted average within the values of its terms, unless it is the default or the locked previous value. (Consulting an output variable without aggregation operator gives degrees above 1; exhibited.)", "quantifier": "all engines, all input values, all orders of draining priority queues; degrees also in binary64", "why_tests_cant": "Unbounded engines, and an invariant through all rule blocks and activation methods.", "anchors": ["src/Engine.cpp: process", "src/rule/RuleBlock.cpp: activate", "src/rule/Antecedent.cpp: activationDegree", "src/variable/OutputVariable.cpp: defuzzify", "src/activation/*.cpp", "src/defuzzifier/*.cpp"]}
{"id": "C73", "title": "FCL files restore what the language can express", "statement": "For every engine whose texts hold no line break, comment or semicolon, whose variables have distinct names, whose rule blocks are named by at most one word and whose discrete terms have points, importing the FCL text of FclExporter yields an engine with the same name, variables, ranges, terms, operators, defaults, lock-previous and rules, numbers as printed; without formulas importing succeeds; and exporting and importing once more changes nothing. (Descriptions, enabled flags, lock-range, resolutions, activation methods, heights of discrete terms, names of several words, empty discrete terms and word operators in formulas are lost; exhibited.)", "quantifier": "all engines with such texts, every number of decimals, every blank indentation", "why_tests_cant": "Unbounded engines, names, formulas and numbers; the importer is a line-based state machine.", "anchors": ["src/imex/FclExporter.cpp", "src/imex/FclImporter.cpp"]}
{"id": "C74", "title": "Engines compute what their rules describe", "statement": "After Engine::process with the General activation method the fuzzy outputs hold exactly the conclusions which follow from the input values by the big-step inference rules of a rule base (degrees of antecedents by membership, hedges, conjunction and disjunction; weight times degree; conclusions of enabled rules above zero, in order, visible to later rules), these are unique, and rules that read inputs only are independent; the output value is then the centroid of the joined implied sets (Mamdani, Larsen), the mean of term values weighted by degrees (Takagi-Sugeno), or the weighted mean of the inverse images (Tsukamoto).", "quantifier": "all engines with General activation, all input values and rule bases, any scalars; values over the reals", "why_tests_cant": "Unbounded rule bases and uncountably many inputs; relates the whole pipeline to its description.", "anchors": ["src/Engine.cpp: process", "src/activation/General.cpp: activate", "src/rule/Antecedent.cpp: activationDegree", "src/rule/Consequent.cpp: modify", "src/term/Aggregated.cpp: activationDegree, membership", "src/defuzzifier/Centroid.cpp: defuzzify", "src/defuzzifier/WeightedAverage.cpp: defuzzify"]}
{"id": "C75", "title": "Fuzzification reports the membership of every term", "statement": "Variable::activations has one entry per term, in order, with its membership, or NaN where that throws; highestMembership is the first term of greatest positive membership, or none with NaN; the texts of fuzzify and fuzzyOutputValue are the sum over all terms in order of sign, membership (or degree joined by the aggregation operator) and name, from which signs, numbers and names can be read back if names have no blanks. (Names with blanks can look like a sum; exhibited.)", "quantifier": "all variables, values, activated terms and numbers of decimals; extended reals and binary64", "why_tests_cant": "Unbounded numbers of terms, all names and values.", "anchors": ["src/variable/Variable.cpp: activations, fuzzify, maxActivations, highestMembership", "src/variable/OutputVariable.cpp: fuzzyOutputValue", "src/term/Activated.cpp: fuzzyValue", "src/term/Aggregated.cpp: fuzzyValue, grouped"]}
{"id": "C76", "title": "FIS files restore what the format can express", "statement": "For every engine whose rules the format can express (C68), whose names are plain and whose discrete and linear terms are not empty, FisExporter succeeds, and importing its text yields an engine with the same name, variables, ranges and terms, the first operators given for all rule blocks and outputs, and all loaded rules in one block with their propositions in the order of the variables, numbers as printed; without formulas importing succeeds; and exporting and importing once more changes nothing. (Heights, default values, lock-previous, operators of further blocks, empty discrete terms and formulas with commas are lost; exhibited.)", "quantifier": "all such engines, every number of decimals from 2 and tolerance finer than half a unit of the last decimal", "why_tests_cant": "Unbounded engines, names, rules and numbers; the importer is a line-based parser whose sections depend on each other.", "anchors": ["src/imex/FisExporter.cpp", "src/imex/FisImporter.cpp"]}
{"id": "C77", "title": "Integral defuzzifiers approach integrals and maximizers", "statement": "As the resolution grows, Centroid approaches the center of gravity of every integrable membership function, and for membership functions of bounded slope it is within an explicit distance of it which vanishes like one over the resolution; Bisector parts the area in halves up to such an error; nowhere is the membership higher than at the smallest and largest of maximum by more than half a step at the greatest slope; if the membership is greatest on an interval, they are within one step of its ends and the mean of maximum is their mean; if it is greatest at one point, all three approach that point. Engines using Centroid therefore compute the center of gravity of what their rules conclude up to an explicit error. (With several peaks of the same height the smallest of maximum need not approach the smallest; exhibited.)", "quantifier": "all membership functions over the reals, ranges, resolutions and slopes", "why_tests_cant": "Limits and integrals: no finite number of samples or resolutions shows convergence.", "anchors": ["src/defuzzifier/Centroid.cpp", "src/defuzzifier/Bisector.cpp", "src/defuzzifier/SmallestOfMaximum.cpp", "src/defuzzifier/LargestOfMaximum.cpp", "src/defuzzifier/MeanOfMaximum.cpp"]}
{"id": "C78", "title": "Defuzzifiers in double precision stay close to exact arithmetic", "statement": "In double precision, with finite degrees and values of magnitude up to 2^400 and fewer than 2^46 of them, WeightedAverage and WeightedSum are finite and differ from the exact quotient and sum over the same degrees and values by at most explicit bounds proportional to their number times 2^-53; the sample points of the integral defuzzifiers differ from the exact midpoints by at most about eight units in the last place of the range; Centroid is finite and within an explicit distance of the exact centroid of the sampled memberships; and if these are within delta of a membership function of bounded slope, it is within an explicit distance of the center of gravity of that function, being the sum of the effects of resolution, memberships and rounding.", "quantifier": "all binary64 degrees, values, ranges and memberships within the magnitudes given, all resolutions below 2^46", "why_tests_cant": "Rounding errors over all doubles and unbounded numbers of terms and samples.", "anchors": ["src/defuzzifier/WeightedAverage.cpp: defuzzify", "src/defuzzifier/WeightedSum.cpp: defuzzify", "src/defuzzifier/Centroid.cpp: defuzzify"]}
{"id": "C79", "title": "Datasets written are the datasets read", "statement": "The text of FldExporter is a line with the names of the exported variables, if wanted, and one line per row with its numbers as printed; Benchmark::prepare reads it back as these rows with numbers rounded to the decimals printed; FldExporter for the exported dataset yields the rows for the inputs as printed; and an engine whose outputs do not depend on earlier evaluations, benchmarked against a dataset it exported itself with inputs that print exactly, obtains the same table without errors for every tolerance above the last decimal. (At the default three decimals and tolerance 1e-6 there are errors; numbers as names are read as a row; separators other than blanks cannot be read; exhibited.)", "quantifier": "all engines, rows of doubles, blank separators and numbers of decimals", "why_tests_cant": "Unbounded tables and all doubles; relates exporter, reader, engine and benchmark.", "anchors": ["src/imex/FldExporter.cpp: header, write, parse", "src/Benchmark.cpp: prepare, run, numberOfErrors"]}
{"id": "C80", "title": "Mamdani engines in double precision compute the documented center of gravity", "statement": "For Triangle, Trapezoid and Ramp terms whose sides are at least w wide, memberships in double precision are finite and within 5 units of 2^-53, plus the tolerance of comparisons over w, of the documented membership. For engines with General activation, such terms, Minimum and Maximum, antecedents over inputs with the hedges not and any, weights in [0, 1] and a Centroid output, process() gives every enabled output with enough area a finite value within an explicit distance of the center of gravity of the set which the rules describe over the reals, from the documented memberships of the inputs to the greatest of the cut-off terms; the distance is the sum of the effects of the resolution, of the tolerance (including rules which do not fire because their degree is within it) and of rounding.", "quantifier": "all such engines, inputs and parameters of magnitude up to 2^300, all resolutions below 2^46 and numbers of rules", "why_tests_cant": "All doubles, unbounded rules and terms; relates floating-point execution of the whole engine to integrals over the reals.", "anchors": ["src/Engine.cpp: process", "src/term/Triangle.cpp: membership", "src/term/Trapezoid.cpp: membership", "src/term/Ramp.cpp: membership", "src/rule/Rule.cpp: activateWith, trigger", "src/rule/Antecedent.cpp: activationDegree", "src/term/Aggregated.cpp: membership", "src/defuzzifier/Centroid.cpp: defuzzify"]}
{"id": "C81", "title": "Importers of FCL and FIS reject what they do not understand", "statement": "FclImporter and FisImporter depend only on the contents of the lines: comments, surrounding blanks, blank lines, and semicolons or quotes do not matter. A line which does not belong where it is makes the import fail wherever it occurs: in FCL, before the end of the function block, a line outside of all sections that opens none, a line that opens a section inside of another, the end of the function block inside of a section, or a line inside of a section which is neither its end nor starts with one of its keywords; in FIS, a line before the first section, a line with another key or without exactly one value in the section of an input or output, another key in the system section, or a rule without exactly one comma and colon after it. A text ending inside of an FCL section is rejected. What follows the end of the function block has no effect.", "quantifier": "all texts (any length, any position of the line), all scalar types", "why_tests_cant": "Unbounded texts: no finite set of malformed files shows that none is silently ignored.", "anchors": ["src/imex/FclImporter.cpp: fromString, processBlock, processVar, processFuzzify, processDefuzzify, processRuleBlock", "src/imex/FisImporter.cpp: fromString, importSystem, importInput, importOutput, importRules"]}
{"id": "C82", "title": "Generated C++ code rebuilds the engine", "statement": "The code written by CppExporter, understood as C++ (tokens, statements, constructors and methods of the library, specified apart from the exporter), compiles and builds an engine of the same configuration, numbers being as printed: same names, descriptions, ranges, flags, terms of the same classes and parameters, norms, defuzzifiers, activation methods and rules, for both ways of naming variables and both ways of qualifying classes. This holds for engines whose texts may stand between quotation marks, whose terms have finite parameters, whose Linear terms have one coefficient more than there are input variables by then, whose Discrete terms have height one and, when the program uses their names, whose variables and blocks have different names that are identifiers. (Otherwise not: quotation marks, weighted defuzzifiers without `using namespace`, other numbers of coefficients, heights of Discrete, non-finite parameters, equal names and disabled rules; exhibited.)", "quantifier": "all engines as described (any number of variables, terms and rules), all numbers of decimals but zero, both options of the exporter", "why_tests_cant": "Generated code is not compiled by tests at all, and there are unboundedly many engines.", "anchors": ["src/imex/CppExporter.cpp: toString, fl", "fuzzylite/imex/CppExporter.h", "fuzzylite/term/Discrete.h: create", "fuzzylite/term/Linear.h: create", "src/term/Function.cpp: create", "src/rule/Rule.cpp: parse"]}
{"id": "C83", "title": "Takagi-Sugeno engines in double precision compute the documented weighted formulas", "statement": "After process() in double precision, the value of an output variable with WeightedAverage (WeightedSum) is finite and differs from the mean (sum) of the documented formulas of the concluded terms - constants and linear combinations of the input values - weighted by rule weight times the truth of the antecedent, all over the reals, by at most an explicit bound made of the number of conclusions, the size of the formulas, the slopes of the input terms, the tolerance and units in the last place; for engines with General activation, Minimum and Maximum in antecedents, hedges not and any, straight-line input terms, any number of rules concluding the same or different terms, in any rule blocks, provided that the total weight exceeds the error of the degrees.", "quantifier": "all such engines, input values, weights and tolerances in double precision", "why_tests_cant": "Rounding errors of arbitrarily many rules, grouped conclusions and coefficients cannot be sampled; the bound has to hold for all of them.", "anchors": ["src/defuzzifier/WeightedAverage.cpp: defuzzify", "src/defuzzifier/WeightedSum.cpp: defuzzify", "src/term/Linear.cpp: membership", "src/term/Aggregated.cpp: grouped", "src/Engine.cpp: process"]}
{"id": "C84", "title": "The command line tool converts the engine it is given and touches nothing else", "statement": "Console::main with arguments other than the subcommands: the order of the options does not matter and the last value of an option counts; two names are an input and an output file; a key that is not an option makes the command fail without changing any file; whatever the command, no file changes except the output file; formats are the ones asked for or the endings of the names; the output file contains what the exporter writes of the engine the importer reads, or the dataset of the given values or grid; a failing importer or exporter makes the command fail and its message is printed; FLL files written by the library are copied unchanged. (A command that fails has already emptied the output file, and the option -decimals changes the engines of the built-in examples: refuted.)", "quantifier": "all command lines, files and contents, all scalar types", "why_tests_cant": "Unboundedly many command lines and files; that nothing else changes cannot be observed by running examples.", "anchors": ["src/Console.cpp: parse, process, main, mamdani, takagiSugeno"]}
{"id": "C85", "title": "The interactive console shows what the engine evaluates for the values typed", "statement": "Console::interactive, for engines whose outputs do not depend on earlier evaluations: for each row typed - words followed by blanks, one per input variable - it shows the words and the output values of one evaluation of the engine for these numbers, whatever was typed before; a word that is not a number stands for the current value of its variable, which is shown; P takes the current values for the variables without a word and ignores an unfinished word; D forgets the row; R at the beginning of a row restarts the engine; H shows the help and forgets an unfinished word; nothing is shown for keys after Q or Ctrl-D; an exception in the engine is shown and the session goes on. (Every output is defuzzified twice, which changes the values of outputs that lock their previous value; R within a row does not discard the row although the help says so; a blank in an engine without inputs ends the session with an exception: refuted.)", "quantifier": "all engines as described, all sequences of such keys, all scalar types", "why_tests_cant": "Sessions are unbounded, are not tested at all, and the result depends on the state left by all keys typed before.", "anchors": ["src/Console.cpp: interactive, interactiveHelp", "src/Engine.cpp: process, restart", "src/variable/OutputVariable.cpp: defuzzify"]}
{"id": "C86", "title": "Intervals, linear scaling and statistics", "statement": "Op::in tells whether a number lies in the open, half-open or closed interval up to the tolerance, and NaN lies in none; Op::scale maps the source range linearly onto the target range, and with bounds the result is a number of the target range, for every double; Op::mean, variance and standardDeviation are the mean, the sample variance and its root: between the extremes, zero exactly for equal values, following shifts and factors, independent of order; in double precision neither variance nor standard deviation is ever negative, and the latter is a number whenever the former is.", "quantifier": "all real values and tolerances, all lists of two or more numbers, all binary64 values", "why_tests_cant": "All numbers and unbounded lists; the square root of a negative rounding error would be NaN for some list only.", "anchors": ["fuzzylite/Operation.h: in, scale, bound, sum, mean, variance, standardDeviation"]}
{"id": "C87", "title": "Norms and hedges in double precision stay within rounding of their formulas", "statement": "For degrees in [0, 1] every T-norm and S-norm without jumps (AlgebraicProduct, BoundedDifference, EinsteinProduct, HamacherProduct, Minimum; AlgebraicSum, BoundedSum, EinsteinSum, Maximum, NormalizedSum) computes a degree which differs from its documented formula over the real numbers by at most 8 units of rounding (2^-53), Minimum and Maximum by nothing and HamacherProduct by the comparison tolerance in addition; DrasticProduct, NilpotentMinimum, DrasticSum and NilpotentMaximum are exact unless the arguments are within the tolerance of a jump, where no bound holds; every hedge is within 8 units of rounding of its formula, Extremely and Seldom plus the tolerance. Over the real numbers errors of the arguments of a norm without jumps add up and are never magnified.", "quantifier": "all pairs of binary64 degrees, subnormal ones included, all tolerances (up to 1/8 for hedges)", "why_tests_cant": "Tests compare a few decimal arguments with expected decimals; bounds for all 2^124 pairs, including underflow of products below 2^-1000, need an error analysis.", "anchors": ["src/norm/t/EinsteinProduct.cpp:26-28", "src/norm/t/HamacherProduct.cpp:28-32", "src/norm/s/EinsteinSum.cpp:26-28", "src/hedge/Seldom.cpp:28-30"]}
{"id": "C88", "title": "Mamdani engines with any continuous operators and hedges compute the documented center of gravity in double precision", "statement": "For engines with General activation whose conjunctions, disjunctions, implications and aggregations have no jumps, any hedges in antecedents over inputs, weights in [0, 1], and terms whose memberships are degrees within delta of the documentation: the degrees of antecedents in double precision are degrees and differ from the documented formulas over the reals by an explicit bound made of delta and one rounding error per operator and hedge; so does the fuzzy set of an output variable at every sample; and process() leaves in an output variable with Centroid a finite value within an explicit bound of the center of gravity of the documented fuzzy set. Triangle, Trapezoid and Ramp terms with sides at least w wide are such terms, except at values within the tolerance outside of a foot of a Triangle or Trapezoid, where the membership can be negative.", "quantifier": "all such engines, rules, hedges, inputs and parameters of magnitude up to 2^300, all resolutions below 2^46", "why_tests_cant": "All doubles, unbounded rules and nested antecedents; relates floating-point execution of the whole engine to integrals over the reals, for any choice of operators.", "anchors": ["src/Engine.cpp: process", "src/rule/Antecedent.cpp: activationDegree", "src/rule/Rule.cpp: activateWith, trigger", "src/term/Activated.cpp: membership", "src/term/Aggregated.cpp: membership", "src/defuzzifier/Centroid.cpp: defuzzify", "src/hedge: hedge", "src/norm: compute"]}
{"id": "C89", "title": "Lines of FCL and FIS files switch variables and rule blocks on and off, and nothing else", "statement": "A line ENABLED : TRUE or ENABLED : FALSE (with any blanks) in the section of an input variable, output variable or rule block of an FCL file switches that object on or off and leaves everything else of it as it was; any other value without a colon makes the import fail; a line LOCK : PREVIOUS, LOCK : RANGE, or both separated by a bar in either order, sets both locks of an output variable accordingly and changes nothing else. In FIS files, lines Enabled, LockRange and LockPrevious with a number mean yes exactly for the number 1 up to the tolerance, Default sets the default value, each changing nothing else; without a number they make the import fail, and input variables do not accept the last three.", "quantifier": "all lines of that form, objects, engines and scalar types", "why_tests_cant": "The exporters never write these lines, so exporting and importing cannot show what they do; values and blanks are unbounded.", "anchors": ["src/imex/FclImporter.cpp: parseEnabled, processFuzzify, processDefuzzify, processRuleBlock", "src/imex/FisImporter.cpp: importInput, importOutput"]}
{"id": "C90", "title": "Output variables with the defuzzification of version 6.0 hold their value over gaps", "statement": "OutputVariable::defuzzify_v6: a disabled variable is not touched; a result of the defuzzifier becomes the value, the one that defuzzify() gives unless it is NaN; a variable that locks its previous value keeps a finite value within its range over any number of steps without a result - nothing concluded, no defuzzifier, or a defuzzifier that throws - and otherwise takes the default value; the previous value is the last finite value; the exception of a failed step is thrown after the value has been set. (The current defuzzify() loses a locked value after a step without a result; the default value of version 6.0 does not replace a result that is NaN: refuted.)", "quantifier": "all output variables, conclusions, unbounded sequences of steps, all scalar types", "why_tests_cant": "Holding a value concerns unbounded sequences of steps with failures in between; defuzzify_v6 is not tested at all.", "anchors": ["src/variable/OutputVariable.cpp: defuzzify_v6, defuzzify"]}
{"id": "C91", "title": "Scripts of R contain the engine, its dataset and plots of every output", "statement": "RScriptExporter: if name, description, colors, variable names and the FLL text have no characters that end or alter a literal, then R reads from the script exactly the name, the description if there is one, the engine in FLL, the dataset of the engine over the grid of the two input variables (or for the values of a stream, or the path of a file), and the labels of the plots of each output variable over these inputs; FllImporter reads the engine from that text; there are two plots for each output variable, with different names, each defined before all of them are arranged on the page; there is a script exactly if there is a dataset, and the exception is the same otherwise; without further arguments the first two input variables are used, or the only one twice. (Texts are not escaped: a quotation mark in the description ends the literal and the rest is run as code: refuted.)", "quantifier": "all engines, grids, streams, lists of output variables, colors, all scalar types", "why_tests_cant": "Texts are unbounded and whether R reads them as intended depends on every character before them.", "anchors": ["src/imex/RScriptExporter.cpp: toString, writeScriptHeader, writeScriptExportingDataFrame, writeScriptImportingDataFrame, writeScriptPlots"]}
{"id": "C92", "title": "Generated Java code rebuilds the engine", "statement": "JavaExporter: for engines whose names and texts need no escapes, whose variables can be named as they are (or are numbered), and whose terms have finite parameters, the exported code consists of Java statements only, and running them builds an engine with the same configuration, numbers up to the printed decimals, and the same rules; it builds the same engine as the code exported to C++; exporting the engine that the code builds gives code that builds exactly that engine; without Function terms, and if all rules load, the code does not fail. (Texts are not escaped; infinite parameters of terms are written as inf although ranges are written as Double.POSITIVE_INFINITY; names can clash with each other or with keywords of Java; heights of Discrete terms and disabled rules are lost: refuted.)", "quantifier": "all engines of that kind in binary64, all decimals > 0 with fine tolerance, both naming modes", "why_tests_cant": "Engines are unbounded and the code is never compiled by the tests of the C++ library; that every token sequence is read back as intended needs induction.", "anchors": ["src/imex/JavaExporter.cpp: toString"]}
