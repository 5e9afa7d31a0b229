#!/usr/bin/env python3
"""Writes /verif/properties.jsonl (one JSON object per line) from the table below."""
import json, os
P = []
def p(title, statement, quantifier, why, *anchors):
    P.append(dict(id="C%02d" % (len(P) + 1), title=title, statement=statement,
                  quantifier=quantifier, why_tests_cant=why, anchors=list(anchors)))

OPH = "fuzzylite/Operation.h"
p("Tolerant comparisons form a consistent trichotomy",
  "For any two scalars and any tolerance, Op::isLE is exactly isLt-or-isEq, Op::isGE is exactly isGt-or-isEq; when neither is NaN exactly one of isLt, isEq, isGt holds; when exactly one is NaN none holds; isEq is reflexive (also on NaN and infinities) and symmetric; isLt(a,b)=isGt(b,a).",
  "all pairs of IEEE binary64 values (including NaN, infinities, signed zeros) and all tolerances",
  "The state space is 2^192; the interesting cases sit at tolerance edges and at infinities where a-b is NaN.",
  f"{OPH}: Operation::isLt, isLE, isEq, isGt, isGE, isClose")
p("Op::min, Op::max and Op::bound are NaN-safe lattice operations",
  "Op::min/Op::max return NaN iff an argument is NaN, otherwise one of their arguments that is <= (>=) both; they are commutative, associative and idempotent up to the sign of zero. Op::bound(x,lo,hi) with lo<=hi returns a value in [lo,hi] unless x is NaN (then NaN), leaves in-range values unchanged and is idempotent.",
  "all binary64 values", "Tests sample a few numbers; NaN/infinity/zero-sign interactions need all cases.",
  f"{OPH}: Operation::min, max, bound")
p("Every T-norm satisfies the T-norm axioms on [0,1]",
  "For each registered T-norm: compute(a,b) stays in [0,1], is commutative, monotone in each argument, has 1 as identity and 0 as annihilator, and is associative, for all degrees in [0,1]. (Where the equality tolerance of the library breaks an axiom, the exact failing region is exhibited.)",
  "all registered T-norms, all degrees a,b,c in [0,1], every tolerance eps >= 0",
  "Axioms quantify over triples of reals; the unit tests check a fixed grid and cannot see failures inside the 1e-6 tolerance band.",
  "src/norm/t/*.cpp: compute", f"{OPH}: Operation::isEq, isGt")
p("Every S-norm satisfies the S-norm axioms on [0,1]",
  "For each registered S-norm except UnboundedSum: compute(a,b) stays in [0,1], is commutative, monotone, has 0 as identity and 1 as annihilator, and is associative on [0,1]; UnboundedSum satisfies all but the upper bound. Failing regions caused by tolerance or by NormalizedSum's definition are exhibited.",
  "all registered S-norms, all degrees in [0,1], every tolerance eps >= 0",
  "Same as for T-norms: triples of reals plus tolerance bands.",
  "src/norm/s/*.cpp: compute")
p("T-norms and S-norms are De Morgan duals",
  "For each dual pair (AlgebraicProduct/AlgebraicSum, BoundedDifference/BoundedSum, DrasticProduct/DrasticSum, EinsteinProduct/EinsteinSum, HamacherProduct/HamacherSum, Minimum/Maximum, NilpotentMinimum/NilpotentMaximum), S(a,b) = 1 - T(1-a,1-b), for every tolerance except for the Hamacher pair, which needs exact comparisons (its failure at the default tolerance is exhibited).",
  "all degrees a,b in [0,1], every tolerance eps >= 0 where exact",
  "Needs an algebraic identity over a continuum.",
  "src/norm/t/*.cpp: compute", "src/norm/s/*.cpp: compute")
p("Norms are sandwiched between drastic and lattice norms",
  "For every registered T-norm, DrasticProduct(a,b) <= T(a,b) <= Minimum(a,b) and for every bounded S-norm, Maximum(a,b) <= S(a,b) <= DrasticSum(a,b), for degrees in [0,1]; the lattice bounds hold at any tolerance, the drastic ones with exact comparisons (failure at the default tolerance exhibited).",
  "all degrees in [0,1]", "Inequality over a continuum.",
  "src/norm/t/*.cpp: compute", "src/norm/s/*.cpp: compute")
p("Norms are safe under floating-point rounding",
  "For binary64 degrees in [0,1], the rounded computation of the norms returns a non-NaN degree in [0,1] and is exactly commutative; HamacherSum alone can exceed 1 by rounding (exhibited).",
  "all pairs of binary64 values in [0,1]",
  "2^124 pairs; rounding of a+b-a*b could in principle exceed 1.",
  "src/norm/t/*.cpp: compute", "src/norm/s/*.cpp: compute")
p("Hedges preserve degrees and order",
  "Each hedge maps [0,1] into [0,1]; Very, Somewhat, Extremely, Seldom are nondecreasing and fix 0 and 1; Not is nonincreasing and an involution; Any is constantly 1; Very/Somewhat are mutually inverse and so are Extremely/Seldom; Extremely(x) <= Very-side concentration and Seldom dilation hold on their documented halves. (Order and inverse laws with exact comparisons; Extremely is not monotone within the default tolerance, exhibited.)",
  "all degrees in [0,1]", "Continuum of degrees; branch boundary at 0.5 widened by tolerance.",
  "src/hedge/*.cpp: hedge")
p("Membership values lie in [0, height]",
  "For each membership term with height h in [0,inf) and well-ordered parameters, membership(x) is in [0,h] for every finite or infinite x. (Violations caused by the comparison tolerance at the vertices of Triangle and Trapezoid are exhibited.)",
  "all term shapes, all valid parameters, all x", "Continuum of x and parameters; violations are confined to 1e-6-wide bands.",
  "src/term/*.cpp: membership")
p("NaN inputs give NaN memberships",
  "membership(NaN) = NaN for every shape term, so that an unset input cannot silently fire a rule through any T-norm, nor through any S-norm except DrasticSum and NilpotentMaximum (exhibited).",
  "all shape terms and all parameter values (including NaN and infinities)", "All parameter combinations.",
  "src/term/*.cpp: membership")
p("Shape terms follow their documented piecewise definition",
  "Each shape term agrees with its documented piecewise formula: zero outside the support, height on the core, and the stated curve in between; in particular landmark values (vertices, inflection, center) are exact. (Binary with a finite direction deviates; exhibited.)",
  "all x and all well-ordered parameters, at zero tolerance and away from tolerance bands otherwise",
  "Piecewise functions on a continuum.", "src/term/*.cpp: membership")
p("Monotonic terms are monotone and Tsukamoto inverts membership",
  "For each term reporting isMonotonic() (Concave, Ramp, Sigmoid, SShape, ZShape), membership is monotone in x in the direction of its parameters, and membership(tsukamoto(y)) = y for every y strictly between 0 and height; the inverse, and monotonicity of SShape and ZShape, hold off the tolerance bands around the breakpoints, inside which both fail (exhibited).",
  "all parameters, all x and y", "Functional inverse over a continuum.",
  "src/term/{Concave,Ramp,Sigmoid,SShape,ZShape}.cpp: membership, tsukamoto, isMonotonic")
p("Symmetric and complementary shapes",
  "Bell, Cosine, Gaussian, Rectangle, Spike, symmetric Triangle/Trapezoid/PiShape are symmetric about their center; SShape(s,e)+ZShape(s,e) = height everywhere; reversing a Ramp/Sigmoid mirrors it. (Trapezoid and PiShape off the tolerance bands around their vertices.)",
  "all x, parameters and heights", "Continuum.", "src/term/*.cpp: membership")
p("Discrete terms interpolate their points",
  "For points with strictly increasing x, Discrete::membership returns the exact y at each node, a value between the neighbouring y's in between, and the first/last y outside the range (interpolated exactly for every x equal to or at least the tolerance away from each node); it never indexes outside the point list.",
  "all non-empty sorted point lists and all x", "Arbitrary list lengths; lower_bound boundary cases.",
  "src/term/Discrete.cpp: membership, sort, lower_bound usage")
p("Discrete point conversions are lossless",
  "toPairs(toVector(pairs)) = pairs for every list of pairs; toPairs fails exactly on odd-length vectors; sort yields a sorted permutation; discretize yields resolution+1 points starting at start, whose y's are the term's memberships.",
  "all lists of any length", "Unbounded list length.",
  "src/term/Discrete.cpp: toPairs, toVector, sort, discretize")
p("Linear and Constant terms compute the declared affine function",
  "Constant ignores x. Linear returns the sum of coefficient*input over the inputs that have a coefficient plus the last coefficient when there are more coefficients than inputs, for any number of each.",
  "all coefficient lists and all input lists", "Unbounded lengths.",
  "src/term/Linear.cpp: membership", "src/term/Constant.cpp: membership")
p("Integral defuzzifiers stay within the range",
  "Centroid, Bisector, SmallestOfMaximum, LargestOfMaximum and MeanOfMaximum return NaN or a value within [minimum, maximum], for any nonnegative fuzzy set and any resolution >= 1, in exact arithmetic; in binary64 for SmallestOfMaximum and LargestOfMaximum when the width of the range is finite and not tiny (an overflowing width gives values outside, exhibited).",
  "all fuzzy sets (arbitrary membership functions), ranges and resolutions",
  "Arbitrary functions and resolutions.", "src/defuzzifier/*.cpp: defuzzify", f"{OPH}: midpoints")
p("Maximum-based defuzzifiers pick true maxima and are ordered",
  "SmallestOfMaximum returns the first, LargestOfMaximum the last sampled x at which the sampled membership is maximal; MeanOfMaximum is the mean of all of them; hence SOM <= MOM <= LOM whenever they are numbers.",
  "all membership functions without NaN, ranges and resolutions", "Arbitrary functions.",
  "src/defuzzifier/{Smallest,Largest,Mean}OfMaximum.cpp: defuzzify")
p("Centroid is the weighted mean of the samples",
  "Centroid equals sum(x*y)/sum(y) over the midpoints; it is unchanged when the set is scaled by a positive constant, equals the midpoint of the range for sets symmetric about it, translates with the set, and is NaN when the area is zero.",
  "all membership functions, ranges and resolutions >= 1", "Arbitrary functions.",
  "src/defuzzifier/Centroid.cpp: defuzzify")
p("Bisector splits the sampled area",
  "Bisector returns the mean of the sampled points whose cumulative area fraction is closest to one half; it is a number whenever the total area is positive, and NaN when it is zero.",
  "all nonnegative membership functions, ranges and resolutions >= 1", "Arbitrary functions.",
  "src/defuzzifier/Bisector.cpp: defuzzify")
p("Weighted defuzzifiers combine activated terms correctly",
  "WeightedAverage equals sum(w z)/sum(w) and WeightedSum equals sum(w z) over the terms grouped by name; with nonnegative weights of positive total WeightedAverage lies between the smallest and largest z; an empty set gives NaN; a set mixing Takagi-Sugeno and Tsukamoto terms, or a term of neither kind, is rejected in automatic mode.",
  "all lists of activated terms", "Unbounded lists.",
  "src/defuzzifier/{WeightedAverage,WeightedSum,WeightedDefuzzifier}.cpp: defuzzify, inferType")
p("Aggregated membership does not depend on activation order",
  "For a commutative and associative aggregation, permuting the activated terms does not change the aggregated membership at any x; the aggregated membership under an S-norm is at least each contribution and at most 1. (HamacherSum with exact comparisons; order dependence at the default tolerance exhibited.)",
  "all lists of activated terms, all permutations, all x", "All permutations of unbounded lists.",
  "src/term/Aggregated.cpp: membership")
p("Grouping activated terms is a faithful merge by name",
  "Aggregated::grouped yields one entry per distinct term name in order of first occurrence, whose degree is the left fold of that name's degrees with the aggregation operator (sum if none); it is idempotent.",
  "all lists of activated terms", "Unbounded lists.", "src/term/Aggregated.cpp: grouped")
p("Highest activated term queries are exact",
  "maximallyActivatedTerms returns exactly the activated terms whose degree is the largest positive number among the degrees (exact comparison, NaN ignored), in order, and highestActivatedTerm returns the first of them, or nothing when no degree is positive.",
  "all lists of activated terms", "Unbounded lists, ties and NaN.",
  "src/term/Aggregated.cpp: maximallyActivatedTerms, highestActivatedTerm", "src/variable/Variable.cpp: highestMembership")
p("General activation fires exactly the eligible rules",
  "After General activation each loaded rule's degree is weight*antecedent, a rule is triggered iff it is loaded, enabled and its degree is greater than zero, unloaded rules end deactivated, and the outputs receive contributions of exactly the triggered rules in rule order.",
  "all rule blocks (any number of rules, any degrees)", "Unbounded rule lists and prior states.",
  "src/activation/General.cpp: activate", "src/rule/Rule.cpp: activateWith, trigger, deactivate")
p("First/Last activation fire the first/last n eligible rules",
  "First(n,t) triggers the first n (Last(n,t): the last n) loaded rules in order whose degree is positive and at least the threshold, and no others. (Disabled rules are found to consume quota; exhibited.)",
  "all rule blocks, n and thresholds", "Unbounded lists.", "src/activation/First.cpp: activate", "src/activation/Last.cpp: activate")
p("Highest/Lowest activation fire the n strongest/weakest rules",
  "Highest(n) (Lowest(n)) triggers only positive-degree rules; the number considered is min(n, positives); every non-selected positive rule has degree <= (>=) every selected one, for any tie-breaking of the heap.",
  "all rule blocks, all n, all heap tie-breaking orders", "Heap order on ties is unspecified; tests see one library's order.",
  "src/activation/Highest.cpp: activate", "src/activation/Lowest.cpp: activate")
p("Proportional activation normalises degrees",
  "Proportional activation sets every loaded rule's degree to its share of the total, so that degrees sum to one when the total is positive and are all zero when it is zero, preserving their ratios (exact arithmetic; in binary64 every share lies in [0,1]). The total includes disabled rules.",
  "all rule blocks", "Unbounded lists.", "src/activation/Proportional.cpp: activate")
p("Threshold activation obeys its comparison",
  "Threshold(op,t) triggers exactly the loaded, enabled rules with positive degree whose degree compares to t by op; parsing of the operator text inverts printing for the six operators and rejects any other text.",
  "all rule blocks, operators and thresholds", "Unbounded lists, all strings.",
  "src/activation/Threshold.cpp: activate, activatesWith, parseComparison, comparisonOperator")
p("Every activation method resets stale state and skips unloaded rules",
  "Whatever the previous degrees and triggered flags, after any activation method an unloaded rule has degree 0 and is not triggered, and the resulting rule states do not depend on the previous degrees or triggered flags; at most the enabled rules are triggered.",
  "all activation methods, all prior states", "All histories.", "src/activation/*.cpp: activate")
p("Rule text is accepted exactly by its grammar",
  "Rule::load succeeds on a text iff, ignoring anything from '#', its tokens are `if A then C` or `if A then C with w` where A is an acceptable antecedent, C an acceptable consequent and w a number; the weight becomes w or 1; otherwise it throws. Every antecedent of the documented grammar is acceptable; some undocumented ones are too (exhibited).",
  "all strings", "All strings.", "src/rule/Rule.cpp: load")
p("Consequents are accepted exactly by their grammar",
  "Consequent::load succeeds iff the tokens are `variable is hedge* term` groups joined by `and` over the engine's output variables, and yields exactly those conclusions in order.",
  "all token sequences and all engines", "All token sequences.", "src/rule/Consequent.cpp: load")
p("Antecedents parse to the tree they denote",
  "For every proposition tree, loading its parenthesised text yields that tree; without parentheses `and` binds tighter than `or` and both associate to the left; for variable and term names that are not registered functions or operators and contain no operator characters (necessity exhibited).",
  "all expression trees over all engines", "Unbounded trees.", "src/rule/Antecedent.cpp: load", "src/term/Function.cpp: toPostfix")
p("A loaded antecedent can always be evaluated safely",
  "If Antecedent::load succeeds, every proposition refers to an existing variable and to an existing term of that variable (or ends with `any`), and every operator is `and`/`or` with two operands, so that activation never dereferences null and only throws for a missing conjunction/disjunction operator.",
  "all strings and all engines", "All strings.", "src/rule/Antecedent.cpp: load, activationDegree")
p("Failed loads leave a rule inert",
  "If Rule::load throws, the rule is unloaded, its degree is 0 and it is not triggered, so a subsequent RuleBlock activation skips it; RuleBlock::loadRules loads every loadable rule even if others fail.",
  "all strings, engines and prior rule states", "All strings/histories.", "src/rule/Rule.cpp: load, unload", "src/rule/RuleBlock.cpp: loadRules")
p("Rule activation degree is compositional and bounded",
  "With memberships and weight in [0,1] and any registered norms (as disjunction other than UnboundedSum and, in binary64, other than HamacherSum, which rounding takes above 1), the activation degree of any antecedent tree lies in [0,1]; it equals the fold of the tree with conjunction and disjunction, hedges applied from the innermost outwards; disabled variables count as 0.",
  "all trees, memberships in [0,1], hedges and norms", "Unbounded trees.",
  "src/rule/Antecedent.cpp: activationDegree", "src/rule/Rule.cpp: activateWith")
p("Degrees of the conclusions of a rule",
  "Triggering a rule activates the term of each conclusion on an enabled variable, in order, with the rule's activation degree modified by the hedges of that conclusion and, contrary to the independence documented in Rule.h, by those of the preceding conclusions on enabled variables (leak exhibited); without hedges on earlier conclusions the conclusions are independent.",
  "all consequents and degrees", "Needs consequents with several hedged conclusions in all orders.",
  "src/rule/Consequent.cpp: modify", "fuzzylite/rule/Rule.h: class documentation")
p("Formulas parse according to operator precedence and associativity",
  "For every expression tree over the registered operators and functions, parsing its minimally parenthesised infix text yields that tree: unary ! ~ bind tightest, then right-associative ^, then left-associative * / %, + -, and, or; function calls take comma separated arguments.",
  "all expression trees", "Unbounded trees.", "src/term/Function.cpp: toPostfix, parse, space", "src/factory/FunctionFactory.cpp: registerOperators")
p("Formula parsing is total and evaluation is well-defined",
  "For every string, Function::parse either throws or returns a tree in which every operator/function node has exactly its arity of children; evaluating it yields a number or throws only because a variable is undefined. (For registered tables of unary and binary elements; an element of arity 0 breaks it, exhibited.)",
  "all strings", "All strings.", "src/term/Function.cpp: parse, Node::evaluate")
p("Tree printing round-trips",
  "Printing a parsed formula tree in postfix and rebuilding the tree from those tokens yields the same tree, with constants as printed. (Infix printing loses parentheses, and parse itself does not accept postfix text; exhibited.)",
  "all trees", "Unbounded trees.", "src/term/Function.cpp: Node::toPostfix, toInfix, toPrefix")
p("State of a Function after failed and successful loads",
  "If loading a new formula throws, the term reports the new formula; a term without function keeps having none, but a term that had one keeps evaluating the previous formula (stale function, exhibited). After a successful load its values depend only on the formula, the engine and the arguments, not on earlier loads.",
  "all prior states and formulas", "Failure paths over all histories.", "src/term/Function.cpp: load, updateReference")
p("Lock-range keeps values in range",
  "When a variable locks its value in range and minimum<=maximum, after any setValue, defuzzify, clear or restart its value is NaN or within [minimum, maximum]; this is an invariant of all sequences of setting inputs, processing and restarting. Values are changed only if they lie outside of a locked range. (setRange, setMinimum, setMaximum and setLockValueInRange do not re-clamp; exhibited.)",
  "all operation sequences and scalars", "All histories.", "src/variable/Variable.cpp: setValue", "src/variable/OutputVariable.cpp: defuzzify, clear")
p("What lock-previous holds",
  "With lock-previous enabled, when defuzzification yields NaN the output becomes the stored previous value, or the default value when that is NaN too. In a sequence of steps the stored previous value is the value of two steps ago, y^{t-2}, not the documented y^{t-1} (disagreement exhibited).",
  "all sequences of defuzzification results", "Needs sequences of at least two steps; the unit tests inject the previous value by hand.",
  "src/variable/OutputVariable.cpp: defuzzify, defuzzify_v6", "fuzzylite/variable/OutputVariable.h: class documentation")
p("Variable and engine lookups are consistent",
  "hasTerm/hasInputVariable/... hold iff the corresponding getter succeeds; the getter returns the first element with that name; insert/remove/add keep the order of the others; removing what was inserted restores the list.",
  "all lists and names", "Unbounded lists.", "src/variable/Variable.cpp: getTerm, hasTerm, insertTerm, removeTerm", "src/Engine.cpp: getInputVariable, hasInputVariable, removeInputVariable, ...")
p("Variable::sort orders terms by centroid without losing any",
  "Variable::sort leaves a permutation of the terms in nondecreasing centroid order (for comparable centroids).",
  "all term lists, all heap tie orders", "Unbounded lists.", "src/variable/Variable.cpp: sort")
p("Processing is independent of history",
  "If no formula reads output variables, two engines that agree on configuration and input values behave alike in process(), whatever their earlier outputs, rule degrees and fuzzy outputs: same outcome, same fuzzy outputs, same values of every enabled output that does not lock its previous value, same rule states of every enabled block (unless there was an exception). Both conditions are needed (exhibited).",
  "all engines and all histories", "All histories.", "src/Engine.cpp: process", "src/rule/RuleBlock.cpp: activate", "src/variable/OutputVariable.cpp: defuzzify")
p("Processing is idempotent",
  "Calling process() twice with unchanged inputs gives the same outcome, values (of outputs that do not lock their previous value), fuzzy outputs and rule states as calling it once, provided no formula reads output variables.",
  "all engines", "All engines.", "src/Engine.cpp: process")
p("Restart erases the run-time state",
  "After restart() every input value is NaN, every output value, previous value and fuzzy output is cleared, configuration is untouched, and a subsequent run behaves as on a freshly configured engine.",
  "all engines and histories", "All histories.", "src/Engine.cpp: restart", "src/variable/OutputVariable.cpp: clear")
p("A cloned engine behaves like the original",
  "A copy of an engine whose rules are what loading their texts gives, and whose formulas and Linear terms are attached, shows the same outcomes, values and rule degrees as the original under every sequence of commands. (Rule enabled flags and programmatic weights are reset by the reload during copying; exhibited.)",
  "all engines and inputs", "All engines.", "src/Engine.cpp: copyFrom", "src/rule/RuleBlock.cpp: copyFrom, loadRules", "src/rule/Rule.cpp: Rule(const Rule&), load")
p("Disabled components contribute nothing",
  "A disabled rule block leaves all rules and outputs untouched; a disabled rule is never triggered; a disabled input makes its propositions 0; a disabled output receives no contribution and keeps its value.",
  "all engines", "All engines.", "src/Engine.cpp: process", "src/rule/Antecedent.cpp: activationDegree", "src/rule/Consequent.cpp: modify", "src/variable/OutputVariable.cpp: defuzzify")
p("Rule order does not matter for commutative associative aggregation",
  "Under General activation, with rules that only read input variables, permuting the rules of a block permutes the activated terms and leaves integral defuzzification results unchanged when aggregation is commutative and associative.",
  "all rule blocks and permutations", "All permutations.", "src/activation/General.cpp: activate", "src/term/Aggregated.cpp: membership")
p("Exceptions during process leave output values unchanged",
  "If process() throws while activating rule blocks, no output variable's value or previous value has changed; if defuzzification of the k-th output throws, outputs before it are updated and the others keep their values.",
  "all engines", "All failure points.", "src/Engine.cpp: process")
p("isReady guarantees operators are present",
  "If isReady() holds and the rule texts separate tokens by single blanks, processing does not throw for a missing conjunction, disjunction, implication, aggregation or defuzzifier. (Rules whose keywords are not delimited by single spaces escape the check; exhibited.) Engine::configure installs the given operators, and General by default, in every block and output and changes nothing else; with all operators given the engine is ready and never misses one.",
  "all engines", "All rule texts.", "src/Engine.cpp: isReady, configure")
p("Engine type inference is sound",
  "Engine::type is Unknown iff there are no outputs or some defuzzifier is missing; Larsen or Mamdani iff all defuzzifiers are integral, Larsen iff moreover there are blocks and all imply by AlgebraicProduct; Takagi-Sugeno iff all defuzzifiers are weighted of a fitting type and all output terms are Constant, Linear or Function; Tsukamoto likewise for monotonic terms; Inverse Tsukamoto iff all are weighted otherwise; Hybrid iff integral and weighted ones are mixed.",
  "all engines", "All engines.", "src/Engine.cpp: type")
p("FLL export/import round-trips",
  "For every engine whose names are valid identifiers and whose texts contain no comment/line/edge-space characters, importing its exported FLL text succeeds unless a formula refers to a variable that comes later (or fails to parse) and yields the same configuration (numbers as printed, rules loaded from their texts), and exporting again yields the same text unless a height other than 1 is printed as 1. (Lost, and exhibited: whether a rule is enabled, a weight set apart from the rule's text, such heights, formulas naming their own variable.)",
  "all such engines", "All engines.", "src/imex/FllExporter.cpp: toString", "src/imex/FllImporter.cpp: fromString")
p("FLL export is a fixed point after one import",
  "Whenever an engine's texts hold no line breaks and importing its exported text succeeds, exporting the imported engine and importing again changes nothing more; the same holds from any text that can be imported. (Line breaks in texts add lines of their own, and term names consisting only of invalid characters break importability; both exhibited.)",
  "all engines, all texts", "All engines.", "src/imex/FllExporter.cpp", "src/imex/FllImporter.cpp", f"{OPH}: validName")
p("FLL import rejects unknown keys and malformed lines",
  "Import fails on any non-comment line without a colon, on an unknown key inside a block and on any line before the first block other than Engine/description, with an import exception if the text without that line can be imported; comments, blank lines and surrounding blanks never change the result.",
  "all texts", "All texts.", "src/imex/FllImporter.cpp: fromString, processInputVariable, processOutputVariable, processRuleBlock")
p("split and join are inverse",
  "Joining the pieces of a non-ignoring split with the delimiter restores the text; splitting a join of delimiter-free (non-empty when ignoring) pieces restores the pieces for one-character delimiters, and for longer ones if no piece end forms a delimiter with the start of the next delimiter (needed; exhibited); split always terminates and no piece contains the delimiter.",
  "all strings and single or multi character delimiters", "All strings.", f"{OPH}: split, join")
p("trim removes exactly the surrounding white space",
  "trim(text) has no leading or trailing white space, is obtained by removing only white space from both ends, is idempotent, and never reads outside the text.",
  "all strings", "All strings (unsigned index underflow is possible in principle).", f"{OPH}: trim")
p("findReplace replaces exactly the non-overlapping leftmost occurrences",
  "For a non-empty pattern, findReplace with replaceAll yields the text with all leftmost non-overlapping occurrences replaced and terminates. (An empty pattern with replaceAll never terminates, and without replaceAll everything after the first occurrence is lost; both exhibited.)",
  "all strings, patterns, replacements", "All strings; non-termination.", f"{OPH}: findReplace")
p("validName yields a usable identifier",
  "validName(name) contains only letters, digits, '_' and '.', is idempotent and never empty. (Fails for names of only invalid characters; exhibited.)",
  "all strings", "All strings.", f"{OPH}: validName")
p("Printed scalars read back consistently",
  "For every scalar x, toScalar(str(x)) succeeds, is within the printed precision of x, and prints as the same text again; NaN and infinities are preserved.",
  "all binary64 values", "2^64 values; rounding of decimal conversions.", f"{OPH}: str, toScalar")
p("increment enumerates the grid exactly once",
  "Starting from the minimum vector, repeatedly calling Op::increment visits every vector between minimum and maximum exactly once in lexicographic order and returns false exactly after the last, leaving the minimum again.",
  "all vectors lengths and bounds", "Unbounded lengths.", f"{OPH}: increment")
p("FLD export samples the full grid",
  "FldExporter::write over a grid emits exactly (resolution+1)^n rows for n active inputs, one for each grid point in lexicographic order, holding the evaluation of the engine at that point (or stops at the first failing evaluation); over the reals the points of an input divide [minimum, maximum] evenly and for AllVariables their number is the greatest whose n-th power is at most the number of values. (In binary64 the last point may exceed the maximum, the n-th root may round down a perfect power, and an engine without inputs converts infinity to int; exhibited.)",
  "all engines, resolutions", "Unbounded.", "src/imex/FldExporter.cpp: write", "src/Benchmark.cpp: prepare")
p("Benchmark error counts are consistent",
  "numberOfErrors(All) = numberOfErrors(Accuracy) + numberOfErrors(NonFinite); counts over all outputs are the sum over each output; no error is counted iff every obtained value equals the expected within tolerance; the mean squared error is that of the accuracy errors; obtained rows are evaluations of the engine and do not depend on how often or after what the benchmark is run.",
  "all benchmark tables", "Unbounded tables.", "src/Benchmark.cpp: numberOfErrors, meanSquaredError, canComputeErrors")
p("Factories behave as maps",
  "After registering a key the factory has it and constructs with it; deregistering removes it and leaves other keys; constructing an unregistered key throws, a null constructor gives null; the keys listed are exactly those registered; every built-in norm/term/hedge/defuzzifier/activation constructed by its class name reports that class name.",
  "all histories of registrations", "All histories.", "fuzzylite/factory/ConstructionFactory.h", "fuzzylite/factory/CloningFactory.h", "src/factory/*.cpp")
p("FIS/FCL operator names round-trip",
  "Translating any built-in norm or defuzzifier to its FIS (FCL) name and back yields the same operator; for a defuzzifier one of the same class, with the default resolution and the automatic type, which the formats cannot express.",
  "all built-in operators", "Finite, but both tables are written twice by hand and must agree.",
  "src/imex/FisExporter.cpp: toString", "src/imex/FisImporter.cpp: translateTNorm, translateSNorm, translateDefuzzifier", "src/imex/FclExporter.cpp", "src/imex/FclImporter.cpp")
p("FIS rule codes preserve propositions",
  "A proposition whose hedges have a FIS code (none, one of any/seldom/somewhat/very/extremely, or very very; optionally after a not) is exported and imported as the same proposition, and a rule with a single connective that mentions each variable at most once comes back with the same propositions in the order of the variables, the same connective and the printed weight. (Other hedge combinations, repeated variables and output variables in antecedents are silently changed; exhibited.)",
  "all engines with readable names, all rules, terms and hedge lists, every number of decimals from two, every tolerance in [2^-29, 2^-7]", "Unbounded numbers of variables and terms, and codes in binary floating point that only approximate the decimals.", "src/imex/FisExporter.cpp: translate", "src/imex/FisImporter.cpp: translateProposition")
p("Norms and hedges compute their documented formulas",
  "For degrees a, b in [0,1] each registered norm returns the value of the formula documented in its header, and each hedge its documented formula, except for arguments within the comparison tolerance of a case boundary.",
  "all degrees in [0,1], every tolerance", "Uncountably many arguments; sample points do not pin a formula.",
  "fuzzylite/norm/t/*.h", "fuzzylite/norm/s/*.h", "fuzzylite/hedge/*.h")

p("Printed rules read back",
  "Loading the printed text of a consequent restores its conclusions, and the postfix text of an antecedent determines its tree; the infix text of an antecedent loses its parentheses and may read back as another tree (exhibited).",
  "all consequents and antecedent trees over plain names", "Unbounded trees.", "src/rule/Consequent.cpp: toString", "src/rule/Antecedent.cpp: toString, toInfix, toPostfix", "src/rule/Expression.cpp")

p("FLD export over lines answers every line on its own",
  "FldExporter::write over a stream drops comment lines, writes a blank line for a blank line, takes a malformed first line as the header, evaluates every other line independently of the lines before it, and stops with an exception at the first malformed, too short or failing line. (A comment before the header makes the header an error; exhibited.)",
  "all engines without memory, all texts", "All texts.", "src/imex/FldExporter.cpp: write, parse")

p("Engines keep degrees and values in range",
  "If rule weights, and the terms of the input variables at their values, are degrees in [0,1], disjunctions and the aggregations of consulted output variables are proper S-norms, then after Engine::process every rule of an enabled block has an activation degree in [0,1] and every activated term of every fuzzy output has a degree in [0,1], whatever activation methods, hedges and chains of rule blocks are used; the value of an output variable with an integral defuzzifier is within its range, and with a weighted average within the values of its terms, unless it is the default or the locked previous value. (Consulting an output variable without aggregation operator gives degrees above 1; exhibited.)",
  "all engines, all input values, all orders of draining priority queues; degrees also in binary64", "Unbounded engines, and an invariant through all rule blocks and activation methods.",
  "src/Engine.cpp: process", "src/rule/RuleBlock.cpp: activate", "src/rule/Antecedent.cpp: activationDegree", "src/variable/OutputVariable.cpp: defuzzify", "src/activation/*.cpp", "src/defuzzifier/*.cpp")

p("FCL files restore what the language can express",
  "For every engine whose texts hold no line break, comment or semicolon, whose variables have distinct names, whose rule blocks are named by at most one word and whose discrete terms have points, importing the FCL text of FclExporter yields an engine with the same name, variables, ranges, terms, operators, defaults, lock-previous and rules, numbers as printed; without formulas importing succeeds; and exporting and importing once more changes nothing. (Descriptions, enabled flags, lock-range, resolutions, activation methods, heights of discrete terms, names of several words, empty discrete terms and word operators in formulas are lost; exhibited.)",
  "all engines with such texts, every number of decimals, every blank indentation", "Unbounded engines, names, formulas and numbers; the importer is a line-based state machine.",
  "src/imex/FclExporter.cpp", "src/imex/FclImporter.cpp")

p("Engines compute what their rules describe",
  "After Engine::process with the General activation method the fuzzy outputs hold exactly the conclusions which follow from the input values by the big-step inference rules of a rule base (degrees of antecedents by membership, hedges, conjunction and disjunction; weight times degree; conclusions of enabled rules above zero, in order, visible to later rules), these are unique, and rules that read inputs only are independent; the output value is then the centroid of the joined implied sets (Mamdani, Larsen), the mean of term values weighted by degrees (Takagi-Sugeno), or the weighted mean of the inverse images (Tsukamoto).",
  "all engines with General activation, all input values and rule bases, any scalars; values over the reals", "Unbounded rule bases and uncountably many inputs; relates the whole pipeline to its description.",
  "src/Engine.cpp: process", "src/activation/General.cpp: activate", "src/rule/Antecedent.cpp: activationDegree", "src/rule/Consequent.cpp: modify", "src/term/Aggregated.cpp: activationDegree, membership", "src/defuzzifier/Centroid.cpp: defuzzify", "src/defuzzifier/WeightedAverage.cpp: defuzzify")

p("Fuzzification reports the membership of every term",
  "Variable::activations has one entry per term, in order, with its membership, or NaN where that throws; highestMembership is the first term of greatest positive membership, or none with NaN; the texts of fuzzify and fuzzyOutputValue are the sum over all terms in order of sign, membership (or degree joined by the aggregation operator) and name, from which signs, numbers and names can be read back if names have no blanks. (Names with blanks can look like a sum; exhibited.)",
  "all variables, values, activated terms and numbers of decimals; extended reals and binary64", "Unbounded numbers of terms, all names and values.",
  "src/variable/Variable.cpp: activations, fuzzify, maxActivations, highestMembership", "src/variable/OutputVariable.cpp: fuzzyOutputValue", "src/term/Activated.cpp: fuzzyValue", "src/term/Aggregated.cpp: fuzzyValue, grouped")

p("FIS files restore what the format can express",
  "For every engine whose rules the format can express (C68), whose names are plain and whose discrete and linear terms are not empty, FisExporter succeeds, and importing its text yields an engine with the same name, variables, ranges and terms, the first operators given for all rule blocks and outputs, and all loaded rules in one block with their propositions in the order of the variables, numbers as printed; without formulas importing succeeds; and exporting and importing once more changes nothing. (Heights, default values, lock-previous, operators of further blocks, empty discrete terms and formulas with commas are lost; exhibited.)",
  "all such engines, every number of decimals from 2 and tolerance finer than half a unit of the last decimal", "Unbounded engines, names, rules and numbers; the importer is a line-based parser whose sections depend on each other.",
  "src/imex/FisExporter.cpp", "src/imex/FisImporter.cpp")

p("Integral defuzzifiers approach integrals and maximizers",
  "As the resolution grows, Centroid approaches the center of gravity of every integrable membership function, and for membership functions of bounded slope it is within an explicit distance of it which vanishes like one over the resolution; Bisector parts the area in halves up to such an error; nowhere is the membership higher than at the smallest and largest of maximum by more than half a step at the greatest slope; if the membership is greatest on an interval, they are within one step of its ends and the mean of maximum is their mean; if it is greatest at one point, all three approach that point. Engines using Centroid therefore compute the center of gravity of what their rules conclude up to an explicit error. (With several peaks of the same height the smallest of maximum need not approach the smallest; exhibited.)",
  "all membership functions over the reals, ranges, resolutions and slopes", "Limits and integrals: no finite number of samples or resolutions shows convergence.",
  "src/defuzzifier/Centroid.cpp", "src/defuzzifier/Bisector.cpp", "src/defuzzifier/SmallestOfMaximum.cpp", "src/defuzzifier/LargestOfMaximum.cpp", "src/defuzzifier/MeanOfMaximum.cpp")

p("Defuzzifiers in double precision stay close to exact arithmetic",
  "In double precision, with finite degrees and values of magnitude up to 2^400 and fewer than 2^46 of them, WeightedAverage and WeightedSum are finite and differ from the exact quotient and sum over the same degrees and values by at most explicit bounds proportional to their number times 2^-53; the sample points of the integral defuzzifiers differ from the exact midpoints by at most about eight units in the last place of the range; Centroid is finite and within an explicit distance of the exact centroid of the sampled memberships; and if these are within delta of a membership function of bounded slope, it is within an explicit distance of the center of gravity of that function, being the sum of the effects of resolution, memberships and rounding.",
  "all binary64 degrees, values, ranges and memberships within the magnitudes given, all resolutions below 2^46", "Rounding errors over all doubles and unbounded numbers of terms and samples.",
  "src/defuzzifier/WeightedAverage.cpp: defuzzify", "src/defuzzifier/WeightedSum.cpp: defuzzify", "src/defuzzifier/Centroid.cpp: defuzzify")

p("Datasets written are the datasets read",
  "The text of FldExporter is a line with the names of the exported variables, if wanted, and one line per row with its numbers as printed; Benchmark::prepare reads it back as these rows with numbers rounded to the decimals printed; FldExporter for the exported dataset yields the rows for the inputs as printed; and an engine whose outputs do not depend on earlier evaluations, benchmarked against a dataset it exported itself with inputs that print exactly, obtains the same table without errors for every tolerance above the last decimal. (At the default three decimals and tolerance 1e-6 there are errors; numbers as names are read as a row; separators other than blanks cannot be read; exhibited.)",
  "all engines, rows of doubles, blank separators and numbers of decimals", "Unbounded tables and all doubles; relates exporter, reader, engine and benchmark.",
  "src/imex/FldExporter.cpp: header, write, parse", "src/Benchmark.cpp: prepare, run, numberOfErrors")

p("Mamdani engines in double precision compute the documented center of gravity",
  "For Triangle, Trapezoid and Ramp terms whose sides are at least w wide, memberships in double precision are finite and within 5 units of 2^-53, plus the tolerance of comparisons over w, of the documented membership. For engines with General activation, such terms, Minimum and Maximum, antecedents over inputs with the hedges not and any, weights in [0, 1] and a Centroid output, process() gives every enabled output with enough area a finite value within an explicit distance of the center of gravity of the set which the rules describe over the reals, from the documented memberships of the inputs to the greatest of the cut-off terms; the distance is the sum of the effects of the resolution, of the tolerance (including rules which do not fire because their degree is within it) and of rounding.",
  "all such engines, inputs and parameters of magnitude up to 2^300, all resolutions below 2^46 and numbers of rules", "All doubles, unbounded rules and terms; relates floating-point execution of the whole engine to integrals over the reals.",
  "src/Engine.cpp: process", "src/term/Triangle.cpp: membership", "src/term/Trapezoid.cpp: membership", "src/term/Ramp.cpp: membership", "src/rule/Rule.cpp: activateWith, trigger", "src/rule/Antecedent.cpp: activationDegree", "src/term/Aggregated.cpp: membership", "src/defuzzifier/Centroid.cpp: defuzzify")

p("Importers of FCL and FIS reject what they do not understand",
  "FclImporter and FisImporter depend only on the contents of the lines: comments, surrounding blanks, blank lines, and semicolons or quotes do not matter. A line which does not belong where it is makes the import fail wherever it occurs: in FCL, before the end of the function block, a line outside of all sections that opens none, a line that opens a section inside of another, the end of the function block inside of a section, or a line inside of a section which is neither its end nor starts with one of its keywords; in FIS, a line before the first section, a line with another key or without exactly one value in the section of an input or output, another key in the system section, or a rule without exactly one comma and colon after it. A text ending inside of an FCL section is rejected. What follows the end of the function block has no effect.",
  "all texts (any length, any position of the line), all scalar types", "Unbounded texts: no finite set of malformed files shows that none is silently ignored.",
  "src/imex/FclImporter.cpp: fromString, processBlock, processVar, processFuzzify, processDefuzzify, processRuleBlock", "src/imex/FisImporter.cpp: fromString, importSystem, importInput, importOutput, importRules")

p("Generated C++ code rebuilds the engine",
  "The code written by CppExporter, understood as C++ (tokens, statements, constructors and methods of the library, specified apart from the exporter), compiles and builds an engine of the same configuration, numbers being as printed: same names, descriptions, ranges, flags, terms of the same classes and parameters, norms, defuzzifiers, activation methods and rules, for both ways of naming variables and both ways of qualifying classes. This holds for engines whose texts may stand between quotation marks, whose terms have finite parameters, whose Linear terms have one coefficient more than there are input variables by then, whose Discrete terms have height one and, when the program uses their names, whose variables and blocks have different names that are identifiers. (Otherwise not: quotation marks, weighted defuzzifiers without `using namespace`, other numbers of coefficients, heights of Discrete, non-finite parameters, equal names and disabled rules; exhibited.)",
  "all engines as described (any number of variables, terms and rules), all numbers of decimals but zero, both options of the exporter", "Generated code is not compiled by tests at all, and there are unboundedly many engines.",
  "src/imex/CppExporter.cpp: toString, fl", "fuzzylite/imex/CppExporter.h", "fuzzylite/term/Discrete.h: create", "fuzzylite/term/Linear.h: create", "src/term/Function.cpp: create", "src/rule/Rule.cpp: parse")

p("Takagi-Sugeno engines in double precision compute the documented weighted formulas",
  "After process() in double precision, the value of an output variable with WeightedAverage (WeightedSum) is finite and differs from the mean (sum) of the documented formulas of the concluded terms - constants and linear combinations of the input values - weighted by rule weight times the truth of the antecedent, all over the reals, by at most an explicit bound made of the number of conclusions, the size of the formulas, the slopes of the input terms, the tolerance and units in the last place; for engines with General activation, Minimum and Maximum in antecedents, hedges not and any, straight-line input terms, any number of rules concluding the same or different terms, in any rule blocks, provided that the total weight exceeds the error of the degrees.",
  "all such engines, input values, weights and tolerances in double precision", "Rounding errors of arbitrarily many rules, grouped conclusions and coefficients cannot be sampled; the bound has to hold for all of them.",
  "src/defuzzifier/WeightedAverage.cpp: defuzzify", "src/defuzzifier/WeightedSum.cpp: defuzzify", "src/term/Linear.cpp: membership", "src/term/Aggregated.cpp: grouped", "src/Engine.cpp: process")

p("The command line tool converts the engine it is given and touches nothing else",
  "Console::main with arguments other than the subcommands: the order of the options does not matter and the last value of an option counts; two names are an input and an output file; a key that is not an option makes the command fail without changing any file; whatever the command, no file changes except the output file; formats are the ones asked for or the endings of the names; the output file contains what the exporter writes of the engine the importer reads, or the dataset of the given values or grid; a failing importer or exporter makes the command fail and its message is printed; FLL files written by the library are copied unchanged. (A command that fails has already emptied the output file, and the option -decimals changes the engines of the built-in examples: refuted.)",
  "all command lines, files and contents, all scalar types", "Unboundedly many command lines and files; that nothing else changes cannot be observed by running examples.",
  "src/Console.cpp: parse, process, main, mamdani, takagiSugeno")

p("The interactive console shows what the engine evaluates for the values typed",
  "Console::interactive, for engines whose outputs do not depend on earlier evaluations: for each row typed - words followed by blanks, one per input variable - it shows the words and the output values of one evaluation of the engine for these numbers, whatever was typed before; a word that is not a number stands for the current value of its variable, which is shown; P takes the current values for the variables without a word and ignores an unfinished word; D forgets the row; R at the beginning of a row restarts the engine; H shows the help and forgets an unfinished word; nothing is shown for keys after Q or Ctrl-D; an exception in the engine is shown and the session goes on. (Every output is defuzzified twice, which changes the values of outputs that lock their previous value; R within a row does not discard the row although the help says so; a blank in an engine without inputs ends the session with an exception: refuted.)",
  "all engines as described, all sequences of such keys, all scalar types", "Sessions are unbounded, are not tested at all, and the result depends on the state left by all keys typed before.",
  "src/Console.cpp: interactive, interactiveHelp", "src/Engine.cpp: process, restart", "src/variable/OutputVariable.cpp: defuzzify")

p("Intervals, linear scaling and statistics",
  "Op::in tells whether a number lies in the open, half-open or closed interval up to the tolerance, and NaN lies in none; Op::scale maps the source range linearly onto the target range, and with bounds the result is a number of the target range, for every double; Op::mean, variance and standardDeviation are the mean, the sample variance and its root: between the extremes, zero exactly for equal values, following shifts and factors, independent of order; in double precision neither variance nor standard deviation is ever negative, and the latter is a number whenever the former is.",
  "all real values and tolerances, all lists of two or more numbers, all binary64 values", "All numbers and unbounded lists; the square root of a negative rounding error would be NaN for some list only.",
  "fuzzylite/Operation.h: in, scale, bound, sum, mean, variance, standardDeviation")

p("Norms and hedges in double precision stay within rounding of their formulas",
  "For degrees in [0, 1] every T-norm and S-norm without jumps (AlgebraicProduct, BoundedDifference, EinsteinProduct, HamacherProduct, Minimum; AlgebraicSum, BoundedSum, EinsteinSum, Maximum, NormalizedSum) computes a degree which differs from its documented formula over the real numbers by at most 8 units of rounding (2^-53), Minimum and Maximum by nothing and HamacherProduct by the comparison tolerance in addition; DrasticProduct, NilpotentMinimum, DrasticSum and NilpotentMaximum are exact unless the arguments are within the tolerance of a jump, where no bound holds; every hedge is within 8 units of rounding of its formula, Extremely and Seldom plus the tolerance. Over the real numbers errors of the arguments of a norm without jumps add up and are never magnified.",
  "all pairs of binary64 degrees, subnormal ones included, all tolerances (up to 1/8 for hedges)",
  "Tests compare a few decimal arguments with expected decimals; bounds for all 2^124 pairs, including underflow of products below 2^-1000, need an error analysis.",
  "src/norm/t/EinsteinProduct.cpp:26-28", "src/norm/t/HamacherProduct.cpp:28-32", "src/norm/s/EinsteinSum.cpp:26-28", "src/hedge/Seldom.cpp:28-30")

p("Mamdani engines with any continuous operators and hedges compute the documented center of gravity in double precision",
  "For engines with General activation whose conjunctions, disjunctions, implications and aggregations have no jumps, any hedges in antecedents over inputs, weights in [0, 1], and terms whose memberships are degrees within delta of the documentation: the degrees of antecedents in double precision are degrees and differ from the documented formulas over the reals by an explicit bound made of delta and one rounding error per operator and hedge; so does the fuzzy set of an output variable at every sample; and process() leaves in an output variable with Centroid a finite value within an explicit bound of the center of gravity of the documented fuzzy set. Triangle, Trapezoid and Ramp terms with sides at least w wide are such terms, except at values within the tolerance outside of a foot of a Triangle or Trapezoid, where the membership can be negative.",
  "all such engines, rules, hedges, inputs and parameters of magnitude up to 2^300, all resolutions below 2^46", "All doubles, unbounded rules and nested antecedents; relates floating-point execution of the whole engine to integrals over the reals, for any choice of operators.",
  "src/Engine.cpp: process", "src/rule/Antecedent.cpp: activationDegree", "src/rule/Rule.cpp: activateWith, trigger", "src/term/Activated.cpp: membership", "src/term/Aggregated.cpp: membership", "src/defuzzifier/Centroid.cpp: defuzzify", "src/hedge: hedge", "src/norm: compute")

p("Lines of FCL and FIS files switch variables and rule blocks on and off, and nothing else",
  "A line ENABLED : TRUE or ENABLED : FALSE (with any blanks) in the section of an input variable, output variable or rule block of an FCL file switches that object on or off and leaves everything else of it as it was; any other value without a colon makes the import fail; a line LOCK : PREVIOUS, LOCK : RANGE, or both separated by a bar in either order, sets both locks of an output variable accordingly and changes nothing else. In FIS files, lines Enabled, LockRange and LockPrevious with a number mean yes exactly for the number 1 up to the tolerance, Default sets the default value, each changing nothing else; without a number they make the import fail, and input variables do not accept the last three.",
  "all lines of that form, objects, engines and scalar types", "The exporters never write these lines, so exporting and importing cannot show what they do; values and blanks are unbounded.",
  "src/imex/FclImporter.cpp: parseEnabled, processFuzzify, processDefuzzify, processRuleBlock", "src/imex/FisImporter.cpp: importInput, importOutput")

p("Output variables with the defuzzification of version 6.0 hold their value over gaps",
  "OutputVariable::defuzzify_v6: a disabled variable is not touched; a result of the defuzzifier becomes the value, the one that defuzzify() gives unless it is NaN; a variable that locks its previous value keeps a finite value within its range over any number of steps without a result - nothing concluded, no defuzzifier, or a defuzzifier that throws - and otherwise takes the default value; the previous value is the last finite value; the exception of a failed step is thrown after the value has been set. (The current defuzzify() loses a locked value after a step without a result; the default value of version 6.0 does not replace a result that is NaN: refuted.)",
  "all output variables, conclusions, unbounded sequences of steps, all scalar types", "Holding a value concerns unbounded sequences of steps with failures in between; defuzzify_v6 is not tested at all.",
  "src/variable/OutputVariable.cpp: defuzzify_v6, defuzzify")

p("Scripts of R contain the engine, its dataset and plots of every output",
  "RScriptExporter: if name, description, colors, variable names and the FLL text have no characters that end or alter a literal, then R reads from the script exactly the name, the description if there is one, the engine in FLL, the dataset of the engine over the grid of the two input variables (or for the values of a stream, or the path of a file), and the labels of the plots of each output variable over these inputs; FllImporter reads the engine from that text; there are two plots for each output variable, with different names, each defined before all of them are arranged on the page; there is a script exactly if there is a dataset, and the exception is the same otherwise; without further arguments the first two input variables are used, or the only one twice. (Texts are not escaped: a quotation mark in the description ends the literal and the rest is run as code: refuted.)",
  "all engines, grids, streams, lists of output variables, colors, all scalar types", "Texts are unbounded and whether R reads them as intended depends on every character before them.",
  "src/imex/RScriptExporter.cpp: toString, writeScriptHeader, writeScriptExportingDataFrame, writeScriptImportingDataFrame, writeScriptPlots")

p("Generated Java code rebuilds the engine",
  "JavaExporter: for engines whose names and texts need no escapes, whose variables can be named as they are (or are numbered), and whose terms have finite parameters, the exported code consists of Java statements only, and running them builds an engine with the same configuration, numbers up to the printed decimals, and the same rules; it builds the same engine as the code exported to C++; exporting the engine that the code builds gives code that builds exactly that engine; without Function terms, and if all rules load, the code does not fail. (Texts are not escaped; infinite parameters of terms are written as inf although ranges are written as Double.POSITIVE_INFINITY; names can clash with each other or with keywords of Java; heights of Discrete terms and disabled rules are lost: refuted.)",
  "all engines of that kind in binary64, all decimals > 0 with fine tolerance, both naming modes", "Engines are unbounded and the code is never compiled by the tests of the C++ library; that every token sequence is read back as intended needs induction.",
  "src/imex/JavaExporter.cpp: toString")
out = os.path.join(os.path.dirname(os.path.abspath(__file__)), "..", "properties.jsonl")
with open(out, "w") as f:
    for x in P:
        f.write(json.dumps(x, ensure_ascii=True) + "\n")
print(len(P))
