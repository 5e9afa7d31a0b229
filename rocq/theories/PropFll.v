(** C55-C57: the FuzzyLite Language. *)
From Coq Require Import ZArith String List Bool Ascii Reals.
From Flocq Require Import IEEE754.BinarySingleNaN.
From Verif Require Import Base Op F64 F64Arith Norm Shape Discrete Defuzz Aggregated Text Function Rule Var Activation Engine Factory
  Fll SpecFll FllF64 FllReject FllBundle.
Import ListNotations.
Local Open Scope string_scope.
#[local] Hint Extern 9 (Scalar _) => exact (F64Scalar fp_default) : typeclass_instances.
Local Notation exported P d resolution indent := (@fll_export f64 (F64Scalar P) d resolution indent (char newline)).
Local Notation imported P resolution := (@fll_import f64 (F64Scalar P) resolution (char newline)).

(** * C55 *)
(** importing what is exported gives exactly what [printed_engine] says, including when it throws *)
Theorem C55_import_export : forall P d resolution indent e, fine_tolerance P d -> blank indent = true -> one_line indent -> writable e ->
  imported P resolution (exported P d resolution indent e) = @printed_engine f64 (F64Scalar P) d e.
Proof. intros P d resolution indent e F B L. exact (import_printed P d resolution indent F B L e). Qed.
Print Assumptions C55_import_export.
(** with proper names and texts that is the same configuration, numbers as printed *)
Theorem C55_same_configuration : forall P d resolution indent e f, fine_tolerance P d -> blank indent = true -> one_line indent -> plain_engine e ->
  imported P resolution (exported P d resolution indent e) = Ok f -> @same_configuration f64 (F64Scalar P) (number_kept P d) e f.
Proof. intros P d resolution indent e f F B L. exact (import_same P d resolution indent F B L e f). Qed.
Print Assumptions C55_same_configuration.
(** names resolve as before, and a rule just loaded from its text is the same rule *)
Theorem C55_rules : forall P d resolution indent e f i j b c r s, fine_tolerance P d -> blank indent = true -> one_line indent -> plain_engine e ->
  imported P resolution (exported P d resolution indent e) = Ok f ->
  nth_error (e_blocks e) i = Some b -> nth_error (e_blocks f) i = Some c -> nth_error (b_rules b) j = Some r -> nth_error (b_rules c) j = Some s ->
  (exists r0, @rule_load f64 (F64Scalar P) (engine_env (e_inputs e) (e_outputs e)) (rl_text r) r0 = (r, Ok tt)) -> s = r.
Proof. intros P d resolution indent e f i j b c r s F B L. exact (import_rules P d resolution indent F B L e f i j b c r s). Qed.
Print Assumptions C55_rules.
(** without formulas importing succeeds *)
Theorem C55_succeeds : forall P d resolution indent e, fine_tolerance P d -> blank indent = true -> one_line indent -> writable e -> no_functions e ->
  exists f, imported P resolution (exported P d resolution indent e) = Ok f.
Proof. intros P d resolution indent e F B L. exact (import_succeeds P d resolution indent F B L e). Qed.
Print Assumptions C55_succeeds.
(** exporting again yields the same text *)
Theorem C55_same_text : forall P d resolution indent e f, fine_tolerance P d -> blank indent = true -> one_line indent -> plain_engine e ->
  @heights_shown f64 (F64Scalar P) d e -> imported P resolution (exported P d resolution indent e) = Ok f ->
  exported P d resolution indent f = exported P d resolution indent e.
Proof. intros P d resolution indent e f F B L. exact (import_text P d resolution indent F B L e f). Qed.
Print Assumptions C55_same_text.
(** rules are exported as their texts only: whether a rule is enabled, and a weight set apart from the text, are lost *)
Theorem C55_rules_refuted : exists e f : engine f64, plain_engine e /\ imported fp_default 100 (exported fp_default 3 100 "  " e) = Ok f /\
  existsb (fun b => existsb (fun r => negb (rl_enabled r)) (b_rules b)) (e_blocks e) = true /\
  forallb (fun b => forallb (fun r => rl_enabled r) (b_rules b)) (e_blocks f) = true /\
  forallb (fun p => forallb (fun p => negb (Beqb (rl_weight (fst p)) (rl_weight (snd p))) || String.eqb (rl_text (fst p)) "if level is high then power is off")
    (combine (b_rules (fst p)) (b_rules (snd p)))) (combine (e_blocks e) (e_blocks f)) = true.
Proof. exact rules_lost. Qed.
Print Assumptions C55_rules_refuted.
(** a height that is not 1 but printed as 1 is not printed the second time *)
Theorem C55_height_refuted : exists e f : engine f64, plain_engine e /\ imported fp_default 100 (exported fp_default 3 100 "  " e) = Ok f /\
  exported fp_default 3 100 "  " f <> exported fp_default 3 100 "  " e.
Proof. exact height_lost. Qed.
Print Assumptions C55_height_refuted.
(** a formula that names the variable it belongs to is exported but not imported *)
Theorem C55_formula_refuted : exists e : engine f64, plain_engine e /\ (forall f, imported fp_default 100 (exported fp_default 3 100 "  " e) <> Ok f).
Proof. exact formula_lost. Qed.
Print Assumptions C55_formula_refuted.
Example C55_case : fine_tolerance fp_default 3 /\ blank "  " = true /\ one_line "  " /\ plain_engine heater /\ heights_shown 3 heater /\ no_functions heater /\
  exported fp_default 3 100 "  " heater = lines
  ["Engine: heater"; "description: a heater"; "InputVariable: level"; "  description: how full"; "  enabled: true"; "  range: 0.000 1.000"; "  lock-range: false";
   "  term: low Ramp 1.000 0.000"; "  term: mid Trapezoid 0.000 0.333 0.667 1.000 0.500"; "  term: high Discrete 0.000 0.000 1.000 1.000";
   "OutputVariable: power"; "  enabled: true"; "  range: -1.000 2.500"; "  lock-range: true"; "  aggregation: none"; "  defuzzifier: WeightedAverage";
   "  default: 0.125"; "  lock-previous: true"; "  term: off Constant 0.000"; "  term: some Linear 0.500 0.250"; "  term: full Triangle 0.500 0.750 1.000";
   "RuleBlock: rules"; "  enabled: true"; "  conjunction: none"; "  disjunction: Maximum"; "  implication: AlgebraicProduct"; "  activation: First 1 0.250";
   "  rule: if level is low or level is not mid then power is full with 0.5"; "  rule: if level is high then power is off"].
Proof. exact heater_case. Qed.

(** * C56 *)
(** after one round nothing changes any more *)
Theorem C56_fixed_point : forall P d resolution indent e f, fine_tolerance P d -> blank indent = true -> one_line indent -> int_range resolution -> writable e ->
  imported P resolution (exported P d resolution indent e) = Ok f -> imported P resolution (exported P d resolution indent f) = Ok f.
Proof. intros P d resolution indent e f F B L R. exact (import_fixed P d resolution indent F B L R e f). Qed.
Print Assumptions C56_fixed_point.
(** the same from any text that can be imported *)
Theorem C56_any_text : forall P d resolution indent text e f, fine_tolerance P d -> blank indent = true -> one_line indent -> int_range resolution ->
  imported P resolution text = Ok e -> imported P resolution (exported P d resolution indent e) = Ok f -> imported P resolution (exported P d resolution indent f) = Ok f.
Proof. intros P d resolution indent text e f F B L R. exact (import_settles P d resolution indent F B L R text e f). Qed.
Print Assumptions C56_any_text.
(** a line break in a text adds lines of its own *)
Theorem C56_line_break_refuted : exists e f : engine f64, imported fp_default 100 (exported fp_default 3 100 "  " e) = Ok f /\
  List.length (e_inputs f) <> List.length (e_inputs e).
Proof. exact line_break. Qed.
Print Assumptions C56_line_break_refuted.
(** a term whose name has no valid character cannot be imported again *)
Theorem C56_name_refuted : exists e : engine f64, no_functions e /\ imported fp_default 100 (exported fp_default 3 100 "  " e) = Throw EFactory.
Proof. exact name_lost. Qed.
Print Assumptions C56_name_refuted.
Example C56_case : writable messy /\ passes (fun f => negb (String.eqb (e_name f) (e_name messy)) && String.eqb (e_name f) "mess")
  (imported fp_default 100 (exported fp_default 3 100 "  " messy)) = true.
Proof. exact messy_case. Qed.

(** * C57 *)
(** a line that cannot be understood stops the import *)
Theorem C57_rejected : forall T (S : Scalar T) resolution text before l after (e : engine T), chop newline text = (before ++ l :: after)%list -> rejected before l ->
  fll_import resolution (char newline) text <> Ok e.
Proof. intros T S resolution. exact (text_fails resolution). Qed.
Print Assumptions C57_rejected.
(** with that very exception if nothing else is wrong *)
Theorem C57_throws : forall T (S : Scalar T) resolution text before l after (e : engine T), chop newline text = (before ++ l :: after)%list -> rejected before l ->
  before <> [] \/ after <> [] -> fll_import resolution (char newline) (join (before ++ after)%list (char newline)) = Ok e ->
  fll_import (T := T) resolution (char newline) text = Throw EImport.
Proof. intros T S resolution. exact (text_throws resolution). Qed.
Print Assumptions C57_throws.
(** comments, blank lines and blanks around a line mean nothing *)
Theorem C57_comments : forall T (S : Scalar T) resolution text text',
  filter nonempty (map content (chop newline text)) = filter nonempty (map content (chop newline text')) ->
  fll_import (T := T) resolution (char newline) text = fll_import resolution (char newline) text'.
Proof. intros T S resolution. exact (text_contents resolution). Qed.
Print Assumptions C57_comments.
(** not every wrong parameter stops it: numbers beyond the integers are cast to int nevertheless, which is undefined *)
Theorem C57_integers_refuted : imported fp_default 100 (lines ["Engine: a"; "OutputVariable: b"; "  defuzzifier: Centroid nan"]) = UB /\
  imported fp_default 100 (lines ["Engine: a"; "RuleBlock: b"; "  activation: Highest 3000000000"]) = UB /\ imported fp_default 100 (lines ["Engine: a"; "RuleBlock: b"; "  activation: Highest many"]) = Throw EConversion.
Proof. vm_compute. repeat split. Qed.
Print Assumptions C57_integers_refuted.
Example C57_case : rejected ["Engine: a"; "InputVariable: b"] "rule: if b is c then d is e" /\ rejected ["Engine: a"] "range: 0 1" /\ rejected [] "nothing" /\
  passes (fun _ => true) (imported fp_default 100 (lines ["Engine: a"; "InputVariable: b"; "  range: 0 1"])) = true /\
  imported fp_default 100 (lines ["Engine: a"; "InputVariable: b"; "rule: if b is c then d is e"; "  range: 0 1"]) = Throw EImport /\
  filter nonempty (map content (chop newline (lines ["Engine: a # the engine"; ""; "  "; "# InputVariable: b"; "  RuleBlock: c  "]))) = ["Engine: a"; "RuleBlock: c"].
Proof. exact lines_case. Qed.
