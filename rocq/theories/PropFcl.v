(** C73: engines in the Fuzzy Control Language. *)
From Coq Require Import ZArith String List Bool Ascii Reals.
From Flocq Require Import IEEE754.BinarySingleNaN.
From Verif Require Import Base Op F64 F64Arith Norm Shape Discrete Defuzz Aggregated Text Function Rule Var Activation Engine Factory
  Fll SpecFll FllF64 FllBundle Fcl SpecFcl FclBundle.
Import ListNotations.
Local Open Scope string_scope.
#[local] Hint Extern 9 (Scalar _) => exact (F64Scalar fp_default) : typeclass_instances.
Local Notation exported P d library indent := (@fcl_export f64 (F64Scalar P) d library indent).
Local Notation imported P resolution := (@fcl_import f64 (F64Scalar P) resolution).

(** importing what is exported gives exactly what [fcl_printed] says, including when it throws *)
Theorem C73_import_export : forall P d resolution library indent e, fine_tolerance P d -> blank indent = true -> one_line indent -> one_line library -> clear_engine e ->
  imported P resolution (exported P d library indent e) = @fcl_printed f64 (F64Scalar P) d resolution e.
Proof. intros P d resolution library indent e F B L K. exact (fcl_import_printed P d resolution library indent F B L K e). Qed.
Print Assumptions C73_import_export.
(** with proper names and texts that is the same configuration in everything the language can express, numbers as printed *)
Theorem C73_same_configuration : forall P d resolution library indent e f, fine_tolerance P d -> blank indent = true -> one_line indent -> one_line library -> tidy_engine e ->
  imported P resolution (exported P d library indent e) = Ok f -> @same_configuration f64 (F64Scalar P) (number_kept P d) (@kept f64 (F64Scalar P) resolution e) f.
Proof. intros P d resolution library indent e f F B L K. exact (fcl_import_same P d resolution library indent F B L K e f). Qed.
Print Assumptions C73_same_configuration.
(** names resolve as before, and a rule just loaded from its text is the same rule *)
Theorem C73_rules : forall P d resolution library indent e f i j b c r s, fine_tolerance P d -> blank indent = true -> one_line indent -> one_line library -> tidy_engine e ->
  imported P resolution (exported P d library indent e) = Ok f ->
  nth_error (e_blocks e) i = Some b -> nth_error (e_blocks f) i = Some c -> nth_error (b_rules b) j = Some r -> nth_error (b_rules c) j = Some s ->
  (exists r0, @rule_load f64 (F64Scalar P) (engine_env (e_inputs e) (e_outputs e)) (rl_text r) r0 = (r, Ok tt)) -> s = r.
Proof. intros P d resolution library indent e f i j b c r s F B L K. exact (fcl_import_rules P d resolution library indent F B L K e f i j b c r s). Qed.
Print Assumptions C73_rules.
(** without formulas importing succeeds *)
Theorem C73_succeeds : forall P d resolution library indent e, fine_tolerance P d -> blank indent = true -> one_line indent -> one_line library -> clear_engine e -> no_functions e ->
  exists f, imported P resolution (exported P d library indent e) = Ok f.
Proof. intros P d resolution library indent e F B L K. exact (fcl_import_succeeds P d resolution library indent F B L K e). Qed.
Print Assumptions C73_succeeds.
(** after one round nothing changes any more *)
Theorem C73_fixed_point : forall P d resolution library indent e f, fine_tolerance P d -> blank indent = true -> one_line indent -> one_line library ->
  clear_engine e -> clear_engine (@kept f64 (F64Scalar P) resolution e) ->
  imported P resolution (exported P d library indent e) = Ok f -> imported P resolution (exported P d library indent f) = Ok f.
Proof. intros P d resolution library indent e f F B L K. exact (fcl_import_fixed P d resolution library indent F B L K e f). Qed.
Print Assumptions C73_fixed_point.
(** descriptions, whether something is enabled, lock-range, resolutions, activation methods and heights of discrete terms are lost *)
Theorem C73_settings_refuted : exists e f : engine f64, tidy_engine e /\ imported fp_default 100 (exported fp_default 3 "fuzzylite" "  " e) = Ok f /\
  e_description f <> e_description e /\
  map (fun v => (v_enabled v, v_lock_range v)) (e_inputs e) = [(false, true)] /\ map (fun v => (v_enabled v, v_lock_range v)) (e_inputs f) = [(true, false)] /\
  map (fun o => o_defuzzifier o) (e_outputs e) = [Some (DIntegral Centroid 500)] /\ map (fun o => o_defuzzifier o) (e_outputs f) = [Some (DIntegral Centroid 100)] /\
  map (fun b => (b_enabled b, b_activation b)) (e_blocks e) = [(false, Some Proportional)] /\ map (fun b => (b_enabled b, b_activation b)) (e_blocks f) = [(true, Some General)] /\
  existsb (fun v => existsb (fun t => Beqb (tm_height t) (f64_lit 1 2)) (v_terms v)) (e_inputs e) = true /\ forallb (fun v => forallb (fun t => Beqb (tm_height t) (f64_lit 1 1)) (v_terms v)) (e_inputs f) = true.
Proof. exact settings_lost. Qed.
Print Assumptions C73_settings_refuted.
(** a discrete term without points makes the import throw *)
Theorem C73_discrete_refuted : exists e : engine f64, no_functions e /\ imported fp_default 100 (exported fp_default 3 "fuzzylite" "  " e) = Throw ESyntax.
Proof. exact discrete_lost. Qed.
Print Assumptions C73_discrete_refuted.
(** a name of a rule block is cut to its last word *)
Theorem C73_block_name_refuted : exists e f : engine f64, imported fp_default 100 (exported fp_default 3 "fuzzylite" "  " e) = Ok f /\
  map (@b_name f64) (e_blocks e) = ["my rules"] /\ map (@b_name f64) (e_blocks f) = ["rules"].
Proof. exact block_name_lost. Qed.
Print Assumptions C73_block_name_refuted.
(** a formula with an operator that is a word is valid, but cannot be imported *)
Theorem C73_words_refuted : exists e : engine f64, clear_engine e /\ passes (fun _ => true) (loaded_function (declared e) "x and 1") = true /\
  (forall f, imported fp_default 100 (exported fp_default 3 "fuzzylite" "  " e) <> Ok f).
Proof. exact words_lost. Qed.
Print Assumptions C73_words_refuted.
(** a formula whose blanks kept two slashes apart is imported once, but not twice *)
Theorem C73_slashes_refuted : exists e f : engine f64, clear_engine e /\ imported fp_default 100 (exported fp_default 3 "fuzzylite" "  " e) = Ok f /\
  (forall g, imported fp_default 100 (exported fp_default 3 "fuzzylite" "  " f) <> Ok g).
Proof. exact slashes_lost. Qed.
Print Assumptions C73_slashes_refuted.
Example C73_case : fine_tolerance fp_default 3 /\ blank "  " = true /\ one_line "  " /\ one_line "fuzzylite 6.0" /\ tidy_engine my_heater /\ clear_engine (kept 100 my_heater) /\ no_functions my_heater /\
  exported fp_default 3 "fuzzylite 6.0" "  " my_heater = lines
  ["//Code automatically generated with fuzzylite 6.0."; ""; "FUNCTION_BLOCK my heater"; "";
   "VAR_INPUT"; "  level: REAL;"; "END_VAR"; ""; "VAR_OUTPUT"; "  power: REAL;"; "END_VAR"; "";
   "FUZZIFY level"; "  RANGE := (0.000 .. 1.000);"; "  TERM low := Ramp 1.000 0.000;"; "  TERM mid := Trapezoid 0.000 0.333 0.667 1.000 0.500;"; "  TERM high := (0.000, 0.000) (1.000, 1.000);"; "END_FUZZIFY"; "";
   "DEFUZZIFY power"; "  RANGE := (-1.000 .. 2.500);"; "  TERM off := 0.000;"; "  TERM some := Linear 0.500 0.250;"; "  TERM full := Triangle 0.500 0.750 1.000;"; "  METHOD : COGS;"; "  DEFAULT := 0.125 | NC;"; "END_DEFUZZIFY"; "";
   "RULEBLOCK rules"; "  OR : MAX;"; "  ACT : PROD;"; "  RULE 1 : if level is low or level is not mid then power is full with 0.5"; "  RULE 2 : if level is high then power is off"; "END_RULEBLOCK"; "";
   "END_FUNCTION_BLOCK"; ""] /\
  passes (fun f => String.eqb (e_name f) "my heater" && Nat.eqb (List.length (e_inputs f)) 1 && Nat.eqb (List.length (e_outputs f)) 1 && forallb (fun b => Nat.eqb (List.length (b_rules b)) 2) (e_blocks f))%bool
    (imported fp_default 100 (lines heater_fcl)) = true.
Proof. exact heater_fcl_case. Qed.
