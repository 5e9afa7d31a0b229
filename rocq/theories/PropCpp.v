(** C82: engines as C++ code. *)
From Coq Require Import ZArith String List Bool Ascii Reals.
From Flocq Require Import IEEE754.BinarySingleNaN.
From Verif Require Import Base Op F64 F64Arith Norm Shape Discrete Defuzz Aggregated Text Function Rule Var Activation Engine Factory
  Fll SpecFll FllF64 FllBundle FclBundle Cpp SpecCpp CppBundle.
Import ListNotations.
Local Open Scope string_scope.
#[local] Hint Extern 9 (Scalar _) => exact (F64Scalar fp_default) : typeclass_instances.
Local Notation exported P d library namespaced named := (@cpp_export f64 (F64Scalar P) d library namespaced named).
Local Notation run P := (@run_cpp f64 (F64Scalar P)).
Local Notation fit P := (@expressible f64 (F64Scalar P)).

(** the engine built by the generated code has the same configuration, numbers as printed *)
Theorem C82_same_configuration : forall P d library namespaced named e text f, fine_tolerance P d -> d <> 0%nat -> one_line library -> fit P namespaced named e -> activations_given e ->
  exported P d library namespaced named e = Ok text -> run P text = Ok f -> @same_configuration f64 (F64Scalar P) (number_kept P d) e f.
Proof. intros P d library namespaced named e text f F D L. exact (code_same P d library namespaced named F D L e text f). Qed.
Print Assumptions C82_same_configuration.
(** names resolve as before, and a rule just loaded from its text is the same rule *)
Theorem C82_rules : forall P d library namespaced named e text f i j b c r s, fine_tolerance P d -> d <> 0%nat -> one_line library -> fit P namespaced named e -> activations_given e ->
  exported P d library namespaced named e = Ok text -> run P text = Ok f ->
  nth_error (e_blocks e) i = Some b -> nth_error (e_blocks f) i = Some c -> nth_error (b_rules b) j = Some r -> nth_error (b_rules c) j = Some s ->
  (exists r0, @rule_load f64 (F64Scalar P) (engine_env (e_inputs e) (e_outputs e)) (rl_text r) r0 = (r, Ok tt)) -> s = r.
Proof. intros P d library namespaced named e text f i j b c r s F D L. exact (code_rules P d library namespaced named F D L e text f i j b c r s). Qed.
Print Assumptions C82_rules.
(** without formulas, and if every rule can be loaded, the code compiles and builds an engine *)
Theorem C82_succeeds : forall P d library namespaced named e, fine_tolerance P d -> d <> 0%nat -> one_line library -> fit P namespaced named e -> no_functions e -> @rules_load f64 (F64Scalar P) e ->
  exists text f, exported P d library namespaced named e = Ok text /\ run P text = Ok f.
Proof. intros P d library namespaced named e F D L. exact (code_succeeds P d library namespaced named F D L e). Qed.
Print Assumptions C82_succeeds.
(** texts are not escaped: code with a quotation mark in a name does not compile *)
Theorem C82_quotes_refuted : exists e : engine f64, (exists text, exported fp_default 3 "fuzzylite" false true e = Ok text) /\
  (do text <- exported fp_default 3 "fuzzylite" false true e; run fp_default text) = Throw ESyntax.
Proof. exists said. exact quotes_break. Qed.
Print Assumptions C82_quotes_refuted.
(** weighted defuzzifiers are not qualified: the code without `using namespace` does not compile *)
Theorem C82_namespace_refuted : exists e : engine f64, (exists f, (do text <- exported fp_default 3 "fuzzylite" false true e; run fp_default text) = Ok f) /\
  (do text <- exported fp_default 3 "fuzzylite" true true e; run fp_default text) = Throw ESyntax.
Proof. exists my_heater. exact namespace_breaks. Qed.
Print Assumptions C82_namespace_refuted.
(** as many coefficients of Linear are read as there are input variables and one more: undefined behaviour with fewer, others are lost *)
Theorem C82_linear_refuted : exists e e' f : engine f64, (do text <- exported fp_default 3 "fuzzylite" false true e; run fp_default text) = UB /\
  (do text <- exported fp_default 3 "fuzzylite" false true e'; run fp_default text) = Ok f /\ coefficients e' = [3%nat] /\ coefficients f = [2%nat].
Proof. exists (linear_heater [q 1 2]), (linear_heater [q 1 2; q 1 4; q 1 8]). destruct linear_breaks as [A (f & B & C)]. exists f. split; [exact A|]. split; [exact B|]. split; [reflexivity|exact C]. Qed.
Print Assumptions C82_linear_refuted.
(** heights of Discrete terms are lost *)
Theorem C82_height_refuted : exists e : engine f64, existsb (fun v => existsb (fun t => Beqb (tm_height t) (q 1 2)) (v_terms v)) (e_inputs e) = true /\
  exists f, (do text <- exported fp_default 3 "fuzzylite" false true e; run fp_default text) = Ok f /\ forallb (fun v => forallb (fun t => Beqb (tm_height t) (q 1 1)) (v_terms v)) (e_inputs f) = true.
Proof. exists half_engine. exact height_breaks. Qed.
Print Assumptions C82_height_refuted.
(** parameters which are not finite, and names used twice: the code does not compile (the latter only with names of variables) *)
Theorem C82_names_refuted : exists e e' : engine f64, (do text <- exported fp_default 3 "fuzzylite" false true e; run fp_default text) = Throw ESyntax /\
  (do text <- exported fp_default 3 "fuzzylite" false true e'; run fp_default text) = Throw ESyntax /\ exists f, (do text <- exported fp_default 3 "fuzzylite" false false e'; run fp_default text) = Ok f.
Proof. exists nan_engine, twice_engine. exact names_break. Qed.
Print Assumptions C82_names_refuted.
(** disabled rules are enabled *)
Theorem C82_rules_refuted : exists e : engine f64, existsb (fun b => existsb (fun r => negb (rl_enabled r)) (b_rules b)) (e_blocks e) = true /\
  exists f, (do text <- exported fp_default 3 "fuzzylite" false true e; run fp_default text) = Ok f /\ forallb (fun b => forallb (fun r => rl_enabled r) (b_rules b)) (e_blocks f) = true.
Proof. exists lazy_heater. exact rules_enabled. Qed.
Print Assumptions C82_rules_refuted.
Example C82_case : fine_tolerance fp_default 3 /\ one_line "fuzzylite" /\ expressible false true my_heater /\ expressible false false my_heater /\ activations_given my_heater /\ no_functions my_heater /\ rules_load my_heater /\
  exported fp_default 3 "fuzzylite" false true my_heater = Ok (quote_lines heater_code) /\
  passes (fun f => String.eqb (e_name f) "my heater" && Nat.eqb (List.length (e_inputs f)) 1 && Nat.eqb (List.length (e_outputs f)) 1 && forallb (fun b => Nat.eqb (List.length (b_rules b)) 2) (e_blocks f))%bool (run fp_default (quote_lines heater_code)) = true /\
  passes (fun f => Nat.eqb (List.length (e_inputs f)) 1) (do text <- exported fp_default 3 "fuzzylite" false false my_heater; run fp_default text) = true.
Proof. exact heater_case. Qed.
