(** C92: engines as Java code. *)
From Coq Require Import ZArith String List Bool Ascii Reals.
From Flocq Require Import IEEE754.BinarySingleNaN.
From Verif Require Import Base Op F64 F64Arith Norm Shape Discrete Defuzz Aggregated Text Function Rule Var Activation Engine Factory
  Fll SpecFll FllF64 FllBundle FclBundle Cpp SpecCpp CppBundle Java SpecJava JavaBundle CppAgain.
Import ListNotations.
Local Open Scope string_scope.
#[local] Hint Extern 9 (Scalar _) => exact (F64Scalar fp_default) : typeclass_instances.
Local Notation exported P d library named := (@java_export f64 (F64Scalar P) d library named).
Local Notation run P := (@run_java f64 (F64Scalar P)).
Local Notation fit P := (@java_expressible f64 (F64Scalar P)).

(** the engine built by the generated code has the same configuration, numbers as printed *)
Theorem C92_same_configuration : forall P d library named e text f, fine_tolerance P d -> d <> 0%nat -> one_line library -> fit P named e -> activations_given e ->
  exported P d library named e = Ok text -> run P text = Ok f -> @same_configuration f64 (F64Scalar P) (number_kept P d) e f.
Proof. intros P d library named e text f F D L. exact (java_same P d library named F D L e text f). Qed.
Print Assumptions C92_same_configuration.
(** a rule just loaded from its text is the same rule *)
Theorem C92_rules : forall P d library named e text f i j b c r s, fine_tolerance P d -> d <> 0%nat -> one_line library -> fit P named e -> activations_given e ->
  exported P d library named e = Ok text -> run P text = Ok f ->
  nth_error (e_blocks e) i = Some b -> nth_error (e_blocks f) i = Some c -> nth_error (b_rules b) j = Some r -> nth_error (b_rules c) j = Some s ->
  (exists r0, @rule_load f64 (F64Scalar P) (engine_env (e_inputs e) (e_outputs e)) (rl_text r) r0 = (r, Ok tt)) -> s = r.
Proof. intros P d library named e text f i j b c r s F D L. exact (java_rules P d library named F D L e text f i j b c r s). Qed.
Print Assumptions C92_rules.
(** without formulas, and if every rule can be loaded, the code compiles and builds an engine *)
Theorem C92_succeeds : forall P d library named e, fine_tolerance P d -> d <> 0%nat -> one_line library -> fit P named e -> no_functions e -> @rules_load f64 (F64Scalar P) e ->
  exists text f, exported P d library named e = Ok text /\ run P text = Ok f.
Proof. intros P d library named e F D L. exact (java_succeeds P d library named F D L e). Qed.
Print Assumptions C92_succeeds.
(** the code in Java and the code in C++ build the same engine, or fail alike *)
Theorem C92_cpp : forall P d library named e text text', fine_tolerance P d -> d <> 0%nat -> one_line library -> fit P named e ->
  exported P d library named e = Ok text -> @cpp_export f64 (F64Scalar P) d library false named e = Ok text' -> run P text = @run_cpp f64 (F64Scalar P) text'.
Proof. intros P d library named e text text' F D L. exact (java_cpp P d library named F D L e text text'). Qed.
Print Assumptions C92_cpp.
(** exporting the engine built by the code gives code which builds exactly that engine *)
Theorem C92_again : forall P d library named e text f, fine_tolerance P d -> d <> 0%nat -> one_line library -> fit P named e ->
  exported P d library named e = Ok text -> run P text = Ok f -> exists again, exported P d library named f = Ok again /\ run P again = Ok f.
Proof. intros P d library named e text f F D L. exact (java_again P d library named F D L e text f). Qed.
Print Assumptions C92_again.
(** also in C++ *)
Theorem C82_again : forall P d library namespaced named e text f, fine_tolerance P d -> d <> 0%nat -> one_line library -> @expressible f64 (F64Scalar P) namespaced named e ->
  @cpp_export f64 (F64Scalar P) d library namespaced named e = Ok text -> @run_cpp f64 (F64Scalar P) text = Ok f ->
  exists again, @cpp_export f64 (F64Scalar P) d library namespaced named f = Ok again /\ @run_cpp f64 (F64Scalar P) again = Ok f.
Proof. intros P d library namespaced named e text f F D L. exact (code_again P d library named F D L namespaced e text f). Qed.
Print Assumptions C82_again.
(** but the code can be another: a height printed as 1 is left out the next time *)
Theorem C92_text_refuted : exists (e f : engine f64) text again, java_expressible true e /\ exported fp_default 3 "fuzzylite" true e = Ok text /\ run fp_default text = Ok f /\
  exported fp_default 3 "fuzzylite" true f = Ok again /\ text <> again.
Proof. destruct text_changes as (text & again & f & Q). exists almost_engine, f, text, again. exact (conj (almost_expressible true) Q). Qed.
Print Assumptions C92_text_refuted.
(** texts are not escaped: code with a quotation mark in a name does not compile *)
Theorem C92_quotes_refuted : exists e : engine f64, (exists text, exported fp_default 3 "fuzzylite" true e = Ok text) /\
  (do text <- exported fp_default 3 "fuzzylite" true e; run fp_default text) = Throw ESyntax.
Proof. exists said. exact java_quotes. Qed.
Print Assumptions C92_quotes_refuted.
(** infinity is Double.POSITIVE_INFINITY in ranges, but "inf" in terms, which does not compile *)
Theorem C92_infinite_refuted : exists e e' : engine f64, (exists f, (do text <- exported fp_default 3 "fuzzylite" true e; run fp_default text) = Ok f) /\
  (exists text, exported fp_default 3 "fuzzylite" true e' = Ok text) /\ (do text <- exported fp_default 3 "fuzzylite" true e'; run fp_default text) = Throw ESyntax.
Proof. exists (infinite_engine s_inf (q 1 1)), (infinite_engine (q 1 1) s_inf). exact java_infinite. Qed.
Print Assumptions C92_infinite_refuted.
(** names used twice, and names which are keywords of Java but not of C++: the code does not compile *)
Theorem C92_names_refuted : exists e e' : engine f64, (do text <- exported fp_default 3 "fuzzylite" true e; run fp_default text) = Throw ESyntax /\
  (exists f, (do text <- exported fp_default 3 "fuzzylite" false e; run fp_default text) = Ok f) /\
  (do text <- exported fp_default 3 "fuzzylite" true e'; run fp_default text) = Throw ESyntax /\
  exists f, (do text <- @cpp_export f64 (F64Scalar fp_default) 3 "fuzzylite" false true e'; @run_cpp f64 (F64Scalar fp_default) text) = Ok f.
Proof. exists twice_engine, final_engine. exact java_names_break. Qed.
Print Assumptions C92_names_refuted.
(** heights of Discrete terms are lost *)
Theorem C92_height_refuted : exists e : engine f64, existsb (fun v => existsb (fun t => Beqb (tm_height t) (q 1 2)) (v_terms v)) (e_inputs e) = true /\
  exists f, (do text <- exported fp_default 3 "fuzzylite" true e; run fp_default text) = Ok f /\ forallb (fun v => forallb (fun t => Beqb (tm_height t) (q 1 1)) (v_terms v)) (e_inputs f) = true.
Proof. exists half_engine. exact java_height. Qed.
Print Assumptions C92_height_refuted.
(** disabled rules are enabled *)
Theorem C92_rules_refuted : exists e : engine f64, existsb (fun b => existsb (fun r => negb (rl_enabled r)) (b_rules b)) (e_blocks e) = true /\
  exists f, (do text <- exported fp_default 3 "fuzzylite" true e; run fp_default text) = Ok f /\ forallb (fun b => forallb (fun r => rl_enabled r) (b_rules b)) (e_blocks f) = true.
Proof. exists lazy_heater. exact java_enabled. Qed.
Print Assumptions C92_rules_refuted.
Example C92_case : java_expressible true my_heater /\ java_expressible false my_heater /\ activations_given my_heater /\ no_functions my_heater /\ rules_load my_heater /\
  exported fp_default 3 "fuzzylite" true my_heater = Ok (quote_lines heater_java) /\
  passes (fun f => String.eqb (e_name f) "my heater" && Nat.eqb (List.length (e_inputs f)) 1 && Nat.eqb (List.length (e_outputs f)) 1 && forallb (fun b => Nat.eqb (List.length (b_rules b)) 2) (e_blocks f))%bool (run fp_default (quote_lines heater_java)) = true /\
  passes (fun f => Nat.eqb (List.length (e_inputs f)) 1) (do text <- exported fp_default 3 "fuzzylite" false my_heater; run fp_default text) = true.
Proof. exact heater_java_case. Qed.
