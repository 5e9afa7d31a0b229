(** C82, C92: engines rebuilt exactly by generated code. *)
From Coq Require Import ZArith String List Bool.
From Verif Require Import Base Op F64 F64Arith Rule Var Activation Engine Fll SpecFll FllF64 FllBundle Cpp SpecCpp Java SpecJava SpecExact CppExact.
Import ListNotations.
Local Open Scope string_scope.
#[local] Hint Extern 9 (Scalar _) => exact (F64Scalar fp_default) : typeclass_instances.

(** numbers which the decimals suffice for, rules as loaded from their texts, no results of earlier steps: the code builds the very same engine, so it computes the same from any inputs *)
Theorem C82_exact : forall P d library namespaced named e, fine_tolerance P d -> d <> 0%nat -> one_line library -> @expressible f64 (F64Scalar P) namespaced named e -> @exact_engine f64 (F64Scalar P) d e ->
  exists text, @cpp_export f64 (F64Scalar P) d library namespaced named e = Ok text /\ @run_cpp f64 (F64Scalar P) text = Ok e.
Proof. intros P d library namespaced named e F D L. exact (code_exact P d library named F D L namespaced e). Qed.
Print Assumptions C82_exact.
Theorem C92_exact : forall P d library named e, fine_tolerance P d -> d <> 0%nat -> one_line library -> @java_expressible f64 (F64Scalar P) named e -> @exact_engine f64 (F64Scalar P) d e ->
  exists text, @java_export f64 (F64Scalar P) d library named e = Ok text /\ @run_java f64 (F64Scalar P) text = Ok e.
Proof. intros P d library named e F D L. exact (java_exact P d library named F D L e). Qed.
Print Assumptions C92_exact.
Example C92_exact_case : fine_tolerance fp_default 3 /\ java_expressible true boiler /\ java_expressible false boiler /\ exact_engine 3 boiler.
Proof. exact (conj default_fine (conj (boiler_expressible true) (conj (boiler_expressible false) boiler_exact))). Qed.
