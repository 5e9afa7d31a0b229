(** What is expected of outputs whose terms are united by the maximum. *)
From Coq Require Import ZArith String List Bool Permutation.
From Verif Require Import Base Op Norm Shape Discrete Defuzz Aggregated Function Rule Var Activation Engine.
Import ListNotations.

Section Spec.
Context {T : Type} `{S : Scalar T}.
(** an output of which the terms are united by the maximum and defuzzified by an integral defuzzifier *)
Definition united (o : output T) : Prop :=
  v_enabled (o_var o) = true -> o_aggregation o = Some Maximum /\ exists k n, o_defuzzifier o = Some (DIntegral k n).
(** the same output, value and all, up to the order of its activated terms *)
Definition but_fuzzy (a b : output T) : Prop := b = set_fuzzy (o_fuzzy b) a /\ Permutation (o_fuzzy a) (o_fuzzy b).
End Spec.
