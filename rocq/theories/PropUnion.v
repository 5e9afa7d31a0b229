(** C51: the order of rules in binary64. *)
From Coq Require Import ZArith String List Bool Permutation Reals.
From Flocq Require Import IEEE754.BinarySingleNaN.
From Verif Require Import Base Op XR F64 F64Arith Norm Shape Discrete Defuzz Aggregated Function FunctionTable Rule Var Activation Engine
  SpecText SpecRule SpecVar SpecActivation SpecEngine SpecUnion ActivationProofs3 VarProofs EngineProofs EngineProofs2 EngineProofs3 EngineReady EngineProofs4 EngineBundle MaxOrder PropEngine.
Import ListNotations.
Local Open Scope string_scope.
#[local] Hint Extern 9 (Scalar _) => exact (F64Scalar fp_default) : typeclass_instances.

(** * C51: Maximum *)
Theorem C51_maximum : forall (P : fparam) drain (e : engine f64) bs, Forall order_free (e_blocks e) -> Forall2 reordered_block (e_blocks e) bs -> Forall united (e_outputs e) ->
  snd (@process f64 (F64Scalar P) drain e) = Ok tt ->
  snd (@process f64 (F64Scalar P) drain (reorder e bs)) = Ok tt /\
  Forall2 but_fuzzy (e_outputs (fst (@process f64 (F64Scalar P) drain e))) (e_outputs (fst (@process f64 (F64Scalar P) drain (reorder e bs)))).
Proof. exact united_values. Qed.
Print Assumptions C51_maximum.
Example C51_maximum_case : Forall order_free (e_blocks sample) /\ Forall2 reordered_block (e_blocks sample) [sample_block (rev texts)] /\
  Forall united (e_outputs sample) /\ snd (process stable_drain sample) = Ok tt /\
  all_equal (values (processed (reorder sample [sample_block (rev texts)]))) [s_div (f64_lit 5 1) (f64_lit 12 1)] = true.
Proof.
  split; [exact (proj1 C51_case)|]. split; [exact (proj1 (proj2 C51_case))|]. split.
  - constructor; [|constructor]. intros _. split; [reflexivity|]. exists Centroid, 4%Z. reflexivity.
  - vm_compute. auto.
Qed.

(** ** outputs whose terms are added: 0.1 + 0.2 + 0.3 exceeds 0.6, but 0.3 + 0.2 + 0.1 does not *)
Definition tenths : list (term f64) :=
  let left := TShape (Rectangle (f64_lit 0 1) (f64_lit 1 2)) in let right := TShape (Rectangle (f64_lit 1 2) (f64_lit 1 1)) in
  [mkTerm "a" (f64_lit 1 1) left; mkTerm "b" (f64_lit 1 1) left; mkTerm "c" (f64_lit 1 1) left; mkTerm "d" (f64_lit 1 1) right].
Definition adding : output f64 :=
  mkOutput (mkVariable "y" "" s_nan (f64_lit 0 1) (f64_lit 1 1) true true tenths) [] (Some UnboundedSum) (Some (DIntegral LargestOfMaximum 2)) s_nan s_nan false.
Definition zero_var : variable f64 := set_value (f64_lit 0 1) x_var.
Definition adding_rules : list string :=
  ["if x is low then y is a with 0.1"; "if x is low then y is b with 0.2"; "if x is low then y is c with 0.3"; "if x is low then y is d with 0.6"].
Definition loaded_rules : list (rule f64) :=
  fst (load_rules (engine_env [zero_var] [adding]) (map (fun t => mkRule true t (f64_lit 1 1) (f64_lit 0 1) false "" None "" []) adding_rules)).
Definition adding_block (rules : list (rule f64)) : block f64 := mkBlock true "" "" rules (Some Minimum) None (Some AlgebraicProduct) (Some General).
Definition adding_engine : engine f64 := mkEngine "adding" "" [zero_var] [adding] [adding_block loaded_rules].
(** the largest of the maxima moves from one half of the range to the other *)
Theorem C51_sum_refuted : exists (e : engine f64) bs, Forall order_free (e_blocks e) /\ Forall2 reordered_block (e_blocks e) bs /\
  snd (process stable_drain e) = Ok tt /\ snd (process stable_drain (reorder e bs)) = Ok tt /\
  all_equal (values (processed e)) [f64_lit 1 4] = true /\ all_equal (values (processed (reorder e bs))) [f64_lit 3 4] = true.
Proof.
  exists adding_engine, [adding_block (rev loaded_rules)]. split; [|split; [|vm_compute; auto 10]].
  - constructor; [|constructor]. intros _. split; [reflexivity|]. apply reads_inputs_only. vm_compute. reflexivity.
  - constructor; [|constructor]. repeat split.
    apply Permutation_rev.
Qed.
Print Assumptions C51_sum_refuted.
