(** C80: Mamdani engines with straight-line terms, in double precision, against the documentation over the reals. *)
From Coq Require Import ZArith Reals String Bool List Lia Lra.
From Coquelicot Require Import Coquelicot.
From Flocq Require Import Core BinarySingleNaN.
From Verif Require Import Base Op XR F64 F64Arith F64Err Shape Norm Hedge Defuzz Aggregated Rule Var Activation Engine SpecTerm SpecActivation SpecEngine SpecInfer SpecDefuzz SpecRound SpecMamdani SpecLimit
  F64Sum LimitProofs LimitMamdani FisF64 ShapeF64 MamdaniF64 EngineF64 ActivationProofs3 MamdaniCase.
Import ListNotations.
Local Open Scope R_scope.

(** * C80 *)
(** Triangle, Trapezoid and Ramp: memberships as computed against memberships as documented *)
Theorem C80_shape : forall (P : fparam) (s : shape f64) (h x : f64) w, is_finite (fp_eps P) = true -> 0 <= B2R (fp_eps P) <= w -> bpow radix2 (-1075) <= w ->
  line_term w (mkTerm "" h (TShape s)) -> is_finite x = true -> Rabs (B2R x) <= bpow radix2 300 ->
  is_finite (@sh_membership f64 (F64Scalar P) s h x) = true /\
  Rabs (B2R (@sh_membership f64 (F64Scalar P) s h x) - doc_membership (shape_map B2R s) (B2R h) (B2R x)) <= shape_error (B2R h) w (B2R (fp_eps P)).
Proof. exact shape_total. Qed.
Print Assumptions C80_shape.
(** defuzzify() with Centroid and Maximum: the value of an output variable against the center of gravity of the documented terms cut off at the degrees *)
Theorem C80_value : forall (P : fparam) vw (o : output f64) n X w, is_finite (fp_eps P) = true /\ 0 <= B2R (fp_eps P) <= w -> bpow radix2 (-1075) <= w ->
  let a := v_minimum (o_var o) in let b := v_maximum (o_var o) in within X a -> within X b -> B2R a < B2R b -> X <= bpow radix2 300 -> (1 <= n)%nat -> (Z.of_nat n < 2 ^ 46)%Z ->
  o_aggregation o = Some Maximum -> (forall c, In c (o_fuzzy o) -> cut_off 1 c /\ exists t, nth_error (v_terms (o_var o)) (ac_term c) = Some t /\ line_term w t) ->
  v_enabled (o_var o) = true -> o_defuzzifier o = Some (DIntegral Centroid (Z.of_nat n)) ->
  let f := mamdani_set (documented (v_terms (o_var o))) (o_fuzzy o) in let delta := shape_error 1 w (B2R (fp_eps P)) + sample_error (INR n) X / w in
  let d := B2R b - B2R a in let A := area f (B2R a) (B2R b) in
  0 < A / d - 1 / w * d / (2 * INR n) - delta ->
  let v := v_value (o_var (fst (@defuzzify f64 (F64Scalar P) vw o))) in snd (@defuzzify f64 (F64Scalar P) vw o) = Ok tt /\ is_finite v = true /\
  Rabs (B2R v - gravity f (B2R a) (B2R b)) <= gravity_error (INR n) d X A (1 / w) delta.
Proof. exact value_close. Qed.
Print Assumptions C80_value.
(** process(): the value of an output variable against the center of gravity of what the rules say over the reals *)
Theorem C80_engine : forall (P : fparam) drain (e e' : engine f64) j o p n k X w, is_finite (fp_eps P) = true /\ 0 <= B2R (fp_eps P) <= w -> bpow radix2 (-1075) <= w -> (Z.of_nat k < 2 ^ 46)%Z ->
  line_engine e w k j (v_terms (o_var o)) -> @process f64 (F64Scalar P) drain e = (e', Ok tt) -> nth_error (e_outputs e) j = Some o -> nth_error (e_outputs e') j = Some p ->
  v_enabled (o_var o) = true -> o_aggregation o = Some Maximum -> o_defuzzifier o = Some (DIntegral Centroid (Z.of_nat n)) -> (1 <= n)%nat -> (Z.of_nat n < 2 ^ 46)%Z ->
  let a := v_minimum (o_var o) in let b := v_maximum (o_var o) in within X a -> within X b -> B2R a < B2R b -> X <= bpow radix2 300 ->
  let f := conclusion_set e (v_terms (o_var o)) j in let delta := shape_error 1 w (B2R (fp_eps P)) + sample_error (INR n) X / w + degree_error (INR k) w (B2R (fp_eps P)) in
  let d := B2R b - B2R a in let A := area f (B2R a) (B2R b) in
  0 < A / d - 1 / w * d / (2 * INR n) - delta ->
  is_finite (v_value (o_var p)) = true /\ Rabs (B2R (v_value (o_var p)) - gravity f (B2R a) (B2R b)) <= gravity_error (INR n) d X A (1 / w) delta.
Proof. exact engine_close. Qed.
Print Assumptions C80_engine.

(** a Triangle in which decimals are not exact *)
Example C80_case_shape : let h := f64_lit 1 1 in let m := @sh_membership f64 (F64Scalar fp_default) (Triangle (f64_lit 0 1) (f64_lit 5 1) (f64_lit 10 1)) h (f64_lit 3 1) in
  is_finite m = true /\ Rabs (B2R m - 3 / 5) <= / 1000000.
Proof. exact case_shape. Qed.
(** two rules on one input: if x is up then y is up; if x is not up and x is up then y is up with 0.5, for x = 5 and terms which rise from 0 to 10 *)
Example C80_case_engine : exists e' p, @process f64 (F64Scalar fp_default) (@stable_drain f64) line_case = (e', Ok tt) /\ e_outputs e' = [p] /\
  is_finite (v_value (o_var p)) = true /\ Rabs (B2R (v_value (o_var p)) - 55 / 9) <= 27 / 1000.
Proof. exact case_engine. Qed.
Example C80_case_value : let v := v_value (o_var (fst (@defuzzify f64 (F64Scalar fp_default) case_view case_output))) in is_finite v = true /\ Rabs (B2R v - 55 / 9) <= 27 / 1000.
Proof. exact case_value. Qed.
