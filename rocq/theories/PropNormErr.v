(** C87: norms and hedges in double precision against their documented formulas. *)
From Coq Require Import ZArith Reals Bool Lra.
From Flocq Require Import Core BinarySingleNaN.
From Verif Require Import Base Op F64 F64Arith Norm Hedge SpecNorm SpecRound SpecNormErr NormSpec NormErr HedgeErr NormF64 NormErrCase.
Local Open Scope R_scope.

(** * C87 *)
Theorem C87_tnorms : forall (P : fparam) (a b : f64), fdegree a -> fdegree b -> forall n, even_tnorm n -> is_finite (fp_eps P) = true -> 0 <= B2R (fp_eps P) ->
  fdegree (@tnorm_compute f64 (F64Scalar P) n a b) /\ Rabs (B2R (@tnorm_compute f64 (F64Scalar P) n a b) - t_formula (tname_of n) (B2R a) (B2R b)) <= tnorm_error n (B2R (fp_eps P)).
Proof. exact t_round. Qed.
Print Assumptions C87_tnorms.
Theorem C87_snorms : forall (P : fparam) (a b : f64), fdegree a -> fdegree b -> forall n, even_snorm n ->
  fdegree (@snorm_compute f64 (F64Scalar P) n a b) /\ Rabs (B2R (@snorm_compute f64 (F64Scalar P) n a b) - s_formula (sname_of n) (B2R a) (B2R b)) <= snorm_error n.
Proof. exact s_round. Qed.
Print Assumptions C87_snorms.
Theorem C87_unbounded_sum : forall (P : fparam) (a b : f64), fdegree a -> fdegree b -> Rabs (B2R (@snorm_compute f64 (F64Scalar P) UnboundedSum a b) - (B2R a + B2R b)) <= u64.
Proof. exact unbounded_round. Qed.
Print Assumptions C87_unbounded_sum.
(** norms with jumps are exact away from these *)
Theorem C87_jumps : forall (P : fparam) (a b : f64), fdegree a -> fdegree b -> is_finite (fp_eps P) = true -> 0 <= B2R (fp_eps P) ->
  (forall n, off_jump_t n (B2R (fp_eps P)) (B2R a) (B2R b) -> B2R (@tnorm_compute f64 (F64Scalar P) n a b) = t_formula (tname_of n) (B2R a) (B2R b)) /\
  (forall n, off_jump_s n (B2R (fp_eps P)) (B2R a) (B2R b) -> B2R (@snorm_compute f64 (F64Scalar P) n a b) = s_formula (sname_of n) (B2R a) (B2R b)).
Proof. exact jumps. Qed.
Print Assumptions C87_jumps.
Theorem C87_hedges : forall (P : fparam), is_finite (fp_eps P) = true -> 0 <= B2R (fp_eps P) <= 1 / 8 -> forall x : f64, fdegree x -> forall h,
  fdegree (@hedge_apply f64 (F64Scalar P) h x) /\ Rabs (B2R (@hedge_apply f64 (F64Scalar P) h x) - h_formula (hname_of h) (B2R x)) <= hedge_error h (B2R (fp_eps P)).
Proof. exact hedge_round. Qed.
Print Assumptions C87_hedges.
(** errors of the arguments add up and no more *)
Theorem C87_steady : forall a b a' b', 0 <= a <= 1 -> 0 <= b <= 1 -> 0 <= a' <= 1 -> 0 <= b' <= 1 ->
  (forall n, even_tnorm n -> Rabs (t_formula (tname_of n) a b - t_formula (tname_of n) a' b') <= Rabs (a - a') + Rabs (b - b')) /\
  (forall n, even_snorm n -> Rabs (s_formula (sname_of n) a b - s_formula (sname_of n) a' b') <= Rabs (a - a') + Rabs (b - b')).
Proof. exact steady. Qed.
Print Assumptions C87_steady.
(** at the jumps no bound holds: the degrees 1 and 0.9999999, which the tolerance does not tell apart, have the DrasticProduct 0.5 with 0.5 instead of 0 *)
Theorem C87_jump_refuted : exists a b : f64, fdegree a /\ fdegree b /\ Rabs (B2R (@tnorm_compute f64 (F64Scalar fp_default) DrasticProduct a b) - t_formula TDrasticProduct (B2R a) (B2R b)) >= 1 / 2.
Proof. exact jump_refuted. Qed.
Print Assumptions C87_jump_refuted.

(** 0.1 and 0.7 are not exact *)
Example C87_case : let a := f64_lit 1 10 in let b := f64_lit 7 10 in fdegree a /\ fdegree b /\
  Rabs (B2R (@tnorm_compute f64 (F64Scalar fp_default) EinsteinProduct a b) - 7 / 127) <= / 1000000 /\ off_jump_s NilpotentMaximum (B2R (fp_eps fp_default)) (B2R a) (B2R b) /\
  Rabs (B2R (@hedge_apply f64 (F64Scalar fp_default) Seldom a) - sqrt (B2R a / 2)) <= / 100000.
Proof. exact err_case. Qed.
