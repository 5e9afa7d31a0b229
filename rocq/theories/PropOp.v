(** C01, C02: comparisons with tolerance, min, max and bound, over all binary64 values
    (every tolerance, NaN, infinities, both zeros). *)
From Coq Require Import ZArith Reals Bool Lra.
From Flocq Require Import Core BinarySingleNaN.
From Verif Require Import Base Op XR XRFacts F64 F64Facts OpProofs OpProofs2.
Local Open Scope R_scope.

Section C01.
Context (P : fparam).
#[local] Hint Extern 0 (Scalar f64) => exact (F64Scalar P) : typeclass_instances.


(** C01, binary64.  The verdicts (lt, eq, gt) are consistent for every pair and every tolerance. *)
Theorem C01_tolerant_comparisons : forall t a b : f64,
  isLE_tol t a b = isLt_tol t a b || isEq_tol t a b /\
  isGE_tol t a b = isGt_tol t a b || isEq_tol t a b /\
  (is_nan a = false -> is_nan b = false ->
     (isLt_tol t a b, isEq_tol t a b, isGt_tol t a b) = (true, false, false) \/
     (isLt_tol t a b, isEq_tol t a b, isGt_tol t a b) = (false, true, false) \/
     (isLt_tol t a b, isEq_tol t a b, isGt_tol t a b) = (false, false, true)) /\
  (is_nan a <> is_nan b ->
     isLt_tol t a b = false /\ isEq_tol t a b = false /\ isGt_tol t a b = false /\
     isLE_tol t a b = false /\ isGE_tol t a b = false) /\
  isEq_tol t a a = true /\
  isEq_tol t a b = isEq_tol t b a /\
  isLt_tol t a b = isGt_tol t b a /\
  isLE_tol t a b = isGE_tol t b a.
Proof. exact (C01_main P). Qed.
End C01.
Print Assumptions C01_tolerant_comparisons.

(** C01, meaning of the tolerance on real numbers (exact arithmetic): equal up to less than the tolerance;
    strictly less by at least the tolerance. *)
Theorem C01_tolerance_meaning : forall (P : xparam) (a b : R), 0 <= xp_eps P ->
  (@isEq xr (XRScalar P) (XFin a) (XFin b) = true <-> a = b \/ Rabs (a - b) < xp_eps P) /\
  (@isLt xr (XRScalar P) (XFin a) (XFin b) = true <-> a < b /\ xp_eps P <= b - a) /\
  (@isGt xr (XRScalar P) (XFin a) (XFin b) = true <-> b < a /\ xp_eps P <= a - b) /\
  (@isLE xr (XRScalar P) (XFin a) (XFin b) = true <-> a <= b \/ a - b < xp_eps P) /\
  (@isGE xr (XRScalar P) (XFin a) (XFin b) = true <-> b <= a \/ b - a < xp_eps P).
Proof. exact C01_meaning. Qed.
Print Assumptions C01_tolerance_meaning.

(** non-vacuity: 1 and 1 + 2^-52 are equal at the default tolerance, 1 and 2 are not *)
Example C01_case :
  @isEq f64 (F64Scalar fp_default) (f64_lit 1 1) (Bsucc (f64_lit 1 1)) = true /\
  Beqb (f64_lit 1 1) (Bsucc (f64_lit 1 1)) = false /\
  @isLt f64 (F64Scalar fp_default) (f64_lit 1 1) (f64_lit 2 1) = true /\
  @isEq f64 (F64Scalar fp_default) B754_nan B754_nan = true.
Proof. vm_compute. auto. Qed.

Section C02.
Context (P : fparam).
#[local] Hint Extern 0 (Scalar f64) => exact (F64Scalar P) : typeclass_instances.

(** C02.  [veq] identifies +0 and -0 (and NaN with NaN). *)
Definition veq (x y : f64) : Prop := (is_nan x = true /\ is_nan y = true) \/ Beqb x y = true.

Theorem C02_min_max : forall a b c : f64,
  is_nan (op_min a b) = is_nan a || is_nan b /\
  is_nan (op_max a b) = is_nan a || is_nan b /\
  (is_nan a = false -> is_nan b = false ->
     (op_min a b = a \/ op_min a b = b) /\ Bleb (op_min a b) a = true /\ Bleb (op_min a b) b = true /\
     (op_max a b = a \/ op_max a b = b) /\ Bleb a (op_max a b) = true /\ Bleb b (op_max a b) = true) /\
  veq (op_min a b) (op_min b a) /\ veq (op_max a b) (op_max b a) /\
  veq (op_min (op_min a b) c) (op_min a (op_min b c)) /\
  veq (op_max (op_max a b) c) (op_max a (op_max b c)) /\
  veq (op_min a a) a /\ veq (op_max a a) a.
Proof. exact (C02_min_max_main P). Qed.

Theorem C02_bound : forall x lo hi : f64, Bleb lo hi = true ->
  (is_nan x = true -> is_nan (bound x lo hi) = true) /\
  (is_nan x = false -> Bleb lo (bound x lo hi) = true /\ Bleb (bound x lo hi) hi = true) /\
  (Bleb lo x = true -> Bleb x hi = true -> bound x lo hi = x) /\
  (Bltb x lo = true -> bound x lo hi = lo) /\
  (Bltb hi x = true -> bound x lo hi = hi) /\
  bound (bound x lo hi) lo hi = bound x lo hi.
Proof. exact (C02_bound_main P). Qed.
End C02.
Print Assumptions C02_min_max.
Print Assumptions C02_bound.

Example C02_case : exists x lo hi : f64, Bleb lo hi = true /\ Bltb x lo = true /\
  bound (S := F64Scalar fp_default) x lo hi = lo.
Proof. exists (f64_lit (-3) 2), (f64_lit 0 1), (f64_lit 1 1). vm_compute. auto. Qed.
