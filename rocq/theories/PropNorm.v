(** C03-C07, C69: norms. *)
From Coq Require Import ZArith Reals Bool Lra.
From Flocq Require Import Core BinarySingleNaN.
From Verif Require Import Base Op XR F64 F64Facts F64Arith Norm NormAlg SpecNorm NormProofs NormF64 NormSpec NormBundle Hedge.
Local Open Scope R_scope.

(** * C03: T-norm axioms (exact reals; [xp_eps P] is the comparison tolerance of the library) *)

(** With exact comparisons every registered T-norm is a triangular norm; with any tolerance up to 1 so is every
    registered T-norm other than NilpotentMinimum and HamacherProduct. *)
Theorem C03_tnorm_axioms : forall (P : xparam) (n : tnorm),
  0 <= xp_eps P <= 1 ->
  xp_eps P = 0 \/ (n <> NilpotentMinimum /\ n <> HamacherProduct) ->
  is_tnorm (@tnorm_compute xr (XRScalar P) n).
Proof. exact tnorm_axioms. Qed.
Print Assumptions C03_tnorm_axioms.

(** What holds of all of them at any tolerance: everything but the identity for degrees below the
    tolerance (NilpotentMinimum) and associativity (HamacherProduct). *)
Theorem C03_tnorm_axioms_tolerance : forall (P : xparam) (n : tnorm),
  0 <= xp_eps P <= 1 ->
  let T := @tnorm_compute xr (XRScalar P) n in
  (forall a b, degree a -> degree b -> degree (T a b)) /\
  (forall a b, degree a -> degree b -> T a b = T b a) /\
  (forall a a' b b', degree a -> degree a' -> degree b -> degree b' ->
     fle a a' -> fle b b' -> fle (T a b) (T a' b')) /\
  (forall a, degree a -> T a (XFin 0) = XFin 0) /\
  (forall r, 0 <= r <= 1 -> r = 0 \/ xp_eps P <= r -> T (XFin r) (XFin 1) = XFin r) /\
  (n <> HamacherProduct -> forall a b c, degree a -> degree b -> degree c -> T (T a b) c = T a (T b c)).
Proof. exact tnorm_weak. Qed.
Print Assumptions C03_tnorm_axioms_tolerance.

(** The two exceptions are real at the default tolerance 1e-6. *)
Theorem C03_nilpotent_identity_refuted :
  exists a, degree a /\ @tnorm_compute xr (XRScalar xp_default) NilpotentMinimum a (XFin 1) <> a.
Proof. exact nilpotent_min_refuted. Qed.
Print Assumptions C03_nilpotent_identity_refuted.
Theorem C03_hamacher_associativity_refuted :
  exists a b c, degree a /\ degree b /\ degree c /\
    @tnorm_compute xr (XRScalar xp_default) HamacherProduct (@tnorm_compute xr (XRScalar xp_default) HamacherProduct a b) c
    <> @tnorm_compute xr (XRScalar xp_default) HamacherProduct a (@tnorm_compute xr (XRScalar xp_default) HamacherProduct b c).
Proof. exact hamacher_assoc_refuted. Qed.
Print Assumptions C03_hamacher_associativity_refuted.

Example C03_case : 0 <= xp_eps xp_default <= 1 /\ degree (XFin (1/3)) /\
  @tnorm_compute xr (XRScalar xp_default) AlgebraicProduct (XFin (1/3)) (XFin (1/2)) = XFin (1/6).
Proof. simpl. repeat split; try lra. - exists (1/3); split; auto; lra. - f_equal; lra. Qed.

(** * C04: S-norm axioms *)
Theorem C04_snorm_axioms : forall (P : xparam) (n : snorm),
  0 <= xp_eps P <= 1 -> n <> UnboundedSum ->
  xp_eps P = 0 \/ (n <> NilpotentMaximum /\ n <> HamacherSum) ->
  is_snorm (@snorm_compute xr (XRScalar P) n).
Proof. exact snorm_axioms. Qed.
Print Assumptions C04_snorm_axioms.

Theorem C04_snorm_axioms_tolerance : forall (P : xparam) (n : snorm),
  0 <= xp_eps P <= 1 -> n <> UnboundedSum ->
  let S := @snorm_compute xr (XRScalar P) n in
  (forall a b, degree a -> degree b -> degree (S a b)) /\
  (forall a b, degree a -> degree b -> S a b = S b a) /\
  (forall a a' b b', degree a -> degree a' -> degree b -> degree b' ->
     fle a a' -> fle b b' -> fle (S a b) (S a' b')) /\
  (forall a, degree a -> S a (XFin 1) = XFin 1) /\
  (forall r, 0 <= r <= 1 -> r = 1 \/ r + xp_eps P <= 1 -> S (XFin r) (XFin 0) = XFin r) /\
  (n <> HamacherSum -> forall a b c, degree a -> degree b -> degree c -> S (S a b) c = S a (S b c)).
Proof. exact snorm_weak. Qed.
Print Assumptions C04_snorm_axioms_tolerance.

(** UnboundedSum: all but the upper bound (and then no annihilator), on all nonnegative numbers *)
Theorem C04_unbounded_sum : forall (P : xparam),
  let S := @snorm_compute xr (XRScalar P) UnboundedSum in
  (forall a b, S a b = S b a) /\
  (forall a b c, 0 <= a -> 0 <= b -> 0 <= c -> S (S (XFin a) (XFin b)) (XFin c) = S (XFin a) (S (XFin b) (XFin c))) /\
  (forall r, S (XFin r) (XFin 0) = XFin r) /\
  (forall a a' b b', a <= a' -> b <= b' -> fle (S (XFin a) (XFin b)) (S (XFin a') (XFin b'))).
Proof. exact unbounded_sum_axioms. Qed.
Print Assumptions C04_unbounded_sum.

Theorem C04_nilpotent_identity_refuted :
  exists a, degree a /\ @snorm_compute xr (XRScalar xp_default) NilpotentMaximum a (XFin 0) <> a.
Proof. exact nilpotent_max_refuted. Qed.
Print Assumptions C04_nilpotent_identity_refuted.

(** NormalizedSum is BoundedSum on degrees *)
Theorem C04_normalized_is_bounded : forall (P : xparam) a b, degree a -> degree b ->
  @snorm_compute xr (XRScalar P) NormalizedSum a b = @snorm_compute xr (XRScalar P) BoundedSum a b.
Proof. exact normalized_bounded. Qed.
Print Assumptions C04_normalized_is_bounded.

Example C04_case : @snorm_compute xr (XRScalar xp_default) AlgebraicSum (XFin (1/3)) (XFin (1/2)) = XFin (2/3).
Proof. simpl. f_equal; lra. Qed.

(** * C05: De Morgan duality *)
Definition duals : list (tnorm * snorm) :=
  ((AlgebraicProduct, AlgebraicSum) :: (BoundedDifference, BoundedSum) :: (DrasticProduct, DrasticSum) ::
   (EinsteinProduct, EinsteinSum) :: (HamacherProduct, HamacherSum) :: (Minimum, Maximum) ::
   (NilpotentMinimum, NilpotentMaximum) :: nil)%list.

Theorem C05_de_morgan : forall (P : xparam) t s a b,
  List.In (t, s) duals -> (t = HamacherProduct -> xp_eps P = 0) -> degree a -> degree b ->
  @snorm_compute xr (XRScalar P) s a b = compl (@tnorm_compute xr (XRScalar P) t (compl a) (compl b)).
Proof. exact demorgan_pairs. Qed.
Print Assumptions C05_de_morgan.

Theorem C05_hamacher_refuted : exists a b, degree a /\ degree b /\
  @snorm_compute xr (XRScalar xp_default) HamacherSum a b
  <> compl (@tnorm_compute xr (XRScalar xp_default) HamacherProduct (compl a) (compl b)).
Proof. exact hamacher_duality_refuted. Qed.
Print Assumptions C05_hamacher_refuted.

Example C05_case : List.In (EinsteinProduct, EinsteinSum) duals /\ degree (XFin (1/4)).
Proof. split; [simpl; tauto|exists (1/4); split; auto; lra]. Qed.

(** * C06: ordering of norms *)
Theorem C06_lattice_bounds : forall (P : xparam) a b, degree a -> degree b ->
  (forall n, fle (@tnorm_compute xr (XRScalar P) n a b) (@tnorm_compute xr (XRScalar P) Minimum a b)) /\
  (forall n, fle (@snorm_compute xr (XRScalar P) Maximum a b) (@snorm_compute xr (XRScalar P) n a b)).
Proof. exact lattice_bounds. Qed.
Print Assumptions C06_lattice_bounds.

Theorem C06_drastic_bounds : forall (P : xparam) a b, xp_eps P = 0 -> degree a -> degree b ->
  (forall n, fle (@tnorm_compute xr (XRScalar P) DrasticProduct a b) (@tnorm_compute xr (XRScalar P) n a b)) /\
  (forall n, n <> UnboundedSum ->
     fle (@snorm_compute xr (XRScalar P) n a b) (@snorm_compute xr (XRScalar P) DrasticSum a b)).
Proof. exact drastic_bounds. Qed.
Print Assumptions C06_drastic_bounds.

(** at the default tolerance DrasticProduct exceeds AlgebraicProduct close to 1 *)
Theorem C06_drastic_tolerance_refuted : exists a b, degree a /\ degree b /\
  ~ fle (@tnorm_compute xr (XRScalar xp_default) DrasticProduct a b)
        (@tnorm_compute xr (XRScalar xp_default) AlgebraicProduct a b).
Proof. exact drastic_order_refuted. Qed.
Print Assumptions C06_drastic_tolerance_refuted.

Example C06_case : xp_eps xp_exact = 0 /\ degree (XFin (1/2)).
Proof. split; [reflexivity|exists (1/2); split; auto; lra]. Qed.

(** * C07: binary64.  [fdegree x]: x is finite and 0 <= x <= 1;  [same]: equal values (NaN with NaN). *)
Theorem C07_tnorm_rounding : forall (P : fparam) n (a b : f64), fdegree a -> fdegree b ->
  fdegree (@tnorm_compute f64 (F64Scalar P) n a b) /\
  same (@tnorm_compute f64 (F64Scalar P) n a b) (@tnorm_compute f64 (F64Scalar P) n b a).
Proof. exact C07_t. Qed.
Print Assumptions C07_tnorm_rounding.

Theorem C07_snorm_rounding : forall (P : fparam) n (a b : f64), fdegree a -> fdegree b ->
  (n <> UnboundedSum -> n <> HamacherSum -> fdegree (@snorm_compute f64 (F64Scalar P) n a b)) /\
  same (@snorm_compute f64 (F64Scalar P) n a b) (@snorm_compute f64 (F64Scalar P) n b a).
Proof. exact C07_s. Qed.
Print Assumptions C07_snorm_rounding.

(** HamacherSum(1 - 2^-53, 0.5) is the double after 1 *)
Theorem C07_hamacher_sum_refuted : exists a b : f64, fdegree a /\ fdegree b /\
  Bltb (f64_lit 1 1) (@snorm_compute f64 (F64Scalar fp_default) HamacherSum a b) = true.
Proof. exact C07_refuted. Qed.
Print Assumptions C07_hamacher_sum_refuted.

Example C07_case : fdegree (f64_lit 1 2) /\ fdegree (f64_lit 1 1).
Proof.
  split; (split; [reflexivity|]).
  - rewrite (proj1 f64_half_correct); lra.
  - rewrite (proj1 f64_1_correct); lra.
Qed.

(** * C69: documented formulas *)
Theorem C69_norm_formulas : forall (P : xparam) a b, 0 <= a <= 1 -> 0 <= b <= 1 ->
  (forall n, ~ t_band (xp_eps P) (tname_of n) a b ->
     @tnorm_compute xr (XRScalar P) n (XFin a) (XFin b) = XFin (t_formula (tname_of n) a b)) /\
  (forall n, ~ s_band (xp_eps P) (sname_of n) a b ->
     @snorm_compute xr (XRScalar P) n (XFin a) (XFin b) = XFin (s_formula (sname_of n) a b)).
Proof. exact norm_formulas. Qed.
Print Assumptions C69_norm_formulas.

Theorem C69_hedge_formulas : forall (P : xparam) h x, 0 <= x <= 1 -> ~ h_band (xp_eps P) (hname_of h) x ->
  @hedge_apply xr (XRScalar P) h (XFin x) = XFin (h_formula (hname_of h) x).
Proof. exact hedge_formula. Qed.
Print Assumptions C69_hedge_formulas.

Example C69_case : ~ t_band (xp_eps xp_default) (tname_of HamacherProduct) (1/2) (1/4).
Proof. simpl. lra. Qed.
