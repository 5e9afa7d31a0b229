(** C86: intervals, linear scaling and statistics (Operation.h). *)
From Coq Require Import ZArith Reals Bool List Lra Lia Permutation.
From Flocq Require Import Core BinarySingleNaN.
From Verif Require Import Base Op XR F64 SpecStat StatProofs.
Import ListNotations.
Local Open Scope R_scope.

(** * C86 *)
(** Op::in, on real numbers, for any tolerance *)
Theorem C86_interval : forall (P : xparam) x lo hi geq leq, 0 <= xp_eps P ->
  @op_in xr (XRScalar P) (XFin x) (XFin lo) (XFin hi) geq leq = true <-> from (xp_eps P) geq lo x /\ upto (xp_eps P) leq x hi.
Proof. exact in_real. Qed.
Print Assumptions C86_interval.
(** NaN lies in no interval, except the closed one whose ends are both NaN *)
Theorem C86_interval_nan : forall (P : fparam) (x lo hi : f64) geq leq, is_nan x = true ->
  @op_in f64 (F64Scalar P) x lo hi geq leq = (geq && is_nan lo && leq && is_nan hi)%bool.
Proof. exact in_nan. Qed.
Print Assumptions C86_interval_nan.
(** Operation.h:84-91 documents (min, max] for geq without leq, and [min, max) for leq without geq: it is the other way round *)
Theorem C86_documented_interval_refuted : exists lo hi : f64, let S := F64Scalar fp_default in
  @op_in f64 S lo lo hi true false = true /\ @op_in f64 S hi lo hi true false = false /\
  @op_in f64 S lo lo hi false true = false /\ @op_in f64 S hi lo hi false true = true.
Proof. exists (f64_lit 0 1), (f64_lit 1 1). vm_compute. auto. Qed.
Print Assumptions C86_documented_interval_refuted.
(** Op::scale *)
Theorem C86_scale : forall (P : xparam) x a b c d,
  (a <> b -> @scale xr (XRScalar P) (XFin x) (XFin a) (XFin b) (XFin c) (XFin d) = XFin (proportional_point a b c d x)) /\
  (a < b -> c <= d -> @scale_bounded xr (XRScalar P) (XFin x) (XFin a) (XFin b) (XFin c) (XFin d) = XFin (proportional_point a b c d (Rmax a (Rmin x b)))).
Proof. intros. split; [apply scale_real|apply scale_bounded_real]. Qed.
Print Assumptions C86_scale.
Theorem C86_scale_bounded : forall (P : fparam) (x a b c d : f64), Bleb c d = true -> let S := F64Scalar P in
  let y := @scale_bounded f64 S x a b c d in let z := @scale f64 S x a b c d in
  is_nan y = is_nan z /\ (is_nan y = false -> Bleb c y = true /\ Bleb y d = true) /\ (Bleb c z = true -> Bleb z d = true -> y = z).
Proof. exact scale_bounded_float. Qed.
Print Assumptions C86_scale_bounded.
(** in binary64 the end of the source range need not become the end of the target range, and may pass it, unless bounded *)
Theorem C86_scale_end_refuted : exists a b c d : f64, Bltb a b = true /\ Bltb c d = true /\
  Bltb d (@scale f64 (F64Scalar fp_default) b a b c d) = true /\ Beqb (@scale_bounded f64 (F64Scalar fp_default) b a b c d) d = true.
Proof. exists (f64_lit 0 1), (f64_lit 7 1), (f64_lit 0 1), (f64_lit 29 1). vm_compute. auto. Qed.
Print Assumptions C86_scale_end_refuted.
(** bounding does not work for a descending target range: the middle becomes an end *)
Theorem C86_descending_refuted : exists x a b c d : f64, Bltb a x = true /\ Bltb x b = true /\ Bltb d c = true /\
  Beqb (@scale f64 (F64Scalar fp_default) x a b c d) (f64_lit 1 2) = true /\ Beqb (@scale_bounded f64 (F64Scalar fp_default) x a b c d) d = true.
Proof. exists (f64_lit 1 2), (f64_lit 0 1), (f64_lit 1 1), (f64_lit 1 1), (f64_lit 0 1). vm_compute. auto. Qed.
Print Assumptions C86_descending_refuted.
(** mean, variance and standard deviation are those of the text books *)
Theorem C86_statistics : forall (P : xparam) (l : list R), (2 <= length l)%nat -> let S := XRScalar P in let m := @op_mean xr S (map XFin l) in
  m = XFin (average l) /\ @variance xr S (map XFin l) m = XFin (sample_variance l (average l)) /\
  @standardDeviation xr S (map XFin l) m = XFin (sqrt (sample_variance l (average l))) /\ 0 <= sample_variance l (average l).
Proof. exact statistics. Qed.
Print Assumptions C86_statistics.
(** which have the meaning expected of them *)
Theorem C86_meaning : forall l : list R, (2 <= length l)%nat ->
  (forall lo hi, Forall (fun x => lo <= x <= hi) l -> lo <= average l <= hi) /\
  (sqrt (sample_variance l (average l)) = 0 <-> exists c, Forall (fun x => x = c) l) /\
  (forall k s, let l' := map (fun x => k * x + s) l in average l' = k * average l + s /\
     sqrt (sample_variance l' (average l')) = Rabs k * sqrt (sample_variance l (average l))) /\
  (forall l', Permutation l l' -> average l' = average l /\ sample_variance l' (average l') = sample_variance l (average l)).
Proof. exact statistics_meaning. Qed.
Print Assumptions C86_meaning.
(** in binary64 neither is ever negative, and the root is a number exactly when the variance is, whatever the values and the mean *)
Theorem C86_float : forall (P : fparam) (l : list f64) m, let S := F64Scalar P in
  Bltb (@variance f64 S l m) (f64_lit 0 1) = false /\ Bltb (@standardDeviation f64 S l m) (f64_lit 0 1) = false /\
  is_nan (@standardDeviation f64 S l m) = is_nan (@variance f64 S l m).
Proof. exact deviation_float. Qed.
Print Assumptions C86_float.

Example C86_case : let S := F64Scalar fp_default in let l := [f64_lit 1 1; f64_lit 3 1; f64_lit 5 1] in
  Beqb (@op_mean f64 S l) (f64_lit 3 1) = true /\ Beqb (@variance f64 S l (f64_lit 3 1)) (f64_lit 4 1) = true /\
  Beqb (@standardDeviation f64 S l (f64_lit 3 1)) (f64_lit 2 1) = true /\
  Beqb (@scale f64 S (f64_lit 3 1) (f64_lit 1 1) (f64_lit 5 1) (f64_lit 10 1) (f64_lit 20 1)) (f64_lit 15 1) = true /\
  @op_in f64 S (f64_lit 3 1) (f64_lit 1 1) (f64_lit 5 1) true true = true.
Proof. vm_compute. auto. Qed.
