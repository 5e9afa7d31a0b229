(** C09-C13: membership functions of the shape terms.
    [xmembership P s h x] is the library's membership(x) of shape [s] with height [h], over exact reals, where the
    comparison tolerance fuzzylite::macheps() is [xp_eps P] (1e-6 in [xp_default], 0 in [xp_exact]). *)
From Coq Require Import ZArith Reals Bool List Lra.
From Flocq Require Import Core BinarySingleNaN.
From Verif Require Import Base Op XR F64 Norm Hedge Shape SpecTerm ShapeDoc ShapeRange ShapeMono ShapeSym ShapeBundle.
Import ListNotations.
Local Open Scope R_scope.

(** * C09: memberships lie in [0, height] *)
Theorem C09_finite_range : forall (P : xparam), 0 <= xp_eps P -> forall s h x, 0 <= h ->
  well_ordered s -> oriented (xp_eps P) s -> wide (xp_eps P) s -> ~ in_vertex_band (xp_eps P) s x ->
  exists m, xmembership P s h x = XFin m /\ 0 <= m <= h.
Proof. exact range_main. Qed.
Print Assumptions C09_finite_range.

Theorem C09_infinite_argument : forall (P : xparam) s h x, 0 <= h ->
  well_ordered s -> oriented (xp_eps P) s -> tail_ok s -> x = XPInf \/ x = XNInf ->
  exists m, @sh_membership xr (XRScalar P) (shape_map XFin s) (XFin h) x = XFin m /\ 0 <= m <= h.
Proof. exact range_inf. Qed.
Print Assumptions C09_infinite_argument.

Theorem C09_infinite_vertices : forall (P : xparam) (h x : R), 0 <= xp_eps P -> 0 <= h ->
  let M := @sh_membership xr (XRScalar P) in let e := xp_eps P in
  (forall b c, b <= c -> ~ (c < x < c + e) -> within h (M (Triangle XNInf (XFin b) (XFin c)) (XFin h) (XFin x))) /\
  (forall a b, a <= b -> ~ (a - e < x < a) -> within h (M (Triangle (XFin a) (XFin b) XPInf) (XFin h) (XFin x))) /\
  (forall b c d, b <= c -> c <= d -> within h (M (Trapezoid XNInf (XFin b) (XFin c) (XFin d)) (XFin h) (XFin x))) /\
  (forall a b c, a <= b -> b <= c -> ~ (a - e < x < a) -> within h (M (Trapezoid (XFin a) (XFin b) (XFin c) XPInf) (XFin h) (XFin x))).
Proof. exact b_infinite_vertices. Qed.
Print Assumptions C09_infinite_vertices.

(** in the band next to a vertex the violation is at most the tolerance times the slope of the side *)
Theorem C09_band_error : forall (P : xparam), 0 <= xp_eps P -> forall a b c h x, 0 <= h -> a < b < c ->
  in_vertex_band (xp_eps P) (Triangle a b c) x ->
  exists m, xmembership P (Triangle a b c) h x = XFin m /\
    (- (h * xp_eps P / (b - a)) <= m <= h \/ - (h * xp_eps P / (c - b)) <= m <= h).
Proof. exact band_triangle. Qed.
Print Assumptions C09_band_error.

(** at the default tolerance: negative memberships, and memberships above 200 for height 1 *)
Theorem C09_triangle_refuted : exists m, xmembership xp_default (Triangle 0 1 2) 1 (- / 2000000) = XFin m /\ m < 0.
Proof. exact b_triangle_neg. Qed.
Print Assumptions C09_triangle_refuted.
Theorem C09_trapezoid_refuted : exists m, xmembership xp_default (Trapezoid 0 1 2 3) 1 (- / 2000000) = XFin m /\ m < 0.
Proof. exact b_trapezoid_neg. Qed.
Print Assumptions C09_trapezoid_refuted.
Theorem C09_narrow_sshape_refuted :
  exists m, xmembership xp_default (SShape 0 (/ 10000000)) 1 (101 / 100000000) = XFin m /\ 200 < m.
Proof. exact b_sshape_big. Qed.
Print Assumptions C09_narrow_sshape_refuted.

Example C09_case : let s := PiShape 0 1 2 3 in
  well_ordered s /\ oriented (xp_eps xp_default) s /\ wide (xp_eps xp_default) s /\ tail_ok s /\
  ~ in_vertex_band (xp_eps xp_default) s (1/4).
Proof. simpl. repeat split; lra. Qed.

(** * C10: NaN *)
Theorem C10_nan_membership : forall (P : xparam) (Q : fparam),
  (forall (s : shape xr) h, @sh_membership xr (XRScalar P) s h XNaN = XNaN) /\
  (forall (s : shape f64) h, @sh_membership f64 (F64Scalar Q) s h B754_nan = B754_nan).
Proof. exact (fun P Q => conj (b_nan_xr P) (b_nan_f64 Q)). Qed.
Print Assumptions C10_nan_membership.

(** a conjunction with an unset input never fires *)
Theorem C10_nan_conjunction : forall (P : xparam) n b, let T := @tnorm_compute xr (XRScalar P) in
  (T n XNaN b = XNaN \/ T n XNaN b = XFin 0) /\ (T n b XNaN = XNaN \/ T n b XNaN = XFin 0).
Proof. exact tnorm_nan. Qed.
Print Assumptions C10_nan_conjunction.
Theorem C10_nan_disjunction : forall (P : xparam) n b, let S := @snorm_compute xr (XRScalar P) in
  n <> DrasticSum -> n <> NilpotentMaximum -> S n XNaN b = XNaN /\ S n b XNaN = XNaN.
Proof. exact snorm_nan. Qed.
Print Assumptions C10_nan_disjunction.
(** but a disjunction by DrasticSum or NilpotentMaximum turns an unset input into full activation *)
Theorem C10_nan_disjunction_refuted : forall (P : xparam) n b, n = DrasticSum \/ n = NilpotentMaximum ->
  @snorm_compute xr (XRScalar P) n XNaN b = XFin 1.
Proof. exact snorm_nan_one. Qed.
Print Assumptions C10_nan_disjunction_refuted.

(** * C11: documented piecewise definitions *)
Theorem C11_documented_function : forall (P : xparam) s h x,
  well_ordered s -> oriented (xp_eps P) s -> Forall (fun v => off (xp_eps P) v x) (breakpoints s) ->
  xmembership P s h x = XFin (doc_membership s h x).
Proof. exact doc_main. Qed.
Print Assumptions C11_documented_function.

Theorem C11_infinite_vertices : forall (P : xparam) (h x : R), 0 <= xp_eps P ->
  let M := @sh_membership xr (XRScalar P) in
  (forall b c, x <= b -> b <= c -> M (Triangle XNInf (XFin b) (XFin c)) (XFin h) (XFin x) = XFin h) /\
  (forall a b, a <= b <= x -> M (Triangle (XFin a) (XFin b) XPInf) (XFin h) (XFin x) = XFin h) /\
  (forall b c d, x <= c -> b <= c -> c <= d -> M (Trapezoid XNInf (XFin b) (XFin c) (XFin d)) (XFin h) (XFin x) = XFin h) /\
  (forall a b c, b <= x -> a <= b -> b <= c -> M (Trapezoid (XFin a) (XFin b) (XFin c) XPInf) (XFin h) (XFin x) = XFin h).
Proof. exact b_infinite_full. Qed.
Print Assumptions C11_infinite_vertices.

(** Binary.h documents the interval [start, direction), but a finite direction does not bound the term *)
Theorem C11_binary_finite_direction_refuted :
  exists x, 1 <= x /\ xmembership xp_default (Binary 0 1) 1 x = XFin 1.
Proof. exact b_binary_finite. Qed.
Print Assumptions C11_binary_finite_direction_refuted.

(** the vertices themselves are never excluded, and with exact comparisons nothing is *)
Example C11_case : well_ordered (Trapezoid 0 1 2 3) /\
  (forall v, In v (breakpoints (Trapezoid 0 1 2 3)) ->
     Forall (fun w => off (xp_eps xp_default) w v) (breakpoints (Trapezoid 0 1 2 3))) /\
  (forall v x, off (xp_eps xp_exact) v x).
Proof.
  split; [simpl; lra|]. split; [|exact sn_default_off].
  intros v I. simpl in I. destruct I as [<-|[<-|[<-|[<-|[]]]]]; simpl breakpoints;
  repeat apply Forall_cons; try apply Forall_nil; unfold off; simpl xp_eps;
  first [left; lra | right; unfold Rabs; destruct Rcase_abs; lra].
Qed.

(** * C12: monotonic terms *)
Theorem C12_monotone : forall (P : xparam) s h x y, 0 <= xp_eps P -> 0 <= h ->
  strictly_oriented s -> oriented (xp_eps P) s -> x <= y ->
  (match s with SShape _ _ | ZShape _ _ =>
     Forall (fun v => off (xp_eps P) v x /\ off (xp_eps P) v y) (breakpoints s) | _ => True end) ->
  (increasing s -> xle (xmembership P s h x) (xmembership P s h y)) /\
  (~ increasing s -> xle (xmembership P s h y) (xmembership P s h x)).
Proof. exact b_monotone. Qed.
Print Assumptions C12_monotone.

Theorem C12_tsukamoto_inverse : forall (P : xparam) s h y, 0 <= xp_eps P ->
  strictly_oriented s -> oriented (xp_eps P) s -> 0 < y < h ->
  (exists x, xtsukamoto P s h y = Ok (XFin x) /\
    (Forall (fun v => off (xp_eps P) v x) (breakpoints s) -> xmembership P s h x = XFin y)) /\
  (forall x, Forall (fun v => off (xp_eps P) v x) (breakpoints s) -> xmembership P s h x = XFin y ->
     xtsukamoto P s h y = Ok (XFin x)).
Proof. exact b_tsukamoto. Qed.
Print Assumptions C12_tsukamoto_inverse.

(** isMonotonic() is true exactly for the terms whose tsukamoto() does not throw *)
Theorem C12_monotonic_flag : forall (P : xparam) (s : shape xr),
  sh_monotonic s = true <-> forall h y, exists x, @sh_tsukamoto xr (XRScalar P) s h y = Ok x.
Proof. exact b_monotonic_flag. Qed.
Print Assumptions C12_monotonic_flag.

(** at the default tolerance SShape decreases just above its middle, and Tsukamoto is not inverted near the ends *)
Theorem C12_sshape_monotone_refuted : exists x y u v, x < y /\
  xmembership xp_default (SShape 0 1) 1 x = XFin u /\ xmembership xp_default (SShape 0 1) 1 y = XFin v /\ v < u.
Proof. exact b_sshape_nonmono. Qed.
Print Assumptions C12_sshape_monotone_refuted.
Theorem C12_ramp_tsukamoto_refuted : exists x, xtsukamoto xp_default (Ramp 0 1) 1 (/ 2000000) = Ok (XFin x) /\
  xmembership xp_default (Ramp 0 1) 1 x = XFin 0.
Proof. exact b_ramp_tsukamoto. Qed.
Print Assumptions C12_ramp_tsukamoto_refuted.

Example C12_case : strictly_oriented (Concave 1 0) /\ oriented (xp_eps xp_default) (Concave 1 0) /\
  ~ increasing (Concave 1 0) /\ 0 < 1/3 < 1.
Proof. repeat split; simpl; try lra. right. unfold Rabs; destruct Rcase_abs; lra. Qed.

(** * C13: symmetries and complements *)
Theorem C13_symmetry : forall (P : xparam) s h m d, 0 <= xp_eps P -> well_ordered s -> symmetric_about s m ->
  (match s with Trapezoid _ _ _ _ | PiShape _ _ _ _ =>
     Forall (fun v => off (xp_eps P) v (m + d) /\ off (xp_eps P) v (m - d)) (breakpoints s) | _ => True end) ->
  xmembership P s h (m + d) = xmembership P s h (m - d).
Proof. exact b_symmetry. Qed.
Print Assumptions C13_symmetry.

Theorem C13_complements : forall (P : xparam) h x, 0 <= xp_eps P ->
  (forall s e, s < e -> @s_add xr (XRScalar P) (xmembership P (SShape s e) h x) (xmembership P (ZShape s e) h x) = XFin h) /\
  (forall s e, off (xp_eps P) s e -> s <> e -> off (xp_eps P) s x -> off (xp_eps P) e x ->
     @s_add xr (XRScalar P) (xmembership P (Ramp s e) h x) (xmembership P (Ramp e s) h x) = XFin h) /\
  (forall i s, @s_add xr (XRScalar P) (xmembership P (Sigmoid i s) h x) (xmembership P (Sigmoid i (- s)) h x) = XFin h) /\
  (forall s e, xmembership P (Ramp s e) h x = xmembership P (Ramp e s) h (s + e - x)) /\
  (forall i s, xmembership P (Sigmoid i s) h x = xmembership P (Sigmoid i (- s)) h (2 * i - x)).
Proof. exact b_complement. Qed.
Print Assumptions C13_complements.

(** triangles and trapezoids made from their two end points only *)
Theorem C13_two_points : forall (P : xparam) (a b : R), a <= b ->
  exists t z, @mk_triangle xr (XRScalar P) (XFin a) (XFin b) XNaN = shape_map XFin t /\
    @mk_trapezoid xr (XRScalar P) (XFin a) (XFin b) XNaN XNaN = shape_map XFin z /\
    t = Triangle a ((a + b) / 2) b /\ z = Trapezoid a (a + (b - a) / 5) (b - (b - a) / 5) b /\
    well_ordered t /\ well_ordered z /\ symmetric_about t ((a + b) / 2) /\ symmetric_about z ((a + b) / 2).
Proof. exact b_two_points. Qed.
Print Assumptions C13_two_points.

Example C13_case : symmetric_about (Trapezoid 0 1 2 3) (3/2) /\ symmetric_about (Triangle 0 1 2) 1 /\ well_ordered (Triangle 0 1 2).
Proof. simpl. repeat split; lra. Qed.
