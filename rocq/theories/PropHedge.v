(** C08: hedges. *)
From Coq Require Import ZArith Reals Bool Lra.
From Flocq Require Import Core BinarySingleNaN.
From Verif Require Import Base Op XR F64 F64Arith SpecNorm Hedge HedgeProofs HedgeBundle NormF64.
Local Open Scope R_scope.

(** exact reals, any tolerance up to 1/10 *)
Theorem C08_hedges : forall (P : xparam), 0 <= xp_eps P <= /10 ->
  let H := @hedge_apply xr (XRScalar P) in
  (forall h x, degree x -> degree (H h x)) /\
  (forall h x y, h <> Not -> (h = Extremely -> xp_eps P = 0) -> degree x -> degree y -> fle x y -> fle (H h x) (H h y)) /\
  (forall h x, h <> Any -> h <> Not -> x = XFin 0 \/ x = XFin 1 -> H h x = x) /\
  (forall x y, degree x -> degree y -> fle x y -> fle (H Not y) (H Not x)) /\
  (forall x, degree x -> H Not (H Not x) = x) /\
  (forall x, H Any x = XFin 1) /\
  (forall x, degree x -> H Very (H Somewhat x) = x /\ H Somewhat (H Very x) = x) /\
  (forall x, xp_eps P = 0 -> degree x -> H Extremely (H Seldom x) = x /\ H Seldom (H Extremely x) = x) /\
  (forall r, 0 <= r <= 1 ->
     fle (H Very (XFin r)) (XFin r) /\ fle (XFin r) (H Somewhat (XFin r)) /\
     (r <= 1/2 -> fle (H Extremely (XFin r)) (XFin r) /\ fle (XFin r) (H Seldom (XFin r))) /\
     (1/2 + xp_eps P <= r -> fle (XFin r) (H Extremely (XFin r)) /\ fle (H Seldom (XFin r)) (XFin r))) /\
  (forall h, h <> Any -> H h XNaN = XNaN).
Proof. exact hedges_main. Qed.
Print Assumptions C08_hedges.

(** a list of hedges keeps a degree a degree *)
Theorem C08_hedge_lists : forall (P : xparam) hs x, 0 <= xp_eps P <= /10 -> degree x ->
  degree (@hedges_apply xr (XRScalar P) hs x).
Proof. exact hedges_degree. Qed.
Print Assumptions C08_hedge_lists.

(** at the default tolerance Extremely is not monotone just above 1/2 *)
Theorem C08_extremely_monotone_refuted : exists x y, degree x /\ degree y /\ fle x y /\
  ~ fle (@hedge_apply xr (XRScalar xp_default) Extremely x) (@hedge_apply xr (XRScalar xp_default) Extremely y).
Proof. exact extremely_refuted. Qed.
Print Assumptions C08_extremely_monotone_refuted.

(** binary64: any list of hedges keeps a finite degree in [0,1] a finite degree in [0,1], rounding included *)
Theorem C08_hedges_rounding : forall (P : fparam) hs (x : f64),
  is_finite (fp_eps P) = true -> B2R (fp_eps P) <= 1/8 ->
  fdegree x -> fdegree (@hedges_apply f64 (F64Scalar P) hs x).
Proof. exact hedges_range_f64. Qed.
Print Assumptions C08_hedges_rounding.

Example C08_case : 0 <= xp_eps xp_default <= /10 /\ is_finite (fp_eps fp_default) = true /\ B2R (fp_eps fp_default) <= 1/8.
Proof.
  change (fp_eps fp_default) with f64_macheps. destruct macheps_small as [F B].
  split; [simpl; lra|]. split; [exact F|lra].
Qed.
