(** Bundled forms used by the property file. *)
From Coq Require Import ZArith Reals Bool Lra.
From Verif Require Import Base Op XR XRFacts SpecNorm Hedge HedgeProofs.
Local Open Scope R_scope.
Lemma hedges_main : forall (P : xparam), 0 <= xp_eps P <= /10 ->
  let H := @hedge_apply xr (XRScalar P) in
  (forall h x, degree x -> degree (H h x)) /\
  (forall h x y, h <> Not -> (h = Extremely -> xp_eps P = 0) -> degree x -> degree y -> fle x y -> fle (H h x) (H h y)) /\
  (forall h x, h <> Any -> h <> Not -> x = XFin 0 \/ x = XFin 1 -> H h x = x) /\
  (forall x y, degree x -> degree y -> fle x y -> fle (H Not y) (H Not x)) /\
  (forall x, degree x -> H Not (H Not x) = x) /\
  (forall x, H Any x = XFin 1) /\
  (forall x, degree x -> H Very (H Somewhat x) = x /\ H Somewhat (H Very x) = x) /\
  (forall x, xp_eps P = 0 -> degree x -> H Extremely (H Seldom x) = x /\ H Seldom (H Extremely x) = x) /\
  (forall r, 0 <= r <= 1 ->
     fle (H Very (XFin r)) (XFin r) /\ fle (XFin r) (H Somewhat (XFin r)) /\
     (r <= 1/2 -> fle (H Extremely (XFin r)) (XFin r) /\ fle (XFin r) (H Seldom (XFin r))) /\
     (1/2 + xp_eps P <= r -> fle (XFin r) (H Extremely (XFin r)) /\ fle (H Seldom (XFin r)) (XFin r))) /\
  (forall h, h <> Any -> H h XNaN = XNaN).
Proof.
  intros P He H. unfold H. clear H.
  split; [intros; apply hedge_degree; auto|].
  split; [intros; apply hedge_mono; auto|].
  split; [intros; apply hedge_fix; auto|].
  split; [intros; apply hedge_not_antitone; auto|].
  split; [intros; apply hedge_not_involutive; auto|].
  split; [intros; apply hedge_any|].
  split; [intros; apply hedge_very_somewhat; auto|].
  split; [intros; apply hedge_extremely_seldom; auto|].
  split; [intros; apply hedge_order; auto|].
  intros; apply hedge_nan; auto.
Qed.
Lemma extremely_refuted : exists x y, degree x /\ degree y /\ fle x y /\
  ~ fle (@hedge_apply xr (XRScalar xp_default) Extremely x) (@hedge_apply xr (XRScalar xp_default) Extremely y).
Proof.
  exists (XFin (1/2 + 999999/1000000000000)), (XFin (1/2 + /1000000)).
  split; [eexists; split; [reflexivity|lra]|]. split; [eexists; split; [reflexivity|lra]|].
  exact extremely_not_monotone.
Qed.
