(** The norms and hedges compute their documented formulas. *)
From Coq Require Import ZArith Reals Bool Lra Psatz.
From Verif Require Import Base Op XR XRFacts Norm NormFacts NormAlg SpecNorm NormProofs Hedge HedgeProofs.
Local Open Scope R_scope.

Definition tname_of (n : tnorm) : tname :=
  match n with
  | AlgebraicProduct => TAlgebraicProduct | BoundedDifference => TBoundedDifference
  | DrasticProduct => TDrasticProduct | EinsteinProduct => TEinsteinProduct
  | HamacherProduct => THamacherProduct | Minimum => TMinimum | NilpotentMinimum => TNilpotentMinimum
  end.
Definition sname_of (n : snorm) : sname :=
  match n with
  | AlgebraicSum => SAlgebraicSum | BoundedSum => SBoundedSum | DrasticSum => SDrasticSum
  | EinsteinSum => SEinsteinSum | HamacherSum => SHamacherSum | Maximum => SMaximum
  | NilpotentMaximum => SNilpotentMaximum | NormalizedSum => SNormalizedSum | UnboundedSum => SUnboundedSum
  end.
Definition hname_of (h : hedge) : hname :=
  match h with Any => HAny | Extremely => HExtremely | Not => HNot | Seldom => HSeldom
  | Somewhat => HSomewhat | Very => HVery end.

Section NS.
Context (P : xparam).
Notation eps := (xp_eps P).

Lemma tnorm_formula n a b : 0 <= a <= 1 -> 0 <= b <= 1 -> ~ t_band eps (tname_of n) a b ->
  @tnorm_compute xr (XRScalar P) n (XFin a) (XFin b) = XFin (t_formula (tname_of n) a b).
Proof.
  intros Ha Hb B. rewrite tcompute_fin by auto. f_equal.
  destruct n; unfold rT; simpl in *; auto.
  - destruct Req_EM_T; auto. destruct Rlt_dec as [H|]; auto. exfalso; apply B.
    revert H n. unfold Rmax in *. rabs; destruct Rle_dec; lra.
  - destruct Req_EM_T; auto. destruct Rlt_dec as [H|]; auto. exfalso; apply B.
    revert H. rabs; lra.
  - destruct Rlt_dec; auto. destruct Rle_dec; auto. exfalso; apply B. lra.
Qed.
Lemma snorm_formula n a b : 0 <= a <= 1 -> 0 <= b <= 1 -> ~ s_band eps (sname_of n) a b ->
  @snorm_compute xr (XRScalar P) n (XFin a) (XFin b) = XFin (s_formula (sname_of n) a b).
Proof.
  intros Ha Hb B. rewrite scompute_fin by auto. f_equal.
  destruct n; unfold rS; simpl in *; auto.
  - destruct Req_EM_T; auto. destruct Rlt_dec as [H|]; auto. exfalso; apply B.
    revert H n. unfold Rmin in *. rabs; destruct Rle_dec; lra.
  - destruct Req_EM_T; auto. destruct Rlt_dec as [H|]; auto. exfalso; apply B.
    revert H n. assert (a * b <= 1) by nra. rabs; lra.
  - destruct Rlt_dec; auto. destruct Rle_dec; auto. exfalso; apply B. lra.
Qed.
Lemma hedge_formula h x : 0 <= x <= 1 -> ~ h_band eps (hname_of h) x ->
  @hedge_apply xr (XRScalar P) h (XFin x) = XFin (h_formula (hname_of h) x).
Proof.
  intros Hx B. rewrite hedge_fin by auto. f_equal. destruct h; unfold rH; simpl in *; auto.
  - destruct Rle_dec; auto. destruct Rlt_dec; auto. exfalso; apply B. lra.
  - destruct Rle_dec; [f_equal; lra|]. destruct Rlt_dec; [|do 2 f_equal; lra]. exfalso; apply B. lra.
Qed.
End NS.
