(** Norms in double precision: which follow their documented formula within a few units of rounding for all degrees, and what errors of their
    arguments do to their value. *)
From Coq Require Import Reals.
From Flocq Require Import Core.
From Verif Require Import Norm Hedge SpecRound.
Local Open Scope R_scope.

(** norms without jumps *)
Definition even_tnorm (n : tnorm) : Prop := n <> DrasticProduct /\ n <> NilpotentMinimum.
Definition even_snorm (n : snorm) : Prop := n <> DrasticSum /\ n <> NilpotentMaximum /\ n <> HamacherSum /\ n <> UnboundedSum.
(** rounding of the value; HamacherProduct is zero when the sum of its arguments is zero within the tolerance [eps] *)
Definition tnorm_error (n : tnorm) (eps : R) : R := match n with Minimum => 0 | HamacherProduct => 8 * u64 + eps | _ => 8 * u64 end.
Definition snorm_error (n : snorm) : R := match n with Maximum => 0 | _ => 8 * u64 end.
(** hedges; Extremely and Seldom change formula at 1/2 within the tolerance *)
Definition hedge_error (h : hedge) (eps : R) : R := match h with Any => 0 | Not | Somewhat | Very => u64 | Extremely | Seldom => 8 * u64 + eps end.
(** distance to the jumps of the other norms: arguments at least the tolerance and a unit of rounding away from them *)
Definition off_jump_t (n : tnorm) (eps a b : R) : Prop :=
  match n with DrasticProduct => Rmax a b = 1 \/ eps <= 1 - Rmax a b | NilpotentMinimum => eps + u64 < Rabs (a + b - 1) | _ => False end.
Definition off_jump_s (n : snorm) (eps a b : R) : Prop :=
  match n with DrasticSum => Rmin a b = 0 \/ eps <= Rmin a b | NilpotentMaximum => eps + u64 < Rabs (a + b - 1) | _ => False end.
