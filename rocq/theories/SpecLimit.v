(** What integral defuzzifiers should approach as their resolution grows: integrals and maximizers over the reals (Coquelicot). *)
From Coq Require Import Reals.
From Coquelicot Require Import Coquelicot.
From Verif Require Import Norm SpecDefuzz.
Local Open Scope R_scope.

(** the slope of [f] on [a, b] is at most [L] *)
Definition lipschitz (f : R -> R) (a b L : R) : Prop := forall x y, a <= x <= b -> a <= y <= b -> Rabs (f x - f y) <= L * Rabs (x - y).
Definition continuous_within (f : R -> R) (a b : R) : Prop :=
  forall x, a <= x <= b -> forall eps, 0 < eps -> exists delta, 0 < delta /\ forall y, a <= y <= b -> Rabs (y - x) < delta -> Rabs (f y - f x) < eps.
(** area under [f], and its center of gravity *)
Definition area (f : R -> R) (a b : R) : R := RInt f a b.
Definition gravity (f : R -> R) (a b : R) : R := RInt (fun x => x * f x) a b / RInt f a b.
(** the points of [a, b] where [f] is greatest are those of [p, q] *)
Definition greatest_on (f : R -> R) (a b p q : R) : Prop :=
  a <= p <= q /\ q <= b /\ (forall x, p <= x <= q -> f x = f p) /\ (forall x, a <= x <= b -> ~ p <= x <= q -> f x < f p).
(** operators which do not make slopes steeper than those of the terms they join *)
Definition plain_implication (n : tnorm) : Prop := n = Minimum \/ n = AlgebraicProduct \/ n = BoundedDifference.
Definition plain_aggregation (s : snorm) : Prop := s = Maximum \/ s = AlgebraicSum \/ s = BoundedSum.
(** the slope of [k] joined terms whose slopes are at most [L]: sums add them up *)
Definition joined_slope (s : snorm) (L : R) (k : nat) : R := match s with Maximum => L | _ => L * INR k end.
