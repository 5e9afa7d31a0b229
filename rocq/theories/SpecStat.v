(** What is expected of intervals, linear scaling and statistics, on real numbers. *)
From Coq Require Import Reals List.
Import ListNotations.
Local Open Scope R_scope.

(** x is at or above [lo], or strictly above, up to the tolerance [eps] *)
Definition from (eps : R) (closed : bool) (lo x : R) : Prop := if closed then lo <= x \/ lo - x < eps else lo < x /\ eps <= x - lo.
Definition upto (eps : R) (closed : bool) (x hi : R) : Prop := if closed then x <= hi \/ x - hi < eps else x < hi /\ eps <= hi - x.
(** the point of [c, d] dividing it as x divides [a, b] *)
Definition proportional_point (a b c d x : R) : R := c + (d - c) * ((x - a) / (b - a)).
(** the text-book definitions *)
Fixpoint total (l : list R) : R := match l with [] => 0 | x :: r => x + total r end.
Definition average (l : list R) : R := total l / INR (length l).
Definition sample_variance (l : list R) (m : R) : R := total (map (fun x => (x - m) * (x - m)) l) / (INR (length l) - 1).
