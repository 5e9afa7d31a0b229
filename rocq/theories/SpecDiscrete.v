(** Piecewise-linear interpolation through a list of points, and affine functions, as mathematics. *)
From Coq Require Import Reals List Sorted.
Import ListNotations.
Local Open Scope R_scope.

(** abscissas strictly increasing / nondecreasing *)
Definition strictly_increasing (l : list (R * R)) : Prop := StronglySorted (fun a b => fst a < fst b) l.
Definition nondecreasing (l : list (R * R)) : Prop := StronglySorted (fun a b => fst a <= fst b) l.

(** value at [x] of the polyline through the points, constant beyond both ends *)
Fixpoint polyline (l : list (R * R)) (x : R) : R :=
  match l with
  | [] => 0
  | (a, ya) :: r =>
    match r with
    | [] => ya
    | (b, yb) :: _ =>
      if Rle_dec x a then ya
      else if Rlt_dec x b then (ya * (b - x) + yb * (x - a)) / (b - a)
      else polyline r x
    end
  end.

(** sum of coefficient times input over the common prefix *)
Fixpoint dot (cs vs : list R) : R :=
  match cs, vs with c :: cs, v :: vs => c * v + dot cs vs | _, _ => 0 end.
(** the constant term: the last coefficient, when there are more coefficients than inputs *)
Definition intercept (cs vs : list R) : R := if Nat.ltb (length vs) (length cs) then last cs 0 else 0.
