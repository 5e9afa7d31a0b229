(** T-norms and S-norms registered in the library
    (/repo/src/factory/TNormFactory.cpp:30-39, /repo/src/factory/SNormFactory.cpp:32-43).
    TNormFunction and SNormFunction (user formulas, not registered) are modelled in [Function]. *)
From Coq Require Import ZArith Bool String.
From Verif Require Import Base Op.
Local Open Scope scalar_scope.

Inductive tnorm :=
| AlgebraicProduct | BoundedDifference | DrasticProduct | EinsteinProduct
| HamacherProduct | Minimum | NilpotentMinimum.

Inductive snorm :=
| AlgebraicSum | BoundedSum | DrasticSum | EinsteinSum | HamacherSum
| Maximum | NilpotentMaximum | NormalizedSum | UnboundedSum.

Section Norm.
Context {T : Type} `{S : Scalar T}.

(** /repo/src/norm/t/AlgebraicProduct.cpp:26-28, BoundedDifference.cpp:28-30,
    DrasticProduct.cpp:28-32, EinsteinProduct.cpp:26-28, HamacherProduct.cpp:28-32,
    Minimum.cpp:28-30, NilpotentMinimum.cpp:28-32 *)
Definition tnorm_compute (n : tnorm) (a b : T) : T :=
  match n with
  | AlgebraicProduct => a * b
  | BoundedDifference => op_max s_0 (a + b - s_1)
  | DrasticProduct => if isEq (op_max a b) s_1 then op_min a b else s_0
  | EinsteinProduct => (a * b) / (s_2 - (a + b - a * b))
  | HamacherProduct => if isEq (a + b) s_0 then s_0 else (a * b) / (a + b - a * b)
  | Minimum => op_min a b
  | NilpotentMinimum => if isGt (a + b) s_1 then op_min a b else s_0
  end.

(** /repo/src/norm/s/AlgebraicSum.cpp:26-28, BoundedSum.cpp:28-30, DrasticSum.cpp:28-32,
    EinsteinSum.cpp:26-28, HamacherSum.cpp:28-32, Maximum.cpp:28-30, NilpotentMaximum.cpp:28-32,
    NormalizedSum.cpp:28-30, UnboundedSum.cpp:28-30 *)
Definition snorm_compute (n : snorm) (a b : T) : T :=
  match n with
  | AlgebraicSum => a + b - (a * b)
  | BoundedSum => op_min s_1 (a + b)
  | DrasticSum => if isEq (op_min a b) s_0 then op_max a b else s_1
  | EinsteinSum => (a + b) / (s_1 + a * b)
  | HamacherSum => if isEq (a * b) s_1 then s_1 else (a + b - s_2 * a * b) / (s_1 - a * b)
  | Maximum => op_max a b
  | NilpotentMaximum => if isLt (a + b) s_1 then op_max a b else s_1
  | NormalizedSum => (a + b) / op_max s_1 (a + b)
  | UnboundedSum => a + b
  end.
End Norm.
