(** Scalar helpers of /repo/fuzzylite/Operation.h (class fl::Operation, alias Op). *)
From Coq Require Import ZArith List Bool.
From Verif Require Import Base.
Import ListNotations.
Local Open Scope scalar_scope.

Section Op.
Context {T : Type} `{S : Scalar T}.

(** Operation.h:645-647 *)
Definition isNaN (x : T) : bool := negb (x =? x).
(** Operation.h:640-642 *)
Definition isInf (x : T) : bool := (x =? s_inf) || (x =? - s_inf).
(** Operation.h:650-652 *)
Definition isFinite (x : T) : bool := negb (isNaN x || (x =? s_inf) || (x =? - s_inf)).

(** std::min / std::max as specified by the C++ standard *)
Definition std_min (a b : T) : T := if b <? a then b else a.
Definition std_max (a b : T) : T := if a <? b then b else a.

(** Operation.h:610-614 *)
Definition op_min (a b : T) : T := if isNaN a || isNaN b then s_nan else std_min a b.
(** Operation.h:617-621 *)
Definition op_max (a b : T) : T := if isNaN a || isNaN b then s_nan else std_max a b.

(** Operation.h:624-630 *)
Definition bound (x lo hi : T) : T :=
  if x >? hi then hi else if x <? lo then lo else x.

(** Operation.h:662-664.  The default argument macheps = fuzzylite::macheps() is [s_eps];
    [isEq_tol] is the function with explicit tolerance. *)
Definition isEq_tol (tol a b : T) : bool :=
  (a =? b) || (s_abs (a - b) <? tol) || (isNaN a && isNaN b).
(** Operation.h:654-656 *)
Definition isLt_tol (tol a b : T) : bool :=
  negb ((a =? b) || (s_abs (a - b) <? tol) || (isNaN a && isNaN b)) && (a <? b).
(** Operation.h:658-660 *)
Definition isLE_tol (tol a b : T) : bool :=
  (a =? b) || (s_abs (a - b) <? tol) || (isNaN a && isNaN b) || (a <? b).
(** Operation.h:666-668 *)
Definition isGt_tol (tol a b : T) : bool :=
  negb ((a =? b) || (s_abs (a - b) <? tol) || (isNaN a && isNaN b)) && (a >? b).
(** Operation.h:670-672 *)
Definition isGE_tol (tol a b : T) : bool :=
  (a =? b) || (s_abs (a - b) <? tol) || (isNaN a && isNaN b) || (a >? b).

Definition isEq := isEq_tol s_eps.
Definition isLt := isLt_tol s_eps.
Definition isLE := isLE_tol s_eps.
Definition isGt := isGt_tol s_eps.
Definition isGE := isGE_tol s_eps.

(** Operation.h:633-637 *)
Definition op_in (x lo hi : T) (geq leq : bool) : bool :=
  (if geq then isGE x lo else isGt x lo) && (if leq then isLE x hi else isLt x hi).

(** Operation.h:687-689 *)
Definition scale (x fromMin fromMax toMin toMax : T) : T :=
  (toMax - toMin) / (fromMax - fromMin) * (x - fromMin) + toMin.
(** Operation.h:691-694 *)
Definition scale_bounded (x fromMin fromMax toMin toMax : T) : T :=
  bound (scale x fromMin fromMax toMin toMax) toMin toMax.

(** Operation.h:678-685: start + (i + 0.5) * dx for i = 0 .. resolution-1 *)
Definition midpoint (start dx : T) (i : nat) : T :=
  start + (s_int (Z.of_nat i) + s_half) * dx.
Definition midpoints (start stop : T) (resolution : nat) : list T :=
  let dx := (stop - start) / s_int (Z.of_nat resolution) in
  map (midpoint start dx) (seq 0 resolution).

(** bool -> scalar conversion *)
Definition of_bool (b : bool) : T := if b then s_1 else s_0.

(** Operation.h:716-726 *)
Definition logicalAnd (a b : T) : T := if isEq a s_1 && isEq b s_1 then s_1 else s_0.
Definition logicalOr (a b : T) : T := if isEq a s_1 || isEq b s_1 then s_1 else s_0.
Definition logicalNot (a : T) : T := if isEq a s_1 then s_0 else s_1.
(** Operation.h:732-734 *)
Definition op_round (x : T) : T :=
  if x >? s_0 then s_floor (x + s_half) else s_ceil (x - s_half).
(** Operation.h:736-758 *)
Definition op_gt (a b : T) : T := of_bool (isGt a b).
Definition op_ge (a b : T) : T := of_bool (isGE a b).
Definition op_eq (a b : T) : T := of_bool (isEq a b).
Definition op_neq (a b : T) : T := of_bool (negb (isEq a b)).
Definition op_le (a b : T) : T := of_bool (isLE a b).
Definition op_lt (a b : T) : T := of_bool (isLt a b).

(** Operation.h:786-791 *)
Definition op_sum (l : list T) : T := fold_left s_add l s_0.
(** Operation.h:794-796 *)
Definition op_mean (l : list T) : T := op_sum l / s_int (Z.of_nat (length l)).
(** Operation.h:818-828, with the explicit mean *)
Definition variance (l : list T) (mean : T) : T :=
  match l with
  | [] => s_nan
  | [_] => s_0
  | _ => fold_left (fun acc x => acc + (x - mean) * (x - mean)) l s_0
         / s_int (Z.of_nat (length l) - 1)
  end.
(** Operation.h:804-811 *)
Definition standardDeviation (l : list T) (mean : T) : T :=
  match l with
  | [] => s_nan
  | [_] => s_0
  | _ => s_sqrt (variance l mean)
  end.
End Op.
