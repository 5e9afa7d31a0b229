(** Instance of [Scalar]: IEEE-754 binary64 as formalised by Flocq (single NaN: sign and payload of
    NaN are not modelled), rounding to nearest even.  Functions of <cmath> other than sqrt, floor, ceil
    come from the oracle [f1], [f2]. *)
From Coq Require Import ZArith Bool.
From Flocq Require Import Core BinarySingleNaN.
From Verif Require Import Base.

Definition prec64 : Z := 53.
Definition emax64 : Z := 1024.
Definition Hprec64 : Prec_gt_0 prec64 := eq_refl.
Definition Hemax64 : Prec_lt_emax prec64 emax64 := eq_refl.
Global Existing Instance Hprec64.
Global Existing Instance Hemax64.

Definition f64 := binary_float prec64 emax64.

Definition f64_of_Z (n : Z) : f64 := binary_normalize prec64 emax64 Hprec64 Hemax64 mode_NE n 0 false.
(** a literal n/d is the correctly rounded quotient of two exact integers *)
Definition f64_lit (n : Z) (d : positive) : f64 :=
  Bdiv mode_NE (f64_of_Z n) (f64_of_Z (Zpos d)).
Definition f64_floor (x : f64) : f64 := Bnearbyint mode_DN x.
Definition f64_ceil (x : f64) : f64 := Bnearbyint mode_UP x.
Definition f64_trunc (x : f64) : option Z :=
  if is_finite x then
    let z := Btrunc x in
    if (Z.leb (-2147483648) z && Z.leb z 2147483647)%bool then Some z else None
  else None.

(** m * 10^e correctly rounded (strtod of glibc).  For e < 0 the quotient is first rounded to odd at 2^-1100, which is
    finer than any double, so the second rounding is correct (proved in TextF64.v). *)
Definition odd_div (a b : Z) : Z :=
  let q := (a / b)%Z in if Z.eqb (a mod b) 0 then q else if Z.even q then (q + 1)%Z else q.
Definition f64_dec (m e : Z) : f64 :=
  if Z.leb 0 e then f64_of_Z (m * 10 ^ e)
  else binary_normalize prec64 emax64 Hprec64 Hemax64 mode_NE (odd_div (m * 2 ^ 1100) (10 ^ (- e))) (-1100) false.
(** nearest integer of a/b, ties to even *)
Definition near_div (a b : Z) : Z :=
  let q := (a / b)%Z in
  match Z.compare (2 * (a mod b)) b with Lt => q | Gt => (q + 1)%Z | Eq => if Z.even q then q else (q + 1)%Z end.
Definition f64_fixed (d : nat) (x : f64) : Z :=
  match x with
  | B754_finite _ m e _ =>
    if Z.leb 0 e then (Zpos m * 2 ^ e * 10 ^ Z.of_nat d)%Z else near_div (Zpos m * 10 ^ Z.of_nat d) (2 ^ (- e))
  | _ => 0%Z
  end.

Record fparam := {
  fp_eps : f64;
  fp_fn1 : libm1 -> f64 -> f64;
  fp_fn2 : libm2 -> f64 -> f64 -> f64
}.

Definition F64Scalar (P : fparam) : Scalar f64 := {|
  s_nan := B754_nan;
  s_inf := B754_infinity false;
  s_lit := f64_lit;
  s_add := Bplus mode_NE; s_sub := Bminus mode_NE; s_mul := Bmult mode_NE; s_div := Bdiv mode_NE;
  s_neg := Bopp; s_abs := Babs; s_sqrt := Bsqrt mode_NE;
  s_floor := f64_floor; s_ceil := f64_ceil;
  s_fn1 := fp_fn1 P; s_fn2 := fp_fn2 P;
  s_ltb := Bltb; s_leb := Bleb; s_eqb := Beqb;
  s_trunc := f64_trunc;
  s_dec := f64_dec; s_fixed := f64_fixed;
  s_eps := fp_eps P
|}.

(** the default tolerance, the double nearest to 1e-6 (/repo/src/fuzzylite.cpp:24) *)
Definition f64_macheps : f64 := f64_lit 1 1000000.

Definition fp_default : fparam :=
  {| fp_eps := f64_macheps; fp_fn1 := fun _ x => x; fp_fn2 := fun _ x _ => x |}.
