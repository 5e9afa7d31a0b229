(** Instance of [Scalar]: extended reals with IEEE-754 conventions for the special values and
    exact arithmetic for finite values.

    Simplifications with respect to binary64: no rounding, no overflow, a single zero (which
    behaves as +0 in divisions).  Functions of <cmath> other than sqrt, exp, log, cos, atan, pow, floor and
    ceil are taken from the oracle arguments [f1] and [f2]; nothing is assumed about them. *)
From Coq Require Import ZArith Reals Bool.
From Flocq Require Import Core.Round_NE.
From Verif Require Import Base.
Local Open Scope R_scope.

Inductive xr := XNaN | XPInf | XNInf | XFin (r : R).

Definition Rltb (a b : R) : bool := if Rlt_dec a b then true else false.
Definition Rleb (a b : R) : bool := if Rle_dec a b then true else false.
Definition Reqb (a b : R) : bool := if Req_EM_T a b then true else false.

(** infinity with the sign of [r]; NaN when r = 0 (inf * 0) *)
Definition xinf_mul (r : R) : xr := if Rltb 0 r then XPInf else if Rltb r 0 then XNInf else XNaN.
(** r / 0 with 0 = +0 *)
Definition xinf_div (r : R) : xr := xinf_mul r.

Definition xneg (a : xr) : xr :=
  match a with XNaN => XNaN | XPInf => XNInf | XNInf => XPInf | XFin r => XFin (- r) end.
Definition xabs (a : xr) : xr :=
  match a with XNaN => XNaN | XPInf => XPInf | XNInf => XPInf | XFin r => XFin (Rabs r) end.
Definition xadd (a b : xr) : xr :=
  match a, b with
  | XNaN, _ | _, XNaN => XNaN
  | XPInf, XNInf | XNInf, XPInf => XNaN
  | XPInf, _ | _, XPInf => XPInf
  | XNInf, _ | _, XNInf => XNInf
  | XFin x, XFin y => XFin (x + y)
  end.
Definition xsub (a b : xr) : xr :=
  match a, b with
  | XNaN, _ | _, XNaN => XNaN
  | XPInf, XPInf | XNInf, XNInf => XNaN
  | XPInf, _ | _, XNInf => XPInf
  | XNInf, _ | _, XPInf => XNInf
  | XFin x, XFin y => XFin (x - y)
  end.
Definition xmul (a b : xr) : xr :=
  match a, b with
  | XNaN, _ | _, XNaN => XNaN
  | XPInf, XPInf | XNInf, XNInf => XPInf
  | XPInf, XNInf | XNInf, XPInf => XNInf
  | XPInf, XFin r | XFin r, XPInf => xinf_mul r
  | XNInf, XFin r | XFin r, XNInf => xneg (xinf_mul r)
  | XFin x, XFin y => XFin (x * y)
  end.
Definition xdiv (a b : xr) : xr :=
  match a, b with
  | XNaN, _ | _, XNaN => XNaN
  | XPInf, XPInf | XNInf, XNInf | XPInf, XNInf | XNInf, XPInf => XNaN
  | XFin _, (XPInf | XNInf) => XFin 0
  | XPInf, XFin r => if Rltb r 0 then XNInf else XPInf
  | XNInf, XFin r => if Rltb r 0 then XPInf else XNInf
  | XFin x, XFin y => if Req_EM_T y 0 then xinf_div x else XFin (x / y)
  end.
Definition xltb (a b : xr) : bool :=
  match a, b with
  | XNaN, _ | _, XNaN => false
  | XNInf, XNInf => false
  | XNInf, _ => true
  | _, XNInf => false
  | XPInf, _ => false
  | _, XPInf => true
  | XFin x, XFin y => Rltb x y
  end.
Definition xeqb (a b : xr) : bool :=
  match a, b with
  | XPInf, XPInf | XNInf, XNInf => true
  | XFin x, XFin y => Reqb x y
  | _, _ => false
  end.
Definition xleb (a b : xr) : bool :=
  match a, b with
  | XNaN, _ | _, XNaN => false
  | XNInf, _ => true
  | _, XPInf => true
  | XFin x, XFin y => Rleb x y
  | _, _ => false
  end.
Definition xsqrt (a : xr) : xr :=
  match a with
  | XNaN | XNInf => XNaN
  | XPInf => XPInf
  | XFin r => if Rltb r 0 then XNaN else XFin (sqrt r)
  end.
Definition xexp (a : xr) : xr :=
  match a with XNaN => XNaN | XPInf => XPInf | XNInf => XFin 0 | XFin r => XFin (exp r) end.
Definition xlog (a : xr) : xr :=
  match a with
  | XNaN | XNInf => XNaN
  | XPInf => XPInf
  | XFin r => if Rltb r 0 then XNaN else if Reqb r 0 then XNInf else XFin (ln r)
  end.
Definition xcos (a : xr) : xr :=
  match a with XFin r => XFin (cos r) | _ => XNaN end.
Definition xatan (a : xr) : xr :=
  match a with XNaN => XNaN | XPInf => XFin (PI / 2) | XNInf => XFin (- (PI / 2)) | XFin r => XFin (atan r) end.
(** floor and ceiling: Int_part is the floor on R *)
Definition xfloor (a : xr) : xr :=
  match a with XFin r => XFin (IZR (Int_part r)) | _ => a end.
Definition xceil (a : xr) : xr :=
  match a with XFin r => XFin (- IZR (Int_part (- r))) | _ => a end.
(** is [y] an (odd) integer *)
Definition Rint_of (y : R) : option Z := if Req_EM_T y (IZR (Int_part y)) then Some (Int_part y) else None.
(** pow of <cmath> (C17 annex F.10.4.4), with a single zero *)
Definition xpow (a b : xr) : xr :=
  match b with
  | XFin y =>
    if Reqb y 0 then XFin 1 else
    match a with
    | XNaN => XNaN
    | XPInf => if Rltb 0 y then XPInf else XFin 0
    | XNInf =>
      match Rint_of y with
      | Some n => if Z.odd n then (if Rltb 0 y then XNInf else XFin 0) else (if Rltb 0 y then XPInf else XFin 0)
      | None => if Rltb 0 y then XPInf else XFin 0
      end
    | XFin x =>
      if Rltb 0 x then XFin (Rpower x y)
      else if Reqb x 0 then (if Rltb 0 y then XFin 0 else XPInf)
      else match Rint_of y with
           | Some n => XFin (if Z.odd n then - Rpower (- x) y else Rpower (- x) y)
           | None => XNaN
           end
    end
  | XNaN => match a with XFin x => if Reqb x 1 then XFin 1 else XNaN | _ => XNaN end
  | XPInf =>
    match a with
    | XNaN => XNaN
    | XPInf | XNInf => XPInf
    | XFin x => if Reqb (Rabs x) 1 then XFin 1 else if Rltb (Rabs x) 1 then XFin 0 else XPInf
    end
  | XNInf =>
    match a with
    | XNaN => XNaN
    | XPInf | XNInf => XFin 0
    | XFin x => if Reqb (Rabs x) 1 then XFin 1 else if Rltb (Rabs x) 1 then XPInf else XFin 0
    end
  end.
(** (int) conversion truncates toward zero; undefined behaviour outside the range of int *)
Definition Rtrunc (r : R) : Z := if Rltb r 0 then (- Int_part (- r))%Z else Int_part r.
Definition xtrunc (a : xr) : option Z :=
  match a with
  | XFin r => let z := Rtrunc r in
              if (Z.leb (-2147483648) z && Z.leb z 2147483647)%bool then Some z else None
  | _ => None
  end.

(** decimal conversions are exact *)
Definition xdec (m e : Z) : xr := XFin (IZR m * powerRZ 10 e).
Definition xfixed (d : nat) (a : xr) : Z :=
  match a with XFin r => ZnearestE (Rabs r * 10 ^ d) | _ => 0%Z end.

(** parameters of the instance: the tolerance fuzzylite::macheps() and the unconstrained functions *)
Record xparam := {
  xp_eps : R;
  xp_fn1 : libm1 -> xr -> xr;
  xp_fn2 : libm2 -> xr -> xr -> xr
}.

Definition XRScalar (P : xparam) : Scalar xr := {|
  s_nan := XNaN;
  s_inf := XPInf;
  s_lit := fun n d => XFin (IZR n / IZR (Zpos d));
  s_add := xadd; s_sub := xsub; s_mul := xmul; s_div := xdiv;
  s_neg := xneg; s_abs := xabs; s_sqrt := xsqrt; s_floor := xfloor; s_ceil := xceil;
  s_fn1 := fun f => match f with LExp => xexp | LLog => xlog | LCos => xcos | LAtan => xatan | _ => xp_fn1 P f end;
  s_fn2 := fun f => match f with LPow => xpow | _ => xp_fn2 P f end;
  s_ltb := xltb; s_leb := xleb; s_eqb := xeqb;
  s_trunc := xtrunc;
  s_dec := xdec; s_fixed := xfixed;
  s_eps := XFin (xp_eps P)
|}.

(** the default tolerance 1e-6 of the library (/repo/src/fuzzylite.cpp:24), and exact comparisons *)
Definition xp_default : xparam :=
  {| xp_eps := / 1000000; xp_fn1 := fun _ x => x; xp_fn2 := fun _ x _ => x |}.
Definition xp_exact : xparam :=
  {| xp_eps := 0; xp_fn1 := fun _ x => x; xp_fn2 := fun _ x _ => x |}.
