(** Mathematical vocabulary of the norm properties, independent of the model. *)
From Coq Require Import Reals.
From Verif Require Import XR.
Local Open Scope R_scope.

(** a truth degree: a real number in [0,1] *)
Definition degree (x : xr) : Prop := exists r, x = XFin r /\ 0 <= r <= 1.
(** order of finite values *)
Definition fle (x y : xr) : Prop := exists r s, x = XFin r /\ y = XFin s /\ r <= s.

(** triangular norm on the unit interval (Klement, Mesiar, Pap) *)
Record is_tnorm (f : xr -> xr -> xr) : Prop := {
  tn_closed : forall a b, degree a -> degree b -> degree (f a b);
  tn_comm : forall a b, degree a -> degree b -> f a b = f b a;
  tn_mono : forall a a' b b', degree a -> degree a' -> degree b -> degree b' ->
            fle a a' -> fle b b' -> fle (f a b) (f a' b');
  tn_zero : forall a, degree a -> f a (XFin 0) = XFin 0;
  tn_one : forall a, degree a -> f a (XFin 1) = a;
  tn_assoc : forall a b c, degree a -> degree b -> degree c -> f (f a b) c = f a (f b c)
}.

(** triangular conorm on the unit interval *)
Record is_snorm (f : xr -> xr -> xr) : Prop := {
  sn_closed : forall a b, degree a -> degree b -> degree (f a b);
  sn_comm : forall a b, degree a -> degree b -> f a b = f b a;
  sn_mono : forall a a' b b', degree a -> degree a' -> degree b -> degree b' ->
            fle a a' -> fle b b' -> fle (f a b) (f a' b');
  sn_one : forall a, degree a -> f a (XFin 1) = XFin 1;
  sn_zero : forall a, degree a -> f a (XFin 0) = a;
  sn_assoc : forall a b c, degree a -> degree b -> degree c -> f (f a b) c = f a (f b c)
}.

(** complement of a degree *)
Definition compl (x : xr) : xr := xsub (XFin 1) x.

(** Documented formulas of the norms (the @return line of each header in /repo/fuzzylite/norm/t and
    /repo/fuzzylite/norm/s; EinsteinSum.h:46 and HamacherSum.h:46 miss a pair of parentheses; NilpotentMaximum.h:47 says a+b<0 for
    a+b<1 and UnboundedSum.h:45 says min(1,a+b) for a+b). *)
Inductive tname := TAlgebraicProduct | TBoundedDifference | TDrasticProduct | TEinsteinProduct
  | THamacherProduct | TMinimum | TNilpotentMinimum.
Definition t_formula (n : tname) (a b : R) : R :=
  match n with
  | TAlgebraicProduct => a * b
  | TBoundedDifference => Rmax 0 (a + b - 1)
  | TDrasticProduct => if Req_EM_T (Rmax a b) 1 then Rmin a b else 0
  | TEinsteinProduct => (a * b) / (2 - (a + b - a * b))
  | THamacherProduct => if Req_EM_T (a + b) 0 then 0 else (a * b) / (a + b - a * b)
  | TMinimum => Rmin a b
  | TNilpotentMinimum => if Rlt_dec 1 (a + b) then Rmin a b else 0
  end.
Inductive sname := SAlgebraicSum | SBoundedSum | SDrasticSum | SEinsteinSum | SHamacherSum | SMaximum
  | SNilpotentMaximum | SNormalizedSum | SUnboundedSum.
Definition s_formula (n : sname) (a b : R) : R :=
  match n with
  | SAlgebraicSum => a + b - a * b
  | SBoundedSum => Rmin 1 (a + b)
  | SDrasticSum => if Req_EM_T (Rmin a b) 0 then Rmax a b else 1
  | SEinsteinSum => (a + b) / (1 + a * b)
  | SHamacherSum => if Req_EM_T (a * b) 1 then 1 else (a + b - 2 * a * b) / (1 - a * b)
  | SMaximum => Rmax a b
  | SNilpotentMaximum => if Rlt_dec (a + b) 1 then Rmax a b else 1
  | SNormalizedSum => (a + b) / Rmax 1 (a + b)
  | SUnboundedSum => a + b
  end.
(** arguments which a comparison with tolerance [eps] cannot tell from the boundary of a case *)
Definition t_band (eps : R) (n : tname) (a b : R) : Prop :=
  match n with
  | TDrasticProduct => 0 < 1 - Rmax a b < eps
  | THamacherProduct => 0 < a + b < eps
  | TNilpotentMinimum => 0 < a + b - 1 < eps
  | _ => False
  end.
Definition s_band (eps : R) (n : sname) (a b : R) : Prop :=
  match n with
  | SDrasticSum => 0 < Rmin a b < eps
  | SHamacherSum => 0 < 1 - a * b < eps
  | SNilpotentMaximum => 0 < 1 - (a + b) < eps
  | _ => False
  end.

(** formulas of the hedges (the @return line of each header in /repo/fuzzylite/hedge) *)
Inductive hname := HAny | HExtremely | HNot | HSeldom | HSomewhat | HVery.
Definition h_formula (h : hname) (x : R) : R :=
  match h with
  | HAny => 1
  | HExtremely => if Rle_dec x (1/2) then 2 * x * x else 1 - 2 * (1 - x) * (1 - x)
  | HNot => 1 - x
  | HSeldom => if Rle_dec x (1/2) then sqrt (x / 2) else 1 - sqrt ((1 - x) / 2)
  | HSomewhat => sqrt x
  | HVery => x * x
  end.
Definition h_band (eps : R) (h : hname) (x : R) : Prop :=
  match h with HExtremely | HSeldom => 0 < x - 1/2 < eps | _ => False end.
