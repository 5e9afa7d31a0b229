(** Outcomes of C++ operations and the abstract scalar type.

    fl::scalar is `double` (/repo/fuzzylite/fuzzylite.h, typedef of scalar); the code of the
    library only uses the operations listed in [Scalar].  The model is generic over them. *)
From Coq Require Import ZArith List String Bool.
Import ListNotations.

(** Exceptions.  fl::Exception carries only a text (/repo/fuzzylite/Exception.h:24-120).
    Simplification: the text is abstracted to the bracketed tag which starts it
    (e.g. "[syntax error] ..."); [EOutOfRange] is std::out_of_range thrown by vector::at. *)
Inductive exc :=
| ESyntax | ERule | EAntecedent | EConsequent | EConjunction | EDisjunction
| EImplication | EAggregation | EDefuzzifier | EOperator | EConversion | EConfiguration
| EEngine | ETerm | ELinear | EFunction | EActivation | EImport | EExport | EFactory
| EMonotonic | EVariable | EInternal | EDiscrete | EBenchmark | EOutOfRange | EDefuzzify.

(** Outcome of an operation: a value, a C++ exception, undefined behaviour, or
    non-termination (only used where the code can loop for ever). *)
Inductive res (A : Type) :=
| Ok (a : A)
| Throw (e : exc)
| UB
| Diverge.
Arguments Ok {A}. Arguments Throw {A}. Arguments UB {A}. Arguments Diverge {A}.

Definition rbind {A B} (m : res A) (f : A -> res B) : res B :=
  match m with Ok a => f a | Throw e => Throw e | UB => UB | Diverge => Diverge end.
Definition rmap {A B} (f : A -> B) (m : res A) : res B := rbind m (fun a => Ok (f a)).

Declare Scope res_scope.
Notation "'do' x <- m ; k" := (rbind m (fun x => k))
  (at level 200, x pattern, m at level 100, k at level 200) : res_scope.
Open Scope res_scope.

(** sequential map: stops at the first failure, like a C++ loop *)
Fixpoint rmapM {A B} (f : A -> res B) (l : list A) : res (list B) :=
  match l with
  | [] => Ok []
  | x :: l => do y <- f x; do ys <- rmapM f l; Ok (y :: ys)
  end.

(** Unary functions of <cmath> that the library registers for formulas
    (/repo/src/factory/FunctionFactory.cpp:80-153) and that IEEE-754 does not define exactly. *)
Inductive libm1 :=
| LAcos | LAsin | LAtan | LCos | LCosh | LExp | LLog | LLog10 | LSin | LSinh | LTan | LTanh
| LAcosh | LAsinh | LAtanh | LLog1p.
(** Binary functions of <cmath> (same place). *)
Inductive libm2 := LAtan2 | LPow | LFmod.

(** The scalar operations used by the library.  Comparisons are the C++ ones (false on NaN). *)
Class Scalar (T : Type) := {
  s_nan : T;
  s_inf : T;
  s_lit : Z -> positive -> T;           (* decimal literal n/d, and int -> scalar as n/1 *)
  s_add : T -> T -> T;
  s_sub : T -> T -> T;
  s_mul : T -> T -> T;
  s_div : T -> T -> T;
  s_neg : T -> T;
  s_abs : T -> T;
  s_sqrt : T -> T;
  s_floor : T -> T;
  s_ceil : T -> T;
  s_fn1 : libm1 -> T -> T;
  s_fn2 : libm2 -> T -> T -> T;
  s_ltb : T -> T -> bool;
  s_leb : T -> T -> bool;
  s_eqb : T -> T -> bool;
  s_trunc : T -> option Z;              (* (int) conversion; None when it is undefined behaviour *)
  s_dec : Z -> Z -> T;                  (* value of the decimal m * 10^e, m >= 0 (strtod: correctly rounded) *)
  s_fixed : nat -> T -> Z;              (* |x| * 10^d to the nearest integer, ties to even (printf "%.df"); x finite *)
  s_eps : T                             (* fuzzylite::macheps(), default 1e-6 (/repo/src/fuzzylite.cpp:24) *)
}.

Declare Scope scalar_scope.
Delimit Scope scalar_scope with S.
Notation "a + b" := (s_add a b) : scalar_scope.
Notation "a - b" := (s_sub a b) : scalar_scope.
Notation "a * b" := (s_mul a b) : scalar_scope.
Notation "a / b" := (s_div a b) : scalar_scope.
Notation "- a" := (s_neg a) : scalar_scope.
Notation "a <? b" := (s_ltb a b) : scalar_scope.
Notation "a <=? b" := (s_leb a b) : scalar_scope.
Notation "a =? b" := (s_eqb a b) : scalar_scope.
Notation "a >? b" := (s_ltb b a) (at level 70, no associativity) : scalar_scope.
Notation "a >=? b" := (s_leb b a) (at level 70, no associativity) : scalar_scope.

Definition s_int {T} `{Scalar T} (n : Z) : T := s_lit n 1.
Definition s_0 {T} `{Scalar T} : T := s_int 0.
Definition s_1 {T} `{Scalar T} : T := s_int 1.
Definition s_2 {T} `{Scalar T} : T := s_int 2.
Definition s_half {T} `{Scalar T} : T := s_lit 1 2.
