(** Text helpers of /repo/fuzzylite/Operation.h, std::istream tokenization, and conversions between text and scalars.

    std::string is [string] (bytes).  Simplification: isspace and isalnum applied to bytes >= 128 (negative char, undefined
    behaviour in C) are modelled as false, as in the C locale of glibc. *)
From Coq Require Import ZArith List Bool String Ascii Arith.
From Verif Require Import Base Op.
Import ListNotations.
Local Open Scope string_scope.

Definition code (c : ascii) : nat := nat_of_ascii c.
(** isspace in the C locale: space, \t \n \v \f \r *)
Definition is_space (c : ascii) : bool := (Nat.eqb (code c) 32 || (Nat.leb 9 (code c) && Nat.leb (code c) 13))%bool.
Definition is_digit (c : ascii) : bool := (Nat.leb 48 (code c) && Nat.leb (code c) 57)%bool.
Definition is_alpha (c : ascii) : bool :=
  ((Nat.leb 65 (code c) && Nat.leb (code c) 90) || (Nat.leb 97 (code c) && Nat.leb (code c) 122))%bool.
Definition is_alnum (c : ascii) : bool := (is_digit c || is_alpha c)%bool.

Definition sempty (s : string) : bool := match s with "" => true | _ => false end.
Definition char (c : ascii) : string := String c "".

Fixpoint sforall (p : ascii -> bool) (s : string) : bool :=
  match s with "" => true | String c r => (p c && sforall p r)%bool end.
Fixpoint sfilter (p : ascii -> bool) (s : string) : string :=
  match s with "" => "" | String c r => if p c then String c (sfilter p r) else sfilter p r end.
Fixpoint sdrop (n : nat) (s : string) : string :=
  match n, s with O, _ => s | S n, String _ r => sdrop n r | S _, "" => "" end.

(** while (tokenizer >> token): the maximal runs of non-space characters, e.g. /repo/src/rule/Rule.cpp:170 *)
Fixpoint tokens_from (cur s : string) : list string :=
  match s with
  | "" => if sempty cur then [] else [cur]
  | String c r => if is_space c then (if sempty cur then tokens_from "" r else cur :: tokens_from "" r)
                  else tokens_from (cur ++ char c) r
  end.
Definition tokens (s : string) : list string := tokens_from "" s.

(** std::string::find and std::search: text before and after the first occurrence *)
Fixpoint find_sub (pat s : string) : option (string * string) :=
  if prefix pat s then Some ("", sdrop (length pat) s)
  else match s with
       | "" => None
       | String c r => match find_sub pat r with Some (b, a) => Some (String c b, a) | None => None end
       end.

(** Operation.h:870-886.  Each round of the loop takes one unit of fuel. *)
Definition keep (ignoreEmpty : bool) (t : string) : list string := if (sempty t && ignoreEmpty)%bool then [] else [t].
Fixpoint split_loop (fuel : nat) (delimiter : string) (ignoreEmpty : bool) (s : string) : res (list string) :=
  match fuel with
  | O => Diverge
  | S fuel =>
    match find_sub delimiter s with
    | None => Ok (keep ignoreEmpty s)
    | Some (b, a) => do r <- split_loop fuel delimiter ignoreEmpty a; Ok (keep ignoreEmpty b ++ r)%list
    end
  end.
Definition split_fuel (fuel : nat) (str delimiter : string) (ignoreEmpty : bool) : res (list string) :=
  if (sempty str || sempty delimiter)%bool then Ok [str] else split_loop fuel delimiter ignoreEmpty str.
(** fuel for one round per character is enough (proved in TextProofs.v: never Diverge) *)
Definition split_res (str delimiter : string) (ignoreEmpty : bool) : res (list string) :=
  split_fuel (S (length str)) str delimiter ignoreEmpty.
Definition split (str delimiter : string) (ignoreEmpty : bool) : list string :=
  match split_res str delimiter ignoreEmpty with Ok l => l | _ => [] end.

(** Operation.h:844-857: do-while loop; one unit of fuel per round *)
Fixpoint replace_loop (fuel : nat) (find replace : string) (all : bool) (s : string) : res string :=
  match fuel with
  | O => Diverge
  | S fuel =>
    match find_sub find s with
    | None => Ok s
    | Some (b, a) => if all then do r <- replace_loop fuel find replace all a; Ok (b ++ replace ++ r)
                     else Ok (b ++ replace)
    end
  end.
Definition find_replace (str find replace : string) (all : bool) : res string :=
  replace_loop (S (length str)) find replace all str.
(** Operation.h:859-867 *)
Definition replace_first (str find replace : string) : res string := find_replace str find replace false.
Definition replace_all (str find replace : string) : res string := find_replace str find replace true.

(** Operation.h:1041-1050 *)
Fixpoint join (xs : list string) (separator : string) : string :=
  match xs with
  | [] => ""
  | [x] => x
  | x :: r => x ++ separator ++ join r separator
  end.

(** text.at(i) *)
Definition at_ (s : string) (i : Z) : res ascii :=
  if (i <? 0)%Z then Throw EOutOfRange
  else match get (Z.to_nat i) s with Some c => Ok c | None => Throw EOutOfRange end.
(** Operation.h:888-902 with its indices (size_t, but no operation wraps around; proved in TextProofs.v) *)
Fixpoint trim_start (fuel : nat) (text : string) (start end_ : Z) : res Z :=
  match fuel with
  | O => Diverge
  | S fuel => if (start <=? end_)%Z then do c <- at_ text start;
                if is_space c then trim_start fuel text (start + 1) end_ else Ok start
              else Ok start
  end.
Fixpoint trim_end (fuel : nat) (text : string) (start end_ : Z) : res Z :=
  match fuel with
  | O => Diverge
  | S fuel => if (end_ >=? start)%Z then do c <- at_ text end_;
                if is_space c then trim_end fuel text start (end_ - 1) else Ok end_
              else Ok end_
  end.
Definition trim_res (text : string) : res string :=
  if sempty text then Ok text else
  let n := Z.of_nat (length text) in
  do c0 <- at_ text 0; do c1 <- at_ text (n - 1);
  if negb (is_space c0 || is_space c1) then Ok text else
  do start <- trim_start (S (length text)) text 0 (n - 1);
  do end_ <- trim_end (S (length text)) text start (n - 1);
  let len := (end_ - start + 1)%Z in
  if (len <=? 0)%Z then Ok "" else Ok (substring (Z.to_nat start) (Z.to_nat len) text).
Definition trim (text : string) : string := match trim_res text with Ok s => s | _ => "" end.

(** Operation.h:832-842 *)
Definition name_char (c : ascii) : bool := (Nat.eqb (code c) 95 || Nat.eqb (code c) 46 || is_alnum c)%bool.
Definition valid_name (name : string) : string :=
  if sempty (trim name) then "_" else sfilter name_char name.

(** Operation.h:904-916 *)
Fixpoint format (text : string) (matches : ascii -> bool) (replacement : string) : string :=
  match text with
  | "" => ""
  | String c r => (if matches c then char c else replacement) ++ format r matches replacement
  end.

(** * Numbers *)

Definition digit_of (c : ascii) : Z := Z.of_nat (code c) - 48.
Definition digit_char (n : Z) : ascii := ascii_of_nat (48 + Z.to_nat n).
(** leading digits: value and number of digits read, and the rest *)
Fixpoint read_digits (s : string) (v : Z) (n : nat) : Z * nat * string :=
  match s with
  | String c r => if is_digit c then read_digits r (v * 10 + digit_of c)%Z (S n) else (v, n, s)
  | "" => (v, n, s)
  end.
Definition read_sign (s : string) : bool * string :=
  match s with
  | String c r => if Ascii.eqb c "-" then (true, r) else if Ascii.eqb c "+" then (false, r) else (false, s)
  | "" => (false, s)
  end.
Fixpoint skip_ws (s : string) : string :=
  match s with String c r => if is_space c then skip_ws r else s | "" => s end.
(** `iss >> result` followed by the test that nothing is left (Operation.h:919-924): sign, digits with an optional
    point, optional exponent (libstdc++ num_get and strtod).  Result: sign, mantissa m and exponent e of m * 10^e. *)
Definition read_decimal (x : string) : option (bool * Z * Z) :=
  let '(neg, s) := read_sign (skip_ws x) in
  let '(ip, ni, s) := read_digits s 0 0 in
  let '(m, nf, s) := match s with
                     | String c r => if Ascii.eqb c "." then read_digits r ip 0 else (ip, 0%nat, s)
                     | "" => (ip, 0%nat, s)
                     end in
  if Nat.eqb (ni + nf) 0 then None else
  match s with
  | "" => Some (neg, m, (- Z.of_nat nf)%Z)
  | String c r =>
    if (Ascii.eqb c "e" || Ascii.eqb c "E")%bool then
      let '(eneg, r) := read_sign r in
      let '(e, ne, r) := read_digits r 0 0 in
      if (Nat.eqb ne 0 || negb (sempty r))%bool then None
      else Some (neg, m, ((if eneg then - e else e) - Z.of_nat nf)%Z)
    else None
  end.

(** decimal digits of n >= 0, at least one *)
Fixpoint int_digits (fuel : nat) (n : Z) : string :=
  match fuel with
  | O => ""
  | S fuel => if (n <? 10)%Z then char (digit_char n) else int_digits fuel (n / 10) ++ char (digit_char (n mod 10))
  end.
Definition nat_text (n : Z) : string := int_digits (S (Z.to_nat (Z.log2 n))) n.
(** exactly d digits *)
Fixpoint frac_digits (d : nat) (n : Z) : string :=
  match d with
  | O => ""
  | S d => frac_digits d (n / 10) ++ char (digit_char (n mod 10))
  end.
(** n / 10^d in fixed notation *)
Definition fixed_text (d : nat) (n : Z) : string :=
  nat_text (n / 10 ^ Z.of_nat d) ++ (if Nat.eqb d 0 then "" else "." ++ frac_digits d n).

Section Scalars.
Context {T : Type} `{S : Scalar T}.
Local Open Scope scalar_scope.

(** Operation.h:918-943.  A number too large for the scalar sets failbit, which here ends in the exception. *)
Definition to_scalar (x : string) : res T :=
  let special := if String.eqb x "nan" then Ok s_nan
                 else if String.eqb x "inf" then Ok s_inf
                 else if String.eqb x "-inf" then Ok (- s_inf)
                 else Throw EConversion in
  match read_decimal x with
  | Some (neg, m, e) => let v := s_dec m e in
                        if isInf v then special else Ok (if neg then - v else v)
  | None => special
  end.
(** Operation.h:974-981 *)
Definition to_scalars (x : string) : res (list T) := rmapM to_scalar (tokens x).
(** Operation.h:998-1003 *)
Definition is_numeric (x : string) : bool := match to_scalar x with Ok _ => true | _ => false end.

(** Operation.h:1005-1022 for T = scalar, with the global format std::ios_base::fixed (/repo/src/fuzzylite.cpp:23) and
    [d] >= 0 decimals (default 3, line 22).  std::pow(10.0, -decimals) is taken to be correctly rounded. *)
Definition str (d : nat) (x : T) : string :=
  if isNaN x then "nan"
  else if isInf x then (if x <? s_0 then "-inf" else "inf")
  else if isEq_tol (s_dec 1 (- Z.of_nat d)) x s_0 then fixed_text d 0
  else (if x <? s_0 then "-" else "") ++ fixed_text d (s_fixed d x).
(** the same for integers: T(0) and x are printed without decimals *)
Definition str_int (x : Z) : string := (if (x <? 0)%Z then "-" else "") ++ nat_text (Z.abs x).
(** Operation.h:1032-1039 *)
Definition join_scalars (d : nat) (xs : list T) (separator : string) : string := join (map (str d) xs) separator.
End Scalars.
