(** C58-C62: text helpers and conversions between text and scalars. *)
From Coq Require Import ZArith Reals List Bool String Ascii Arith Lia.
From Flocq Require Import Core BinarySingleNaN.
From Verif Require Import Base Op F64 Text SpecText TextProofs TextProofs2 TextF64.
Import ListNotations.
Local Open Scope string_scope.

(** * C58 *)
(** the loop always ends; the pieces are those between the leftmost non-overlapping delimiters; empty ones are dropped on request *)
Theorem C58_split_terminates : forall s d ig, exists l, split_res s d ig = Ok l.
Proof. exact split_terminates. Qed.
Print Assumptions C58_split_terminates.
Theorem C58_split_pieces : forall s d, s <> "" -> d <> "" ->
  pieces d s (split s d false) /\ split s d true = filter (fun t => negb (sempty t)) (split s d false).
Proof. exact split_spec. Qed.
Print Assumptions C58_split_pieces.
Theorem C58_join_split : forall s d, s <> "" -> d <> "" -> join (split s d false) d = s.
Proof. exact join_split. Qed.
Print Assumptions C58_join_split.
Theorem C58_pieces_free : forall s d p, s <> "" -> d <> "" -> In p (split s d false) -> ~ occurs d p.
Proof. exact split_free. Qed.
Print Assumptions C58_pieces_free.
(** pieces are restored from their join if no piece contains the delimiter or forms one with the start of the next delimiter *)
Theorem C58_split_join : forall d l, d <> "" -> l <> [] -> l <> [""] ->
  (forall p, In p l -> first_occurrence d (p ++ d) p "" /\ ~ occurs d p) -> split (join l d) d false = l.
Proof. exact split_join. Qed.
Print Assumptions C58_split_join.
(** for one character delimiters it is enough that the pieces do not contain it; non-empty pieces also survive ignoreEmpty *)
Theorem C58_split_join_char : forall c l, l <> [] -> l <> [""] -> (forall p, In p l -> ~ occurs (char c) p) ->
  split (join l (char c)) (char c) false = l /\
  ((forall p, In p l -> p <> "") -> split (join l (char c)) (char c) true = l).
Proof. exact split_join_char. Qed.
Print Assumptions C58_split_join_char.
(** delimiter-free pieces are not enough for longer delimiters, and an empty text is never split into nothing *)
Theorem C58_split_join_refuted : exists d l, d <> "" /\ l <> [] /\ l <> [""] /\ (forall p, In p l -> ~ occurs d p) /\ split (join l d) d false <> l.
Proof. exact split_join_overlap. Qed.
Print Assumptions C58_split_join_refuted.
Theorem C58_split_empty_refuted : exists d, split "" d true = [""].
Proof. exists " ". reflexivity. Qed.
Print Assumptions C58_split_empty_refuted.
Example C58_case : split "a,,b" "," false = ["a"; ""; "b"] /\ split "a,,b" "," true = ["a"; "b"] /\ split "0.1 to 2 to 3" " to " true = ["0.1"; "2"; "3"]
  /\ join ["a"; ""; "b"] "," = "a,,b".
Proof. repeat split. Qed.

(** * C59 *)
Theorem C59_trim : forall s, exists t, trim_res s = Ok t /\
  (exists l r, s = l ++ t ++ r /\ all_chars space l /\ all_chars space r) /\
  (forall c, first_char t = Some c -> ~ space c) /\ (forall c, last_char t = Some c -> ~ space c).
Proof. exact trim_correct. Qed.
Print Assumptions C59_trim.
(** which determines the result *)
Theorem C59_trim_unique : forall s t t', trimmed s t -> trimmed s t' -> t = t'.
Proof. exact trimmed_unique. Qed.
Print Assumptions C59_trim_unique.
Theorem C59_trim_idempotent : forall s, trim (trim s) = trim s.
Proof. exact trim_idem. Qed.
Print Assumptions C59_trim_idempotent.
Theorem C59_trim_blank : forall s, trim s = "" <-> all_chars space s.
Proof. exact trim_blank. Qed.
Print Assumptions C59_trim_blank.
Example C59_case : trim "  a b " = "a b" /\ trim "   " = "" /\ trim "x " = "x" /\ trim "a  b" = "a  b".
Proof. repeat split. Qed.

(** * C60 *)
Theorem C60_replace_all : forall s pat rep, pat <> "" -> exists r, replace_all s pat rep = Ok r /\ replaced pat rep s r.
Proof. exact replace_all_spec. Qed.
Print Assumptions C60_replace_all.
Theorem C60_replaced_unique : forall pat rep s r r', replaced pat rep s r -> replaced pat rep s r' -> r = r'.
Proof. exact replaced_unique. Qed.
Print Assumptions C60_replaced_unique.
(** the same as splitting at the pattern and joining with the replacement *)
Theorem C60_replace_split : forall s pat rep, s <> "" -> pat <> "" -> replace_all s pat rep = Ok (join (split s pat false) rep).
Proof. exact replace_split. Qed.
Print Assumptions C60_replace_split.
(** an empty pattern makes the loop run for ever: no number of rounds is enough *)
Theorem C60_empty_pattern_refuted : exists pat, forall fuel rep s, replace_loop fuel pat rep true s = Diverge.
Proof. exists "". intros. apply replace_empty. Qed.
Print Assumptions C60_empty_pattern_refuted.
(** replacing only the first occurrence loses everything after it *)
Theorem C60_replace_first : forall s pat rep, (occurs pat s -> exists b a, first_occurrence pat s b a /\ replace_first s pat rep = Ok (b ++ rep)) /\
  (~ occurs pat s -> replace_first s pat rep = Ok s).
Proof. exact replace_first_all. Qed.
Print Assumptions C60_replace_first.
Theorem C60_replace_first_refuted : exists s pat rep b a, first_occurrence pat s b a /\ replace_first s pat rep <> Ok (b ++ rep ++ a).
Proof. exact replace_first_loses. Qed.
Print Assumptions C60_replace_first_refuted.
Example C60_case : replace_all "a+b+c" "+" " + " = Ok "a + b + c" /\ replace_all "aaa" "aa" "b" = Ok "ba" /\ replace_first "abc" "b" "x" = Ok "ax".
Proof. repeat split. Qed.

(** * C61 *)
Theorem C61_valid_chars : forall s, all_chars (fun c => name_char c = true) (valid_name s).
Proof. exact valid_all_chars. Qed.
Print Assumptions C61_valid_chars.
Theorem C61_valid_idempotent : forall s, valid_name s <> "" -> valid_name (valid_name s) = valid_name s.
Proof. exact valid_idem. Qed.
Print Assumptions C61_valid_idempotent.
Theorem C61_valid_keep : forall s, s <> "" -> all_chars (fun c => name_char c = true) s -> valid_name s = s.
Proof. exact valid_keep_all. Qed.
Print Assumptions C61_valid_keep.
(** empty exactly for texts that are not blank and have no usable character *)
Theorem C61_valid_empty : forall s, valid_name s = "" <-> all_chars (fun c => name_char c = false) s /\ ~ all_chars space s.
Proof. exact valid_empty. Qed.
Print Assumptions C61_valid_empty.
Theorem C61_never_empty_refuted : exists s, valid_name s = "".
Proof. exists "#". reflexivity. Qed.
Print Assumptions C61_never_empty_refuted.
Theorem C61_idempotent_refuted : exists s, valid_name (valid_name s) <> valid_name s.
Proof. exists "#". discriminate. Qed.
Print Assumptions C61_idempotent_refuted.
Example C61_case : valid_name "my var-1" = "myvar1" /\ valid_name "  " = "_" /\ valid_name "a.b_c" = "a.b_c".
Proof. repeat split. Qed.

(** * C62 *)
(** for every finite double and every number of decimals *)
Theorem C62_round_trip : forall P d (x : f64), is_finite x = true -> exists y : f64,
  @to_scalar f64 (F64Scalar P) (@str f64 (F64Scalar P) d x) = Ok y /\ is_finite y = true /\
  (Rabs (B2R y - B2R x) <= / IZR (10 ^ Z.of_nat d))%R /\ @str f64 (F64Scalar P) d y = @str f64 (F64Scalar P) d x.
Proof. exact round_trip. Qed.
Print Assumptions C62_round_trip.
(** numbers with at most [d] decimals are kept exactly *)
Theorem C62_decimals_kept : forall P d k (neg : bool), (d <= 300)%nat -> (0 < k < 2 ^ 52)%Z ->
  let x := if neg then Bopp (f64_dec k (- Z.of_nat d)) else f64_dec k (- Z.of_nat d) in
  @str f64 (F64Scalar P) d x = (if neg then "-" else "") ++ fixed_text d k /\
  @to_scalar f64 (F64Scalar P) (@str f64 (F64Scalar P) d x) = Ok x.
Proof. exact decimal_trip. Qed.
Print Assumptions C62_decimals_kept.
Theorem C62_specials : forall P d, (forall x : f64, is_nan x = true -> @str f64 (F64Scalar P) d x = "nan") /\
  @to_scalar f64 (F64Scalar P) "nan" = Ok B754_nan /\
  (forall s, @to_scalar f64 (F64Scalar P) (@str f64 (F64Scalar P) d (B754_infinity s)) = Ok (B754_infinity s)).
Proof. exact special_trip. Qed.
Print Assumptions C62_specials.
(** the decimal read is the correctly rounded one, and the digits printed are those of the nearest decimal *)
Theorem C62_read_correct : forall m d, (Rabs (round radix2 (SpecFloat.fexp 53 1024) ZnearestE (IZR m * / IZR (10 ^ Z.of_nat d))) < bpow radix2 1024)%R ->
  B2R (f64_dec m (- Z.of_nat d)) = round radix2 (SpecFloat.fexp 53 1024) ZnearestE (IZR m * / IZR (10 ^ Z.of_nat d)).
Proof. exact read_correct. Qed.
Print Assumptions C62_read_correct.
Theorem C62_print_correct : forall d (x : f64), is_finite x = true -> f64_fixed d x = ZnearestE (Rabs (B2R x) * IZR (10 ^ Z.of_nat d)).
Proof. exact fixed_correct. Qed.
Print Assumptions C62_print_correct.
(** the digits of a printed number, read as digits, give the number *)
Theorem C62_digits : forall d n, (0 <= n)%Z -> read_decimal (fixed_text d n) = Some (false, n, (- Z.of_nat d)%Z) /\
  read_decimal ("-" ++ fixed_text d n) = Some (true, n, (- Z.of_nat d)%Z).
Proof. exact read_fixed. Qed.
Print Assumptions C62_digits.
(** a value below the printed precision reads back as zero *)
Theorem C62_value_kept_refuted : exists x y : f64, is_finite x = true /\
  @to_scalar f64 (F64Scalar fp_default) (@str f64 (F64Scalar fp_default) 3 x) = Ok y /\ Beqb x y = false.
Proof. exact value_lost. Qed.
Print Assumptions C62_value_kept_refuted.
Example C62_case : @str f64 (F64Scalar fp_default) 3 (f64_dec 1 (-1)) = "0.100" /\ @str f64 (F64Scalar fp_default) 3 (f64_dec 9 (-4)) = "0.000" /\
  @str f64 (F64Scalar fp_default) 3 (Bopp (f64_dec 25678 (-1))) = "-2567.800" /\ @str f64 (F64Scalar fp_default) 3 (f64_dec 19996 (-4)) = "2.000" /\
  is_finite (f64_dec 1 (-1)) = true.
Proof. vm_compute. repeat split. Qed.
