(** Benchmarks (/repo/src/Benchmark.cpp). *)
From Coq Require Import ZArith String List Bool.
From Verif Require Import Base Op Text Var Activation Engine Grid.
Import ListNotations.

(** Benchmark::ErrorType (/repo/fuzzylite/Benchmark.h:66) *)
Inductive error_type := NonFinite | Accuracy | AllErrors.
(** Benchmark::TimeUnit (Benchmark.h:50) *)
Inductive time_unit := NanoSeconds | MicroSeconds | MilliSeconds | Seconds | Minutes | Hours.

Section Benchmark.
Context {T : Type} `{S : Scalar T}.
Variable drain : drainer T.

(** one round of Benchmark.cpp:108-114: the expected values, here of the inputs only *)
Definition prepare_step (resolution : Z) (e : engine T) (k : list Z) (rows : list (list T)) : list (list T) * res unit :=
  (rows ++ [map (fun p => grid_point (v_minimum (snd p)) (v_maximum (snd p)) resolution (fst p)) (combine k (e_inputs e))], Ok tt).
(** Benchmark::prepare (Benchmark.cpp:90-116); the engine is not null *)
Definition prepare (values : Z) (sc : scope) (e : engine T) : res (list (list T)) :=
  let n := length (e_inputs e) in
  do resolution <- resolution_for values sc n;
  let min := repeat 0%Z n in
  let max := repeat resolution n in
  match grid_loop (grid_size min max) (prepare_step resolution e) min max min [] with
  | (rows, Ok _) => Ok rows
  | (_, Throw e) => Throw e | (_, UB) => UB | (_, Diverge) => Diverge
  end.
(** Benchmark::prepare from the lines of a stream (Benchmark.cpp:118-137), which are at most [numberOfLines] *)
Fixpoint prepare_lines (first : bool) (lines : list string) : res (list (list T)) :=
  match lines with
  | [] => Ok []
  | line :: lines =>
    let line := trim line in
    if (sempty line || starts_hash line)%bool then prepare_lines false lines
    else
      match to_scalars line with
      | Ok values => do rows <- prepare_lines false lines; Ok (values :: rows)
      | Throw e => if first then prepare_lines false lines else Throw e
      | UB => UB | Diverge => Diverge
      end
  end.

(** one evaluation of Benchmark.cpp:159-182: the engine and the obtained values *)
Definition bench_row (values : list T) (e : engine T) : engine T * res (list T) :=
  let n := length (e_inputs e) in
  if Nat.ltb (length values) n then (e, Throw EBenchmark)
  else
    match process drain (set_inputs (firstn n values) e) with
    | (e, Ok _) => (e, Ok (firstn n values ++ map (fun o => v_value (o_var o)) (e_outputs e)))
    | (e, Throw err) => (e, Throw err) | (e, UB) => (e, UB) | (e, Diverge) => (e, Diverge)
    end.
Fixpoint bench_rows (expected : list (list T)) (e : engine T) : engine T * res (list (list T)) :=
  match expected with
  | [] => (e, Ok [])
  | values :: expected =>
    match bench_row values e with
    | (e, Ok row) => match bench_rows expected e with (e, Ok rows) => (e, Ok (row :: rows)) | r => r end
    | (e, Throw err) => (e, Throw err) | (e, UB) => (e, UB) | (e, Diverge) => (e, Diverge)
    end
  end.
(** Benchmark::run (Benchmark.cpp:143-193): the engine and the obtained values, [obtained] before.  Times are left out.
    Simplification: after an exception the partly filled table is left out. *)
Fixpoint bench_run (times : nat) (expected obtained : list (list T)) (e : engine T) : engine T * res (list (list T)) :=
  match times with
  | 0 => (e, Ok obtained)
  | Datatypes.S times =>
    match bench_rows expected (restart e) with
    | (e, Ok obtained) => bench_run times expected obtained e
    | r => r
    end
  end.

(** Benchmark::canComputeErrors (Benchmark.cpp:200-206) for an engine with [n] input and [m] output variables *)
Definition can_compute (n m : nat) (expected obtained : list (list T)) : bool :=
  match expected, obtained with
  | x :: _, y :: _ =>
    Nat.eqb (length expected) (length obtained) && Nat.eqb (length x) (length y) && Nat.eqb (length x) (n + m)
  | _, _ => false
  end.
(** which output variables are looked at: all, or the one at a position *)
Definition looked_at (output : option nat) (y : nat) : bool := match output with None => true | Some j => Nat.eqb j y end.
(** Benchmark.cpp:277-287 for one entry *)
Definition counts (ty : error_type) (tolerance e o : T) : bool :=
  negb (isEq_tol tolerance e o) &&
  match ty with
  | Accuracy => isFinite (e - o)%S
  | NonFinite => negb (isFinite (e - o)%S)
  | AllErrors => true
  end.
(** Benchmark.cpp:275-289: the inner loop over the output variables [ys] *)
Fixpoint count_row (ty : error_type) (tolerance : T) (output : option nat) (n : nat) (e o : list T) (errors : Z) (ys : list nat) : res Z :=
  match ys with
  | [] => Ok errors
  | y :: ys =>
    if looked_at output y then
      do ey <- vector_at (y + n) e; do oy <- vector_at (y + n) o;
      count_row ty tolerance output n e o (if counts ty tolerance ey oy then errors + 1 else errors)%Z ys
    else count_row ty tolerance output n e o errors ys
  end.
Fixpoint count_rows (ty : error_type) (tolerance : T) (output : option nat) (n m : nat) (expected obtained : list (list T)) (errors : Z) : res Z :=
  match expected, obtained with
  | e :: expected, o :: obtained =>
    do errors <- count_row ty tolerance output n e o errors (seq 0 m);
    count_rows ty tolerance output n m expected obtained errors
  | [], _ => Ok errors
  | _, [] => Throw EOutOfRange
  end.
(** Benchmark::numberOfErrors (Benchmark.cpp:267-293) *)
Definition number_of_errors (ty : error_type) (tolerance : T) (output : option nat) (n m : nat) (expected obtained : list (list T)) : res Z :=
  if can_compute n m expected obtained then count_rows ty tolerance output n m expected obtained 0%Z else Ok (-1)%Z.

(** Benchmark.cpp:223-231: the sum of squares and the number of summands *)
Fixpoint square_row (tolerance : T) (output : option nat) (n : nat) (e o : list T) (acc : T * Z) (ys : list nat) : res (T * Z) :=
  match ys with
  | [] => Ok acc
  | y :: ys =>
    if looked_at output y then
      do ey <- vector_at (n + y) e; do oy <- vector_at (n + y) o;
      let d := (ey - oy)%S in
      square_row tolerance output n e o
        (if isFinite d && negb (isEq_tol tolerance d s_0) then ((fst acc + d * d)%S, (snd acc + 1)%Z) else acc) ys
    else square_row tolerance output n e o acc ys
  end.
Fixpoint square_rows (tolerance : T) (output : option nat) (n m : nat) (expected obtained : list (list T)) (acc : T * Z) : res (T * Z) :=
  match expected, obtained with
  | e :: expected, o :: obtained =>
    do acc <- square_row tolerance output n e o acc (seq 0 m);
    square_rows tolerance output n m expected obtained acc
  | [], _ => Ok acc
  | _, [] => Throw EOutOfRange
  end.
(** Benchmark::meanSquaredError (Benchmark.cpp:212-237) *)
Definition mean_squared_error (tolerance : T) (output : option nat) (n m : nat) (expected obtained : list (list T)) : res T :=
  if can_compute n m expected obtained then
    do acc <- square_rows tolerance output n m expected obtained (s_0, 0%Z);
    Ok (if (0 <? snd acc)%Z then (fst acc / s_int (snd acc))%S else fst acc)
  else Ok s_nan.

(** Benchmark::factorOf (Benchmark.cpp:311-325) *)
Definition factor_of (u : time_unit) : T :=
  match u with
  | NanoSeconds => s_1
  | MicroSeconds => s_lit 1 1000
  | MilliSeconds => s_lit 1 1000000
  | Seconds => s_lit 1 1000000000
  | Minutes => (s_lit 1 1000000000 / s_int 60)%S
  | Hours => (s_lit 1 1000000000 / s_int 3600)%S
  end.
(** Benchmark::convert (Benchmark.cpp:327-329) *)
Definition convert (x : T) (from to : time_unit) : T := (x * factor_of to / factor_of from)%S.
End Benchmark.
