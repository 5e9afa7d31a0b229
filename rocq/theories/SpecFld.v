(** What is expected of dataset export and of benchmarks. *)
From Coq Require Import ZArith String List Bool Reals.
From Verif Require Import Base XR Op Text Var Activation Engine SpecEngine Grid SpecGrid Benchmark.
Import ListNotations.

Section Spec.
Context {T : Type} `{S : Scalar T}.
Variable drain : drainer T.

(** one evaluation of the engine for given input values: outcome, and values of the output variables *)
Definition output_values (e : engine T) : list T := map (fun o => v_value (o_var o)) (e_outputs e).
Definition evaluation (e : engine T) (inputs : list T) : res unit * list T :=
  let p := process drain (set_inputs inputs e) in (snd p, output_values (fst p)).
(** outputs do not depend on earlier evaluations: no formula mentions an output, no enabled output locks its previous value *)
Definition memoryless (e : engine T) : Prop :=
  ignores_outputs e /\ Forall (fun o => v_enabled (o_var o) = true -> o_lock_previous o = false) (e_outputs e).
(** the input values at the grid point [k]; inactive variables keep theirs *)
Fixpoint inputs_at (resolution : Z) (active : list bool) (k : list Z) (ins : list (variable T)) : list T :=
  match active, k, ins with
  | a :: active, i :: k, v :: ins =>
    (if a then v_minimum v + s_int i * (v_maximum v - v_minimum v) / s_int (Z.max 1 resolution) else v_value v)%S
    :: inputs_at resolution active k ins
  | _, _, _ => []
  end.
(** the value of an inactive variable survives being set again (always so unless it is locked outside of its range) *)
Definition stable (a : bool) (v : variable T) : Prop := a = false -> v_value (set_value (v_value v) v) = v_value v.
(** the highest grid index of each variable *)
Definition tops (resolution : Z) (active : list bool) : list Z := map (fun a : bool => if a then resolution else 0%Z) active.

(** a row: the inputs and the outputs, as wanted *)
Definition row_of (x : fld) (ins outs : list T) : list T := ((if fld_inputs x then ins else []) ++ (if fld_outputs x then outs else []))%list.
(** rows of a table for the points [ks]: all of them, or those before the first evaluation which fails *)
Inductive table (e : engine T) (at_ : list Z -> list T) (row : list T -> list T -> list T) : list (list Z) -> list (list T) -> res unit -> Prop :=
| table_nil : table e at_ row [] [] (Ok tt)
| table_row k ks outs rows r : evaluation e (at_ k) = (Ok tt, outs) -> table e at_ row ks rows r -> table e at_ row (k :: ks) (row (at_ k) outs :: rows) r
| table_fail k ks r : fst (evaluation e (at_ k)) = r -> r <> Ok tt -> table e at_ row (k :: ks) [] r.

(** the entries a benchmark compares: expected and obtained value, row by row, for the chosen outputs *)
Definition chosen (output : option nat) (m : nat) : list nat :=
  match output with None => seq 0 m | Some j => if Nat.ltb j m then [j] else [] end.
Definition row_entries (output : option nat) (n m : nat) (e o : list T) : list (T * T) :=
  map (fun y => (nth (n + y) e s_nan, nth (n + y) o s_nan)) (chosen output m).
Definition entries (output : option nat) (n m : nat) (expected obtained : list (list T)) : list (T * T) :=
  flat_map (fun p => row_entries output n m (fst p) (snd p)) (combine expected obtained).
(** every row has a value for each variable *)
Definition rectangular (width : nat) (rows : list (list T)) : Prop := Forall (fun r => (width <= length r)%nat) rows.
(** the differing entries of a kind *)
Definition differs (tolerance : T) (p : T * T) : bool := negb (isEq_tol tolerance (fst p) (snd p)).
Definition finite_difference (p : T * T) : bool := isFinite (fst p - snd p)%S.
Definition of_kind (ty : error_type) (p : T * T) : bool :=
  match ty with Accuracy => finite_difference p | NonFinite => negb (finite_difference p) | AllErrors => true end.
Definition faulty (ty : error_type) (tol : T) (p : T * T) : bool := (differs tol p && of_kind ty p)%bool.
Definition count {A} (p : A -> bool) (l : list A) : Z := Z.of_nat (length (filter p l)).
(** f 0 + ... + f (m-1) *)
Fixpoint sum_upto (f : nat -> Z) (m : nat) : Z := match m with 0 => 0%Z | Datatypes.S m => (sum_upto f m + f m)%Z end.
End Spec.

Section Lines.
Context {T : Type} `{S : Scalar T}.
Variable drain : drainer T.
(** rows for the lines of a dataset: comments are dropped, blank lines stay blank, the very first line may be a header, every other
    line is evaluated on its own; the first failure ends the export *)
Inductive answers (e : engine T) (row : list T -> list T -> list T) : bool -> list string -> list (list T) -> res unit -> Prop :=
| answers_end first : answers e row first [] [] (Ok tt)
| answers_comment first line lines rows r : starts_hash (trim line) = true -> answers e row false lines rows r -> answers e row first (line :: lines) rows r
| answers_blank first line lines rows r : trim line = EmptyString -> answers e row false lines rows r -> answers e row first (line :: lines) ([] :: rows) r
| answers_header line lines rows r err : starts_hash (trim line) = false -> to_scalars (trim line) = Throw err (A := list T) ->
    answers e row false lines rows r -> answers e row true (line :: lines) rows r
| answers_row first line lines rows r values outs : starts_hash (trim line) = false -> trim line <> EmptyString -> to_scalars (trim line) = Ok values ->
    (length (e_inputs e) <= length values)%nat -> evaluation drain e (firstn (length (e_inputs e)) values) = (Ok tt, outs) ->
    answers e row false lines rows r -> answers e row first (line :: lines) (row (firstn (length (e_inputs e)) values) outs :: rows) r
| answers_malformed line lines err : starts_hash (trim line) = false -> trim line <> EmptyString -> to_scalars (trim line) = Throw err (A := list T) ->
    answers e row false (line :: lines) [] (Throw err)
| answers_short first line lines values : starts_hash (trim line) = false -> trim line <> EmptyString -> to_scalars (trim line) = Ok values ->
    (length values < length (e_inputs e))%nat -> answers e row first (line :: lines) [] (Throw EExport)
| answers_failure first line lines values r : starts_hash (trim line) = false -> trim line <> EmptyString -> to_scalars (trim line) = Ok values ->
    (length (e_inputs e) <= length values)%nat -> fst (evaluation drain e (firstn (length (e_inputs e)) values)) = r -> r <> Ok tt ->
    answers e row first (line :: lines) [] r.
End Lines.

(** squares of differences, over the reals *)
Local Open Scope R_scope.
Definition real_square (p : xr * xr) : R := match p with (XFin a, XFin b) => (a - b) * (a - b) | _ => 0 end.
Definition sum_of (l : list R) : R := fold_right Rplus 0 l.
(** length of a unit of time in nanoseconds *)
Definition nanoseconds (u : time_unit) : R :=
  match u with NanoSeconds => 1 | MicroSeconds => 1000 | MilliSeconds => 1000000 | Seconds => 1000000000 | Minutes => 60 * 1000000000 | Hours => 60 * 60 * 1000000000 end.
