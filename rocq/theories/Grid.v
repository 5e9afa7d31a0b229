(** Grids of input values and the FuzzyLite Dataset exporter (/repo/fuzzylite/Operation.h, /repo/src/imex/FldExporter.cpp). *)
From Coq Require Import ZArith String Ascii List Bool.
From Verif Require Import Base Op Text Var Activation Engine.
Import ListNotations.

(** Op::increment (Operation.h:768-783); [n] is the position plus one, 0 stands for any negative position.
    Simplification: ints are unbounded; the code only adds one below the maximum. *)
Fixpoint increment_at (n : nat) (x min max : list Z) : res (bool * list Z) :=
  match n with
  | 0 => Ok (false, x)
  | Datatypes.S p =>
    do xp <- vector_at p x; do hi <- vector_at p max;
    if (xp <? hi)%Z then Ok (true, set_nth p (xp + 1)%Z x)
    else
      do lo <- vector_at p min;
      let x := set_nth p lo x in
      match p with 0 => Ok (false, x) | _ => increment_at p x min max end
  end.
(** Operation.h:764-766 *)
Definition increment (x min max : list Z) : res (bool * list Z) := increment_at (length x) x min max.

(** number of vectors between two bounds *)
Definition grid_size (min max : list Z) : nat :=
  fold_right (fun p n => Datatypes.S (Z.to_nat (snd p - fst p)) * n) 1 (combine min max).
(** the loop `do body while (Op::increment(x, min, max))` (FldExporter.cpp:228-239, /repo/src/Benchmark.cpp:107-115);
    [fuel] bounds the number of rounds *)
Fixpoint grid_loop {A} (fuel : nat) (body : list Z -> A -> A * res unit) (min max x : list Z) (a : A) : A * res unit :=
  match fuel with
  | 0 => (a, Diverge)
  | Datatypes.S fuel =>
    match body x a with
    | (a, Ok _) =>
      match increment x min max with
      | Ok (true, x) => grid_loop fuel body min max x a
      | Ok (false, _) => (a, Ok tt)
      | Throw e => (a, Throw e) | UB => (a, UB) | Diverge => (a, Diverge)
      end
    | r => r
    end
  end.

(** FldExporter::ScopeOfValues (/repo/fuzzylite/imex/FldExporter.h:53-58) *)
Inductive scope := EachVariable | AllVariables.
(** FldExporter (FldExporter.h:43-46) *)
Record fld := mkFld { fld_separator : string; fld_headers : bool; fld_inputs : bool; fld_outputs : bool }.
(** FldExporter.cpp:30-35 *)
Definition fld_new (separator : string) : fld := mkFld separator true true true.

Section Fld.
Context {T : Type} `{S : Scalar T}.
Variable drain : drainer T.

(** FldExporter.cpp:211-215, Benchmark.cpp:93-97; [n] is the number of input variables *)
Definition resolution_for (values : Z) (sc : scope) (n : nat) : res Z :=
  match sc with
  | AllVariables =>
    match s_trunc (std_max s_1 (s_fn2 LPow (s_int values) (s_1 / s_int (Z.of_nat n))%S)) with
    | Some k => Ok (-1 + k)%Z
    | None => UB
    end
  | EachVariable => Ok (values - 1)%Z
  end.
(** FldExporter.cpp:232-233, Benchmark.cpp:111-112; Variable::range (/repo/src/variable/Variable.cpp:101-103) *)
Definition grid_point (minimum maximum : T) (resolution k : Z) : T :=
  (minimum + s_int k * (maximum - minimum) / s_int (Z.max 1 resolution))%S.

(** FldExporter.cpp:75-90 *)
Definition fld_header (x : fld) (e : engine T) : string :=
  join ((if fld_inputs x then map (@v_name T) (e_inputs e) else []) ++
        (if fld_outputs x then map (fun o => v_name (o_var o)) (e_outputs e) else [])) (fld_separator x).

(** FldExporter.cpp:274-323: the row of values written ([[]] is a blank line).  [active] tells for each position whether the
    variable given is that of the engine. *)
Definition fld_row (x : fld) (active : list bool) (values : list T) (e : engine T) : engine T * res (list T) :=
  match values with
  | [] => (e, Ok [])
  | _ =>
    if Nat.ltb (length values) (length (e_inputs e)) then (e, Throw EExport)
    else if negb (Nat.eqb (length active) (length (e_inputs e))) then (e, Throw EExport)
    else
      let chosen := map (fun p : bool * (T * variable T) => if fst p then fst (snd p) else v_value (snd (snd p))) (combine active (combine values (e_inputs e))) in
      match process drain (set_inputs chosen e) with
      | (e, Ok _) => (e, Ok ((if fld_inputs x then chosen else []) ++
                             (if fld_outputs x then map (fun o => v_value (o_var o)) (e_outputs e) else [])))
      | (e, Throw err) => (e, Throw err) | (e, UB) => (e, UB) | (e, Diverge) => (e, Diverge)
      end
  end.
(** one round of FldExporter.cpp:228-239: the engine and the rows written so far *)
Definition fld_step (x : fld) (resolution : Z) (active : list bool) (k : list Z) (st : engine T * list (list T))
  : (engine T * list (list T)) * res unit :=
  let '(e, rows) := st in
  let values := map (fun p : bool * (Z * variable T) => if fst p then grid_point (v_minimum (snd (snd p))) (v_maximum (snd (snd p))) resolution (fst (snd p))
                              else v_value (snd (snd p))) (combine active (combine k (e_inputs e))) in
  match fld_row x active values e with
  | (e, Ok row) => ((e, rows ++ [row]), Ok tt)
  | (e, Throw err) => ((e, rows), Throw err) | (e, UB) => ((e, rows), UB) | (e, Diverge) => ((e, rows), Diverge)
  end.
(** FldExporter::write over a grid (FldExporter.cpp:190-240): the engine, the rows written after the header, the outcome *)
Definition fld_grid (x : fld) (values : Z) (sc : scope) (active : list bool) (e : engine T) : (engine T * list (list T)) * res unit :=
  let n := length (e_inputs e) in
  if negb (Nat.eqb (length active) n) then ((e, []), Throw EExport)
  else
    match resolution_for values sc n with
    | Ok resolution =>
      let max := map (fun a : bool => if a then resolution else 0%Z) active in
      let min := repeat 0%Z n in
      grid_loop (grid_size min max) (fld_step x resolution active) min max min (e, [])
    | Throw err => ((e, []), Throw err) | UB => ((e, []), UB) | Diverge => ((e, []), Diverge)
    end.

Definition newline : string := String (Ascii.ascii_of_nat 10) EmptyString.
(** the text on the stream: FldExporter.cpp:197-198, 322 *)
Definition fld_text (x : fld) (decimals : nat) (e : engine T) (rows : list (list T)) : string :=
  String.append (if fld_headers x then String.append (fld_header x e) newline else EmptyString)
    (fold_right (fun row s => String.append (join_scalars decimals row (fld_separator x)) (String.append newline s)) EmptyString rows).

(** FldExporter::parse (FldExporter.cpp:179-184) *)
Definition starts_hash (s : string) : bool := match s with String c _ => Ascii.eqb c "#"%char | EmptyString => false end.
Definition fld_parse (line : string) : res (list T) :=
  if (sempty line || starts_hash line)%bool then Ok [] else to_scalars line.
(** FldExporter.cpp:242-268: the rows for the lines of a stream (without their newlines); [first] tells whether the first line
    is the next one *)
Fixpoint fld_lines (x : fld) (first : bool) (lines : list string) (e : engine T) (rows : list (list T))
  : (engine T * list (list T)) * res unit :=
  match lines with
  | [] => ((e, rows), Ok tt)
  | line :: lines =>
    let line := trim line in
    if starts_hash line then fld_lines x false lines e rows
    else
      match fld_parse line with
      | Ok values =>
        match fld_row x (map (fun _ => true) (e_inputs e)) values e with
        | (e, Ok row) => fld_lines x false lines e (rows ++ [row])
        | (e, Throw err) => ((e, rows), Throw err) | (e, UB) => ((e, rows), UB) | (e, Diverge) => ((e, rows), Diverge)
        end
      | Throw err => if first then fld_lines x false lines e rows else ((e, rows), Throw err)
      | UB => ((e, rows), UB) | Diverge => ((e, rows), Diverge)
      end
  end.
End Fld.
