(** What is expected of datasets as text. *)
From Coq Require Import ZArith String List Bool.
From Verif Require Import Base Op Text Var Activation Engine Grid SpecFld SpecFll.
Import ListNotations.

Section Spec.
Context {T : Type} `{S : Scalar T}.
(** what separates numbers on a line: blanks other than line breaks *)
Definition gap (separator : string) : Prop := separator <> EmptyString /\ blank separator = true /\ one_line separator.
(** names of the columns *)
Definition columns (x : fld) (e : engine T) : list string :=
  ((if fld_inputs x then map (@v_name T) (e_inputs e) else []) ++ (if fld_outputs x then map (fun o => v_name (o_var o)) (e_outputs e) else []))%list.
(** some word of the names is not a number *)
Definition worded (names : list string) : Prop := exists name w err, In name names /\ In w (tokens name) /\ to_scalar w = Throw err (A := T).
(** a line shows numbers as printed with [d] decimals *)
Definition shows (d : nat) (line : string) (row : list T) : Prop := tokens line = map (str d) row.
(** rows which are not blank *)
Definition rows_of (rows : list (list T)) : list (list T) := filter (fun r => match r with [] => false | _ => true end) rows.
Variable drain : drainer T.
(** the row of an engine for given inputs *)
Definition computed (x : fld) (e : engine T) (inputs row : list T) : Prop :=
  length inputs = length (e_inputs e) /\ exists outs, evaluation drain e inputs = (Ok tt, outs) /\ row = row_of x inputs outs.
End Spec.
