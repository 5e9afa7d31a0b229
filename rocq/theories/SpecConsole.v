(** What the command line of the tool means. *)
From Coq Require Import ZArith String List Bool Ascii.
From Verif Require Import Base Text Var Activation Engine Grid Fll Fis Fcl Cpp Console.
Import ListNotations.
Local Open Scope string_scope.

(** arguments come in pairs of a key and a value; of several values for a key the last one counts *)
Fixpoint given (k : string) (args : list string) : option string :=
  match args with
  | x :: v :: args => match given k args with Some w => Some w | None => if String.eqb x k then Some v else None end
  | _ => None
  end.
Fixpoint keys_of (args : list string) : list string := match args with x :: v :: args => x :: keys_of args | _ => [] end.
(** a command to convert an engine, not one of the subcommands *)
Definition converting (args : list string) : Prop := match args with a :: _ => a <> "export-examples" /\ a <> "benchmark" /\ a <> "benchmarks" | [] => True end.
(** usage(): the options there are *)
Definition documented_options : list string :=
  ["-i"; "-if"; "-o"; "-of"; "-example"; "-decimals"; "-d"; "-values"; "-scope"; "-dheader"; "-dinputs"].
(** `fuzzylite inputfile outputfile`: all keys are the same, which is not an option *)
Definition two_names (args : list string) (i o : string) : Prop :=
  given i args = Some o /\ (forall k, In k (keys_of args) -> k = i) /\ exists c r, i = String c r /\ c <> "-"%char.
(** a complete command line of options *)
Definition well_formed (args : list string) : Prop := Nat.even (List.length args) = true /\ forall k, In k (keys_of args) -> In k documented_options.
(** the format of a file: as asked for, or else what follows the last point of its name *)
Definition ending (f x : string) : Prop := exists base, f = base ++ "." ++ x /\ forall a b, x <> a ++ "." ++ b.
Definition format_of (asked : option string) (f x : string) : Prop := match asked with Some y => x = y | None => ending f x end.
(** the file [f] has the contents [s], and nothing else has changed on the disk *)
Definition only_written (f s : string) (w w' : world) : Prop := forall g, w_files w' g = if String.eqb g f then Some s else w_files w g.
(** the number of decimals in force *)
Definition decimals_of {T} `{Scalar T} (args : list string) (w : world) (d : nat) : Prop :=
  match given "-decimals" args with None => d = w_decimals w | Some s => to_int (T := T) s = Ok (Z.of_nat d) end.
(** a command line that asks to read the engine in [src], which contains [text] in the format [inf], and to write it to [dst] in the format [outf] *)
Record request {T} `{Scalar T} (args : list string) (w : world) (d : nat) (src inf dst outf text : string) : Prop := mkRequest {
  rq_formed : well_formed args;
  rq_decimals : decimals_of (T := T) args w d;
  rq_example : given "-example" args = None;
  rq_source : given "-i" args = Some src;
  rq_text : w_files w src = Some text;
  rq_inf : format_of (given "-if" args) src inf;
  rq_target : given "-o" args = Some dst;
  rq_named : dst <> "";
  rq_outf : format_of (given "-of" args) dst outf;
  rq_free : w_blocked w dst = false }.
(** the settings of datasets *)
Definition dataset (args : list string) : fld :=
  let on k := match given k args with None => true | Some v => String.eqb v "true" end in mkFld " " (on "-dheader") (on "-dinputs") true.

(** the text [text], every line of which is ended, read in a format *)
Inductive reads {T} `{Scalar T} (resolution : Z) (d : nat) (text : string) : string -> res (engine T) -> Prop :=
| reads_fll : reads resolution d text "fll" (fll_import resolution (char newline) (text_of (getlines text)))
| reads_fcl : reads resolution d text "fcl" (fcl_import resolution (text_of (getlines text)))
| reads_fis : reads resolution d text "fis" (fis_import d resolution (text_of (getlines text)))
| reads_other inf : inf <> "fll" -> inf <> "fcl" -> inf <> "fis" -> reads resolution d text inf (Throw EImport).
(** an engine written in a format other than that of datasets *)
Inductive writes {T} `{Scalar T} (resolution : Z) (library version : string) (java : nat -> engine T -> res string) (d : nat) (e : engine T) : string -> res string -> Prop :=
| writes_fll : writes resolution library version java d e "fll" (Ok (fll_export d resolution "  " (char newline) e))
| writes_fcl : writes resolution library version java d e "fcl" (Ok (fcl_export d library "  " e))
| writes_fis : writes resolution library version java d e "fis" (fis_export d library version e)
| writes_cpp : writes resolution library version java d e "cpp" (cpp_export d library false true e)
| writes_java : writes resolution library version java d e "java" (java d e)
| writes_other outf : outf <> "fll" -> outf <> "fcl" -> outf <> "fis" -> outf <> "cpp" -> outf <> "java" -> outf <> "fld" -> writes resolution library version java d e outf (Throw EExport).
