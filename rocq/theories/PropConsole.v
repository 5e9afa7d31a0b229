(** C84: the command line tool. *)
From Coq Require Import ZArith String List Bool Ascii.
From Verif Require Import Base Op F64 F64Arith Text Var Activation Engine Grid Fll Fis Fcl Cpp SpecFll FllText FllF64 FllReject FllBundle FclText Console SpecConsole ConsoleProofs ConsoleFll ActivationProofs3.
Import ListNotations.
Local Open Scope string_scope.

(** * C84 *)
(** the order of the options is irrelevant, and of several values of an option the last counts *)
Theorem C84_options : forall {T} `{S : Scalar T} drain resolution library version what java args args' w, converting args -> converting args' ->
  (2 <= List.length args)%nat -> (2 <= List.length args')%nat -> Nat.even (List.length args) = true -> Nat.even (List.length args') = true ->
  (forall k, given k args = given k args') ->
  @console_main T S drain resolution library version what java args w = console_main drain resolution library version what java args' w.
Proof. exact @order_free. Qed.
Print Assumptions C84_options.
(** `fuzzylite inputfile outputfile` is the command with the options -i and -o *)
Theorem C84_two_names : forall {T} `{S : Scalar T} drain resolution library version what java args i o w, converting args -> Nat.even (List.length args) = true -> two_names args i o ->
  @console_main T S drain resolution library version what java args w = console_main drain resolution library version what java ["-i"; i; "-o"; o] w.
Proof. exact @two_names_convert. Qed.
Print Assumptions C84_two_names.
(** a command with a key that is not an option fails without touching any file *)
Theorem C84_unknown : forall {T} `{S : Scalar T} drain resolution library version what java args w k, converting args ->
  (2 <= List.length args)%nat -> In k (keys_of args) -> ~ In k documented_options -> (forall i o, ~ two_names args i o) ->
  exists x, @console_main T S drain resolution library version what java args w = (print (what x ++ char newline ++ char newline) w, Failure).
Proof. exact @unknown_rejected. Qed.
Print Assumptions C84_unknown.
(** whatever the command, no file changes but the output file *)
Theorem C84_only_target : forall {T} `{S : Scalar T} drain resolution library version what java args w f, converting args ->
  w_files (fst (@console_main T S drain resolution library version what java args w)) f <> w_files w f -> given "-o" args = Some f \/ exists i, two_names args i f.
Proof. exact @nothing_else. Qed.
Print Assumptions C84_only_target.
(** conversions: the output file is what the exporter writes of what the importer reads; nothing is printed *)
Theorem C84_convert : forall {T} `{S : Scalar T} drain resolution library version what java args w d src inf dst outf text e out,
  request (T := T) args w d src inf dst outf text -> reads resolution d text inf (Ok e) -> writes resolution library version java d e outf (Ok out) ->
  exists w', @console_main T S drain resolution library version what java args w = (w', Success) /\ only_written dst out w w' /\ w_printed w' = w_printed w.
Proof. exact @converts_formats. Qed.
Print Assumptions C84_convert.
(** failed conversions are reported *)
Theorem C84_failed : forall {T} `{S : Scalar T} drain resolution library version what java args w d src inf dst outf text x,
  request (T := T) args w d src inf dst outf text -> outf <> "fld" ->
  reads resolution d text inf (Throw x) \/ (exists e, reads resolution d text inf (Ok e) /\ writes resolution library version java d e outf (Throw x)) ->
  exists w', @console_main T S drain resolution library version what java args w = (w', Failure) /\ only_written dst "" w w' /\ w_printed w' = w_printed w ++ what x ++ char newline ++ char newline.
Proof. exact @fails_formats. Qed.
Print Assumptions C84_failed.
(** datasets of the values in a file *)
Theorem C84_dataset : forall {T} `{S : Scalar T} drain resolution library version what java args w d src inf dst text e data rows e' f,
  request (T := T) args w d src inf dst "fld" text -> given "-d" args = Some f -> f <> dst -> w_files w f = Some data ->
  reads resolution d text inf (Ok e) -> fld_lines drain (dataset args) true (getlines data) e [] = ((e', rows), Ok tt) ->
  exists w', @console_main T S drain resolution library version what java args w = (w', Success) /\ only_written dst (fld_text (dataset args) d e rows) w w' /\ w_printed w' = w_printed w.
Proof. exact @dataset_file_formats. Qed.
Print Assumptions C84_dataset.
(** datasets of a grid *)
Theorem C84_grid : forall {T} `{S : Scalar T} drain resolution library version what java args w d src inf dst text e n sc rows e' v,
  request (T := T) args w d src inf dst "fld" text -> given "-d" args = None -> given "-values" args = Some v -> to_int (T := T) v = Ok n ->
  match sc with AllVariables => given "-scope" args = Some "AllVariables" | EachVariable => given "-scope" args = None \/ given "-scope" args = Some "EachVariable" end ->
  reads resolution d text inf (Ok e) -> fld_grid drain (dataset args) n sc (map (fun _ => true) (e_inputs e)) e = ((e', rows), Ok tt) ->
  exists w', @console_main T S drain resolution library version what java args w = (w', Success) /\ only_written dst (fld_text (dataset args) d e rows) w w' /\ w_printed w' = w_printed w.
Proof. exact @dataset_grid_formats. Qed.
Print Assumptions C84_grid.
(** FLL files that the library wrote are copied unchanged *)
Theorem C84_fll_again : forall (P : fparam) drain resolution library version what java w a b d e f,
  fine_tolerance P d -> plain_engine e -> @heights_shown f64 (F64Scalar P) d e -> w_decimals w = d ->
  let text := @fll_export f64 (F64Scalar P) d resolution "  " (char newline) e in
  w_files w a = Some text -> @fll_import f64 (F64Scalar P) resolution (char newline) text = Ok f -> ending a "fll" -> (forall r, a <> String "-" r) -> ending b "fll" -> w_blocked w b = false ->
  exists w', @console_main f64 (F64Scalar P) drain resolution library version what java [a; b] w = (w', Success) /\ only_written b text w w' /\ w_printed w' = w_printed w.
Proof. exact fll_again. Qed.
Print Assumptions C84_fll_again.
(** not so: a command that fails leaves all files alone *)
Theorem C84_overwrites_refuted : exists w args f s, w_files w f = Some s /\ s <> "" /\ snd (tool args w) = Failure /\ w_files (fst (tool args w)) f = Some "".
Proof. exact overwritten. Qed.
Print Assumptions C84_overwrites_refuted.
(** not so: -decimals is only about the digits written *)
Theorem C84_example_refuted : exists w, let grid d := tool ["-example"; "mamdani"; "-of"; "fld"; "-values"; "5"; "-decimals"; d] w in
  snd (grid "3") = Success /\ snd (grid "1") = Success /\
  w_printed (fst (grid "3")) = text_of ["ambient power"; "0.000 nan"; "0.250 1.500"; "0.500 1.000"; "0.750 0.500"; "1.000 nan"] /\
  w_printed (fst (grid "1")) = text_of ["ambient power"; "0.0 nan"; "0.2 1.4"; "0.5 1.0"; "0.8 0.6"; "1.0 nan"].
Proof. exact example_changed. Qed.
Print Assumptions C84_example_refuted.

(** options in any order, the last output file counting; conversions by the names of the files; the other files are kept *)
Example C84_case :
  let w := disk [("a.fll", "Engine: a
InputVariable: b
  range: 0 1"); ("c.txt", "kept")] in
  let w1 := fst (tool ["-of"; "cpp"; "-o"; "c.fll"; "-o"; "d"; "-i"; "a.fll"] w) in
  let w2 := fst (tool ["a.fll"; "b.fis"] w) in let w3 := fst (tool ["b.fis"; "c.fcl"] w2) in
  snd (tool ["-of"; "cpp"; "-o"; "c.fll"; "-o"; "d"; "-i"; "a.fll"] w) = Success /\ w_files w1 "c.fll" = None /\ w_files w1 "d" <> None /\ w_files w1 "c.txt" = Some "kept" /\
  snd (tool ["a.fll"; "b.fis"] w) = Success /\ snd (tool ["b.fis"; "c.fcl"] w2) = Success /\
  w_files w3 "c.fcl" = Some (text_of ["//Code automatically generated with fuzzylite 7.0."; ""; "FUNCTION_BLOCK a"; ""; "VAR_INPUT"; "  b: REAL;"; "END_VAR"; ""; "VAR_OUTPUT"; "END_VAR"; "";
    "FUZZIFY b"; "  RANGE := (0.000 .. 1.000);"; "END_FUZZIFY"; ""; "RULEBLOCK "; "  AND : MIN;"; "  OR : MAX;"; "  ACT : MIN;"; "END_RULEBLOCK"; ""; "END_FUNCTION_BLOCK"]).
Proof. exact console_case. Qed.
