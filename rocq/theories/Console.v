(** The command line tool (/repo/src/Console.cpp).  Not modelled: the subcommands export-examples, benchmark and benchmarks; the text of the
    usage and of exceptions; the terminal settings in readCharacter (Console.cpp:335-349). *)
From Coq Require Import ZArith String List Bool Ascii.
From Verif Require Import Base Op Norm Hedge Shape Discrete Defuzz Aggregated Text Function Rule Var Activation Engine Factory Grid Fll Fis Fcl Cpp.
Import ListNotations.
Local Open Scope string_scope.

(** std::map<std::string, std::string>; the order of the keys is not used *)
Definition options := list (string * string).
Fixpoint option_get (k : string) (m : options) : option string :=
  match m with [] => None | (k', v) :: m => if String.eqb k k' then Some v else option_get k m end.
Fixpoint option_set (k v : string) (m : options) : options :=
  match m with [] => [(k, v)] | (k', v') :: m => if String.eqb k k' then (k, v) :: m else (k', v') :: option_set k v m end.
(** Console.cpp:32-43, 50-79: the keys *)
Definition available_options : list string :=
  ["-i"; "-if"; "-o"; "-of"; "-example"; "-decimals"; "-d"; "-values"; "-scope"; "-dheader"; "-dinputs"].
(** Console.cpp:124-128 *)
Fixpoint read_pairs (args : list string) (m : options) : options :=
  match args with k :: v :: args => read_pairs args (option_set k v m) | _ => m end.
(** Console::parse (Console.cpp:120-152); [args] are argv[1] .. argv[argc - 1].  Simplification: errors of options, files and formats, which have tags
    of their own, are [EConfiguration]. *)
Definition console_parse (args : list string) : res options :=
  if Nat.odd (List.length args) then Throw EConfiguration else
  match read_pairs args [] with
  | [(k, v)] =>
    match k with
    | "" => Throw EOutOfRange
    | String c _ => Ok (if Ascii.eqb c "-" then [(k, v)] else option_set "-o" v (option_set "-i" k [(k, v)]))
    end
  | m => if forallb (fun p => existsb (String.eqb (fst p)) available_options) m then Ok m else Throw EConfiguration
  end.
(** the text behind the last `.`: find_last_of and substr (Console.cpp:199-201, 217-219) *)
Fixpoint extension (s : string) : option string :=
  match s with
  | "" => None
  | String c r => match extension r with Some x => Some x | None => if Ascii.eqb c "." then Some r else None end
  end.

Section Console.
Context {T : Type} `{S : Scalar T}.
Variable drain : drainer T.
(** IntegralDefuzzifier::defaultResolution(), fuzzylite::library(), fuzzylite::version(), what() of exceptions, and the exporter to Java, which is not modelled *)
Variables (resolution : Z) (library version : string) (what : exc -> string) (java : nat -> engine T -> res string).

(** Rule::parse (/repo/src/rule/Rule.cpp:249-253) *)
Definition parsed_rule (env : penv) (text : string) : res (rule T) := let '(r, out) := rule_load env text (rule_new "" s_1) in do _ <- out; Ok r.
Definition triangle (name : string) (a b c : T) : term T := mkTerm name s_1 (TShape (Triangle a b c)).
Definition constant (name : string) (c : T) : term T := mkTerm name s_1 (TConstant c).
(** Console::mamdani (Console.cpp:465-510) *)
Definition example_mamdani : res (engine T) :=
  let c (n : Z) := s_lit n 1000 in
  let ambient := mkVariable "ambient" "" s_nan s_0 s_1 true false [triangle "DARK" s_0 (c 250%Z) (c 500%Z); triangle "MEDIUM" (c 250%Z) (c 500%Z) (c 750%Z); triangle "BRIGHT" (c 500%Z) (c 750%Z) (c 1000%Z)] in
  let power := mkVariable "power" "" s_nan s_0 (c 2000%Z) true false [triangle "LOW" s_0 (c 500%Z) (c 1000%Z); triangle "MEDIUM" (c 500%Z) (c 1000%Z) (c 1500%Z); triangle "HIGH" (c 1000%Z) (c 1500%Z) (c 2000%Z)] in
  let outs := [mkOutput power [] (Some Maximum) (Some (DIntegral Centroid 200)) s_nan s_nan false] in
  do rules <- rmapM (parsed_rule (engine_env [ambient] outs)) ["if ambient is DARK then power is HIGH"; "if ambient is MEDIUM then power is MEDIUM"; "if ambient is BRIGHT then power is LOW"];
  Ok (mkEngine "simple-dimmer" "" [ambient] outs [mkBlock true "" "" rules None None (Some Minimum) (Some General)]).
(** Function::create (/repo/src/term/Function.cpp:419-423) *)
Definition formula_of (vw : view T) (name infix : string) : res (term T) := parse_term vw (name ++ " Function " ++ infix).
(** Console::takagiSugeno (Console.cpp:512-602) *)
Definition example_takagi_sugeno : res (engine T) :=
  let c (n : Z) := s_lit n 1000 in
  let near := map (fun n => triangle ("NEAR_" ++ str_int n) (s_int (n - 1)) (s_int n) (s_int (n + 1))) [1; 2; 3; 4; 5; 6; 7; 8; 9]%Z in
  let x := mkVariable "inputX" "value of x" s_nan s_0 (c 10000%Z) true false near in
  let fs := map (fun p => constant ("f" ++ str_int (fst p)) (c (snd p))) [(1, 840); (2, 450); (3, 40); (4, -180); (5, -190); (6, -40); (7, 90); (8, 120); (9, 40)]%Z in
  let out name description lo hi ts locked := mkOutput (mkVariable name description s_nan lo hi true false ts) [] None (Some (DWeighted WeightedAverage WAutomatic)) s_nan s_nan locked in
  let fx := out "outputFx" "value of the approximation of x" (c (-1000)%Z) s_1 fs true in
  do t <- formula_of (engine_view [x] [fx]) "fx" "sin(inputX)/inputX";
  let tv := out "trueValue" "value of f(x)=sin(x)/x" (c (-1060)%Z) s_1 [t] true in
  do t <- formula_of (engine_view [x] [fx; tv]) "error" "outputFx-trueValue";
  let outs := [fx; tv; out "difference" "error e=f(x) - f'(x)" (c (-1000)%Z) s_1 [t] false] in
  do rules <- rmapM (parsed_rule (engine_env [x] outs))
    (map (fun n => "if inputX is NEAR_" ++ str_int n ++ " then outputFx is f" ++ str_int n)%string [1; 2; 3; 4; 5; 6; 7; 8; 9]%Z ++
     ["if inputX is any then trueValue is fx and difference is error"%string])%list;
  Ok (mkEngine "approximation" "approximation of sin(x)/x" [x] outs [mkBlock true "" "" rules None None (Some AlgebraicProduct) (Some General)]).

(** * Interactive console (Console.cpp:351-452) *)
(** 33 to 126: std::isgraph in the C locale *)
Definition is_graph (c : ascii) : bool := (Nat.leb 33 (code c) && Nat.leb (code c) 126)%bool.
Definition tab : string := char "009".
(** the engine, `inputValues`, `inputValue`, `buffer`, and what has been written to the stream *)
Record session := mkSession { ss_engine : engine T; ss_values : list T; ss_typed : string; ss_buffer : string; ss_written : string }.
Definition flush (st : session) : session := mkSession (ss_engine st) (ss_values st) (ss_typed st) "" (ss_written st ++ ss_buffer st).
(** Console.cpp:454-463 *)
Definition interactive_help : string := text_of
  ["#Special Keys"; "#============="; "#" ++ tab ++ "R" ++ tab ++ "Restart engine and discard current inputs"; "#" ++ tab ++ "D" ++ tab ++ "Discard current inputs";
   "#" ++ tab ++ "P" ++ tab ++ "Process engine"; "#" ++ tab ++ "Q" ++ tab ++ "Quit interactive console"; "#" ++ tab ++ "H" ++ tab ++ "Show this help"; "#============="].
Section Session.
(** fuzzylite::decimals() *)
Variable d : nat.
(** Console.cpp:408-439: the key P.  After process() every output variable is defuzzified once more. *)
Definition interactive_process (st : session) : session * res unit :=
  let e := set_inputs (ss_values st) (ss_engine st) in
  let missing := map (@v_value T) (skipn (List.length (ss_values st)) (e_inputs e)) in
  let buffer := ss_buffer st ++ join_scalars d missing tab ++ (match missing with [] => "" | _ => tab end) ++ "=" ++ tab in
  let after e (r : res unit) :=
    match r with
    | Ok _ => (mkSession e [] "" (buffer ++ join_scalars d (map (fun o => v_value (o_var o)) (e_outputs e)) tab ++ char newline ++ ">") (ss_written st), Ok tt)
    | Throw x => (mkSession e [] "" (buffer ++ "#[Error: " ++ what x ++ "]") (ss_written st), Ok tt)
    | r => (mkSession e [] "" buffer (ss_written st), r)
    end in
  match process drain e with
  | (e, Ok _) => let '(outs, r) := defuzzify_from (e_inputs e) [] (e_outputs e) in after (mkEngine (e_name e) (e_description e) (e_inputs e) outs (e_blocks e)) r
  | (e, r) => after e r
  end.
(** Console.cpp:372-449: one key *)
Definition interactive_key (c : ascii) (st : session) : session * res unit :=
  let e := ss_engine st in
  let is x y := (Ascii.eqb c x || Ascii.eqb c y)%bool in
  if is_space c then
    match nth_error (e_inputs e) (List.length (ss_values st)) with
    | None => (st, Throw EOutOfRange)
    | Some v =>
      let '(value, note) := match to_scalar (ss_typed st) with Ok x => (x, "") | _ => (v_value v, "[" ++ str d (v_value v) ++ "]") end in
      let values := (ss_values st ++ [value])%list in
      let st := mkSession e values "" (ss_buffer st ++ note ++ tab) (ss_written st) in
      if Nat.eqb (List.length values) (List.length (e_inputs e)) then interactive_process st else (st, Ok tt)
    end
  else if negb (is_graph c) then (st, Ok tt)
  else if is "r"%char "R"%char then (mkSession (restart e) (ss_values st) (ss_typed st) (ss_buffer st ++ "#[Restart]") (ss_written st), Ok tt)
  else if is "d"%char "D"%char then (mkSession e [] "" (ss_buffer st ++ "#[Discard]" ++ char newline ++ ">") (ss_written st), Ok tt)
  else if is "p"%char "P"%char then interactive_process st
  else if is "q"%char "Q"%char then (mkSession e (ss_values st) (ss_typed st) (ss_buffer st ++ "#[Quit]" ++ char newline) (ss_written st), Ok tt)
  else if is "h"%char "H"%char then (mkSession e (ss_values st) "" (ss_buffer st ++ char newline ++ ">" ++ interactive_help ++ char newline ++ ">") (ss_written st), Ok tt)
  else (mkSession e (ss_values st) (ss_typed st ++ char c) (ss_buffer st ++ char c) (ss_written st), Ok tt).
(** Console.cpp:450: Q, q and Ctrl-D *)
Definition quits (c : ascii) : bool := (Ascii.eqb c "Q" || Ascii.eqb c "q" || Nat.eqb (code c) 4)%bool.
(** Console.cpp:360-450; the keys end with EOF.  What is in the buffer when the loop ends is not written. *)
Fixpoint interactive_loop (keys : list ascii) (st : session) : session * res unit :=
  let st := flush st in
  match keys with
  | [] => (st, Ok tt)
  | c :: keys =>
    match interactive_key c st with
    | (st, Ok _) => if quits c then (st, Ok tt) else interactive_loop keys st
    | r => r
    end
  end.
Definition interactive (keys : list ascii) (e : engine T) : session * res unit := interactive_loop keys (mkSession e [] "" ">" "").
End Session.

(** * Conversion *)
(** files that can be opened, files that cannot be created, what is on the standard output, the keys typed, and fuzzylite::decimals() *)
Record world := mkWorld { w_files : string -> option string; w_blocked : string -> bool; w_printed : string; w_keys : list ascii; w_decimals : nat }.
Definition set_decimals (d : nat) (w : world) : world := mkWorld (w_files w) (w_blocked w) (w_printed w) (w_keys w) d.
Definition print (s : string) (w : world) : world := mkWorld (w_files w) (w_blocked w) (w_printed w ++ s) (w_keys w) (w_decimals w).
Definition write_file (f s : string) (w : world) : world :=
  mkWorld (fun g => if String.eqb g f then Some s else w_files w g) (w_blocked w) (w_printed w) (w_keys w) (w_decimals w).
(** Console.cpp:247-262 *)
Definition import_as (d : nat) (format text : string) : res (engine T) :=
  if String.eqb format "fll" then fll_import resolution (char newline) text
  else if String.eqb format "fcl" then fcl_import resolution text
  else if String.eqb format "fis" then fis_import d resolution text
  else Throw EImport.
(** Console.cpp:314-331 *)
Definition export_as (d : nat) (format : string) (e : engine T) : res string :=
  if String.eqb format "fll" then Ok (fll_export d resolution "  " (char newline) e)
  else if String.eqb format "fcl" then Ok (fcl_export d library "  " e)
  else if String.eqb format "fis" then fis_export d library version e
  else if String.eqb format "cpp" then cpp_export d library false true e
  else if String.eqb format "java" then java d e
  else Throw EExport.
(** Console.cpp:161-206: the text of the engine and its format *)
Definition source (m : options) (w : world) : res (string * string) :=
  match option_get "-example" m with
  | Some x =>
    do e <- (if (String.eqb x "m" || String.eqb x "mamdani")%bool then example_mamdani
             else if (String.eqb x "t" || String.eqb x "ts" || String.eqb x "takagi-sugeno")%bool then example_takagi_sugeno else Throw EConfiguration);
    Ok (fll_export (w_decimals w) resolution "  " (char newline) e, "fll")
  | None =>
    match option_get "-i" m with
    | None => Throw EConfiguration
    | Some f =>
      match w_files w f with
      | None => Throw EConfiguration
      | Some text =>
        match option_get "-if" m with
        | Some format => Ok (text_of (getlines text), format)
        | None => match extension f with Some x => Ok (text_of (getlines text), x) | None => Throw EConfiguration end
        end
      end
    end
  end.
(** Console.cpp:208-222: the name of the output file, empty if none, and its format *)
Definition target (m : options) : res (string * string) :=
  let f := match option_get "-o" m with Some f => f | None => "" end in
  match option_get "-of" m with
  | Some x => Ok (f, x)
  | None => match extension f with Some x => Ok (f, x) | None => Throw EConfiguration end
  end.
(** Console.cpp:267-276 *)
Definition fld_options (m : options) : fld :=
  let flag k := match option_get k m with Some v => String.eqb v "true" | None => true end in
  mkFld " " (flag "-dheader") (flag "-dinputs") true.
(** Console.cpp:236-333: what is written to the stream, what else is printed, and the outcome.  [shown] tells whether the stream is not the standard output.
    Simplification: a data file that is also the output file is read as empty, whatever part of the output has already reached it. *)
Definition convert (text inf outf : string) (m : options) (shown : bool) (w : world) : string * string * res unit :=
  let d := w_decimals w in
  match import_as d inf text with
  | Ok e =>
    if String.eqb outf "fld" then
      let x := fld_options m in
      match option_get "-d" m with
      | Some f =>
        match w_files w f with
        | None => ("", "", Throw EExport)
        | Some data => let '((_, rows), r) := fld_lines drain x true (getlines data) e [] in (fld_text x d e rows, "", r)
        end
      | None =>
        match option_get "-values" m with
        | Some v =>
          match to_int v with
          | Ok n =>
            match (match option_get "-scope" m with
                   | None => Ok EachVariable
                   | Some s => if String.eqb s "AllVariables" then Ok AllVariables else if String.eqb s "EachVariable" then Ok EachVariable else Throw EExport
                   end) with
            | Ok sc => let '((_, rows), r) := fld_grid drain x n sc (map (fun _ => true) (e_inputs e)) e in (fld_text x d e rows, "", r)
            | Throw err => ("", "", Throw err) | UB => ("", "", UB) | Diverge => ("", "", Diverge)
            end
          | Throw err => ("", "", Throw err) | UB => ("", "", UB) | Diverge => ("", "", Diverge)
          end
        | None =>
          let head := "#FuzzyLite Interactive Console (press H for help)" ++ char newline ++ fld_header x e ++ char newline in
          let '(st, r) := interactive d (w_keys w) e in
          (head ++ ss_written st ++ (match r with Ok _ => char newline | _ => "" end), if shown then head ++ ss_written st else "", r)
        end
      end
    else match export_as d outf e with Ok s => (s, "", Ok tt) | Throw err => ("", "", Throw err) | UB => ("", "", UB) | Diverge => ("", "", Diverge) end
  | Throw err => ("", "", Throw err) | UB => ("", "", UB) | Diverge => ("", "", Diverge)
  end.
(** Console.cpp:157-159: setDecimals.  Simplification: a negative number of decimals is undefined. *)
Definition with_decimals (m : options) (w : world) : res world :=
  match option_get "-decimals" m with
  | None => Ok w
  | Some s => do n <- to_int (T := T) s; if (n <? 0)%Z then UB else Ok (set_decimals (Z.to_nat n) w)
  end.
(** Console::process (Console.cpp:154-234) *)
Definition console_process (m : options) (w : world) : world * res unit :=
  match with_decimals m w with
  | Ok w =>
    match (do i <- source m w; do o <- target m; Ok (i, o)) with
    | Ok ((text, inf), (f, outf)) =>
      if sempty f then let '(s, _, r) := convert text inf outf m false w in (print s w, r)
      else if w_blocked w f then (w, Throw EConfiguration)
      else
        let w := write_file f "" w in
        let '(s, echo, r) := convert text inf outf m true w in (print echo (write_file f s w), r)
    | Throw err => (w, Throw err) | UB => (w, UB) | Diverge => (w, Diverge)
    end
  | Throw err => (w, Throw err) | UB => (w, UB) | Diverge => (w, Diverge)
  end.
(** Console::main (Console.cpp:951-958, 1052-1061): EXIT_SUCCESS, EXIT_FAILURE, or no result.  The subcommands (Console.cpp:960-1050) are not modelled and have no
    result here. *)
Inductive status := Success | Failure | Undefined.
Definition subcommands : list string := ["export-examples"; "benchmark"; "benchmarks"].
Definition console_main (args : list string) (w : world) : world * status :=
  match args with
  | [] | [_] => (w, Success)
  | first :: _ =>
    if existsb (String.eqb first) subcommands then (w, Undefined) else
    let '(w, r) := match console_parse args with Ok m => console_process m w | Throw err => (w, Throw err) | UB => (w, UB) | Diverge => (w, Diverge) end in
    match r with
    | Ok _ => (w, Success)
    | Throw err => (print (what err ++ char newline ++ char newline) w, Failure)
    | _ => (w, Undefined)
    end
  end.
End Console.
