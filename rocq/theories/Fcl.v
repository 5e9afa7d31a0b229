(** The Fuzzy Control Language: exporter and importer (/repo/src/imex/FclExporter.cpp, /repo/src/imex/FclImporter.cpp). *)
From Coq Require Import ZArith String List Bool Ascii.
From Verif Require Import Base Op Norm Hedge Shape Discrete Defuzz Aggregated Text Function Rule Var Activation Engine Factory Fll Fis.
Import ListNotations.
Local Open Scope string_scope.

(** ** names of operators *)
(** FclExporter.cpp:128-168, by the two kinds of norms *)
Definition fcl_tnorm (n : option tnorm) : string :=
  match n with
  | None => "NONE"
  | Some Minimum => "MIN" | Some AlgebraicProduct => "PROD" | Some BoundedDifference => "BDIF" | Some DrasticProduct => "DPROD"
  | Some EinsteinProduct => "EPROD" | Some HamacherProduct => "HPROD" | Some NilpotentMinimum => "NMIN" end.
Definition fcl_snorm (n : option snorm) : string :=
  match n with
  | None => "NONE"
  | Some Maximum => "MAX" | Some AlgebraicSum => "ASUM" | Some NormalizedSum => "NSUM" | Some BoundedSum => "BSUM" | Some DrasticSum => "DSUM"
  | Some EinsteinSum => "ESUM" | Some HamacherSum => "HSUM" | Some NilpotentMaximum => "NMAX" | Some UnboundedSum => snorm_class UnboundedSum end.
(** FclExporter.cpp:170-188 *)
Definition fcl_defuzzifier (z : option defuzzifier) : string :=
  match z with
  | None => "NONE"
  | Some (DIntegral Centroid _) => "COG" | Some (DIntegral Bisector _) => "COA" | Some (DIntegral SmallestOfMaximum _) => "LM"
  | Some (DIntegral LargestOfMaximum _) => "RM" | Some (DIntegral MeanOfMaximum _) => "MM"
  | Some (DWeighted WeightedAverage _) => "COGS" | Some (DWeighted WeightedSum _) => "COGSS" end.
(** `Op::split(line, separator)` which must yield two texts, e.g. FclImporter.cpp:312-317 *)
Definition two_parts (line separator : string) : res (string * string) :=
  match split line separator true with [a; b] => Ok (a, b) | _ => Throw ESyntax end.

Section Fcl.
Context {T : Type} `{S : Scalar T}.

(** ** exporter *)
Section Exporter.
(** fuzzylite::decimals(), fuzzylite::library() and the member of FclExporter (FclExporter.h:44) *)
Variables (d : nat) (library indent : string).

(** FclExporter.cpp:190-209; the term is not null *)
Definition fcl_term (t : term T) : string :=
  match tm_body t with
  | TDiscrete xy => join (map (fun p => "(" ++ str d (fst p) ++ ", " ++ str d (snd p) ++ ")") xy) " "
  | TConstant v => str d v
  | b => body_class b ++ " " ++ term_parameters d t
  end.
(** FclExporter.cpp:77-83 and 91-97 *)
Definition fcl_range (v : variable T) : string :=
  indent ++ "RANGE := (" ++ join_scalars d [v_minimum v; v_maximum v] " .. " ++ ");".
Definition fcl_terms (v : variable T) : list string :=
  map (fun t => indent ++ "TERM " ++ valid_name (tm_name t) ++ " := " ++ fcl_term t ++ ";") (v_terms v).
(** FclExporter.cpp:74-86 *)
Definition fcl_input (v : variable T) : list string :=
  (["FUZZIFY " ++ valid_name (v_name v); fcl_range v]%string ++ fcl_terms v ++ ["END_FUZZIFY"])%list.
(** FclExporter.cpp:88-110 *)
Definition fcl_output (o : output T) : list string :=
  let v := o_var o in
  (["DEFUZZIFY " ++ valid_name (v_name v); fcl_range v]%string ++ fcl_terms v ++
   (match o_defuzzifier o with Some _ => [(indent ++ "METHOD : " ++ fcl_defuzzifier (o_defuzzifier o) ++ ";")%string] | None => [] end) ++
   (match o_aggregation o with Some _ => [(indent ++ "ACCU : " ++ fcl_snorm (o_aggregation o) ++ ";")%string] | None => [] end) ++
   [(indent ++ "DEFAULT := " ++ str d (o_default o) ++ (if o_lock_previous o then " | NC" else "") ++ ";")%string; "END_DEFUZZIFY"])%list.
(** FclExporter.cpp:112-126 *)
Definition fcl_block (b : block T) : list string :=
  (["RULEBLOCK " ++ b_name b]%string ++
   (match b_conjunction b with Some _ => [(indent ++ "AND : " ++ fcl_tnorm (b_conjunction b) ++ ";")%string] | None => [] end) ++
   (match b_disjunction b with Some _ => [(indent ++ "OR : " ++ fcl_snorm (b_disjunction b) ++ ";")%string] | None => [] end) ++
   (match b_implication b with Some _ => [(indent ++ "ACT : " ++ fcl_tnorm (b_implication b) ++ ";")%string] | None => [] end) ++
   map (fun p => (indent ++ "RULE " ++ str_int (Z.of_nat (Datatypes.S (fst p))) ++ " : " ++ rl_text (snd p))%string)
     (combine (seq 0 (List.length (b_rules b))) (b_rules b)) ++
   ["END_RULEBLOCK"])%list.
(** FclExporter.cpp:40-72 *)
Definition fcl_lines (e : engine T) : list string :=
  (["//Code automatically generated with " ++ library ++ "."; ""; "FUNCTION_BLOCK " ++ e_name e; ""; "VAR_INPUT"]%string ++
   map (fun v => indent ++ valid_name (v_name v) ++ ": REAL;")%string (e_inputs e) ++
   ["END_VAR"; ""; "VAR_OUTPUT"] ++
   map (fun o => indent ++ valid_name (v_name (o_var o)) ++ ": REAL;")%string (e_outputs e) ++
   ["END_VAR"; ""] ++
   flat_map (fun v => fcl_input v ++ [""]) (e_inputs e) ++ flat_map (fun o => fcl_output o ++ [""]) (e_outputs e) ++
   flat_map (fun b => fcl_block b ++ [""]) (e_blocks e) ++ ["END_FUNCTION_BLOCK"])%list.
Definition fcl_export (e : engine T) : string := text_of (fcl_lines e).
End Exporter.

(** ** importer *)
Section Importer.
(** IntegralDefuzzifier::defaultResolution() *)
Variable resolution : Z.

(** FclImporter.cpp:311-338 *)
Definition fcl_parse_tnorm (line : string) : res (option tnorm) :=
  do kv <- two_parts line ":";
  construct (translate_name
    [("NONE", ""); ("MIN", tnorm_class Minimum); ("PROD", tnorm_class AlgebraicProduct); ("BDIF", tnorm_class BoundedDifference);
     ("DPROD", tnorm_class DrasticProduct); ("EPROD", tnorm_class EinsteinProduct); ("HPROD", tnorm_class HamacherProduct);
     ("NMIN", tnorm_class NilpotentMinimum)] (trim (snd kv))) tnorm_factory.
(** FclImporter.cpp:340-369 *)
Definition fcl_parse_snorm (line : string) : res (option snorm) :=
  do kv <- two_parts line ":";
  construct (translate_name
    [("NONE", ""); ("MAX", snorm_class Maximum); ("ASUM", snorm_class AlgebraicSum); ("BSUM", snorm_class BoundedSum);
     ("NSUM", snorm_class NormalizedSum); ("DSUM", snorm_class DrasticSum); ("ESUM", snorm_class EinsteinSum);
     ("HSUM", snorm_class HamacherSum); ("NMAX", snorm_class NilpotentMaximum)] (trim (snd kv))) snorm_factory.
(** FclImporter.cpp:439-467 *)
Definition fcl_parse_defuzzifier (line : string) : res (option defuzzifier) :=
  do kv <- two_parts line ":";
  construct (translate_name
    [("NONE", ""); ("COG", "Centroid"); ("COA", "Bisector"); ("LM", "SmallestOfMaximum"); ("RM", "LargestOfMaximum");
     ("MM", "MeanOfMaximum"); ("COGS", "WeightedAverage"); ("COGSS", "WeightedSum")] (trim (snd kv))) (defuzzifier_factory resolution).

(** FclImporter.cpp:372-382 *)
Definition space_char (c : ascii) : string :=
  if (Ascii.eqb c "(" || Ascii.eqb c ")" || Ascii.eqb c ",")%bool then " " ++ char c ++ " "
  else if Ascii.eqb c ":" then " :" else if Ascii.eqb c "=" then "= " else char c.
Fixpoint space_out (s : string) : string := match s with "" => "" | String c r => space_char c ++ space_out r end.
(** FclImporter.cpp:384-424: the machine, with what it has read *)
Inductive fstate5 := KwTerm | TName | TAssign (name : string) | TClass (name : string) | TParams (name class : string) (params : list string).
Definition fcl_parameter (class token : string) : bool :=
  negb (negb (String.eqb class "Function") && (String.eqb token "(" || String.eqb token ")" || String.eqb token ",")).
Definition fcl_step (st : fstate5) (token : string) : fstate5 :=
  match st with
  | KwTerm => if String.eqb token "TERM" then TName else KwTerm
  | TName => TAssign token
  | TAssign name => if String.eqb token ":=" then TClass name else TAssign name
  | TClass name =>
    if is_numeric token then TParams name "Constant" [token] else if String.eqb token "(" then TParams name "Discrete" [] else TParams name token []
  | TParams name class params => if fcl_parameter class token then TParams name class (params ++ [trim token])%list else st
  end.
(** the loop at FclImporter.cpp:391-424, which the token ";" ends in the last state (unless skipped, which ";" never is) *)
Fixpoint fcl_term_loop (st : fstate5) (ts : list string) : fstate5 :=
  match ts with
  | [] => st
  | t :: ts => match st with TParams _ _ _ => if String.eqb t ";" then st else fcl_term_loop (fcl_step st t) ts | _ => fcl_term_loop (fcl_step st t) ts end
  end.
(** FclImporter.cpp:371-437 *)
Definition fcl_parse_term (vw : view T) (line : string) : res (term T) :=
  match fcl_term_loop KwTerm (tokens (space_out line)) with
  | TParams name class params => build_term vw class name params
  | _ => Throw ESyntax
  end.
(** FclImporter.cpp:469-508; front() of an empty vector is UB *)
Definition fcl_parse_default (line : string) : res (T * bool) :=
  do kv <- two_parts line ":=";
  match split (snd kv) "|" true with
  | [] => UB
  | front :: rest =>
    let nc := trim (match rest with [b] => b | _ => "" end) in
    do x <- match to_scalar (trim front) with Ok x => Ok x | _ => Throw ESyntax end;
    if (String.eqb nc "NC" || sempty nc)%bool then Ok (x, String.eqb nc "NC") else Throw ESyntax
  end.
(** FclImporter.cpp:510-547 *)
Definition fcl_parse_range (line : string) : res (T * T) :=
  do kv <- two_parts line ":=";
  do r <- two_parts (sfilter (fun c => negb (Ascii.eqb c "(" || Ascii.eqb c ")" || Ascii.eqb c " " || Ascii.eqb c ";")) (snd kv)) "..";
  match to_scalar (fst r), to_scalar (snd r) with Ok a, Ok b => Ok (a, b) | _, _ => Throw ESyntax end.
(** FclImporter.cpp:549-598 *)
Definition fcl_parse_locks (line : string) : res (bool * bool) :=
  match find_sub ":" line with
  | None => Throw ESyntax
  | Some (_, value) =>
    match map trim (split value "|" true) with
    | [flag] => if (String.eqb flag "PREVIOUS" || String.eqb flag "RANGE")%bool then Ok (String.eqb flag "PREVIOUS", String.eqb flag "RANGE") else Throw ESyntax
    | [a; b] =>
      if ((String.eqb a "PREVIOUS" || String.eqb b "PREVIOUS") && (String.eqb a "RANGE" || String.eqb b "RANGE"))%bool then Ok (true, true) else Throw ESyntax
    | _ => Throw ESyntax
    end
  end.
(** FclImporter.cpp:600-614 *)
Definition fcl_parse_enabled (line : string) : res bool :=
  do kv <- two_parts line ":";
  if String.eqb (trim (snd kv)) "TRUE" then Ok true else if String.eqb (trim (snd kv)) "FALSE" then Ok false else Throw ESyntax.

(** new InputVariable(name), new OutputVariable(name) *)
Definition named_variable (name : string) : variable T := set_v_name name new_variable.
(** FclImporter.cpp:143-160, one round; [input]: the tag is VAR_INPUT (otherwise VAR_OUTPUT) *)
Definition fcl_var_line (input : bool) (e : engine T) (line : string) : res (engine T) :=
  do kv <- two_parts line ":";
  let v := named_variable (valid_name (fst kv)) in
  Ok (if input then mkEngine (e_name e) (e_description e) (e_inputs e ++ [v])%list (e_outputs e) (e_blocks e)
      else mkEngine (e_name e) (e_description e) (e_inputs e) (e_outputs e ++ [set_var v new_output])%list (e_blocks e)).
(** FclImporter.cpp:138-161 *)
Definition fcl_var (input : bool) (block : string) (e : engine T) : res (engine T) := rfold (fcl_var_line input) e (section_lines block).

(** the first token of a line: `tokenizer >> firstToken` *)
Definition first_token (line : string) : string := hd "" (tokens line).
(** replacing an element *)
Fixpoint put_at {A} (i : nat) (x : A) (l : list A) : list A :=
  match l, i with [], _ => [] | _ :: r, O => x :: r | y :: r, Datatypes.S i => y :: put_at i x r end.
(** keys of both kinds of variables: FclImporter.cpp:191-198, 239-240, 249-252, 257-258 *)
Definition fcl_key (vw : view T) (key line : string) (v : variable T) : option (res (variable T)) :=
  if String.eqb key "RANGE" then Some (do r <- fcl_parse_range line; Ok (set_range (fst r) (snd r) v))
  else if String.eqb key "ENABLED" then Some (do b <- fcl_parse_enabled line; Ok (enable_variable b v))
  else if String.eqb key "TERM" then Some (do t <- fcl_parse_term vw line; Ok (set_terms (v_terms v ++ [t])%list v))
  else None.
(** FclImporter.cpp:186-210, one round for the input variable at position [i] *)
Definition fcl_input_line (e : engine T) (i : nat) (v : variable T) (line : string) : res (variable T) :=
  match fcl_key (engine_view (put_at i v (e_inputs e)) (e_outputs e)) (first_token line) line v with Some r => r | None => Throw ESyntax end.
(** FclImporter.cpp:234-264, one round for the output variable at position [i] *)
Definition fcl_output_line (e : engine T) (i : nat) (o : output T) (line : string) : res (output T) :=
  let line := trim line in
  let key := first_token line in
  match fcl_key (engine_view (e_inputs e) (put_at i o (e_outputs e))) key line (o_var o) with
  | Some r => do v <- r; Ok (set_var v o)
  | None =>
    if String.eqb key "METHOD" then do z <- fcl_parse_defuzzifier line; Ok (set_operators (o_aggregation o) z o)
    else if String.eqb key "ACCU" then do a <- fcl_parse_snorm line; Ok (set_operators a (o_defuzzifier o) o)
    else if String.eqb key "DEFAULT" then
      do x <- fcl_parse_default line;
      Ok (mkOutput (o_var o) (o_fuzzy o) (o_aggregation o) (o_defuzzifier o) (o_previous o) (fst x) (snd x || o_lock_previous o)%bool)
    else if String.eqb key "LOCK" then
      do l <- fcl_parse_locks line;
      Ok (mkOutput (set_lock_range (snd l) (o_var o)) (o_fuzzy o) (o_aggregation o) (o_defuzzifier o) (o_previous o) (o_default o) (fst l))
    else Throw ESyntax
  end.
(** FclImporter.cpp:167-176, 217-226: the name after the first space *)
Definition fcl_name (block : string) : res string :=
  match find_sub " " (hd "" (getlines block)) with Some (_, name) => Ok (valid_name name) | None => Throw ESyntax end.
(** FclImporter.cpp:163-211 *)
Definition fcl_fuzzify (block : string) (e : engine T) : res (engine T) :=
  do name <- fcl_name block;
  match find_name name (map (@v_name T) (e_inputs e)) with
  | None => Throw ESyntax
  | Some i =>
    match nth_error (e_inputs e) i with
    | None => UB
    | Some v =>
      do v <- rfold (fcl_input_line e i) v (section_lines block);
      Ok (mkEngine (e_name e) (e_description e) (put_at i v (e_inputs e)) (e_outputs e) (e_blocks e))
    end
  end.
(** FclImporter.cpp:213-265 *)
Definition fcl_defuzzify (block : string) (e : engine T) : res (engine T) :=
  do name <- fcl_name block;
  match find_name name (map (fun o => v_name (o_var o)) (e_outputs e)) with
  | None => Throw ESyntax
  | Some i =>
    match nth_error (e_outputs e) i with
    | None => UB
    | Some o =>
      do o <- rfold (fcl_output_line e i) o (section_lines block);
      Ok (mkEngine (e_name e) (e_description e) (e_inputs e) (put_at i o (e_outputs e)) (e_blocks e))
    end
  end.

(** line.substr(0, line.find_first_of(' ')) *)
Definition before_space (line : string) : string := match find_sub " " line with Some (b, _) => b | None => line end.
(** line.substr(line.find_last_of(' ') + 1), empty if there is no space: FclImporter.cpp:271-275 *)
Fixpoint after_last_space (line : string) : string :=
  match line with
  | "" => ""
  | String c r => if Ascii.eqb c " " then match find_sub " " r with Some _ => after_last_space r | None => r end else after_last_space r
  end.
(** FclImporter.cpp:280-308, one round.  Every exception of Rule::load is caught. *)
Definition fcl_block_line (env : penv) (b : block T) (line : string) : res (block T) :=
  let key := before_space line in
  if String.eqb key "AND" then
    do n <- fcl_parse_tnorm line;
    Ok (mkBlock (b_enabled b) (b_name b) (b_description b) (b_rules b) n (b_disjunction b) (b_implication b) (b_activation b))
  else if String.eqb key "OR" then
    do n <- fcl_parse_snorm line;
    Ok (mkBlock (b_enabled b) (b_name b) (b_description b) (b_rules b) (b_conjunction b) n (b_implication b) (b_activation b))
  else if String.eqb key "ACT" then
    do n <- fcl_parse_tnorm line;
    Ok (mkBlock (b_enabled b) (b_name b) (b_description b) (b_rules b) (b_conjunction b) (b_disjunction b) n (b_activation b))
  else if String.eqb key "ENABLED" then
    do x <- fcl_parse_enabled line;
    Ok (mkBlock x (b_name b) (b_description b) (b_rules b) (b_conjunction b) (b_disjunction b) (b_implication b) (b_activation b))
  else if String.eqb key "RULE" then
    do text <- match find_sub ":" line with
               | Some (_, t) => Ok t
               | None => if Nat.ltb (String.length line) 5 then Throw EOutOfRange else Ok (sdrop 5 line)
               end;
    let text := trim text in
    let '(r, out) := rule_load env text (rule_new text s_1) in
    match out with UB => UB | Diverge => Diverge | _ => Ok (set_rules (b_rules b ++ [r])%list b) end
  else Throw ESyntax.
(** FclImporter.cpp:267-309 *)
Definition fcl_ruleblock (block : string) (e : engine T) : res (engine T) :=
  let b := mkBlock true (after_last_space (hd "" (getlines block))) "" [] None None None (Some General) in
  do b <- rfold (fcl_block_line (engine_env (e_inputs e) (e_outputs e))) b (section_lines block);
  Ok (mkEngine (e_name e) (e_description e) (e_inputs e) (e_outputs e) (e_blocks e ++ [b])%list).

(** FclImporter.cpp:35-40 *)
Definition closing_tag (tag : string) : option string :=
  if (String.eqb tag "VAR_INPUT" || String.eqb tag "VAR_OUTPUT")%bool then Some "END_VAR"
  else if String.eqb tag "FUZZIFY" then Some "END_FUZZIFY" else if String.eqb tag "DEFUZZIFY" then Some "END_DEFUZZIFY"
  else if String.eqb tag "RULEBLOCK" then Some "END_RULEBLOCK" else None.
(** FclImporter.cpp:122-136 *)
Definition fcl_process (tag block : string) (e : engine T) : res (engine T) :=
  if String.eqb tag "VAR_INPUT" then fcl_var true block e else if String.eqb tag "VAR_OUTPUT" then fcl_var false block e
  else if String.eqb tag "FUZZIFY" then fcl_fuzzify block e else if String.eqb tag "DEFUZZIFY" then fcl_defuzzify block e
  else if String.eqb tag "RULEBLOCK" then fcl_ruleblock block e else Throw ESyntax.
(** FclImporter.cpp:51-55: the line without comments and semicolons; empty if skipped *)
Definition fcl_clean (line : string) : res string :=
  let line := hd "" (split line "//" false) in
  do line <- replace_all (hd "" (split line "#" false)) ";" "";
  let line := trim line in
  Ok (match line with "" => "" | String c _ => if Ascii.eqb c "%" then "" else line end).
(** FclImporter.cpp:49-118: [block] is the open tag, its closing tag and the text so far *)
Fixpoint fcl_loop (lines : list string) (e : engine T) (block : option (string * string * string)) : res (engine T) :=
  match lines with
  | [] => match block with None => Ok e | Some _ => Throw ESyntax end
  | raw :: lines =>
    do line <- fcl_clean raw;
    if sempty line then fcl_loop lines e block else
    let token := first_token line in
    if String.eqb token "FUNCTION_BLOCK" then
      fcl_loop lines (match tl (tokens line) with
                      | [] => e
                      | names => mkEngine (join names " ") (e_description e) (e_inputs e) (e_outputs e) (e_blocks e) end) block
    else if String.eqb token "END_FUNCTION_BLOCK" then match block with None => Ok e | Some _ => Throw ESyntax end
    else match block with
    | None => match closing_tag token with None => Throw ESyntax | Some closing => fcl_loop lines e (Some (token, closing, line ++ char newline)) end
    | Some (tag, closing, text) =>
      if String.eqb token closing then do e <- fcl_process tag text e; fcl_loop lines e None
      else match closing_tag token with Some _ => Throw ESyntax | None => fcl_loop lines e (Some (tag, closing, text ++ line ++ char newline)) end
    end
  end.
(** FclImporter.cpp:32-120 *)
Definition fcl_import (text : string) : res (engine T) := fcl_loop (getlines text) new_engine None.
End Importer.
End Fcl.
