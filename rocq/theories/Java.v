(** The exporter to Java code (/repo/src/imex/JavaExporter.cpp, /repo/fuzzylite/imex/JavaExporter.h). *)
From Coq Require Import ZArith String List Bool Ascii.
From Verif Require Import Base Op Norm Hedge Shape Discrete Defuzz Aggregated Text Function Rule Var Activation Engine Factory Fll Fis Cpp.
Import ListNotations.
Local Open Scope string_scope.

Section Java.
Context {T : Type} `{S : Scalar T}.
(** fuzzylite::decimals(), fuzzylite::library(), and the member _usingVariableNames (JavaExporter.h:48) *)
Variables (d : nat) (library : string) (named : bool).

(** JavaExporter.cpp:219-225 *)
Definition java_scalar (x : T) : string :=
  if isNaN x then "Double.NaN" else if isInf x then (if s_ltb s_0 x then "Double.POSITIVE_INFINITY" else "Double.NEGATIVE_INFINITY") else str d x.
(** JavaExporter.cpp:153-183; the numbers are written by Op::join and Term::parameters, not by toString(scalar) *)
Definition java_term (t : term T) : res string :=
  match tm_body t with
  | TDiscrete xy => Ok ("Discrete" ++ ".create(" ++ quoted (tm_name t) ++ ", " ++ join_scalars d (flat_map (fun p => [fst p; snd p]) xy) ", " ++ ")")
  | TFunction f => Ok ("Function" ++ ".create(" ++ quoted (tm_name t) ++ ", " ++ quoted (fn_formula f) ++ ", engine)")
  | TLinear cs _ => Ok ("Linear" ++ ".create(" ++ quoted (tm_name t) ++ ", engine, " ++ join_scalars d cs ", " ++ ")")
  | b => do parameters <- replace_all (term_parameters d t) " " ", ";
         Ok ("new " ++ body_class b ++ "(" ++ quoted (tm_name t) ++ ", " ++ parameters ++ ")")
  end.
(** JavaExporter.cpp:198-202 *)
Definition java_norm {N} (class : N -> string) (n : option N) : string := match n with None => "null" | Some n => "new " ++ class n ++ "()" end.
(** JavaExporter.cpp:185-196 *)
Definition java_defuzzifier (z : option defuzzifier) : string :=
  match z with
  | None => "null"
  | Some (DIntegral k n as z) => "new " ++ defuzzifier_class z ++ "(" ++ str_int n ++ ")"
  | Some (DWeighted k ty as z) => "new " ++ defuzzifier_class z ++ "(" ++ quoted (wtype_name ty) ++ ")"
  end.
(** JavaExporter.cpp:204-217 *)
Definition java_activation (a : option (activation T)) : string :=
  match a with
  | None => "null"
  | Some a =>
    let parameters := trim (activation_parameters d a) in
    if sempty parameters then "new " ++ activation_class a ++ "()"
    else "new " ++ activation_class a ++ "(" ++
         join (map (fun p => if is_numeric (T := T) p then p else quoted p) (split parameters " " true)) ", " ++ ")"
  end.
(** a line which calls a method; JavaExporter.cpp:43, 75, 103, 137: a line which declares an object *)
Definition java_call (x method arguments : string) : string := x ++ "." ++ method ++ "(" ++ arguments ++ ");".
Definition java_declaration (class x : string) : string := class ++ " " ++ x ++ " = new " ++ class ++ "();".
(** JavaExporter.cpp:76-81, 104-109 *)
Definition java_head (x : string) (v : variable T) : list string :=
  [java_call x "setName" (quoted (v_name v)); java_call x "setDescription" (quoted (v_description v)); java_call x "setEnabled" (bool_text (v_enabled v));
   java_call x "setRange" (java_scalar (v_minimum v) ++ ", " ++ java_scalar (v_maximum v)); java_call x "setLockValueInRange" (bool_text (v_lock_range v))].
(** JavaExporter.cpp:82-83, 114-115 *)
Definition java_terms (x : string) (v : variable T) : res (list string) :=
  rmapM (fun t => do s <- java_term t; Ok (java_call x "addTerm" s)) (v_terms v).
(** JavaExporter.cpp:75-85 *)
Definition java_input (x : string) (v : variable T) : res (list string) :=
  do ts <- java_terms x v;
  Ok (java_declaration "InputVariable" x :: java_head x v ++ ts ++ [java_call "engine" "addInputVariable" x; ""])%list.
(** JavaExporter.cpp:103-117 *)
Definition java_output (x : string) (o : output T) : res (list string) :=
  do ts <- java_terms x (o_var o);
  Ok (java_declaration "OutputVariable" x :: java_head x (o_var o) ++
      [java_call x "setAggregation" (java_norm snorm_class (o_aggregation o)); java_call x "setDefuzzifier" (java_defuzzifier (o_defuzzifier o));
       java_call x "setDefaultValue" (java_scalar (o_default o)); java_call x "setLockPreviousValue" (bool_text (o_lock_previous o))] ++
      ts ++ [java_call "engine" "addOutputVariable" x; ""])%list.
(** JavaExporter.cpp:137-150 *)
Definition java_block (x : string) (b : block T) : list string :=
  (java_declaration "RuleBlock" x ::
   [java_call x "setName" (quoted (b_name b)); java_call x "setDescription" (quoted (b_description b)); java_call x "setEnabled" (bool_text (b_enabled b));
    java_call x "setConjunction" (java_norm tnorm_class (b_conjunction b)); java_call x "setDisjunction" (java_norm snorm_class (b_disjunction b));
    java_call x "setImplication" (java_norm tnorm_class (b_implication b)); java_call x "setActivation" (java_activation (b_activation b))] ++
   map (fun r => java_call x "addRule" ("Rule.parse(" ++ quoted (rl_text r) ++ ", engine)")) (b_rules b) ++
   [java_call "engine" "addRuleBlock" x; ""])%list.
(** JavaExporter.cpp:40-58; the names (62-74, 90-102, 122-135) are those of CppExporter.cpp:79-90, 107-118, 139-151 *)
Definition java_export (e : engine T) : res string :=
  do ins <- rmapM (fun p => java_input (cpp_variable_name named "inputVariable" (fst p) (List.length (e_inputs e)) (snd p)) (snd p)) (indexed (e_inputs e));
  do outs <- rmapM (fun p => java_output (cpp_variable_name named "outputVariable" (fst p) (List.length (e_outputs e)) (o_var (snd p))) (snd p)) (indexed (e_outputs e));
  Ok (text_of ([("//Code automatically generated with " ++ library ++ ".")%string; "";
                java_declaration "Engine" "engine"; java_call "engine" "setName" (quoted (e_name e)); java_call "engine" "setDescription" (quoted (e_description e)); ""] ++
               List.concat ins ++ List.concat outs ++
               flat_map (fun p => java_block (cpp_block_name named (fst p) (List.length (e_blocks e)) (snd p)) (snd p)) (indexed (e_blocks e)))%list).
End Java.
