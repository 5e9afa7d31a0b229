(** The exporter to C++ code (/repo/src/imex/CppExporter.cpp, /repo/fuzzylite/imex/CppExporter.h).  Not modelled: toString(Hedge), which no
    engine needs. *)
From Coq Require Import ZArith String List Bool Ascii.
From Verif Require Import Base Op Norm Hedge Shape Discrete Defuzz Aggregated Text Function Rule Var Activation Engine Factory Fll Fis.
Import ListNotations.
Local Open Scope string_scope.

(** a quotation mark *)
Definition dq : string := char "034".
Definition quoted (s : string) : string := dq ++ s ++ dq.

Section Cpp.
Context {T : Type} `{S : Scalar T}.
(** fuzzylite::decimals(), fuzzylite::library(), and the members _usingNamespace and _usingVariableNames (CppExporter.h:46-47) *)
Variables (d : nat) (library : string) (namespaced named : bool).

(** CppExporter.cpp:35-37 *)
Definition cpp_fl (class : string) : string := if namespaced then "fl::" ++ class else class.
(** CppExporter.cpp:171-177 *)
Definition cpp_scalar (x : T) : string :=
  if isNaN x then "fl::nan" else if isInf x then (if s_ltb s_0 x then "fl::inf" else "-fl::inf") else str d x.
(** CppExporter.cpp:179-209 *)
Definition cpp_term (t : term T) : res string :=
  match tm_body t with
  | TDiscrete xy => Ok (cpp_fl "Discrete" ++ "::create(" ++ quoted (tm_name t) ++ ", " ++ str_int (Z.of_nat (List.length xy * 2)) ++ ", " ++
                        join_scalars d (flat_map (fun p => [fst p; snd p]) xy) ", " ++ ")")
  | TFunction f => Ok (cpp_fl "Function" ++ "::create(" ++ quoted (tm_name t) ++ ", " ++ quoted (fn_formula f) ++ ", engine)")
  | TLinear cs _ => Ok (cpp_fl "Linear" ++ "::create(" ++ quoted (tm_name t) ++ ", engine, " ++ join_scalars d cs ", " ++ ")")
  | b => do parameters <- replace_all (term_parameters d t) " " ", ";
         Ok ("new " ++ cpp_fl (body_class b) ++ "(" ++ quoted (tm_name t) ++ ", " ++ parameters ++ ")")
  end.
(** CppExporter.cpp:227-231 *)
Definition cpp_norm {N} (class : N -> string) (n : option N) : string := match n with None => "fl::null" | Some n => "new " ++ cpp_fl (class n) end.
(** CppExporter.cpp:233-243; the class of weighted defuzzifiers is not prefixed *)
Definition cpp_defuzzifier (z : option defuzzifier) : string :=
  match z with
  | None => "fl::null"
  | Some (DIntegral k n as z) => "new " ++ cpp_fl (defuzzifier_class z) ++ "(" ++ str_int n ++ ")"
  | Some (DWeighted k ty as z) => "new " ++ defuzzifier_class z ++ "(" ++ quoted (wtype_name ty) ++ ")"
  end.
(** CppExporter.cpp:245-259 *)
Definition cpp_activation (a : option (activation T)) : string :=
  match a with
  | None => "fl::null"
  | Some a =>
    let parameters := trim (activation_parameters d a) in
    if sempty parameters then "new " ++ cpp_fl (activation_class a)
    else "new " ++ cpp_fl (activation_class a) ++ "(" ++
         join (map (fun p => if is_numeric (T := T) p then p else quoted p) (split parameters " " true)) ", " ++ ")"
  end.
(** CppExporter.cpp:79-90, 107-118, 139-151: the name of the variable at position [i] of [n] *)
Definition cpp_numbered (kind : string) (i n : nat) : string := if Nat.ltb 1 n then kind ++ str_int (Z.of_nat (Datatypes.S i)) else kind.
Definition cpp_variable_name (kind : string) (i n : nat) (v : variable T) : string := if named then valid_name (v_name v) else cpp_numbered kind i n.
Definition cpp_block_name (i n : nat) (b : block T) : string :=
  if (named && negb (sempty (b_name b)))%bool then valid_name (b_name b) else cpp_numbered "ruleBlock" i n.
Definition cpp_call (x method arguments : string) : string := x ++ "->" ++ method ++ "(" ++ arguments ++ ");".
Definition cpp_declaration (class x : string) : string := cpp_fl (class ++ "* ") ++ x ++ " = new " ++ cpp_fl (class ++ ";").
(** CppExporter.cpp:93-100, 121-128 *)
Definition cpp_head (x : string) (v : variable T) : list string :=
  [cpp_call x "setName" (quoted (v_name v)); cpp_call x "setDescription" (quoted (v_description v)); cpp_call x "setEnabled" (bool_text (v_enabled v));
   cpp_call x "setRange" (cpp_scalar (v_minimum v) ++ ", " ++ cpp_scalar (v_maximum v)); cpp_call x "setLockValueInRange" (bool_text (v_lock_range v))].
Definition cpp_terms (x : string) (v : variable T) : res (list string) :=
  rmapM (fun t => do s <- cpp_term t; Ok (cpp_call x "addTerm" s)) (v_terms v).
(** CppExporter.cpp:78-104 *)
Definition cpp_input (x : string) (v : variable T) : res (list string) :=
  do ts <- cpp_terms x v;
  Ok (cpp_declaration "InputVariable" x :: cpp_head x v ++ ts ++ [cpp_call "engine" "addInputVariable" x; ""])%list.
(** CppExporter.cpp:106-136 *)
Definition cpp_output (x : string) (o : output T) : res (list string) :=
  do ts <- cpp_terms x (o_var o);
  Ok (cpp_declaration "OutputVariable" x :: cpp_head x (o_var o) ++
      [cpp_call x "setAggregation" (cpp_norm snorm_class (o_aggregation o)); cpp_call x "setDefuzzifier" (cpp_defuzzifier (o_defuzzifier o));
       cpp_call x "setDefaultValue" (cpp_scalar (o_default o)); cpp_call x "setLockPreviousValue" (bool_text (o_lock_previous o))] ++
      ts ++ [cpp_call "engine" "addOutputVariable" x; ""])%list.
(** CppExporter.cpp:138-169 *)
Definition cpp_block (x : string) (b : block T) : list string :=
  (cpp_declaration "RuleBlock" x ::
   [cpp_call x "setName" (quoted (b_name b)); cpp_call x "setDescription" (quoted (b_description b)); cpp_call x "setEnabled" (bool_text (b_enabled b));
    cpp_call x "setConjunction" (cpp_norm tnorm_class (b_conjunction b)); cpp_call x "setDisjunction" (cpp_norm snorm_class (b_disjunction b));
    cpp_call x "setImplication" (cpp_norm tnorm_class (b_implication b)); cpp_call x "setActivation" (cpp_activation (b_activation b))] ++
   map (fun r => cpp_call x "addRule" (cpp_fl "Rule" ++ "::parse(" ++ quoted (rl_text r) ++ ", engine)")) (b_rules b) ++
   [cpp_call "engine" "addRuleBlock" x; ""])%list.
(** with positions *)
Definition indexed {A} (l : list A) : list (nat * A) := combine (seq 0 (List.length l)) l.
(** CppExporter.cpp:55-76; each part ends with an empty line *)
Definition cpp_export (e : engine T) : res string :=
  do ins <- rmapM (fun p => cpp_input (cpp_variable_name "inputVariable" (fst p) (List.length (e_inputs e)) (snd p)) (snd p)) (indexed (e_inputs e));
  do outs <- rmapM (fun p => cpp_output (cpp_variable_name "outputVariable" (fst p) (List.length (e_outputs e)) (o_var (snd p))) (snd p)) (indexed (e_outputs e));
  Ok (text_of ([("//Code automatically generated with " ++ library ++ ".")%string; ""] ++
               (if namespaced then [] else ["using namespace fuzzylite;"; ""]) ++
               [cpp_declaration "Engine" "engine"; cpp_call "engine" "setName" (quoted (e_name e)); cpp_call "engine" "setDescription" (quoted (e_description e)); ""] ++
               List.concat ins ++ List.concat outs ++
               flat_map (fun p => cpp_block (cpp_block_name (fst p) (List.length (e_blocks e)) (snd p)) (snd p)) (indexed (e_blocks e)))%list).
End Cpp.
