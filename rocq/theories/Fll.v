(** The FuzzyLite Language: parameters of terms and activation methods, exporter and importer
    (/repo/src/term, /repo/src/activation, /repo/src/imex/FllExporter.cpp, /repo/src/imex/FllImporter.cpp). *)
From Coq Require Import ZArith String List Bool Ascii.
From Verif Require Import Base Op Norm Hedge Shape Discrete Defuzz Aggregated Text Function Rule Var Activation Engine Factory.
Import ListNotations.
Local Open Scope string_scope.

Definition newline : ascii := "010".
(** repeated std::getline on a std::istringstream *)
Fixpoint getlines_from (cur s : string) : list string :=
  match s with
  | "" => if sempty cur then [] else [cur]
  | String c r => if Ascii.eqb c newline then cur :: getlines_from "" r else getlines_from (cur ++ char c) r
  end.
Definition getlines (s : string) : list string := getlines_from "" s.

Section Fll.
Context {T : Type} `{S : Scalar T}.

(** ** parameters *)
(** (int) Op::toScalar(text) *)
Definition to_int (s : string) : res Z := do x <- to_scalar s; match s_trunc x with Some n => Ok n | None => UB end.
(** the numbers of a shape in the order of its parameters() *)
Definition shape_list (s : shape T) : list T :=
  match s with
  | Bell a b c | Triangle a b c => [a; b; c]
  | Binary a b | Concave a b | Cosine a b | Gaussian a b | Ramp a b | Rectangle a b | SShape a b | Sigmoid a b | Spike a b | ZShape a b => [a; b]
  | GaussianProduct a b c d | PiShape a b c d | SigmoidDifference a b c d | SigmoidProduct a b c d | Trapezoid a b c d => [a; b; c; d]
  end.
(** the setters called by configure(), by class, with the values in order *)
Definition shape_set (s : shape T) (values : list T) : shape T :=
  match s, values with
  | Bell _ _ _, [a; b; c] => Bell a b c | Triangle _ _ _, [a; b; c] => Triangle a b c
  | Binary _ _, [a; b] => Binary a b | Concave _ _, [a; b] => Concave a b | Cosine _ _, [a; b] => Cosine a b
  | Gaussian _ _, [a; b] => Gaussian a b | Ramp _ _, [a; b] => Ramp a b | Rectangle _ _, [a; b] => Rectangle a b
  | SShape _ _, [a; b] => SShape a b | Sigmoid _ _, [a; b] => Sigmoid a b | Spike _ _, [a; b] => Spike a b | ZShape _ _, [a; b] => ZShape a b
  | GaussianProduct _ _ _ _, [a; b; c; d] => GaussianProduct a b c d | PiShape _ _ _ _, [a; b; c; d] => PiShape a b c d
  | SigmoidDifference _ _ _ _, [a; b; c; d] => SigmoidDifference a b c d | SigmoidProduct _ _ _ _, [a; b; c; d] => SigmoidProduct a b c d
  | Trapezoid _ _ _ _, [a; b; c; d] => Trapezoid a b c d
  | s, _ => s
  end.
(** Term::parameters() of each class, e.g. Bell.cpp:40-43 (the other shapes alike, see the lines cited in Shape.v), Discrete.cpp:77-86,
    Constant.cpp:35-37, Linear.cpp:81-83, Function.cpp:411-413.  [d]: fuzzylite::decimals(). *)
Definition term_parameters (d : nat) (t : term T) : string :=
  match tm_body t with
  | TShape s => join_scalars d (shape_list s) " " ++ (if isEq (tm_height t) s_1 then "" else " " ++ str d (tm_height t))
  | TDiscrete xy => join (flat_map (fun p => [str d (fst p); str d (snd p)]) xy ++ (if isEq (tm_height t) s_1 then [] else [str d (tm_height t)])) " "
  | TConstant v => str d v
  | TLinear cs _ => join_scalars d cs " "
  | TFunction f => fn_formula f
  end.
(** Term::configure() of each class: e.g. Bell.cpp:45-60 (the other shapes alike, following parameters()), Discrete.cpp:88-102,
    Constant.cpp:39-44, Linear.cpp:85-94, Function.cpp:415-417 and 438-440.
    Simplification: an object left half configured by an exception is not described. *)
Definition term_configure (vw : view T) (parameters : string) (t : term T) : res (term T) :=
  match tm_body t with
  | TFunction f =>
    let '(f, r) := fn_load default_table f parameters (fn_engine f) (vw_context vw) in
    do _ <- r; Ok (mkTerm (tm_name t) (tm_height t) (TFunction f))
  | body =>
    if sempty parameters then Ok t else
    let values := split parameters " " true in
    match body with
    | TShape s =>
      let required := length (shape_list s) in
      if Nat.ltb (length values) required then Throw EConfiguration else
      do l <- rmapM to_scalar (firstn required values);
      do h <- match nth_error values required with Some v => to_scalar v | None => Ok (tm_height t) end;
      Ok (mkTerm (tm_name t) h (TShape (shape_set s l)))
    | TDiscrete _ =>
      do l <- rmapM to_scalar values;
      let '(h, l) := if Nat.even (length l) then (s_1, l) else (last l s_nan, removelast l) in
      do xy <- to_pairs l;
      Ok (mkTerm (tm_name t) h (TDiscrete xy))
    | TConstant _ => match values with v :: _ => do v <- to_scalar v; Ok (mkTerm (tm_name t) (tm_height t) (TConstant v)) | [] => UB end
    | TLinear _ e => do l <- rmapM to_scalar values; Ok (mkTerm (tm_name t) (tm_height t) (TLinear l e))
    | TFunction _ => Ok t
    end
  end.
(** Activation::parameters(): First.cpp:37-39, Last.cpp:37-39, Highest.cpp:35-37, Lowest.cpp:35-37, Threshold.cpp:42-46, General.cpp:34-36, Proportional.cpp:33-35 *)
Definition activation_parameters (d : nat) (a : activation T) : string :=
  match a with
  | General | Proportional => ""
  | First n t | Last n t => str_int n ++ " " ++ str d t
  | Highest n | Lowest n => str_int n
  | Threshold c v => comparison_operator c ++ " " ++ str d v
  end.
(** Activation::configure(): First.cpp:41-54, Last.cpp:41-54, Highest.cpp:39-45, Lowest.cpp:39-45, Threshold.cpp:48-61, General.cpp:38-40, Proportional.cpp:37-39 *)
Definition activation_configure (parameters : string) (a : activation T) : res (activation T) :=
  match a with
  | General | Proportional => Ok a
  | _ =>
    if sempty parameters then Ok a else
    let values := split parameters " " true in
    match a, values with
    | First _ _, n :: t :: _ => do n <- to_int n; do t <- to_scalar t; Ok (First n t)
    | Last _ _, n :: t :: _ => do n <- to_int n; do t <- to_scalar t; Ok (Last n t)
    | Highest _, n :: _ => do n <- to_int n; Ok (Highest n)
    | Lowest _, n :: _ => do n <- to_int n; Ok (Lowest n)
    | Threshold _ _, c :: v :: _ => do c <- parse_comparison c; do v <- to_scalar v; Ok (Threshold c v)
    | Highest _, [] | Lowest _, [] => Ok a
    | _, _ => Throw EConfiguration
    end
  end.

(** ** exporter *)
Section Exporter.
(** fuzzylite::decimals(), IntegralDefuzzifier::defaultResolution(), and the members of FllExporter (FllExporter.h:50-51) *)
Variables (d : nat) (resolution : Z) (indent separator : string).

Definition bool_text (b : bool) : string := if b then "true" else "false".
(** FllExporter.cpp:171-179 *)
Definition fll_term (t : term T) : string :=
  join (["term:"; valid_name (tm_name t); body_class (tm_body t)] ++ (if sempty (term_parameters d t) then [] else [term_parameters d t])) " ".
(** FllExporter.cpp:181-185 *)
Definition fll_tnorm (n : option tnorm) : string := match n with Some n => tnorm_class n | None => "none" end.
Definition fll_snorm (n : option snorm) : string := match n with Some n => snorm_class n | None => "none" end.
(** FllExporter.cpp:187-193 *)
Definition fll_activation (a : option (activation T)) : string :=
  match a with
  | None => "none"
  | Some a => if sempty (activation_parameters d a) then activation_class a else activation_class a ++ " " ++ activation_parameters d a
  end.
(** FllExporter.cpp:195-209 *)
Definition fll_defuzzifier (z : option defuzzifier) : string :=
  match z with
  | None => "none"
  | Some (DIntegral k n as z) => if Z.eqb n resolution then defuzzifier_class z else defuzzifier_class z ++ " " ++ str_int n
  | Some (DWeighted k ty as z) => match ty with WAutomatic => defuzzifier_class z | _ => defuzzifier_class z ++ " " ++ wtype_name ty end
  end.
(** FllExporter.cpp:163-165 *)
Definition fll_rule (r : rule T) : string := "rule: " ++ rl_text r.

(** lines common to both kinds of variables: FllExporter.cpp:109-115, 124-130 *)
Definition fll_head (v : variable T) : list string :=
  (if sempty (v_description v) then [] else [indent ++ "description: " ++ v_description v]) ++
  [indent ++ "enabled: " ++ bool_text (v_enabled v);
   indent ++ "range: " ++ join_scalars d [v_minimum v; v_maximum v] " ";
   indent ++ "lock-range: " ++ bool_text (v_lock_range v)].
(** FllExporter.cpp:106-119 *)
Definition fll_input (v : variable T) : string :=
  join (["InputVariable: " ++ valid_name (v_name v)] ++ fll_head v ++ map (fun t => indent ++ fll_term t) (v_terms v)) separator.
(** FllExporter.cpp:121-138 *)
Definition fll_output (o : output T) : string :=
  let v := o_var o in
  join (["OutputVariable: " ++ valid_name (v_name v)] ++ fll_head v ++
        [indent ++ "aggregation: " ++ fll_snorm (o_aggregation o);
         indent ++ "defuzzifier: " ++ fll_defuzzifier (o_defuzzifier o);
         indent ++ "default: " ++ str d (o_default o);
         indent ++ "lock-previous: " ++ bool_text (o_lock_previous o)] ++
        map (fun t => indent ++ fll_term t) (v_terms v)) separator.
(** FllExporter.cpp:140-153 *)
Definition fll_block (b : block T) : string :=
  join (["RuleBlock: " ++ b_name b] ++
        (if sempty (b_description b) then [] else [indent ++ "description: " ++ b_description b]) ++
        [indent ++ "enabled: " ++ bool_text (b_enabled b);
         indent ++ "conjunction: " ++ fll_tnorm (b_conjunction b);
         indent ++ "disjunction: " ++ fll_snorm (b_disjunction b);
         indent ++ "implication: " ++ fll_tnorm (b_implication b);
         indent ++ "activation: " ++ fll_activation (b_activation b)] ++
        map (fun r => indent ++ fll_rule r) (b_rules b)) separator.
(** FllExporter.cpp:51-63 *)
Definition fll_export (e : engine T) : string :=
  join (["Engine: " ++ e_name e] ++
        (if sempty (e_description e) then [] else ["description: " ++ e_description e]) ++
        map fll_input (e_inputs e) ++ map fll_output (e_outputs e) ++ map fll_block (e_blocks e)) separator.
End Exporter.

(** ** importer *)
Section Importer.
(** IntegralDefuzzifier::defaultResolution(), and the member of FllImporter (FllImporter.h:46) *)
Variables (resolution : Z) (separator : string).

(** FllImporter.cpp:339-352 with the separator as text of one character *)
Definition parse_key_value (text sep : string) : res (string * string) :=
  match find_sub sep text with Some kv => Ok kv | None => Throw ESyntax end.
(** FllImporter.cpp:326-337 *)
Definition parse_boolean (s : string) : res bool :=
  if String.eqb s "true" then Ok true else if String.eqb s "false" then Ok false else Throw ESyntax.
(** FllImporter.cpp:321-324.  The order in which the two conversions are evaluated does not matter: both throw the same. *)
Definition parse_range (text : string) : res (T * T) :=
  do kv <- parse_key_value text " ";
  do a <- to_scalar (fst kv); do b <- to_scalar (snd kv); Ok (a, b).
(** FllImporter.cpp:265-275 *)
Definition parse_tnorm (name : string) : res (option tnorm) := construct (if String.eqb name "none" then "" else name) tnorm_factory.
Definition parse_snorm (name : string) : res (option snorm) := construct (if String.eqb name "none" then "" else name) snorm_factory.
(** FllImporter.cpp:277-291; front() of an empty vector and a call on a null pointer are UB *)
Definition parse_activation (name : string) : res (option (activation T)) :=
  if String.eqb name "none" then construct "" activation_factory else
  match split name " " true with
  | [] => UB
  | front :: parameters =>
    do a <- construct front activation_factory;
    match a with
    | None => UB
    | Some a => do a <- activation_configure (join parameters " ") a; Ok (Some a)
    end
  end.
(** FllImporter.cpp:293-319 *)
Definition parse_defuzzifier (text : string) : res (option defuzzifier) :=
  match split text " " true with
  | [] => Throw EOutOfRange
  | name :: parameters =>
    if String.eqb name "none" then construct "" (defuzzifier_factory resolution) else
    do z <- construct name (defuzzifier_factory resolution);
    match z, parameters with
    | Some (DIntegral k _), parameter :: _ => do n <- to_int parameter; Ok (Some (DIntegral k n))
    | Some (DWeighted k _), parameter :: _ =>
      do ty <- match wtype_of_name parameter with Ok ty => Ok ty | _ => Throw ESyntax end; Ok (Some (DWeighted k ty))
    | _, _ => Ok z
    end
  end.
(** FllImporter.cpp:238-263; [vw] is what the terms see of the engine being built *)
Definition parse_term (vw : view T) (text : string) : res (term T) :=
  match split text " " true with
  | name :: class :: parameters =>
    do t <- construct class term_factory;
    match t with
    | None => UB
    | Some t =>
      let t := term_update_reference vw t in
      term_configure vw (join parameters " ") (mkTerm (valid_name name) (tm_height t) (tm_body t))
    end
  | _ => Throw ESyntax
  end.

(** new InputVariable (InputVariable.h:37-42), new OutputVariable (OutputVariable.h:95-100), new RuleBlock (RuleBlock.h:59-66), new Engine (Engine.h:62-69) *)
Definition new_variable : variable T := variable_new "" (s_neg s_inf) s_inf [].
Definition new_output : output T := mkOutput new_variable [] None None s_nan s_nan false.
Definition new_block : block T := mkBlock true "" "" [] None None None None.
Definition new_engine : engine T := mkEngine "" "" [] [] [].
Definition set_v_name (s : string) (v : variable T) : variable T :=
  mkVariable s (v_description v) (v_value v) (v_minimum v) (v_maximum v) (v_enabled v) (v_lock_range v) (v_terms v).
Definition set_v_description (s : string) (v : variable T) : variable T :=
  mkVariable (v_name v) s (v_value v) (v_minimum v) (v_maximum v) (v_enabled v) (v_lock_range v) (v_terms v).

(** keys of both kinds of variables; [None] when the key is another one: FllImporter.cpp:101-111, 133-139, 144-145, 162-163 *)
Definition variable_key (vw : view T) (key value : string) (v : variable T) : option (res (variable T)) :=
  if String.eqb key "description" then Some (Ok (set_v_description value v))
  else if String.eqb key "enabled" then Some (do b <- parse_boolean value; Ok (enable_variable b v))
  else if String.eqb key "range" then Some (do r <- parse_range value; Ok (set_range (fst r) (snd r) v))
  else if String.eqb key "lock-range" then Some (do b <- parse_boolean value; Ok (set_lock_range b v))
  else if String.eqb key "term" then Some (do t <- parse_term vw value; Ok (set_terms (v_terms v ++ [t])%list v))
  else None.
(** one line of the loop at FllImporter.cpp:97-121 *)
Definition input_line (vw : view T) (v : variable T) (line : string) : res (variable T) :=
  do kv <- parse_key_value line ":";
  let '(key, value) := kv in
  if String.eqb key "InputVariable" then Ok (set_v_name (valid_name value) v)
  else match variable_key vw key value v with Some r => r | None => Throw EImport end.
(** one line of the loop at FllImporter.cpp:129-173; the warning is left out *)
Definition output_line (vw : view T) (o : output T) (line : string) : res (output T) :=
  do kv <- parse_key_value line ":";
  let '(key, value) := kv in
  if String.eqb key "OutputVariable" then Ok (set_var (set_v_name (valid_name value) (o_var o)) o)
  else match variable_key vw key value (o_var o) with
  | Some r => do v <- r; Ok (set_var v o)
  | None =>
    if String.eqb key "default" then
      do x <- to_scalar value;
      Ok (mkOutput (o_var o) (o_fuzzy o) (o_aggregation o) (o_defuzzifier o) (o_previous o) x (o_lock_previous o))
    else if (String.eqb key "lock-previous" || String.eqb key "lock-valid")%bool then
      do b <- parse_boolean value;
      Ok (mkOutput (o_var o) (o_fuzzy o) (o_aggregation o) (o_defuzzifier o) (o_previous o) (o_default o) b)
    else if String.eqb key "defuzzifier" then do z <- parse_defuzzifier value; Ok (set_operators (o_aggregation o) z o)
    else if (String.eqb key "aggregation" || String.eqb key "accumulation")%bool then do a <- parse_snorm value; Ok (set_operators a (o_defuzzifier o) o)
    else Throw EImport
  end.
(** one line of the loop at FllImporter.cpp:181-232; warnings are left out.  Every exception of Rule::load is caught (see C31_throws). *)
Definition block_line (env : penv) (b : block T) (line : string) : res (block T) :=
  do kv <- parse_key_value line ":";
  let '(key, value) := kv in
  if String.eqb key "RuleBlock" then
    Ok (mkBlock (b_enabled b) value (b_description b) (b_rules b) (b_conjunction b) (b_disjunction b) (b_implication b) (b_activation b))
  else if String.eqb key "description" then
    Ok (mkBlock (b_enabled b) (b_name b) value (b_rules b) (b_conjunction b) (b_disjunction b) (b_implication b) (b_activation b))
  else if String.eqb key "enabled" then
    do x <- parse_boolean value;
    Ok (mkBlock x (b_name b) (b_description b) (b_rules b) (b_conjunction b) (b_disjunction b) (b_implication b) (b_activation b))
  else if String.eqb key "conjunction" then
    do n <- parse_tnorm value;
    Ok (mkBlock (b_enabled b) (b_name b) (b_description b) (b_rules b) n (b_disjunction b) (b_implication b) (b_activation b))
  else if String.eqb key "disjunction" then
    do n <- parse_snorm value;
    Ok (mkBlock (b_enabled b) (b_name b) (b_description b) (b_rules b) (b_conjunction b) n (b_implication b) (b_activation b))
  else if (String.eqb key "implication" || (String.eqb key "activation" && has_constructor value tnorm_factory))%bool then
    do n <- parse_tnorm value;
    Ok (mkBlock (b_enabled b) (b_name b) (b_description b) (b_rules b) (b_conjunction b) (b_disjunction b) n (b_activation b))
  else if String.eqb key "activation" then do a <- parse_activation value; Ok (set_activation a b)
  else if String.eqb key "rule" then
    let '(r, out) := rule_load env value (rule_new value s_1) in
    match out with UB => UB | Diverge => Diverge | _ => Ok (set_rules (b_rules b ++ [r])%list b) end
  else Throw EImport.

(** FllImporter.cpp:93-123, 125-175, 177-236 and 79-91 *)
Definition process_input (text : string) (e : engine T) : res (engine T) :=
  do v <- rfold (input_line (engine_view (e_inputs e) (e_outputs e))) new_variable (getlines text);
  Ok (mkEngine (e_name e) (e_description e) (e_inputs e ++ [v])%list (e_outputs e) (e_blocks e)).
Definition process_output (text : string) (e : engine T) : res (engine T) :=
  do o <- rfold (output_line (engine_view (e_inputs e) (e_outputs e))) new_output (getlines text);
  Ok (mkEngine (e_name e) (e_description e) (e_inputs e) (e_outputs e ++ [o])%list (e_blocks e)).
Definition process_block (text : string) (e : engine T) : res (engine T) :=
  do b <- rfold (block_line (engine_env (e_inputs e) (e_outputs e))) new_block (getlines text);
  let b := match b_activation b with None => set_activation (Some General) b | Some _ => b end in
  Ok (mkEngine (e_name e) (e_description e) (e_inputs e) (e_outputs e) (e_blocks e ++ [b])%list).
Definition process_tag (tag text : string) (e : engine T) : res (engine T) :=
  if sempty tag then Ok e
  else if String.eqb tag "InputVariable" then process_input text e
  else if String.eqb tag "OutputVariable" then process_output text e
  else if String.eqb tag "RuleBlock" then process_block text e
  else Throw EImport.

(** FllImporter.cpp:51-74: the state is the engine, `tag` and `block` *)
Definition import_line (st : engine T * string * list string) (line : string) : res (engine T * string * list string) :=
  let '(e, tag, block) := st in
  let line := trim (hd "" (split line "#" false)) in
  if sempty line then Ok st else
  match find_sub ":" line with
  | None => Throw EImport
  | Some (k, v) =>
    let key := trim k in
    let value := trim v in
    if String.eqb key "Engine" then Ok (mkEngine value (e_description e) (e_inputs e) (e_outputs e) (e_blocks e), tag, block)
    else if (String.eqb key "description" && match block with [] => true | _ => false end)%bool then
      Ok (mkEngine (e_name e) value (e_inputs e) (e_outputs e) (e_blocks e), tag, block)
    else if (String.eqb key "InputVariable" || String.eqb key "OutputVariable" || String.eqb key "RuleBlock")%bool then
      do e <- process_tag tag (join block (char newline)) e;
      Ok (e, key, [key ++ ":" ++ value])
    else if sempty tag then Throw EImport
    else Ok (e, tag, (block ++ [(key ++ ":" ++ value)%string])%list)
  end.
(** FllImporter.cpp:42-77 *)
Definition fll_import (text : string) : res (engine T) :=
  let fll := join (split text separator true) (char newline) in
  do st <- rfold import_line (new_engine, "", []) (getlines fll);
  let '(e, tag, block) := st in
  process_tag tag (join block (char newline)) e.
End Importer.
End Fll.
