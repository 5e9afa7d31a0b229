(** The Fuzzy Inference System format: exporter and importer (/repo/src/imex/FisExporter.cpp, /repo/src/imex/FisImporter.cpp). *)
From Coq Require Import ZArith String List Bool Ascii.
From Verif Require Import Base Op Norm Hedge Shape Discrete Defuzz Aggregated Text Function Rule Var Activation Engine Factory Fll.
Import ListNotations.
Local Open Scope string_scope.

(** `ss << line << "\n"` for each line *)
Definition text_of (lines : list string) : string := fold_right (fun l s => l ++ char newline ++ s) "" lines.

(** ** names of operators *)
(** FisExporter.cpp:268-286 *)
Definition fis_tnorm (n : tnorm) : string :=
  match n with
  | Minimum => "min" | AlgebraicProduct => "prod" | BoundedDifference => "bounded_difference" | DrasticProduct => "drastic_product"
  | EinsteinProduct => "einstein_product" | HamacherProduct => "hamacher_product" | NilpotentMinimum => "nilpotent_minimum" end.
(** FisExporter.cpp:288-310 *)
Definition fis_snorm (n : snorm) : string :=
  match n with
  | Maximum => "max" | AlgebraicSum => "probor" | BoundedSum => "bounded_sum" | NormalizedSum => "normalized_sum" | DrasticSum => "drastic_sum"
  | EinsteinSum => "einstein_sum" | HamacherSum => "hamacher_sum" | NilpotentMaximum => "nilpotent_maximum" | UnboundedSum => "sum" end.
(** FisExporter.cpp:312-330 *)
Definition fis_defuzzifier (z : option defuzzifier) : string :=
  match z with
  | None => ""
  | Some (DIntegral Centroid _) => "centroid" | Some (DIntegral Bisector _) => "bisector" | Some (DIntegral LargestOfMaximum _) => "lom"
  | Some (DIntegral MeanOfMaximum _) => "mom" | Some (DIntegral SmallestOfMaximum _) => "som"
  | Some (DWeighted WeightedAverage _) => "wtaver" | Some (DWeighted WeightedSum _) => "wtsum" end.
(** a chain of `if (name == "...") return ...;` ending in `return name;` *)
Fixpoint translate_name (table : list (string * string)) (name : string) : string :=
  match table with [] => name | (k, v) :: r => if String.eqb name k then v else translate_name r name end.
(** FisImporter.cpp:368-386 *)
Definition translate_tnorm (name : string) : string := translate_name
  [("", ""); ("min", tnorm_class Minimum); ("prod", tnorm_class AlgebraicProduct); ("bounded_difference", tnorm_class BoundedDifference);
   ("drastic_product", tnorm_class DrasticProduct); ("einstein_product", tnorm_class EinsteinProduct);
   ("hamacher_product", tnorm_class HamacherProduct); ("nilpotent_minimum", tnorm_class NilpotentMinimum)] name.
(** FisImporter.cpp:388-410 *)
Definition translate_snorm (name : string) : string := translate_name
  [("", ""); ("max", snorm_class Maximum); ("probor", snorm_class AlgebraicSum); ("bounded_sum", snorm_class BoundedSum);
   ("normalized_sum", snorm_class NormalizedSum); ("drastic_sum", snorm_class DrasticSum); ("einstein_sum", snorm_class EinsteinSum);
   ("hamacher_sum", snorm_class HamacherSum); ("nilpotent_maximum", snorm_class NilpotentMaximum); ("sum", snorm_class UnboundedSum)] name.
(** FisImporter.cpp:412-430 *)
Definition translate_defuzzifier (name : string) : string := translate_name
  [("", ""); ("centroid", "Centroid"); ("bisector", "Bisector"); ("lom", "LargestOfMaximum"); ("mom", "MeanOfMaximum");
   ("som", "SmallestOfMaximum"); ("wtaver", "WeightedAverage"); ("wtsum", "WeightedSum")] name.

(** FisExporter.cpp:157-173: the propositions and the names of the operators in the order in which the queue yields them *)
Fixpoint breadth_first (fuel : nat) (queue : list expression) : res (list proposition * list string) :=
  match queue with
  | [] => Ok ([], [])
  | front :: queue =>
    match fuel with
    | O => Diverge
    | S fuel =>
      match front with
      | Opr name l r => do x <- breadth_first fuel (queue ++ [l; r])%list; Ok (fst x, name :: snd x)
      | Prp p => do x <- breadth_first fuel queue; Ok (p :: fst x, snd x)
      end
    end
  end.
(** number of nodes: enough fuel (FisProofs.v) *)
Fixpoint expression_size (e : expression) : nat := match e with Prp _ => 1 | Opr _ l r => S (expression_size l + expression_size r) end.
(** FisExporter.cpp:175-181 *)
Fixpoint equal_operators (names : list string) : bool :=
  match names with a :: (b :: _) as r => (String.eqb a b && equal_operators r)%bool | _ => true end.
Definition varref_eqb (a b : varref) : bool :=
  match a, b with VIn i, VIn j => Nat.eqb i j | VOut i, VOut j => Nat.eqb i j | _, _ => false end.

Section Fis.
Context {T : Type} `{S : Scalar T}.
Local Open Scope scalar_scope.

(** ** exporter *)
Section Exporter.
(** fuzzylite::decimals(), fuzzylite::library() and fuzzylite::version() (/repo/fuzzylite/fuzzylite.h:411-418) *)
Variables (d : nat) (library version : string).

(** FisExporter.cpp:237-253: `negated` (whether it is -1) and `plusHedge` *)
Definition hedge_code (st : bool * T) (h : hedge) : bool * T :=
  let '(negated, plus) := st in
  match h with
  | Not => (negb negated, plus)
  | Extremely => (negated, plus + s_lit 3 10) | Very => (negated, plus + s_lit 2 10) | Somewhat => (negated, plus + s_lit 5 100)
  | Seldom => (negated, plus + s_lit 1 100) | Any => (negated, plus + s_lit 99 100)
  end.
(** FisExporter.cpp:216-264 for one variable with [n] terms.  A proposition refers to its term by position; none other has the same address. *)
Definition fis_code (propositions : list proposition) (v : varref) (n : nat) : string :=
  let '(index, (negated, plus)) :=
    match find (fun p => varref_eqb (pr_var p) v) propositions with
    | None => (O, (false, s_0))
    | Some p =>
      (match pr_term p with Some t => if Nat.ltb t n then Datatypes.S t else O | None => O end,
       fold_left hedge_code (pr_hedges p) (false, s_0))
    end in
  (if negated then "-" else "") ++
  (if isNaN plus then str_int (Z.of_nat index) ++ ".?" else str d (s_int (Z.of_nat index) + plus)) ++ " ".
(** FisExporter.cpp:211-266 *)
Definition fis_codes (propositions : list proposition) (variables : list (varref * nat)) : string :=
  fold_right (fun v s => fis_code propositions (fst v) (snd v) ++ s) "" variables.
(** FisExporter.cpp:191-195: the variables and their numbers of terms *)
Fixpoint number_from {A} (f : nat -> varref) (size : A -> nat) (i : nat) (l : list A) : list (varref * nat) :=
  match l with [] => [] | x :: r => (f i, size x) :: number_from f size (Datatypes.S i) r end.
Definition input_sizes (e : engine T) : list (varref * nat) := number_from VIn (fun v => length (v_terms v)) 0 (e_inputs e).
Definition output_sizes (e : engine T) : list (varref * nat) := number_from VOut (fun o => length (v_terms (o_var o))) 0 (e_outputs e).
(** FisExporter.cpp:154-209 for a loaded rule; the rule is not null *)
Definition fis_rule (e : engine T) (r : rule T) : res string :=
  match rl_antecedent r with
  | None => UB
  | Some ex =>
    do x <- breadth_first (expression_size ex) [ex];
    let '(propositions, operators) := x in
    if negb (equal_operators operators) then Throw EExport else
    Ok (fis_codes propositions (input_sizes e) ++ ", " ++ fis_codes (rl_consequent r) (output_sizes e) ++
        "(" ++ str d (rl_weight r) ++ ") : " ++
        match operators with [] => "1" | o :: _ => if String.eqb o "and" then "1" else if String.eqb o "or" then "2" else o end)
  end.
(** FisExporter.cpp:138-152 *)
Definition fis_rules (e : engine T) : res (list string) :=
  do l <- rmapM (fun b => do l <- rmapM (fis_rule e) (filter rule_loaded (b_rules b));
                          Ok ((if Nat.ltb 1 (List.length (e_blocks e)) then [("# RuleBlock " ++ b_name b)%string] else []) ++ l)%list) (e_blocks e);
  Ok ("[Rules]" :: List.concat l).

(** FisExporter.cpp:332-445 *)
Definition fis_term (t : term T) : string :=
  let mf name values := "'" ++ name ++ "',[" ++ join_scalars d values " " ++ "]" in
  match tm_body t with
  | TShape s =>
    match s with
    | Bell c w sl => mf "gbellmf" [w; sl; c]
    | Binary a b => "'binarymf,[" ++ join_scalars d [a; b] " " ++ "]"
    | Concave a b => mf "concavemf" [a; b] | Cosine a b => mf "cosinemf" [a; b]
    | Gaussian m sd => mf "gaussmf" [sd; m] | GaussianProduct ma sa mb sb => mf "gauss2mf" [sa; ma; sb; mb]
    | PiShape a b c e => mf "pimf" [a; b; c; e] | Ramp a b => mf "rampmf" [a; b] | Rectangle a b => mf "rectmf" [a; b]
    | SigmoidDifference l r f g => mf "dsigmf" [r; l; f; g] | Sigmoid i sl => mf "sigmf" [sl; i]
    | SigmoidProduct l r f g => mf "psigmf" [r; l; f; g] | SShape a b => mf "smf" [a; b] | Spike a b => mf "spikemf" [a; b]
    | Trapezoid a b c e => mf "trapmf" [a; b; c; e] | Triangle a b c => mf "trimf" [a; b; c] | ZShape a b => mf "zmf" [a; b]
    end
  | TConstant v => mf "constant" [v]
  | TDiscrete xy => mf "discretemf" (flat_map (fun p => [fst p; snd p]) xy)
  | TFunction f => "'function',[" ++ fn_formula f ++ "]"
  | TLinear cs _ => mf "linear" cs
  end.
(** FisExporter.cpp:108-116 and 125-133: the section of a variable *)
Definition fis_variable (kind : string) (i : nat) (v : variable T) : list string :=
  (["[" ++ kind ++ str_int (Z.of_nat (Datatypes.S i)) ++ "]";
   "Name='" ++ valid_name (v_name v) ++ "'";
   "Range=[" ++ join_scalars d [v_minimum v; v_maximum v] " " ++ "]";
   "NumMFs=" ++ str_int (Z.of_nat (List.length (v_terms v)))]%string ++
  map (fun p => "MF" ++ str_int (Z.of_nat (Datatypes.S (fst p))) ++ "='" ++ valid_name (tm_name (snd p)) ++ "':" ++ fis_term (snd p))%string
    (combine (seq 0 (List.length (v_terms v))) (v_terms v)) ++ [""])%list.
(** FisExporter.cpp:104-119, 121-136 *)
Definition fis_inputs (e : engine T) : list string :=
  flat_map (fun p => fis_variable "Input" (fst p) (snd p)) (combine (seq 0 (List.length (e_inputs e))) (e_inputs e)).
Definition fis_outputs (e : engine T) : list string :=
  flat_map (fun p => fis_variable "Output" (fst p) (o_var (snd p))) (combine (seq 0 (List.length (e_outputs e))) (e_outputs e)).
(** FisExporter.cpp:74-83, 91-97: the first that is not null *)
Definition first_some {A B} (f : A -> option B) (l : list A) : option B :=
  fold_left (fun acc x => match acc with Some b => Some b | None => f x end) l None.
(** FisExporter.cpp:52-64 *)
Definition fis_type (ty : etype) : string :=
  match ty with
  | EtMamdani | EtLarsen => "mamdani" | EtTakagiSugeno => "sugeno" | EtTsukamoto => "tsukamoto" | EtInverseTsukamoto => "inverse tsukamoto"
  | EtHybrid => "hybrid" | EtUnknown => "unknown" end.
(** FisExporter.cpp:47-102 *)
Definition fis_system (e : engine T) : list string :=
  let or_name {A} (f : A -> string) (default : string) (o : option A) := match o with Some a => f a | None => default end in
  ["#Code automatically generated with " ++ library ++ "."; ""; "[System]";
   "Name='" ++ e_name e ++ "'";
   "Type='" ++ fis_type (engine_type e) ++ "'";
   "Version=" ++ version;
   "NumInputs=" ++ str_int (Z.of_nat (List.length (e_inputs e)));
   "NumOutputs=" ++ str_int (Z.of_nat (List.length (e_outputs e)));
   "NumRules=" ++ str_int (Z.of_nat (fold_left (fun n b => n + length (b_rules b))%nat (e_blocks e) O));
   "AndMethod='" ++ or_name fis_tnorm "min" (first_some (@b_conjunction T) (e_blocks e)) ++ "'";
   "OrMethod='" ++ or_name fis_snorm "max" (first_some (@b_disjunction T) (e_blocks e)) ++ "'";
   "ImpMethod='" ++ or_name fis_tnorm "min" (first_some (@b_implication T) (e_blocks e)) ++ "'";
   "AggMethod='" ++ or_name fis_snorm "max" (first_some (@o_aggregation T) (e_outputs e)) ++ "'";
   "DefuzzMethod='" ++ fis_defuzzifier (first_some (@o_defuzzifier T) (e_outputs e)) ++ "'"].
(** FisExporter.cpp:34-45 *)
Definition fis_export (e : engine T) : res string :=
  do rules <- fis_rules e;
  Ok (text_of (fis_system e ++ [""] ++ fis_inputs e ++ fis_outputs e ++ rules)%list).
End Exporter.

(** ** importer *)
Section Importer.
(** fuzzylite::decimals(), IntegralDefuzzifier::defaultResolution() *)
Variables (d : nat) (resolution : Z).

(** FisImporter.cpp:487-558 *)
Definition fis_class (mclass : string) : string := translate_name
  [("binarymf", "Binary"); ("concavemf", "Concave"); ("constant", "Constant"); ("cosinemf", "Cosine"); ("discretemf", "Discrete");
   ("function", "Function"); ("gbellmf", "Bell"); ("gaussmf", "Gaussian"); ("gauss2mf", "GaussianProduct"); ("linear", "Linear");
   ("pimf", "PiShape"); ("rampmf", "Ramp"); ("rectmf", "Rectangle"); ("smf", "SShape"); ("sigmf", "Sigmoid"); ("dsigmf", "SigmoidDifference");
   ("psigmf", "SigmoidProduct"); ("spikemf", "Spike"); ("trapmf", "Trapezoid"); ("trimf", "Triangle"); ("zmf", "ZShape")] mclass.
Definition sorted_params (mclass : string) (params : list string) : list string :=
  if String.eqb mclass "gbellmf" then match params with p0 :: p1 :: p2 :: r => p2 :: p0 :: p1 :: r | _ => params end
  else if String.eqb mclass "gaussmf" then match params with p0 :: p1 :: r => p1 :: p0 :: r | _ => params end
  else if String.eqb mclass "gauss2mf" then match params with p0 :: p1 :: p2 :: p3 :: r => p1 :: p0 :: p3 :: p2 :: r | _ => params end
  else if String.eqb mclass "sigmf" then match params with p0 :: p1 :: r => p1 :: p0 :: r | _ => params end
  else if (String.eqb mclass "dsigmf" || String.eqb mclass "psigmf")%bool then
    match params with p0 :: p1 :: p2 :: p3 :: r => p1 :: p0 :: p2 :: p3 :: r | _ => params end
  else params.
(** the construction of a term from its class, name and parameters: FisImporter.cpp:549-557, and the same at FclImporter.cpp:428-436;
    a call on a null pointer is UB *)
Definition build_term (vw : view T) (class name : string) (params : list string) : res (term T) :=
  do t <- construct class term_factory;
  match t with
  | None => UB
  | Some t =>
    let t := term_update_reference vw t in
    let separator := match tm_body t with TFunction _ => "" | _ => " " end in
    term_configure vw (join params separator) (mkTerm (valid_name name) (tm_height t) (tm_body t))
  end.
Definition fis_instance (vw : view T) (mclass name : string) (params : list string) : res (term T) :=
  build_term vw (fis_class mclass) name (sorted_params mclass params).
(** FisImporter.cpp:455-485 *)
Definition fis_parse_term (vw : view T) (text : string) : res (term T) :=
  let line := sfilter (fun c => negb (Ascii.eqb c "[" || Ascii.eqb c "]")) text in
  match split line ":" true with
  | [name; term] =>
    match split term "," true with
    | [class; params] => fis_instance vw (trim class) (trim name) (map trim (split params " " true))
    | _ => Throw ESyntax
    end
  | _ => Throw ESyntax
  end.
(** FisImporter.cpp:432-453 *)
Definition fis_parse_range (text : string) : res (T * T) :=
  match split text " " true with
  | [b; e] =>
    do first <- at_ b 0; do final <- at_ e (Z.of_nat (String.length e) - 1);
    if (negb (Ascii.eqb first "[") || negb (Ascii.eqb final "]"))%bool then Throw ESyntax else
    do x <- to_scalar (sdrop 1 b); do y <- to_scalar (substring 0 (String.length e - 1) e); Ok (x, y)
  | _ => Throw ESyntax
  end.

(** FisImporter.cpp:333-366 for a variable whose terms have the names [terms]; the conversion of a number outside of int is UB *)
Definition translate_proposition (code : T) (terms : list string) : res string :=
  match s_trunc (s_floor (s_abs code)) with
  | None => UB
  | Some n =>
    let int_part := (n - 1)%Z in
    let frac := s_fn2 LFmod (s_abs code) s_1 in
    if (Z.of_nat (List.length terms) <=? int_part)%Z then Throw ESyntax else
    do hedges <-
      if isEq frac (s_lit 1 100) then Ok (hedge_name Seldom ++ " ")
      else if isEq frac (s_lit 5 100) then Ok (hedge_name Somewhat ++ " ")
      else if isEq frac (s_lit 2 10) then Ok (hedge_name Very ++ " ")
      else if isEq frac (s_lit 3 10) then Ok (hedge_name Extremely ++ " ")
      else if isEq frac (s_lit 4 10) then Ok (hedge_name Very ++ " " ++ hedge_name Very ++ " ")
      else if isEq frac (s_lit 99 100) then Ok (hedge_name Any ++ " ")
      else if negb (isEq frac s_0) then Throw ESyntax else Ok "";
    Ok ((if code <? s_0 then hedge_name Not ++ " " else "") ++ hedges ++
        (if (int_part <? 0)%Z then "" else nth (Z.to_nat int_part) terms ""))
  end.
(** FisImporter.cpp:269-277 and 279-287: the propositions of the codes which are not zero *)
Fixpoint fis_propositions (codes : list string) (variables : list pvar) : res (list string) :=
  match codes, variables with
  | text :: codes, v :: variables =>
    do code <- to_scalar text;
    if isEq code s_0 then fis_propositions codes variables else
    do p <- translate_proposition code (pv_terms v);
    do r <- fis_propositions codes variables;
    Ok ((pv_name v ++ " is " ++ p) :: r)
  | _, _ => Ok []
  end.
(** FisImporter.cpp:220-322: the text of the rule.  The lengths of [codes] and [variables] agree where [fis_propositions] is called. *)
Definition fis_rule_text (env : penv) (line : string) : res string :=
  match split line "," true with
  | [first; rest] =>
    match split rest ":" true with
    | [middle; connector] =>
      let inputs := split first " " true in
      let pieces := split middle " " true in
      match pieces with
      | [] => Throw EOutOfRange
      | _ =>
        let weight := last pieces "" in
        let outputs := removelast pieces in
        let connector := trim connector in
        if negb (Nat.eqb (List.length inputs) (List.length (pe_inputs env))) then Throw ESyntax else
        if negb (Nat.eqb (List.length outputs) (List.length (pe_outputs env))) then Throw ESyntax else
        do antecedent <- fis_propositions inputs (pe_inputs env);
        do consequent <- fis_propositions outputs (pe_outputs env);
        do keyword <- (if Nat.ltb (List.length antecedent) 2 then Ok ""
                       else if String.eqb connector "1" then Ok "and" else if String.eqb connector "2" then Ok "or" else Throw ESyntax);
        do w <- to_scalar (sfilter (fun c => negb (Ascii.eqb c "(" || Ascii.eqb c ")" || Ascii.eqb c " ")) weight);
        Ok ("if " ++ join antecedent (" " ++ keyword ++ " ") ++ " then " ++ join consequent " and " ++
            (if isEq w s_1 then "" else " with " ++ str d w))
      end
    | _ => Throw ESyntax
    end
  | _ => Throw ESyntax
  end.
(** FisImporter.cpp:219-330, one round.  Every exception of Rule::load is caught. *)
Definition fis_rule_line (env : penv) (b : block T) (line : string) : res (block T) :=
  do text <- fis_rule_text env line;
  let '(r, out) := rule_load env text (rule_new text s_1) in
  match out with UB => UB | Diverge => Diverge | _ => Ok (set_rules (b_rules b ++ [r])%list b) end.

(** the lines of a section but the first: `std::getline` before the loop *)
Definition section_lines (section : string) : list string := tl (getlines section).
(** FisImporter.cpp:211-331 *)
Definition fis_import_rules (section : string) (e : engine T) : res (engine T) :=
  do b <- rfold (fis_rule_line (engine_env (e_inputs e) (e_outputs e))) new_block (section_lines section);
  Ok (mkEngine (e_name e) (e_description e) (e_inputs e) (e_outputs e) (e_blocks e ++ [b])%list).

(** keys of both kinds of variables; [None] when the key is another one: FisImporter.cpp:149-160, 187-196, 203-204 *)
Definition fis_key (vw : view T) (key value : string) (v : variable T) : option (res (variable T)) :=
  if String.eqb key "Name" then Some (Ok (set_v_name (valid_name value) v))
  else if String.eqb key "Enabled" then Some (do x <- to_scalar value; Ok (enable_variable (isEq x s_1) v))
  else if String.eqb key "Range" then Some (do r <- fis_parse_range value; Ok (set_range (fst r) (snd r) v))
  else if String.eqb (substring 0 2 key) "MF" then Some (do t <- fis_parse_term vw value; Ok (set_terms (v_terms v ++ [t])%list v))
  else if String.eqb key "NumMFs" then Some (Ok v)
  else None.
(** FisImporter.cpp:137-164, one round; the variable has already been added to the engine *)
Definition fis_input_line (e : engine T) (v : variable T) (line : string) : res (variable T) :=
  match split line "=" true with
  | [key; value] =>
    match fis_key (engine_view (e_inputs e ++ [v])%list (e_outputs e)) (trim key) (trim value) v with Some r => r | None => Throw EImport end
  | _ => Throw ESyntax
  end.
(** FisImporter.cpp:175-208, one round.  The order of the tests does not matter: the keys differ. *)
Definition fis_output_line (e : engine T) (o : output T) (line : string) : res (output T) :=
  match split line "=" true with
  | [key; value] =>
    let key := trim key in
    let value := trim value in
    match fis_key (engine_view (e_inputs e) (e_outputs e ++ [o])%list) key value (o_var o) with
    | Some r => do v <- r; Ok (set_var v o)
    | None =>
      if String.eqb key "Default" then
        do x <- to_scalar value;
        Ok (mkOutput (o_var o) (o_fuzzy o) (o_aggregation o) (o_defuzzifier o) (o_previous o) x (o_lock_previous o))
      else if String.eqb key "LockPrevious" then
        do x <- to_scalar value;
        Ok (mkOutput (o_var o) (o_fuzzy o) (o_aggregation o) (o_defuzzifier o) (o_previous o) (o_default o) (isEq x s_1))
      else if String.eqb key "LockRange" then do x <- to_scalar value; Ok (set_var (set_lock_range (isEq x s_1) (o_var o)) o)
      else Throw EImport
    end
  | _ => Throw ESyntax
  end.
(** FisImporter.cpp:129-165, 167-209 *)
Definition fis_import_input (section : string) (e : engine T) : res (engine T) :=
  do v <- rfold (fis_input_line e) new_variable (section_lines section);
  Ok (mkEngine (e_name e) (e_description e) (e_inputs e ++ [v])%list (e_outputs e) (e_blocks e)).
Definition fis_import_output (section : string) (e : engine T) : res (engine T) :=
  do o <- rfold (fis_output_line e) new_output (section_lines section);
  Ok (mkEngine (e_name e) (e_description e) (e_inputs e) (e_outputs e ++ [o])%list (e_blocks e)).

(** FisImporter.cpp:66: andMethod, orMethod, impMethod, aggMethod, defuzzMethod *)
Record methods := mkMethods { m_and : string; m_or : string; m_imp : string; m_agg : string; m_defuzz : string }.
(** FisImporter.cpp:101-126, one round *)
Definition fis_system_line (st : engine T * methods) (line : string) : res (engine T * methods) :=
  let '(e, m) := st in
  match split line "=" true with
  | [] => Throw EOutOfRange
  | key :: values =>
    let key := trim key in
    let value := trim (join values "") in
    if String.eqb key "Name" then Ok (mkEngine value (e_description e) (e_inputs e) (e_outputs e) (e_blocks e), m)
    else if String.eqb key "AndMethod" then Ok (e, mkMethods value (m_or m) (m_imp m) (m_agg m) (m_defuzz m))
    else if String.eqb key "OrMethod" then Ok (e, mkMethods (m_and m) value (m_imp m) (m_agg m) (m_defuzz m))
    else if String.eqb key "ImpMethod" then Ok (e, mkMethods (m_and m) (m_or m) value (m_agg m) (m_defuzz m))
    else if String.eqb key "AggMethod" then Ok (e, mkMethods (m_and m) (m_or m) (m_imp m) value (m_defuzz m))
    else if String.eqb key "DefuzzMethod" then Ok (e, mkMethods (m_and m) (m_or m) (m_imp m) (m_agg m) value)
    else if existsb (String.eqb key) ["Type"; "Version"; "NumInputs"; "NumOutputs"; "NumRules"; "NumMFs"] then Ok st
    else Throw EImport
  end.
(** FisImporter.cpp:89-127 *)
Definition fis_import_system (section : string) (st : engine T * methods) : res (engine T * methods) :=
  rfold fis_system_line st (section_lines section).

(** FisImporter.cpp:43-49: the line without comments and quotes; [None] if skipped *)
Definition fis_clean (line : string) : res (option string) :=
  let line := hd "" (split line "//" false) in
  let line := trim (hd "" (split line "#" false)) in
  match line with
  | "" => Ok None
  | String c _ => if Ascii.eqb c "%" then Ok None else do l <- replace_all line "'" ""; Ok (Some l)
  end.
Definition fis_heading (line : string) : bool :=
  (String.prefix "[System]" line || String.prefix "[Input" line || String.prefix "[Output" line || String.prefix "[Rules]" line)%bool.
(** FisImporter.cpp:39-65: the sections *)
Definition fis_section_line (sections : list string) (line : string) : res (list string) :=
  do l <- fis_clean line;
  match l with
  | None => Ok sections
  | Some line =>
    if fis_heading line then Ok (sections ++ [line])%list
    else match sections with
    | [] => Throw EImport
    | _ => Ok (removelast sections ++ [(last sections "" ++ char newline ++ line)%string])%list
    end
  end.
(** FisImporter.cpp:67-77 *)
Definition fis_section (st : engine T * methods) (section : string) : res (engine T * methods) :=
  let '(e, m) := st in
  if String.prefix "[System]" section then fis_import_system section st
  else if String.prefix "[Input" section then do e <- fis_import_input section e; Ok (e, m)
  else if String.prefix "[Output" section then do e <- fis_import_output section e; Ok (e, m)
  else if String.prefix "[Rules]" section then do e <- fis_import_rules section e; Ok (e, m)
  else Throw EImport.
(** Engine::configure by names (/repo/src/Engine.cpp:125-152) *)
Definition configure_names (conjunction disjunction implication aggregation defuzzifier activation : string) (e : engine T) : res (engine T) :=
  do c <- construct conjunction tnorm_factory;
  do dj <- construct disjunction snorm_factory;
  do i <- construct implication tnorm_factory;
  do a <- construct aggregation snorm_factory;
  do z <- construct defuzzifier (defuzzifier_factory resolution);
  do ac <- construct activation activation_factory;
  Ok (configure c dj i a z ac e).
(** FisImporter.cpp:32-87 *)
Definition fis_import (text : string) : res (engine T) :=
  do sections <- rfold fis_section_line [] (getlines text);
  do st <- rfold fis_section (new_engine, mkMethods "" "" "" "" "") sections;
  let '(e, m) := st in
  configure_names (translate_tnorm (m_and m)) (translate_snorm (m_or m)) (translate_tnorm (m_imp m)) (translate_snorm (m_agg m))
    (translate_defuzzifier (m_defuzz m)) (activation_class (@General T)) e.
End Importer.
End Fis.
