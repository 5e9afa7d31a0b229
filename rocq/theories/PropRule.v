(** C31-C35: the text of rules. *)
From Coq Require Import ZArith List Bool String Ascii Lia.
From Verif Require Import Base Op XR F64 Norm Hedge Text SpecText TextProofs TextProofs2 Function SpecFormula FunctionProofs FunctionProofs2 FunctionTable Rule SpecRule RuleProofs RuleProofs2 RuleProofs3 RuleBundle.
Import ListNotations.
Local Open Scope string_scope.
#[local] Hint Extern 9 (Scalar _) => exact (F64Scalar fp_default) : typeclass_instances.

(** * C31 *)
(** a rule loads exactly when the words before the first '#' are `if A then C` or `if A then C with w`, where A is an
    acceptable antecedent, C a consequent and w a number; the rule is then exactly this *)
Theorem C31_load_iff : forall T (S : Scalar T) env text (r r' : rule T), rule_load env text r = (r', Ok tt) <->
  exists body A C o e cs w, uncommented text body /\ RuleText (tokens body) A C o /\ antecedent_load env (words A) = Ok e /\ Conclusions env cs C /\
    match o with None => w = s_1 | Some t => to_scalar t = Ok w end /\
    r' = mkRule true text w s_0 false (words A) (Some e) (words C) cs.
Proof. exact @rule_load_iff. Qed.
Print Assumptions C31_load_iff.
(** every rule of the grammar loads *)
Theorem C31_grammar_loads : forall T (S : Scalar T) env text body A C o lv e cs w (r : rule T), plain_names env ->
  uncommented text body -> RuleText (tokens body) A C o -> Antecedent env lv e (lex_from is_space (one_of special_chars) "" (words A)) ->
  Conclusions env cs C -> match o with None => w = s_1 | Some t => to_scalar t = Ok w end ->
  rule_load env text r = (mkRule true text w s_0 false (words A) (Some e) (words C) cs, Ok tt).
Proof. exact @grammar_loads. Qed.
Print Assumptions C31_grammar_loads.
(** otherwise it throws; nothing else can happen *)
Theorem C31_throws : forall T (S : Scalar T) env text (r : rule T), snd (rule_load env text r) = Ok tt \/ exists e, snd (rule_load env text r) = Throw e.
Proof. exact @load_outcome. Qed.
Print Assumptions C31_throws.
(** an acceptable antecedent is one whose postfix form is that of a tree over the engine's variables *)
Theorem C31_antecedent_accepted : forall T (S : Scalar T) env s e, @antecedent_load T S env s = Ok e ->
  exists q, yard_tokens (@default_table T S) (lex_from is_space (one_of special_chars) "" s) = Ok q /\ Postfix env e q.
Proof. exact @accepted_postfix. Qed.
Print Assumptions C31_antecedent_accepted.
(** which is more than the grammar: operators may come last or in odd places *)
Theorem C31_odd_antecedents_refuted : exists env e, plain_names env /\
  antecedent_load env "a is x b is y and" = Ok e /\ antecedent_load env "a and is x b is y" = Ok e /\ antecedent_load env "a is x and b is y" = Ok e /\
  (forall lv e', ~ Antecedent env lv e' ["a"; "is"; "x"; "b"; "is"; "y"; "and"]) .
Proof. exact odd_antecedents. Qed.
Print Assumptions C31_odd_antecedents_refuted.
Example C31_case : let '(r, o) := rule_load demo_env " if a is very x and (b is not y or o is any) then o is very u and o is v with 0.5 # comment" (rule_new "" s_1) in o = Ok tt /\
  rl_antecedent r = Some (Opr "and" (Prp (mkProp (VIn 0) [Very] (Some 0))) (Opr "or" (Prp (mkProp (VIn 1) [Not] (Some 1))) (Prp (mkProp (VOut 0) [Any] None)))) /\
  rl_consequent r = [mkProp (VOut 0) [Very] (Some 0); mkProp (VOut 0) [] (Some 1)] /\ f64_eqb (rl_weight r) (s_half) = true.
Proof. exact demo_rule. Qed.

(** * C32 *)
Theorem C32_load_iff : forall env s cs, consequent_load env s = Ok cs <-> Conclusions env cs (tokens s).
Proof. exact consequent_iff. Qed.
Print Assumptions C32_load_iff.
Theorem C32_otherwise_throws : forall env s, (exists cs, Conclusions env cs (tokens s)) \/ consequent_load env s = Throw ESyntax.
Proof. exact consequent_fails. Qed.
Print Assumptions C32_otherwise_throws.
Theorem C32_unambiguous : forall env ts cs cs', Conclusions env cs ts -> Conclusions env cs' ts -> cs = cs'.
Proof. exact conclusions_unique. Qed.
Print Assumptions C32_unambiguous.
Example C32_case : consequent_load demo_env "o is very u and o is v" = Ok [mkProp (VOut 0) [Very] (Some 0); mkProp (VOut 0) [] (Some 1)] /\
  consequent_load demo_env "o is very u or o is v" = Throw ESyntax /\ consequent_load demo_env "a is x" = Throw ESyntax /\ consequent_load demo_env "o is any" = Throw ESyntax.
Proof. repeat split. Qed.

(** * C33 *)
(** every text whose tokens are a way to write a tree, with `and` before `or` and both grouped to the left, gives that tree *)
Theorem C33_parse : forall T (S : Scalar T) env lv e s, plain_names env -> Antecedent env lv e (lex_from is_space (one_of special_chars) "" s) ->
  antecedent_load env s = Ok e.
Proof. exact @antecedent_correct. Qed.
Print Assumptions C33_parse.
(** in particular every tree is read from its fully parenthesised text *)
Theorem C33_full : forall T (S : Scalar T) env premise e, plain_names env -> writable env premise e ->
  (forall p t, In t (premise p) -> lexeme special_chars t) -> antecedent_load env (join (full premise e) " ") = Ok e.
Proof. exact @full_text. Qed.
Print Assumptions C33_full.
Theorem C33_unambiguous : forall T (S : Scalar T) env lv lv' e e' ts, plain_names env -> Antecedent env lv e ts -> Antecedent env lv' e' ts -> e = e'.
Proof. exact @antecedent_unambiguous. Qed.
Print Assumptions C33_unambiguous.
(** without parentheses *)
Theorem C33_precedence : forall T (S : Scalar T) env a b c p q r s, plain_names env -> Premise env a p -> Premise env b q -> Premise env c r ->
  (lex_from is_space (one_of special_chars) "" s = (p ++ "or" :: q ++ "and" :: r)%list -> antecedent_load env s = Ok (Opr "or" (Prp a) (Opr "and" (Prp b) (Prp c)))) /\
  (lex_from is_space (one_of special_chars) "" s = (p ++ "and" :: q ++ "or" :: r)%list -> antecedent_load env s = Ok (Opr "or" (Opr "and" (Prp a) (Prp b)) (Prp c))) /\
  (lex_from is_space (one_of special_chars) "" s = (p ++ "and" :: q ++ "and" :: r)%list -> antecedent_load env s = Ok (Opr "and" (Opr "and" (Prp a) (Prp b)) (Prp c))) /\
  (lex_from is_space (one_of special_chars) "" s = (p ++ "or" :: q ++ "or" :: r)%list -> antecedent_load env s = Ok (Opr "or" (Opr "or" (Prp a) (Prp b)) (Prp c))).
Proof. exact @precedence. Qed.
Print Assumptions C33_precedence.
(** a variable or term called like a function, or with an operator character in its name, breaks it *)
Theorem C33_function_names_refuted : exists env e, Antecedent env LOr e ["max"; "is"; "x"; "and"; "b"; "is"; "x"] /\ antecedent_load env "max is x and b is x" = Throw ESyntax.
Proof. exact function_name. Qed.
Print Assumptions C33_function_names_refuted.
Theorem C33_operator_characters_refuted : exists env e, plain_names env /\ Antecedent env LOr e (tokens "a-b is x") /\ antecedent_load env "a-b is x" = Throw ESyntax.
Proof. exact operator_character. Qed.
Print Assumptions C33_operator_characters_refuted.
Example C33_case : plain_names demo_env /\
  antecedent_load demo_env "a is x or b is y and b is x" = Ok (Opr "or" (Prp (mkProp (VIn 0) [] (Some 0))) (Opr "and" (Prp (mkProp (VIn 1) [] (Some 1))) (Prp (mkProp (VIn 1) [] (Some 0))))) /\
  antecedent_load demo_env "(a is x or b is y)and b is x" = Ok (Opr "and" (Opr "or" (Prp (mkProp (VIn 0) [] (Some 0))) (Prp (mkProp (VIn 1) [] (Some 1)))) (Prp (mkProp (VIn 1) [] (Some 0)))).
Proof. split; [exact demo_plain|]. split; reflexivity. Qed.

(** * C34 *)
Theorem C34_valid : forall T (S : Scalar T) env s e, @antecedent_load T S env s = Ok e -> antecedent_valid env e.
Proof. exact @antecedent_sound. Qed.
Print Assumptions C34_valid.
(** activation ends with a degree, or throws because of a missing norm that the antecedent uses, or passes on the failure
    of the membership of a term it refers to; it never uses a null pointer *)
Theorem C34_activation : forall T (S : Scalar T) enabled degree conj disj env e, antecedent_valid env e ->
  (exists v, expression_degree enabled degree conj disj e = Ok v) \/
  (expression_degree enabled degree conj disj e = Throw EConjunction /\ conj = None /\ uses "and" e) \/
  (expression_degree enabled degree conj disj e = Throw EDisjunction /\ disj = None /\ uses "or" e) \/
  (exists v t, consults e v t /\ variable_exists env v /\ (t < List.length (terms_of env v))%nat /\ (forall x, degree v t <> Ok x) /\
    expression_degree enabled degree conj disj e = degree v t).
Proof. exact @degree_outcome. Qed.
Print Assumptions C34_activation.
Theorem C34_consequent : forall T (S : Scalar T) enabled env cs d s, consequent_load env s = Ok cs -> exists l, @consequent_modify T S enabled d cs = Ok l.
Proof. exact @loaded_modify. Qed.
Print Assumptions C34_consequent.
(** without a loaded text it is an exception as well *)
Theorem C34_not_loaded : forall T (S : Scalar T) enabled (degree : varref -> nat -> res T) conj disj d, antecedent_degree enabled degree conj disj None = Throw EAntecedent /\ @consequent_modify T S enabled d [] = Throw EConsequent.
Proof. split; reflexivity. Qed.
Print Assumptions C34_not_loaded.
Example C34_case : exists e, antecedent_load demo_env "a is x and b is very any" = Ok e /\
  expression_degree (fun _ => true) (fun _ _ => Ok s_half) None None e = Throw EConjunction /\
  exists v, expression_degree (fun _ => true) (fun _ _ => Ok s_half) (Some Minimum) None e = Ok v.
Proof. eexists. split; [reflexivity|]. split; [reflexivity|]. eexists. reflexivity. Qed.

(** * C35 *)
Theorem C35_failed_load : forall T (S : Scalar T) env text (r r' : rule T) e, rule_load env text r = (r', Throw e) ->
  rule_loaded r' = false /\ rl_antecedent r' = None /\ rl_consequent r' = [] /\ rl_degree r' = s_0 /\ rl_triggered r' = false /\ rl_weight r' = rl_weight r /\ rl_text r' = text /\ rl_enabled r' = true.
Proof. exact @load_failed_state. Qed.
Print Assumptions C35_failed_load.
Theorem C35_successful_load : forall T (S : Scalar T) env text (r r' : rule T), rule_load env text r = (r', Ok tt) ->
  rule_loaded r' = true /\ rl_degree r' = s_0 /\ rl_triggered r' = false /\ rl_text r' = text /\ rl_enabled r' = true.
Proof. exact @load_ok_state. Qed.
Print Assumptions C35_successful_load.
(** the outcome does not depend on what was loaded before *)
Theorem C35_no_leftovers : forall T (S : Scalar T) env text (r q r' : rule T), rule_load env text r = (r', Ok tt) -> rule_load env text q = (r', Ok tt).
Proof. exact @load_fresh. Qed.
Print Assumptions C35_no_leftovers.
(** an unloaded rule is refused by activation *)
Theorem C35_unloaded_refused : forall T (S : Scalar T) enabled degree conj disj (r : rule T), rule_loaded r = false ->
  rule_activate enabled degree conj disj r = Throw ERule /\ rule_trigger enabled r = Throw ERule.
Proof. exact @unloaded_refused. Qed.
Print Assumptions C35_unloaded_refused.
(** loadRules loads every loadable rule, whatever the others do *)
Theorem C35_load_rules : forall T (S : Scalar T) env rs i (r r' : rule T), nth_error rs i = Some r -> rule_load env (rl_text r) r = (r', Ok tt) ->
  nth_error (fst (load_rules env rs)) i = Some r' /\ rule_loaded r' = true.
Proof. exact @load_rules_loads. Qed.
Print Assumptions C35_load_rules.
Theorem C35_load_rules_failed : forall T (S : Scalar T) env rs i (r r' : rule T) e, nth_error rs i = Some r -> rule_load env (rl_text r) r = (r', Throw e) ->
  exists q, nth_error (fst (load_rules env rs)) i = Some q /\ rule_loaded q = false /\ rl_degree q = s_0 /\ rl_triggered q = false.
Proof. exact @load_rules_fails. Qed.
Print Assumptions C35_load_rules_failed.
Theorem C35_load_rules_iff : forall T (S : Scalar T) env rs, snd (load_rules env rs) = Ok tt <-> forall r : rule T, In r rs -> exists r', rule_load env (rl_text r) r = (r', Ok tt).
Proof. exact @load_rules_iff. Qed.
Print Assumptions C35_load_rules_iff.
Theorem C35_load_rules_throws : forall T (S : Scalar T) env (rs : list (rule T)), snd (load_rules env rs) = Ok tt \/ snd (load_rules env rs) = Throw ERule.
Proof. exact @load_rules_ok. Qed.
Print Assumptions C35_load_rules_throws.
Example C35_case : map (@rule_loaded f64) (fst (load_rules demo_env [rule_new "if a is x then o is u" s_1; rule_new "if a is q then o is u" s_1; rule_new "if b is x then o is v" s_1])) = [true; false; true] /\
  snd (load_rules demo_env [rule_new "if a is x then o is u" s_1; rule_new "if a is q then o is u" s_1; rule_new "if b is x then o is v" s_1]) = Throw ERule.
Proof. split; reflexivity. Qed.

(** * C70 *)
(** the printed consequent reads back as the same conclusions *)
Theorem C70_consequent : forall env cs ts, Conclusions env cs ts -> Forall word (outputs_of env) -> (forall v, Forall word (terms_of env v)) ->
  consequent_load env (consequent_string env cs) = Ok cs.
Proof. exact consequent_prints. Qed.
Print Assumptions C70_consequent.
(** the printed postfix form of an antecedent determines it *)
Theorem C70_postfix : forall env e q, Postfix env e q -> Forall word (inputs_of env) -> Forall word (outputs_of env) -> (forall v, Forall word (terms_of env v)) ->
  tokens (expression_postfix env e) = q /\ ante_tokens env (tokens (expression_postfix env e)) = Ok e.
Proof. exact postfix_prints. Qed.
Print Assumptions C70_postfix.
(** the printed infix form, which toString uses, does not: it has no parentheses *)
Theorem C70_infix_refuted : exists env e e', antecedent_load env "(a is x or b is y) and b is x" = Ok e /\ antecedent_load env (expression_infix env e) = Ok e' /\ e <> e'.
Proof. exact infix_loses. Qed.
Print Assumptions C70_infix_refuted.
Example C70_case : consequent_string demo_env [mkProp (VOut 0) [Very] (Some 0); mkProp (VOut 0) [] (Some 1)] = "o is very u and o is v".
Proof. reflexivity. Qed.
