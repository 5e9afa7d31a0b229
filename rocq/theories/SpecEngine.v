(** What is expected of engines. *)
From Coq Require Import ZArith String List Bool Permutation.
From Verif Require Import Base Op Norm Shape Discrete Defuzz Aggregated Function FunctionProofs2 FunctionTable Rule Var Activation Engine SpecText SpecRule
  SpecVar SpecActivation.
Import ListNotations.
Local Open Scope string_scope.

Section Spec.
Context {T : Type} `{S : Scalar T}.
Variable drain : drainer T.

(** what a user does with a configured engine *)
Inductive command := CInputs (values : list T) | CProcess | CRestart.
Definition execute (c : command) (e : engine T) : engine T :=
  match c with CInputs values => set_inputs values e | CProcess => fst (process drain e) | CRestart => restart e end.
Definition run (cs : list command) (e : engine T) : engine T := fold_left (fun e c => execute c e) cs e.
(** what the user sees after process(): the outcome; value, previous value and fuzzy output of every output variable;
    unless there was an exception, the rules of the enabled blocks with their degrees *)
Definition observation : Type := res unit * list (T * T * list (activated T nat)) * list (list (rule T)).
Definition observed (p : engine T * res unit) : observation :=
  (snd p, map (fun o => (v_value (o_var o), o_previous o, o_fuzzy o)) (e_outputs (fst p)),
   match snd p with Ok _ => map (@b_rules T) (filter (@b_enabled T) (e_blocks (fst p))) | _ => [] end).
Fixpoint trace (cs : list command) (e : engine T) : list observation :=
  match cs with
  | [] => []
  | CProcess :: cs => observed (process drain e) :: trace cs (fst (process drain e))
  | c :: cs => trace cs (execute c e)
  end.

(** same configuration; run-time state may differ *)
Definition same_variable (a b : variable T) : Prop :=
  v_name b = v_name a /\ v_description b = v_description a /\ v_minimum b = v_minimum a /\ v_maximum b = v_maximum a /\
  v_enabled b = v_enabled a /\ v_lock_range b = v_lock_range a /\ v_terms b = v_terms a.
(** running a block without activation method gives it the method General *)
Definition method_of (b : block T) : activation T := match b_activation b with Some a => a | None => General end.
Definition same_block (a b : block T) : Prop :=
  b_enabled b = b_enabled a /\ b_name b = b_name a /\ b_description b = b_description a /\ same_rules (b_rules a) (b_rules b) /\
  b_conjunction b = b_conjunction a /\ b_disjunction b = b_disjunction a /\ b_implication b = b_implication a /\
  method_of b = method_of a.
Definition same_engine (a b : engine T) : Prop :=
  e_name b = e_name a /\ e_description b = e_description a /\ Forall2 same_variable (e_inputs a) (e_inputs b) /\
  Forall2 same_output (e_outputs a) (e_outputs b) /\ Forall2 same_block (e_blocks a) (e_blocks b).

Definition input_values (e : engine T) : list T := map (@v_value T) (e_inputs e).
Definition input_names (e : engine T) : list string := map (@v_name T) (e_inputs e).
Definition output_names (e : engine T) : list string := map (fun o => v_name (o_var o)) (e_outputs e).
(** all terms of the engine *)
Definition all_terms (e : engine T) : list (term T) :=
  flat_map (@v_terms T) (e_inputs e) ++ flat_map (fun o => v_terms (o_var o)) (e_outputs e).
(** no formula mentions an output variable ("x" is the argument of the formula) *)
Definition ignores_outputs (e : engine T) : Prop :=
  forall t f n v, In t (all_terms e) -> tm_body t = TFunction f -> fn_root f = Some n -> In v (free n) -> v = "x" \/ ~ In v (output_names e).

(** never run: no values, no fuzzy outputs *)
Definition unused (e : engine T) : Prop :=
  Forall (fun v => v_value v = s_nan) (e_inputs e) /\
  Forall (fun o => v_value (o_var o) = s_nan /\ o_previous o = s_nan /\ o_fuzzy o = []) (e_outputs e).
(** NaN compares with nothing *)
Definition nan_unordered : Prop := forall x : T, (s_nan <? x)%S = false /\ (x <? s_nan)%S = false.

(** every formula is loaded, with reference to the engine; every Linear refers to the engine *)
Definition term_attached (t : term T) : Prop :=
  match tm_body t with
  | TLinear _ engine => engine = true
  | TFunction f => fn_engine f = true /\ exists n, parse default_table (fn_formula f) = Ok n /\ fn_root f = Some n
  | _ => True
  end.
(** every rule is what loading its text gives *)
Definition rule_current (env : penv) (r : rule T) : Prop :=
  same_rule r (fst (rule_load env (rl_text r) (rule_copy r))).

(** the antecedents consult input variables only *)
Definition reads_inputs (r : rule T) : Prop :=
  forall e v t, rl_antecedent r = Some e -> consults e v t -> exists i, v = VIn i.
(** [b] is [a] with its rules in another order *)
Definition reordered_block (a b : block T) : Prop :=
  b_enabled b = b_enabled a /\ b_name b = b_name a /\ b_description b = b_description a /\ Permutation (b_rules a) (b_rules b) /\
  b_conjunction b = b_conjunction a /\ b_disjunction b = b_disjunction a /\ b_implication b = b_implication a /\
  b_activation b = b_activation a.
(** the enabled blocks use General, their antecedents consult inputs only *)
Definition order_free (b : block T) : Prop := b_enabled b = true -> method_of b = General /\ Forall reads_inputs (b_rules b).

(** the kinds of outputs which decide the type of an engine *)
Definition integral_output (o : output T) : Prop := exists k n, o_defuzzifier o = Some (DIntegral k n).
Definition weighted_output (o : output T) : Prop := exists k ty, o_defuzzifier o = Some (DWeighted k ty).
Definition function_term (t : term T) : Prop :=
  match tm_body t with TConstant _ | TLinear _ _ | TFunction _ => True | _ => False end.
Definition monotonic_term (t : term T) : Prop :=
  match tm_body t with TShape (Concave _ _) | TShape (Ramp _ _) | TShape (SShape _ _) | TShape (Sigmoid _ _) | TShape (ZShape _ _) => True | _ => False end.
Definition takagi_sugeno_output (o : output T) : Prop :=
  (exists k ty, o_defuzzifier o = Some (DWeighted k ty) /\ (ty = WAutomatic \/ ty = WTakagiSugeno)) /\ Forall function_term (v_terms (o_var o)).
Definition tsukamoto_output (o : output T) : Prop :=
  (exists k ty, o_defuzzifier o = Some (DWeighted k ty) /\ (ty = WAutomatic \/ ty = WTsukamoto)) /\ Forall monotonic_term (v_terms (o_var o)).
Definition product_implication (b : block T) : Prop := b_implication b = Some AlgebraicProduct.
(** when an engine is of the type *)
Definition classified (e : engine T) (ty : etype) : Prop :=
  let outs := e_outputs e in
  match ty with
  | EtUnknown => outs = [] \/ Exists (fun o => o_defuzzifier o = None) outs
  | EtLarsen => outs <> [] /\ Forall integral_output outs /\ e_blocks e <> [] /\ Forall product_implication (e_blocks e)
  | EtMamdani => outs <> [] /\ Forall integral_output outs /\ ~ (e_blocks e <> [] /\ Forall product_implication (e_blocks e))
  | EtTakagiSugeno => outs <> [] /\ Forall takagi_sugeno_output outs
  | EtTsukamoto => outs <> [] /\ Forall tsukamoto_output outs /\ ~ Forall takagi_sugeno_output outs
  | EtInverseTsukamoto => outs <> [] /\ Forall weighted_output outs /\ ~ Forall takagi_sugeno_output outs /\ ~ Forall tsukamoto_output outs
  | EtHybrid => Forall (fun o => o_defuzzifier o <> None) outs /\ Exists integral_output outs /\ Exists weighted_output outs
  end.

(** an antecedent which uses `and` or `or` shows it to isReady, which looks for the keyword in the text *)
Definition visible (r : rule T) : Prop :=
  forall e kw, rl_antecedent r = Some e -> kw = "and" \/ kw = "or" -> uses kw e -> before_then (" " ++ kw ++ " ") (rl_text r) = true.
(** the rule is loaded from its text *)
Definition loaded_from_text (env : penv) (r : rule T) : Prop :=
  exists r0 r1, rule_load env (rl_text r) r0 = (r1, Ok tt) /\ same_rule r1 r.
(** the second run ends with the same fuzzy output; also with the same value, unless there was an exception, the output is
    disabled or it locks its previous value *)
Definition agrees (r : res unit) (o p : output T) : Prop :=
  o_fuzzy p = o_fuzzy o /\ (r = Ok tt -> v_enabled (o_var o) = true -> o_lock_previous o = false -> v_value (o_var p) = v_value (o_var o)).
(** same value and previous value *)
Definition same_values (o p : output T) : Prop := v_value (o_var p) = v_value (o_var o) /\ o_previous p = o_previous o.
(** every rule is what loading its text gives *)
Definition all_current (e : engine T) : Prop :=
  Forall (fun b => Forall (rule_current (engine_env (e_inputs e) (e_outputs e))) (b_rules b)) (e_blocks e).
(** the engine with other rule blocks *)
Definition without (bs1 bs2 : list (block T)) (e : engine T) : engine T := mkEngine (e_name e) (e_description e) (e_inputs e) (e_outputs e) (bs1 ++ bs2)%list.
Definition reorder (e : engine T) (bs : list (block T)) : engine T := mkEngine (e_name e) (e_description e) (e_inputs e) (e_outputs e) bs.
(** all variables are within their locked ranges *)
Definition all_in_range (e : engine T) : Prop := Forall in_range (e_inputs e) /\ Forall (fun o => in_range (o_var o)) (e_outputs e).
End Spec.
(** tokens separated by single blanks, no comment *)
Definition neat (text : string) : Prop := exists ws, text = glue " " ws /\ Forall (lexeme special_chars) ws /\ hash_free text.
(** exceptions which say that a norm or a defuzzifier is missing *)
Definition operator_missing (e : exc) : bool :=
  match e with EConjunction | EDisjunction | EImplication | EAggregation | EDefuzzify => true | _ => false end.
(** no such exception *)
Definition fine {A} (r : res A) : Prop := match r with Throw e => operator_missing e = false | _ => True end.
