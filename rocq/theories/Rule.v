(** Fuzzy rules: antecedents, consequents and the text they are read from
    (/repo/src/rule/Antecedent.cpp, Consequent.cpp, Expression.cpp, Rule.cpp).

    Pointers to variables and terms are modelled by their position in the engine. *)
From Coq Require Import ZArith List Bool String Ascii.
From Verif Require Import Base Op Norm Hedge Text Function.
Import ListNotations.
Local Open Scope string_scope.

(** What parsing a rule sees of an engine: the names of its variables and of their terms.  The engine is not null. *)
Record pvar := mkPvar { pv_name : string; pv_terms : list string }.
Record penv := mkPenv { pe_inputs : list pvar; pe_outputs : list pvar }.

(** position of the first element with the name: Engine::getInputVariable / getOutputVariable by name
    (/repo/src/Engine.cpp:550-555, 623-628), hasInputVariable / hasOutputVariable (557-562, 630-635),
    Variable::getTerm / hasTerm by name (/repo/src/variable/Variable.cpp:229-247) *)
Fixpoint find_name (name : string) (l : list string) : option nat :=
  match l with
  | [] => None
  | n :: l => if String.eqb n name then Some 0 else option_map S (find_name name l)
  end.

Inductive varref := VIn (i : nat) | VOut (j : nat).
(** Proposition (/repo/fuzzylite/rule/Expression.h:63-84): variable, hedges, term (null until set) *)
Record proposition := mkProp { pr_var : varref; pr_hedges : list hedge; pr_term : option nat }.
(** Expression (Expression.h:30-132): Proposition or Operator.
    Simplification: the operands of an Operator are never null; Antecedent::load sets both. *)
Inductive expression := Prp (p : proposition) | Opr (name : string) (left right : expression).

Definition find_input (env : penv) (name : string) : option nat := find_name name (map pv_name (pe_inputs env)).
Definition find_output (env : penv) (name : string) : option nat := find_name name (map pv_name (pe_outputs env)).
(** Antecedent.cpp:191-195: input variables first *)
Definition find_variable (env : penv) (name : string) : option varref :=
  match find_input env name with
  | Some i => Some (VIn i)
  | None => option_map VOut (find_output env name)
  end.
Definition terms_of (env : penv) (v : varref) : list string :=
  match v with
  | VIn i => match nth_error (pe_inputs env) i with Some x => pv_terms x | None => [] end
  | VOut j => match nth_error (pe_outputs env) j with Some x => pv_terms x | None => [] end
  end.
Definition find_term (env : penv) (v : varref) (name : string) : option nat := find_name name (terms_of env v).

Definition add_hedge (p : proposition) (h : hedge) : proposition := mkProp (pr_var p) (pr_hedges p ++ [h]) (pr_term p).
Definition set_term (p : proposition) (t : nat) : proposition := mkProp (pr_var p) (pr_hedges p) (Some t).

(** The states of the machine at Antecedent.cpp:182-184 which the code reaches:
    S_VARIABLE, S_IS, S_HEDGE|S_TERM, S_VARIABLE|S_AND_OR *)
Inductive astate := AVar | AIs | AHedgeTerm | AVarAndOr.
Definition a_variable (s : astate) : bool := match s with AVar | AVarAndOr => true | _ => false end.
Definition a_and_or (s : astate) : bool := match s with AVarAndOr => true | _ => false end.

(** Antecedent.cpp:188-282, one round of the loop.  The head of the stack is its top; [proposition] is the last one
    created, which is the top of the stack in the states S_IS and S_HEDGE|S_TERM (otherwise UB). *)
Definition ante_step (env : penv) (st : astate * list expression) (token : string) : res (astate * list expression) :=
  let '(s, stack) := st in
  match (if a_variable s then find_variable env token else None) with
  | Some v => Ok (AIs, Prp (mkProp v [] None) :: stack)
  | None =>
    match s with
    | AIs => if String.eqb token "is" then Ok (AHedgeTerm, stack) else Throw ESyntax
    | AHedgeTerm =>
      match stack with
      | Prp p :: rest =>
        match hedge_of_name token with
        | Some h => Ok (match h with Any => AVarAndOr | _ => AHedgeTerm end, Prp (add_hedge p h) :: rest)
        | None =>
          match find_term env (pr_var p) token with
          | Some t => Ok (AVarAndOr, Prp (set_term p t) :: rest)
          | None => Throw ESyntax
          end
        end
      | _ => UB
      end
    | _ =>
      if (a_and_or s && (String.eqb token "and" || String.eqb token "or"))%bool then
        match stack with
        | r :: l :: rest => Ok (AVarAndOr, Opr token l r :: rest)
        | _ => Throw ESyntax
        end
      else Throw ESyntax
    end
  end.
Fixpoint ante_loop (env : penv) (st : astate * list expression) (ts : list string) : res (astate * list expression) :=
  match ts with
  | [] => Ok st
  | t :: ts => do st <- ante_step env st t; ante_loop env st ts
  end.
(** Antecedent.cpp:284-311 *)
Definition ante_tokens (env : penv) (ts : list string) : res expression :=
  do st <- ante_loop env (AVar, []) ts;
  if a_variable (fst st) then match snd st with [e] => Ok e | _ => Throw ESyntax end else Throw ESyntax.

(** Consequent.cpp:108-110: S_VARIABLE, S_IS, S_HEDGE|S_TERM, S_AND|S_WITH *)
Inductive cstate := CVar | CIs | CHedgeTerm | CAndWith.
(** Consequent.cpp:117-190; the conclusions are in reverse order, the head is [proposition] *)
Definition cons_step (env : penv) (st : cstate * list proposition) (token : string) : res (cstate * list proposition) :=
  let '(s, cs) := st in
  match s with
  | CVar => match find_output env token with Some j => Ok (CIs, mkProp (VOut j) [] None :: cs) | None => Throw ESyntax end
  | CIs => if String.eqb token "is" then Ok (CHedgeTerm, cs) else Throw ESyntax
  | CHedgeTerm =>
    match cs with
    | p :: rest =>
      match hedge_of_name token with
      | Some h => Ok (CHedgeTerm, add_hedge p h :: rest)
      | None => match find_term env (pr_var p) token with
                | Some t => Ok (CAndWith, set_term p t :: rest)
                | None => Throw ESyntax
                end
      end
    | [] => UB
    end
  | CAndWith => if String.eqb token "and" then Ok (CVar, cs) else Throw ESyntax
  end.
Fixpoint cons_loop (env : penv) (st : cstate * list proposition) (ts : list string) : res (cstate * list proposition) :=
  match ts with
  | [] => Ok st
  | t :: ts => do st <- cons_step env st t; cons_loop env st ts
  end.
(** Consequent.cpp:192-214 *)
Definition cons_tokens (env : penv) (ts : list string) : res (list proposition) :=
  do st <- cons_loop env (CVar, []) ts;
  match fst st with CAndWith => Ok (rev (snd st)) | _ => Throw ESyntax end.

(** Consequent::load (Consequent.cpp:90-216).  The result is the list of conclusions; on failure there are none. *)
Definition consequent_load (env : penv) (text : string) : res (list proposition) :=
  if sempty (trim text) then Throw ESyntax else cons_tokens env (tokens text).

(** Proposition::toString (/repo/src/rule/Expression.cpp:42-62) *)
Definition variable_name (env : penv) (v : varref) : string :=
  match v with
  | VIn i => match nth_error (pe_inputs env) i with Some x => pv_name x | None => "?" end
  | VOut j => match nth_error (pe_outputs env) j with Some x => pv_name x | None => "?" end
  end.
Definition spaced (ts : list string) : string := fold_right (fun t s => t ++ " " ++ s) "" ts.
Definition proposition_string (env : penv) (p : proposition) : string :=
  variable_name env (pr_var p) ++
  match pr_hedges p with [] => "" | hs => " is " ++ spaced (map hedge_name hs) end ++
  match pr_term p with
  | Some t => match pr_hedges p with [] => " is " | _ => "" end ++ nth t (terms_of env (pr_var p)) ""
  | None => ""
  end.
(** Consequent::toString (Consequent.cpp:218-226) *)
Definition consequent_string (env : penv) (cs : list proposition) : string :=
  join (map (proposition_string env) cs) " and ".
(** Antecedent::toPrefix, toInfix, toPostfix (Antecedent.cpp:326-376) *)
Fixpoint expression_prefix (env : penv) (e : expression) : string :=
  match e with
  | Prp p => proposition_string env p
  | Opr n l r => n ++ " " ++ expression_prefix env l ++ " " ++ expression_prefix env r ++ " "
  end.
Fixpoint expression_infix (env : penv) (e : expression) : string :=
  match e with
  | Prp p => proposition_string env p
  | Opr n l r => expression_infix env l ++ " " ++ n ++ " " ++ expression_infix env r ++ " "
  end.
Fixpoint expression_postfix (env : penv) (e : expression) : string :=
  match e with
  | Prp p => proposition_string env p
  | Opr n l r => expression_postfix env l ++ " " ++ expression_postfix env r ++ " " ++ n ++ " "
  end.

Section Rule.
Context {T : Type} `{S : Scalar T}.

(** Antecedent::load (Antecedent.cpp:160-317).  Function().toPostfix uses the functions registered by the library.
    The result is the new expression; on failure there is none. *)
Definition antecedent_load (env : penv) (text : string) : res expression :=
  if sempty (trim text) then Throw ESyntax else
  do postfix <- to_postfix (@default_table T S) text;
  ante_tokens env (tokens postfix).

(** A rule (/repo/fuzzylite/rule/Rule.h:40-60).  Antecedent and Consequent are never null; [rl_antecedent] and
    [rl_consequent] are their expression (null when unloaded) and conclusions (empty when unloaded). *)
Record rule := mkRule {
  rl_enabled : bool; rl_text : string; rl_weight : T; rl_degree : T; rl_triggered : bool;
  rl_antecedent_text : string; rl_antecedent : option expression;
  rl_consequent_text : string; rl_consequent : list proposition }.

(** Rule.cpp:26-33 *)
Definition rule_new (text : string) (weight : T) : rule := mkRule true text weight s_0 false "" None "" [].
(** Rule.cpp:35-42 *)
Definition rule_copy (r : rule) : rule := mkRule (rl_enabled r) (rl_text r) (rl_weight r) (rl_degree r) false "" None "" [].
(** Rule.cpp:96-110, 134-140: setters *)
Definition set_degree (d : T) (r : rule) : rule :=
  mkRule (rl_enabled r) (rl_text r) (rl_weight r) d (rl_triggered r) (rl_antecedent_text r) (rl_antecedent r) (rl_consequent_text r) (rl_consequent r).
Definition set_triggered (b : bool) (r : rule) : rule :=
  mkRule (rl_enabled r) (rl_text r) (rl_weight r) (rl_degree r) b (rl_antecedent_text r) (rl_antecedent r) (rl_consequent_text r) (rl_consequent r).
(** Rule.cpp:112-115 *)
Definition rule_deactivate (r : rule) : rule := set_triggered false (set_degree s_0 r).
(** Rule.cpp:142-144 *)
Definition rule_loaded (r : rule) : bool :=
  match rl_antecedent r, rl_consequent r with Some _, _ :: _ => true | _, _ => false end.
(** Rule.cpp:146-152 *)
Definition rule_unload (r : rule) : rule :=
  let r := rule_deactivate r in
  mkRule (rl_enabled r) (rl_text r) (rl_weight r) (rl_degree r) (rl_triggered r) (rl_antecedent_text r) None (rl_consequent_text r) [].

(** Rule.cpp:162: the text up to the first '#' *)
Fixpoint before_hash (s : string) : string :=
  match s with
  | "" => ""
  | String c r => if Ascii.eqb c "#" then "" else String c (before_hash r)
  end.
(** Rule.cpp:167-217, the machine: state, antecedent text, consequent text, weight *)
Inductive rstate := SNone | SIf | SThen | SWith | SEnd.
Definition rule_step (st : rstate * string * string * T) (token : string) : res (rstate * string * string * T) :=
  let '(s, a, c, w) := st in
  match s with
  | SNone => if String.eqb token "if" then Ok (SIf, a, c, w) else Throw ESyntax
  | SIf => if String.eqb token "then" then Ok (SThen, a, c, w) else Ok (SIf, a ++ token ++ " ", c, w)
  | SThen => if String.eqb token "with" then Ok (SWith, a, c, w) else Ok (SThen, a, c ++ token ++ " ", w)
  | SWith => do w <- to_scalar token; Ok (SEnd, a, c, w)
  | SEnd => Throw ESyntax
  end.
Fixpoint rule_loop (st : rstate * string * string * T) (ts : list string) : res (rstate * string * string * T) :=
  match ts with
  | [] => Ok st
  | t :: ts => do st <- rule_step st t; rule_loop st ts
  end.
(** Rule.cpp:162-230: the two texts and the weight *)
Definition rule_split (text : string) : res (string * string * T) :=
  do st <- rule_loop (SNone, "", "", s_1) (tokens (before_hash text));
  let '(s, a, c, w) := st in
  match s with SNone | SIf | SWith => Throw ESyntax | _ => Ok (a, c, w) end.
(** Rule::load (Rule.cpp:158-239): the rule afterwards and whether an exception is thrown.  When the antecedent or
    the consequent fails to load its text has already been set (Antecedent.cpp:162-163, Consequent.cpp:91-92). *)
Definition rule_load (env : penv) (text : string) (r : rule) : rule * res unit :=
  let fail {A} (ta tc : string) (e : res A) : rule * res unit :=
    (mkRule true text (rl_weight r) s_0 false ta None tc [],
     match e with Ok _ => Ok tt | Throw e => Throw e | UB => UB | Diverge => Diverge end) in
  match rule_split text with
  | Ok (a, c, w) =>
    match antecedent_load env a with
    | Ok e =>
      match consequent_load env c with
      | Ok cs => (mkRule true text w s_0 false a (Some e) c cs, Ok tt)
      | err => fail a c err
      end
    | err => fail a (rl_consequent_text r) err
    end
  | err => fail (rl_antecedent_text r) (rl_consequent_text r) err
  end.

(** RuleBlock::loadRules (/repo/src/rule/RuleBlock.cpp:100-123): every rule is tried; if some fail an exception is
    thrown at the end.  Only std::exception is caught, and every modelled throw is one. *)
Definition load_rules (env : penv) (rules : list rule) : list rule * res unit :=
  let loaded := map (fun r => rule_load env (rl_text r) (if rule_loaded r then rule_unload r else r)) rules in
  (map fst loaded,
   fold_right (fun p acc => match snd p with
                            | Ok _ => acc
                            | Throw _ => match acc with Ok _ => Throw ERule | _ => acc end
                            | UB => UB | Diverge => Diverge end) (Ok tt) loaded).

(** Antecedent::activationDegree (Antecedent.cpp:64-150).  [enabled] is Variable::isEnabled; [degree] the membership of a
    term at the value of an input variable, or its activation degree in the fuzzy output of an output variable.
    Simplification: C++ leaves the order of evaluation of the two operands open; here left comes first. *)
Section Degree.
Variable enabled : varref -> bool.
Variable degree : varref -> nat -> res T.
Variable conjunction : option tnorm.
Variable disjunction : option snorm.
Definition proposition_degree (p : proposition) : res T :=
  if negb (enabled (pr_var p)) then Ok s_0
  else match last (map Some (pr_hedges p)) None with
       | Some Any => Ok (hedges_apply (pr_hedges p) s_nan)
       | _ => match pr_term p with
              | Some t => do m <- degree (pr_var p) t; Ok (hedges_apply (pr_hedges p) m)
              | None => UB
              end
       end.
Fixpoint expression_degree (e : expression) : res T :=
  match e with
  | Prp p => proposition_degree p
  | Opr name l r =>
    if String.eqb name "and" then
      match conjunction with
      | None => Throw EConjunction
      | Some n => do a <- expression_degree l; do b <- expression_degree r; Ok (tnorm_compute n a b)
      end
    else if String.eqb name "or" then
      match disjunction with
      | None => Throw EDisjunction
      | Some n => do a <- expression_degree l; do b <- expression_degree r; Ok (snorm_compute n a b)
      end
    else Throw ESyntax
  end.
Definition antecedent_degree (a : option expression) : res T :=
  match a with None => Throw EAntecedent | Some e => expression_degree e end.

(** Rule::activateWith (Rule.cpp:117-122) *)
Definition rule_activate (r : rule) : res rule :=
  if negb (rule_loaded r) then Throw ERule
  else do d <- antecedent_degree (rl_antecedent r); Ok (set_degree (rl_weight r * d)%S r).

(** Consequent::modify (Consequent.cpp:55-74): the calls of addTerm as (output variable, term, degree), in order.
    The variable [activationDegree] is assigned by the hedges and keeps its value for the next conclusion. *)
Fixpoint conclusions_modify (d : T) (cs : list proposition) : res (list (nat * nat * T)) :=
  match cs with
  | [] => Ok []
  | p :: cs =>
    if enabled (pr_var p) then
      let d := hedges_apply (pr_hedges p) d in
      match pr_var p, pr_term p with
      | VOut j, Some t => do rest <- conclusions_modify d cs; Ok ((j, t, d) :: rest)
      | _, _ => UB
      end
    else conclusions_modify d cs
  end.
Definition consequent_modify (d : T) (cs : list proposition) : res (list (nat * nat * T)) :=
  match cs with [] => Throw EConsequent | _ => conclusions_modify d cs end.

(** Rule::trigger (Rule.cpp:124-132) *)
Definition rule_trigger (r : rule) : res (rule * list (nat * nat * T)) :=
  if negb (rule_loaded r) then Throw ERule
  else if (rl_enabled r && isGt (rl_degree r) s_0)%bool
  then do added <- consequent_modify (rl_degree r) (rl_consequent r); Ok (set_triggered true r, added)
  else Ok (r, []).
End Degree.
End Rule.
Arguments rule : clear implicits.
