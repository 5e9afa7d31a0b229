(** The language of rules, independently of how it is parsed. *)
From Coq Require Import ZArith List Bool String Ascii.
From Verif Require Import Hedge Rule SpecFormula.
Import ListNotations.
Local Open Scope string_scope.

(** [i] is the position of the first [name] in the list *)
Definition first_named (name : string) (l : list string) (i : nat) : Prop :=
  nth_error l i = Some name /\ forall k, k < i -> nth_error l k <> Some name.
Definition hedge_word (t : string) : Prop := exists h, hedge_name h = t.

Definition inputs_of (env : penv) : list string := map pv_name (pe_inputs env).
Definition outputs_of (env : penv) : list string := map pv_name (pe_outputs env).
(** the variable a name stands for in an antecedent: an input variable if there is one of that name, otherwise an output variable *)
Inductive names_variable (env : penv) (n : string) : varref -> Prop :=
| nv_input i : first_named n (inputs_of env) i -> names_variable env n (VIn i)
| nv_output j : ~ In n (inputs_of env) -> first_named n (outputs_of env) j -> names_variable env n (VOut j).

(** * Consequents: `variable is hedge* term` joined by `and` *)
Inductive Conclusion (env : penv) : proposition -> list string -> Prop :=
| conclusion v j hs n t : first_named v (outputs_of env) j -> first_named n (terms_of env (VOut j)) t -> ~ hedge_word n ->
    Conclusion env (mkProp (VOut j) hs (Some t)) (v :: "is" :: map hedge_name hs ++ [n]).
Inductive Conclusions (env : penv) : list proposition -> list string -> Prop :=
| conclusions_one p ts : Conclusion env p ts -> Conclusions env [p] ts
| conclusions_and p ts ps us : Conclusion env p ts -> Conclusions env ps us -> Conclusions env (p :: ps) (ts ++ "and" :: us).

(** * Propositions of antecedents: `variable is hedge* term` or `variable is hedge* any` *)
Inductive Premise (env : penv) : proposition -> list string -> Prop :=
| premise_term v r hs n t : names_variable env v r -> ~ In Any hs -> first_named n (terms_of env r) t -> ~ hedge_word n ->
    Premise env (mkProp r hs (Some t)) (v :: "is" :: map hedge_name hs ++ [n])
| premise_any v r hs : names_variable env v r -> ~ In Any hs ->
    Premise env (mkProp r (hs ++ [Any]) None) (v :: "is" :: map hedge_name hs ++ ["any"]).

(** * Antecedents: disjunctions of conjunctions of propositions and parenthesised antecedents, grouped to the left *)
Inductive level := LOr | LAnd | LAtom.
Inductive Antecedent (env : penv) : level -> expression -> list string -> Prop :=
| ante_prop p ts : Premise env p ts -> Antecedent env LAtom (Prp p) ts
| ante_paren e ts : Antecedent env LOr e ts -> Antecedent env LAtom e ("(" :: ts ++ [")"])
| ante_atom e ts : Antecedent env LAtom e ts -> Antecedent env LAnd e ts
| ante_and l r ts us : Antecedent env LAnd l ts -> Antecedent env LAtom r us -> Antecedent env LAnd (Opr "and" l r) (ts ++ "and" :: us)
| ante_conj e ts : Antecedent env LAnd e ts -> Antecedent env LOr e ts
| ante_or l r ts us : Antecedent env LOr l ts -> Antecedent env LAnd r us -> Antecedent env LOr (Opr "or" l r) (ts ++ "or" :: us).

(** no variable or term is called like an operator or function of formulas, a parenthesis or a comma *)
Definition plain_names (env : penv) : Prop :=
  forall n, In n (inputs_of env) \/ In n (outputs_of env) \/ (exists v, In n (terms_of env v)) ->
  kind_in documented n = None /\ ~ delimiter n.

(** postfix form: operands before the operator.  A variable called "and" or "or" hides the operator. *)
Inductive Postfix (env : penv) : expression -> list string -> Prop :=
| post_prop p ts : Premise env p ts -> Postfix env (Prp p) ts
| post_op n l r ts us : n = "and" \/ n = "or" -> (forall v, ~ names_variable env n v) ->
    Postfix env l ts -> Postfix env r us -> Postfix env (Opr n l r) (ts ++ us ++ [n]).

(** every parenthesis written out *)
Fixpoint full (premise : proposition -> list string) (e : expression) : list string :=
  match e with
  | Prp p => premise p
  | Opr n l r => "(" :: full premise l ++ n :: full premise r ++ [")"]
  end.
Fixpoint writable (env : penv) (premise : proposition -> list string) (e : expression) : Prop :=
  match e with
  | Prp p => Premise env p (premise p)
  | Opr n l r => (n = "and" \/ n = "or") /\ writable env premise l /\ writable env premise r
  end.

(** * What a loaded antecedent refers to *)
Definition variable_exists (env : penv) (v : varref) : Prop :=
  match v with VIn i => i < List.length (pe_inputs env) | VOut j => j < List.length (pe_outputs env) end.
Definition premise_valid (env : penv) (p : proposition) : Prop :=
  variable_exists env (pr_var p) /\
  ((exists t, pr_term p = Some t /\ t < List.length (terms_of env (pr_var p))) \/ (exists hs, pr_hedges p = (hs ++ [Any])%list)).
Fixpoint antecedent_valid (env : penv) (e : expression) : Prop :=
  match e with
  | Prp p => premise_valid env p
  | Opr n l r => (n = "and" \/ n = "or") /\ antecedent_valid env l /\ antecedent_valid env r
  end.
Fixpoint uses (n : string) (e : expression) : Prop :=
  match e with Prp _ => False | Opr m l r => m = n \/ uses n l \/ uses n r end.
(** the propositions whose membership matters: with a term and without a final `any` *)
Fixpoint consults (e : expression) (v : varref) (t : nat) : Prop :=
  match e with Prp p => pr_var p = v /\ pr_term p = Some t | Opr _ l r => consults l v t \/ consults r v t end.

(** * Rules: `if A then C` with an optional `with w` *)
Inductive RuleText : list string -> list string -> list string -> option string -> Prop :=
| rule_plain A C : ~ In "then" A -> ~ In "with" C -> RuleText ("if" :: A ++ "then" :: C) A C None
| rule_with A C w : ~ In "then" A -> ~ In "with" C -> RuleText ("if" :: A ++ "then" :: C ++ ["with"; w]) A C (Some w).
(** the text without its comment *)
Fixpoint hash_free (s : string) : Prop := match s with "" => True | String c r => c <> "#"%char /\ hash_free r end.
Definition uncommented (text body : string) : Prop :=
  hash_free body /\ (text = body \/ exists comment, text = body ++ String "#" comment).

(** words joined with blanks *)
Fixpoint words (ts : list string) : string := match ts with [] => "" | t :: ts => t ++ " " ++ words ts end.
