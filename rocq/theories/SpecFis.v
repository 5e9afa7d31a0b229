(** What the codes of the Fuzzy Inference System format can express, independently of how they are written and read. *)
From Coq Require Import ZArith Reals Bool List String.
From Flocq Require Import Core BinarySingleNaN.
From Verif Require Import Aggregated Defuzz Var Base F64 Hedge Text Rule SpecRule.
Import ListNotations.
Local Open Scope R_scope.

(** std::fmod(x, 1) is exact: the fraction of a number which is not negative (C17, F.10.7.1) *)
Definition exact_fmod (P : fparam) : Prop := forall x : f64, is_finite x = true -> 0 <= B2R x ->
  is_finite (fp_fn2 P LFmod x (f64_lit 1 1)) = true /\ B2R (fp_fn2 P LFmod x (f64_lit 1 1)) = B2R x - IZR (Zfloor (B2R x)).
(** at least two decimals, and a tolerance between 2^-29 and 2^-7 (the library sets three and 1e-6) *)
Definition fis_settings (P : fparam) (d : nat) : Prop :=
  (2 <= d)%nat /\ is_finite (fp_eps P) = true /\ bpow radix2 (-29) <= B2R (fp_eps P) <= bpow radix2 (-7) /\ exact_fmod P.

(** the hedges with a code of their own, with the code in hundredths *)
Inductive hedges_code : list hedge -> Z -> Prop :=
| code_none : hedges_code [] 0
| code_seldom : hedges_code [Seldom] 1
| code_somewhat : hedges_code [Somewhat] 5
| code_very : hedges_code [Very] 20
| code_extremely : hedges_code [Extremely] 30
| code_very_very : hedges_code [Very; Very] 40
| code_any : hedges_code [Any] 99.
(** a negation in front of them or not *)
Inductive fis_hedges : list hedge -> bool -> Z -> Prop :=
| hedges_plain hs c : hedges_code hs c -> fis_hedges hs false c
| hedges_not hs c : hedges_code hs c -> fis_hedges (Not :: hs) true c.

(** ** rules which the format can express *)
(** all operators of the tree are [op] *)
Fixpoint joined_by (op : string) (e : expression) : Prop :=
  match e with Prp _ => True | Opr name l r => name = op /\ joined_by op l /\ joined_by op r end.
(** the propositions from left to right *)
Fixpoint propositions_of (e : expression) : list proposition :=
  match e with Prp p => [p] | Opr _ l r => (propositions_of l ++ propositions_of r)%list end.
(** p1 op p2 op ... grouped to the left *)
Definition chained (op : string) (ps : list proposition) : option expression :=
  match ps with [] => None | p :: ps => Some (fold_left (fun e p => Opr op e (Prp p)) ps (Prp p)) end.
(** the hedges have a code; without a term they end in `any`.  At most 2^20 terms. *)
Definition codable (env : penv) (p : proposition) : Prop :=
  exists neg c, fis_hedges (pr_hedges p) neg c /\
  match pr_term p with Some t => (t < List.length (terms_of env (pr_var p)))%nat /\ (Z.of_nat t < 2 ^ 20)%Z | None => c = 99%Z end.
(** position of a variable among those of its kind *)
Definition position (v : varref) : nat := match v with VIn i => i | VOut j => j end.
Definition before_of (p q : proposition) : Prop := (position (pr_var p) < position (pr_var q))%nat.

(** the names which can be read in the text of a rule: letters, digits, `_` and `.`, no keywords, and not the same twice *)
Definition named (env : penv) (n : string) : Prop := In n (inputs_of env) \/ In n (outputs_of env) \/ exists v, In n (terms_of env v).
Record fis_names (env : penv) : Prop := {
  fn_plain : plain_names env;
  fn_chars : forall n, named env n -> n <> ""%string /\ sforall name_char n = true /\ n <> "then"%string /\ n <> "with"%string;
  fn_hedge : forall v n, In n (terms_of env v) -> ~ hedge_word n;
  fn_inputs : NoDup (inputs_of env);
  fn_outputs : NoDup (outputs_of env);
  fn_terms : forall v, NoDup (terms_of env v) }.

(** a rule which the format can express: one connective; every variable in at most one proposition; inputs in the antecedent, outputs in the
    consequent; conclusions have a term *)
Definition mentions_once (f : nat -> varref) (n : nat) (ps : list proposition) : Prop :=
  NoDup (map pr_var ps) /\ Forall (fun p => exists i, pr_var p = f i /\ (i < n)%nat) ps.
Record fis_expressible (env : penv) (op : string) (e : expression) (cs : list proposition) : Prop := {
  fe_op : op = "and"%string \/ op = "or"%string;
  fe_joined : joined_by op e;
  fe_inputs : mentions_once VIn (List.length (pe_inputs env)) (propositions_of e);
  fe_premises : Forall (fun p => codable env p /\ (In Any (pr_hedges p) <-> pr_term p = None)) (propositions_of e);
  fe_outputs : mentions_once VOut (List.length (pe_outputs env)) cs;
  fe_conclusions : Forall (fun p => codable env p /\ pr_term p <> None) cs;
  fe_some : cs <> [] }.

(** an operator with the same class: the resolution and the type of the defuzzifier are not part of the name *)
Definition like (resolution : Z) (z : defuzzifier) : defuzzifier :=
  match z with DIntegral k _ => DIntegral k resolution | DWeighted k _ => DWeighted k WAutomatic end.
