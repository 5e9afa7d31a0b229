(** What export to and import from the Fuzzy Inference System format should do: the parts of an engine that the format can express, and
    the engines that it can express at all.  Rules are as in SpecFis.v, numbers and variables as in SpecFll.v. *)
From Coq Require Import ZArith List Bool String Ascii Permutation Sorting.Sorted.
From Verif Require Import Base Op Norm Hedge Shape Discrete Defuzz Aggregated Text SpecText Function Rule Var Activation Engine Factory SpecRule Fll SpecFll SpecFis SpecFcl.
Import ListNotations.
Local Open Scope string_scope.

(** a text that stays as it is behind `key=`: no line break, comment, quotation mark or equals sign *)
Definition fis_text (s : string) : Prop := one_line s /\ lacks "#" s = true /\ ~ occurs "//" s /\ lacks "'" s = true /\ lacks "=" s = true.
(** a formula moreover has no colon, comma or square bracket, and its blanks are spaces *)
Definition fis_formula (s : string) : Prop :=
  fis_text s /\ lacks ":" s = true /\ lacks "," s = true /\ lacks "[" s = true /\ lacks "]" s = true /\ s <> "" /\
  sforall (fun c => negb (is_space c) || Ascii.eqb c " ")%bool s = true.
(** the operator that stands for all: the first one given, or else the default *)
Fixpoint first_given {A} (default : A) (l : list (option A)) : A :=
  match l with [] => default | Some a :: _ => a | None :: l => first_given default l end.

Section Engines.
Context {T : Type} `{S : Scalar T}.
Variables (d : nat) (resolution : Z).

(** ** what the format can express of an engine *)
Definition fis_kept_term (t : term T) : term T :=
  mkTerm (tm_name t) s_1
    (match tm_body t with
     | TFunction f => TFunction {| fn_formula := squeezed (fn_formula f); fn_root := fn_root f; fn_vars := fn_vars f; fn_engine := fn_engine f |}
     | b => b end).
Definition fis_kept_variable (v : variable T) : variable T :=
  mkVariable (v_name v) "" (v_value v) (v_minimum v) (v_maximum v) true false (map fis_kept_term (v_terms v)).
Definition all_aggregation (e : engine T) : snorm := first_given Maximum (map (@o_aggregation T) (e_outputs e)).
Definition all_defuzzifier (e : engine T) : option defuzzifier := first_given None (map (fun o => option_map Some (o_defuzzifier o)) (e_outputs e)).
Definition fis_kept_output (e : engine T) (o : output T) : output T :=
  mkOutput (fis_kept_variable (o_var o)) (o_fuzzy o) (Some (all_aggregation e)) (option_map (like resolution) (all_defuzzifier e)) (o_previous o) s_nan false.
(** the rules of all blocks, those left out which are not loaded *)
Definition all_rules (e : engine T) : list (rule T) := filter rule_loaded (flat_map (@b_rules T) (e_blocks e)).

(** a rule: the same propositions, in the order of the variables *)
Definition fis_same_rule (num : T -> T -> Prop) (r s : rule T) : Prop :=
  exists op ex ps cs, rl_antecedent r = Some ex /\ joined_by op ex /\ Permutation ps (propositions_of ex) /\ StronglySorted before_of ps /\
  Permutation cs (rl_consequent r) /\ StronglySorted before_of cs /\
  rl_enabled s = true /\ rl_antecedent s = chained op ps /\ rl_consequent s = cs /\ num (rl_weight r) (rl_weight s).
(** one block with all rules, and the same operators everywhere *)
Definition fis_same_block (num : T -> T -> Prop) (e : engine T) (b : block T) : Prop :=
  b_enabled b = true /\ b_name b = "" /\ b_description b = "" /\
  b_conjunction b = Some (first_given Minimum (map (@b_conjunction T) (e_blocks e))) /\
  b_disjunction b = Some (first_given Maximum (map (@b_disjunction T) (e_blocks e))) /\
  b_implication b = Some (first_given Minimum (map (@b_implication T) (e_blocks e))) /\
  b_activation b = Some General /\ Forall2 (fis_same_rule num) (all_rules e) (b_rules b).
Definition fis_same (num : T -> T -> Prop) (e f : engine T) : Prop :=
  e_name f = e_name e /\ e_description f = "" /\ Forall2 (same_variable num) (map fis_kept_variable (e_inputs e)) (e_inputs f) /\
  Forall2 (same_output num) (map (fis_kept_output e) (e_outputs e)) (e_outputs f) /\ exists b, e_blocks f = [b] /\ fis_same_block num e b.

(** ** engines that can be written *)
Definition fis_term_ok (t : term T) : Prop :=
  match tm_body t with TFunction f => fis_formula (fn_formula f) | TDiscrete xy => xy <> [] | TLinear cs _ => cs <> [] | _ => True end.
Record fis_engine (e : engine T) : Prop := {
  fe_name : fis_text (e_name e) /\ trim (e_name e) = e_name e;
  fe_names : fis_names (engine_env (e_inputs e) (e_outputs e));
  fe_in_terms : Forall (fun v => Forall fis_term_ok (v_terms v)) (e_inputs e);
  fe_out_terms : Forall (fun o => Forall fis_term_ok (v_terms (o_var o))) (e_outputs e);
  fe_blocks : Forall (fun b => one_line (b_name b)) (e_blocks e);
  fe_rules : Forall (fun r => exists op ex, rl_antecedent r = Some ex /\ fis_expressible (engine_env (e_inputs e) (e_outputs e)) op ex (rl_consequent r)) (all_rules e) }.
End Engines.
