(** What export to and import from the Fuzzy Control Language should do.  What is printed of numbers, terms, variables and rules is
    as in SpecFll.v; [kept] says which parts of an engine the language can express. *)
From Coq Require Import ZArith List Bool String Ascii.
From Verif Require Import Base Op Norm Hedge Shape Discrete Defuzz Aggregated Text SpecText Function Rule Var Activation Engine Factory Fll SpecFll SpecFis.
Import ListNotations.
Local Open Scope string_scope.

(** a text that stays as it is on a line: no line break, comment or semicolon *)
Definition clear_text (s : string) : Prop := one_line s /\ lacks "#" s = true /\ lacks ";" s = true /\ ~ occurs "//" s.
(** a formula without its blanks *)
Definition squeezed (s : string) : string := sfilter (fun c => negb (is_space c)) s.

Section Engines.
Context {T : Type} `{S : Scalar T}.
Variables (d : nat) (resolution : Z).

(** ** what the language can express of an engine *)
Definition kept_term (t : term T) : term T :=
  match tm_body t with
  | TDiscrete xy => mkTerm (tm_name t) s_1 (TDiscrete xy)
  | TFunction f => mkTerm (tm_name t) (tm_height t) (TFunction {| fn_formula := squeezed (fn_formula f); fn_root := fn_root f; fn_vars := fn_vars f; fn_engine := fn_engine f |})
  | _ => t
  end.
Definition kept_variable (v : variable T) : variable T :=
  mkVariable (v_name v) "" (v_value v) (v_minimum v) (v_maximum v) true false (map kept_term (v_terms v)).
Definition kept_output (o : output T) : output T :=
  mkOutput (kept_variable (o_var o)) (o_fuzzy o) (o_aggregation o) (option_map (like resolution) (o_defuzzifier o)) (o_previous o) (o_default o) (o_lock_previous o).
Definition kept_block (b : block T) : block T :=
  mkBlock true (b_name b) "" (b_rules b) (b_conjunction b) (b_disjunction b) (b_implication b) (Some General).
Definition kept (e : engine T) : engine T :=
  mkEngine (e_name e) "" (map kept_variable (e_inputs e)) (map kept_output (e_outputs e)) (map kept_block (e_blocks e)).

(** ** what is exported and imported again *)
(** all variables are declared, without values, before the first term is read *)
Definition declared (e : engine T) : view T :=
  mkView (map (fun _ => s_nan) (e_inputs e))
    (map (fun v => (valid_name (v_name v), s_nan)) (e_inputs e) ++ map (fun o => (valid_name (v_name (o_var o)), s_nan)) (e_outputs e))%list.
Definition fcl_printed (e : engine T) : res (engine T) :=
  do ins <- rmapM (printed_variable d (declared e)) (e_inputs (kept e));
  do outs <- rmapM (printed_output d (declared e)) (e_outputs (kept e));
  Ok (mkEngine (join (tokens (e_name e)) " ") "" ins outs (map (printed_block d (engine_env ins outs)) (e_blocks (kept e)))).

(** engines that can be written: texts that stay as they are, blocks named by at most one word, discrete terms with points, and variables
    that can be told apart *)
Definition clear_term (t : term T) : Prop :=
  valid_name (tm_name t) <> "" /\ match tm_body t with TFunction f => clear_text (fn_formula f) | TDiscrete xy => xy <> [] | _ => True end.
Definition clear_variable (v : variable T) : Prop := valid_name (v_name v) <> "" /\ Forall clear_term (v_terms v).
Definition clear_block (b : block T) : Prop :=
  clear_text (b_name b) /\ sforall (fun c => negb (is_space c)) (b_name b) = true /\ Forall (fun r => clear_text (rl_text r)) (b_rules b).
Definition clear_engine (e : engine T) : Prop :=
  clear_text (e_name e) /\ Forall clear_variable (e_inputs e) /\ Forall (fun o => clear_variable (o_var o)) (e_outputs e) /\ Forall clear_block (e_blocks e) /\
  NoDup (map (fun v => valid_name (v_name v)) (e_inputs e)) /\ NoDup (map (fun o => valid_name (v_name (o_var o))) (e_outputs e)).
(** names and texts without superfluous characters *)
Definition tidy_variable (v : variable T) : Prop := plain_name (v_name v) /\ Forall (fun t => plain_name (tm_name t)) (v_terms v).
Definition tidy_engine (e : engine T) : Prop :=
  clear_engine e /\ join (tokens (e_name e)) " " = e_name e /\ Forall tidy_variable (e_inputs e) /\ Forall (fun o => tidy_variable (o_var o)) (e_outputs e) /\
  Forall (fun b => Forall (fun r => trim (rl_text r) = rl_text r) (b_rules b)) (e_blocks e).
End Engines.
