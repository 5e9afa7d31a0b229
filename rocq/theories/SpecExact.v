(** Engines of which text keeps everything: numbers with few decimals, rules as loaded from their texts, and no results of earlier steps. *)
From Coq Require Import ZArith String List Bool.
From Verif Require Import Base Op Norm Shape Discrete Defuzz Aggregated Text Function Rule Var Activation Engine Fll SpecFll.
Import ListNotations.

Section Spec.
Context {T : Type} `{S : Scalar T}.
Variable d : nat.
(** a number which is read as it was printed *)
Definition short (x : T) : Prop := to_scalar (str d x) = Ok x.
Definition plain_height (t : term T) : Prop := tm_height t = s_1.
Definition exact_term (t : term T) : Prop :=
  match tm_body t with
  | TShape s => Forall short (shape_list s) /\ (plain_height t \/ isEq (tm_height t) s_1 = false /\ short (tm_height t))
  | TDiscrete xy => Forall (fun p => short (fst p) /\ short (snd p)) xy /\ plain_height t
  | TConstant v => short v /\ plain_height t
  | TLinear cs engine => Forall short cs /\ engine = true /\ plain_height t
  | TFunction f => False
  end.
Definition exact_variable (v : variable T) : Prop := short (v_minimum v) /\ short (v_maximum v) /\ v_value v = s_nan /\ Forall exact_term (v_terms v).
Definition exact_output (o : output T) : Prop := exact_variable (o_var o) /\ short (o_default o) /\ o_fuzzy o = [] /\ o_previous o = s_nan.
Definition exact_rule (env : penv) (r : rule T) : Prop := exists r0, rule_load env (rl_text r) r0 = (r, Ok tt).
Definition exact_block (env : penv) (b : block T) : Prop :=
  Forall (exact_rule env) (b_rules b) /\ match b_activation b with Some (First _ t) | Some (Last _ t) | Some (Threshold _ t) => short t | _ => True end.
Definition exact_engine (e : engine T) : Prop :=
  Forall exact_variable (e_inputs e) /\ Forall exact_output (e_outputs e) /\ Forall (exact_block (engine_env (e_inputs e) (e_outputs e))) (e_blocks e).
End Spec.
