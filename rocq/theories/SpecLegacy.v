(** Output variables over time as in version 6.0. *)
From Coq Require Import List Bool String Relations.
From Verif Require Import Base Op Norm Shape Defuzz Aggregated Var.
Import ListNotations.
Local Open Scope scalar_scope.

Section Legacy.
Context {T : Type} `{S : Scalar T}.
(** there is no result: no rule has concluded anything, there is no defuzzifier, or it throws *)
Definition no_result (vw : view T) (o : output T) : Prop :=
  o_fuzzy o = [] \/ o_defuzzifier o = None \/ exists d e, o_defuzzifier o = Some d /\ defuzzified vw d o = Throw e.
(** a value which the range does not alter *)
Definition kept_by (v : variable T) (x : T) : Prop := v_lock_range v = true -> (x <? v_minimum v) = false /\ (v_maximum v <? x) = false.
(** the same but for the value and the previous value *)
Definition same_settings (o p : output T) : Prop :=
  (v_name (o_var p), v_description (o_var p), v_minimum (o_var p), v_maximum (o_var p)) = (v_name (o_var o), v_description (o_var o), v_minimum (o_var o), v_maximum (o_var o)) /\
  (v_enabled (o_var p), v_lock_range (o_var p), v_terms (o_var p)) = (v_enabled (o_var o), v_lock_range (o_var o), v_terms (o_var o)) /\
  (o_aggregation p, o_defuzzifier p, o_default p, o_lock_previous p) = (o_aggregation o, o_defuzzifier o, o_default o, o_lock_previous o).
Section Time.
(** the operation that defuzzifies *)
Variable f : view T -> output T -> output T * res unit.
(** new conclusions and defuzzification, without a result; with a result *)
Definition Gap (o p : output T) : Prop := exists vw l r, no_result vw (set_fuzzy l o) /\ f vw (set_fuzzy l o) = (p, r).
Definition Gaps : output T -> output T -> Prop := clos_refl_trans _ Gap.
Definition Step (o p : output T) : Prop := exists vw l r, f vw (set_fuzzy l o) = (p, r).
Definition Run : output T -> output T -> Prop := clos_refl_trans _ Step.
End Time.
End Legacy.
