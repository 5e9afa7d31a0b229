(** What is expected of variables. *)
From Coq Require Import ZArith String List Bool Permutation.
From Verif Require Import Base Op Norm Discrete Defuzz Aggregated Function Rule Var.
Import ListNotations.
Local Open Scope scalar_scope.

Section Spec.
Context {T : Type} `{S : Scalar T}.

(** a variable which locks its value in a sensible range has no value outside of it *)
Definition in_range (v : variable T) : Prop :=
  v_lock_range v = true -> (v_minimum v <=? v_maximum v) = true ->
  isNaN (v_value v) = true \/ (v_minimum v <=? v_value v) = true /\ (v_value v <=? v_maximum v) = true.

(** [b] has the configuration of [a]; value, previous value and fuzzy output may differ *)
Definition same_output (a b : output T) : Prop :=
  v_name (o_var b) = v_name (o_var a) /\ v_description (o_var b) = v_description (o_var a) /\
  v_minimum (o_var b) = v_minimum (o_var a) /\ v_maximum (o_var b) = v_maximum (o_var a) /\
  v_enabled (o_var b) = v_enabled (o_var a) /\ v_lock_range (o_var b) = v_lock_range (o_var a) /\
  v_terms (o_var b) = v_terms (o_var a) /\ o_aggregation b = o_aggregation a /\ o_defuzzifier b = o_defuzzifier a /\
  o_default b = o_default a /\ o_lock_previous b = o_lock_previous a.

(** successive defuzzifications of an output: before each the fuzzy output is replaced (by a run of the rules), then the
    defuzzifier yields a raw value.  [raws] and [values] are the raw and the resulting values, in order *)
Inductive Steps : output T -> list T -> list T -> output T -> Prop :=
| SNil o : Steps o [] [] o
| SCons o fuzzy vw d raw o1 raws values o2 :
    o_defuzzifier o = Some d -> defuzzified vw d (set_fuzzy fuzzy o) = Ok raw ->
    defuzzify vw (set_fuzzy fuzzy o) = (o1, Ok tt) -> Steps o1 raws values o2 ->
    Steps o (raw :: raws) (v_value (o_var o1) :: values) o2.
(** the value given to an output: within the range if that is locked *)
Definition kept (o : output T) (x : T) : T := if v_lock_range (o_var o) then bound x (v_minimum (o_var o)) (v_maximum (o_var o)) else x.
(** what lock-previous makes of raw values, [y1] being the value before and [y2] the one before that *)
Fixpoint held (o : output T) (y2 y1 : T) (raws : list T) : list T :=
  match raws with
  | [] => []
  | raw :: raws =>
    let y := kept o (if isNaN raw then if o_lock_previous o then if isNaN y2 then o_default o else y2 else o_default o else raw) in
    y :: held o y1 y raws
  end.
(** what OutputVariable.h documents: the value of the step before *)
Fixpoint documented_held (o : output T) (y1 : T) (raws : list T) : list T :=
  match raws with
  | [] => []
  | raw :: raws =>
    let y := kept o (if isNaN raw then if o_lock_previous o then if isNaN y1 then o_default o else y1 else o_default o else raw) in
    y :: documented_held o y raws
  end.
End Spec.

(** the first element with the name *)
Definition first_of_name {A} (name_of : A -> string) (name : string) (l : list A) (i : nat) (x : A) : Prop :=
  nth_error l i = Some x /\ name_of x = name /\ forall j y, (j < i)%nat -> nth_error l j = Some y -> name_of y <> name.
