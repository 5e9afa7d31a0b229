(** OutputVariable::defuzzify_v6, the defuzzification of version 6.0. *)
From Coq Require Import ZArith List Bool String.
From Verif Require Import Base Op Norm Shape Defuzz Aggregated Var.
Import ListNotations.

Section Legacy.
Context {T : Type} `{S : Scalar T}.
(** OutputVariable.cpp:151-171: the result if valid, and the exception caught.  The text of an exception is never empty, so that it is thrown again at
    lines 182-183, as an fl::Exception with the text of the one caught: here it is the same exception. *)
Definition attempt_v6 (vw : view T) (o : output T) : res (option T * option exc) :=
  match o_fuzzy o with
  | [] => Ok (None, None)
  | _ =>
    match o_defuzzifier o with
    | Some d => match defuzzified vw d o with Ok x => Ok (Some x, None) | Throw e => Ok (None, Some e) | UB => UB | Diverge => Diverge end
    | None => Ok (None, Some EDefuzzify)
    end
  end.
(** OutputVariable.cpp:142-184 *)
Definition defuzzify_v6 (vw : view T) (o : output T) : output T * res unit :=
  if negb (v_enabled (o_var o)) then (o, Ok tt) else
  let o := if isFinite (v_value (o_var o)) then set_previous (v_value (o_var o)) o else o in
  match attempt_v6 vw o with
  | Ok (valid, failure) =>
    let result := match valid with
                  | Some x => x
                  | None => if (o_lock_previous o && negb (isNaN (o_previous o)))%bool then o_previous o else o_default o
                  end in
    (set_output_value result o, match failure with Some e => Throw e | None => Ok tt end)
  | Throw e => (o, Throw e) | UB => (o, UB) | Diverge => (o, Diverge)
  end.
End Legacy.
