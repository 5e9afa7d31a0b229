(** C85: the interactive console. *)
From Coq Require Import ZArith String List Bool Ascii.
From Flocq Require Import IEEE754.BinarySingleNaN.
From Verif Require Import Base Op F64 Text Var Activation Engine Grid Fll Console SpecEngine SpecFld ActivationProofs3 SpecSession SessionProofs SessionCase.
Import ListNotations.
Local Open Scope string_scope.
#[local] Hint Extern 9 (Scalar _) => exact (F64Scalar fp_default) : typeclass_instances.

(** * C85 *)
(** what is shown for the keys typed *)
Theorem C85_session : forall {T} `{S : Scalar T} drain what d e keys text, memoryless e -> transcript drain d what interactive_help e keys text ->
  exists st, @interactive T S drain what d keys e = (st, Ok tt) /\ ss_written st = ">" ++ text.
Proof. exact @session_text. Qed.
Print Assumptions C85_session.
(** defuzzifying once more after process() changes no value: engines whose outputs do not depend on earlier evaluations *)
Theorem C85_defuzzify_again : forall {T} `{S : Scalar T} drain (e c : engine T), memoryless e -> process drain e = (c, Ok tt) ->
  exists outs, defuzzify_from (e_inputs c) [] (e_outputs c) = (outs, Ok tt) /\ map (fun o => v_value (o_var o)) outs = output_values c /\ Forall2 SpecVar.same_output (e_outputs c) outs.
Proof. exact @twice. Qed.
Print Assumptions C85_defuzzify_again.
(** not so for other engines: the second value of an output that locks its previous value differs from that of process() *)
Theorem C85_twice_refuted : exists e x y,
  let e1 := fst (process (@stable_drain f64) (set_inputs [x] e)) in
  map (str 3) (snd (evaluation (@stable_drain f64) e [x])) = ["0.450"; "1.000"; "-0.550"] /\ map (str 3) (snd (evaluation (@stable_drain f64) e1 [y])) = ["nan"; "1.000"; "nan"] /\
  number "2" = x /\ number "30" = y /\
  shown (session_of e "2 30 ") = ">2" ++ ht ++ "=" ++ ht ++ "0.450" ++ ht ++ "1.000" ++ ht ++ "-0.550" ++ eol ++ ">30" ++ ht ++ "=" ++ ht ++ "0.450" ++ ht ++ "1.000" ++ ht ++ "-0.550" ++ eol ++ ">".
Proof. exact locked_twice. Qed.
Print Assumptions C85_twice_refuted.
(** not so: R discards the current inputs, as the help says (and as D does) *)
Theorem C85_restart_refuted : exists e, shown (session_of e "1 R2 ") = ">1" ++ ht ++ "#[Restart]2" ++ ht ++ "=" ++ ht ++ eol ++ ">" /\ shown (session_of e "1 D2 ") = ">1" ++ ht ++ "#[Discard]" ++ eol ++ ">2" ++ ht.
Proof. exact restart_keeps. Qed.
Print Assumptions C85_restart_refuted.
(** not so: P processes the number just typed *)
Theorem C85_unfinished_refuted : exists e, memoryless e /\ shown (session_of e "0.25 0.5 ") = ">0.25" ++ ht ++ "=" ++ ht ++ "1.500" ++ eol ++ ">0.5" ++ ht ++ "=" ++ ht ++ "1.000" ++ eol ++ ">" /\
  shown (session_of e "0.25 0.5P") = ">0.25" ++ ht ++ "=" ++ ht ++ "1.500" ++ eol ++ ">0.50.250" ++ ht ++ "=" ++ ht ++ "1.500" ++ eol ++ ">".
Proof. exact unfinished. Qed.
Print Assumptions C85_unfinished_refuted.
(** not so: every session ends normally *)
Theorem C85_no_inputs_refuted : exists e, is_ready e = false /\ snd (session_of e " ") = Throw EOutOfRange.
Proof. exact no_inputs. Qed.
Print Assumptions C85_no_inputs_refuted.

(** 0.25, then a word that is not a number, then 0.5 abandoned, then 0.75 and the end *)
Example C85_case : memoryless dimmer /\ exists text, transcript (@stable_drain f64) 3 (fun _ => "error") interactive_help dimmer (list_ascii_of_string "0.25 x 0.5D0.75") text /\
  text = "0.25" ++ ht ++ "=" ++ ht ++ "1.500" ++ eol ++ ">x[0.250]" ++ ht ++ "=" ++ ht ++ "1.500" ++ eol ++ ">0.5#[Discard]" ++ eol ++ ">0.75".
Proof. exact session_case. Qed.
