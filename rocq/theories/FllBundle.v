(** Facts about the FuzzyLite Language, in the form of the property theorems; engines for examples. *)
From Coq Require Import ZArith String List Bool Ascii Reals Lia.
From Flocq Require Import IEEE754.BinarySingleNaN.
From Verif Require Import Base Op F64 F64Arith Norm Hedge Shape Discrete Defuzz Aggregated Text Function FunctionTable Rule Var Activation Engine Factory
  Fll SpecFll FllText FllLines FllExport FllRound FllRound2 FllFix FllImported FllF64 FllSame FllReject.
Import ListNotations.
Local Open Scope string_scope.

Lemma blank_hash s : blank s = true -> lacks "#" s = true.
Proof.
  unfold blank. induction s as [|c s IH]; [reflexivity|]. cbn [sforall lacks]. rewrite !andb_true_iff. intros [A B]. split; [|auto].
  destruct (Ascii.eqb_spec c "#") as [->|]; [discriminate A|reflexivity].
Qed.

Section Files.
Variable P : fparam.
Variable d : nat.
Variable resolution : Z.
Variable indent : string.
Hypothesis fine : fine_tolerance P d.
Hypothesis indent_blank : blank indent = true.
Hypothesis indent_line : one_line indent.
Local Notation export := (@fll_export f64 (F64Scalar P) d resolution indent (char newline)).
Local Notation import := (@fll_import f64 (F64Scalar P) resolution (char newline)).
Local Notation printed := (@printed_engine f64 (F64Scalar P) d).
Let N : @printable f64 (F64Scalar P) d := fine_printable P d fine.

Lemma import_printed (e : engine f64) : writable e -> import (export e) = printed e.
Proof. exact (import_export d resolution indent N indent_blank (blank_hash _ indent_blank) indent_line e). Qed.
Lemma import_same (e f : engine f64) : plain_engine e -> import (export e) = Ok f -> @same_configuration f64 (F64Scalar P) (number_kept P d) e f.
Proof. intros H. rewrite (import_printed e (plain_writable e H)). exact (same_printed d (number_kept P d) (reread_kept P d) e f H). Qed.
Lemma import_succeeds (e : engine f64) : writable e -> no_functions e -> exists f, import (export e) = Ok f.
Proof. intros H K. rewrite (import_printed e H). now apply printed_ok. Qed.
Lemma import_text (e f : engine f64) : plain_engine e -> @heights_shown f64 (F64Scalar P) d e -> import (export e) = Ok f -> export f = export e.
Proof. intros H K. rewrite (import_printed e (plain_writable e H)). now apply (same_text d resolution indent (char newline) N). Qed.
Lemma import_names (e f : engine f64) : plain_engine e -> import (export e) = Ok f -> engine_env (e_inputs f) (e_outputs f) = engine_env (e_inputs e) (e_outputs e).
Proof.
  intros H K. destruct (import_same e f H K) as (_ & _ & I & O & _). unfold engine_env.
  assert (V : forall v w, @same_variable f64 (F64Scalar P) (number_kept P d) v w -> var_names w = var_names v).
  { intros v w (A & _ & _ & _ & _ & _ & B & _). unfold var_names. rewrite A. f_equal. induction B as [|t u ts us [Q _] B IH]; [reflexivity|]. cbn [map]. now rewrite Q, IH. }
  f_equal.
  - induction I as [|v w vs ws Q I IH]; [reflexivity|]. cbn [map]. rewrite (V _ _ Q). f_equal. exact IH.
  - induction O as [|v w vs ws Q O IH]; [reflexivity|]. cbn [map]. destruct Q as [Q _]. rewrite (V _ _ Q). f_equal. exact IH.
Qed.
Lemma load_any env text (r r0 r1 : rule f64) : @rule_load f64 (F64Scalar P) env text r0 = (r, Ok tt) -> fst (@rule_load f64 (F64Scalar P) env text r1) = r.
Proof.
  unfold rule_load. destruct (rule_split text) as [[[a c] w]| | |]; try discriminate. destruct (antecedent_load env a); try discriminate. destruct (consequent_load env c); try discriminate.
  intro E. injection E as <-. reflexivity.
Qed.
Lemma Forall2_at {A B} (R0 : A -> B -> Prop) l m i a b : Forall2 R0 l m -> nth_error l i = Some a -> nth_error m i = Some b -> R0 a b.
Proof. intro H. revert i. induction H as [|x y l m Q H IH]; intros [|i] E1 E2; try discriminate; cbn in *; [congruence|eauto]. Qed.
Lemma import_rules (e f : engine f64) i j b c r s : plain_engine e -> import (export e) = Ok f ->
  nth_error (e_blocks e) i = Some b -> nth_error (e_blocks f) i = Some c -> nth_error (b_rules b) j = Some r -> nth_error (b_rules c) j = Some s ->
  (exists r0, @rule_load f64 (F64Scalar P) (engine_env (e_inputs e) (e_outputs e)) (rl_text r) r0 = (r, Ok tt)) -> s = r.
Proof.
  intros H K B C J L (r0 & E). destruct (import_same e f H K) as (_ & _ & _ & _ & Q). destruct (Forall2_at _ _ _ _ _ _ Q B C) as (_ & _ & _ & Z & _).
  destruct (Forall2_at _ _ _ _ _ _ Z J L) as [-> _]. rewrite (import_names e f H K). exact (load_any _ _ _ _ _ E).
Qed.
Hypothesis resolution_int : int_range resolution.
Lemma import_fixed (e f : engine f64) : writable e -> import (export e) = Ok f -> import (export f) = Ok f.
Proof.
  intros H K. assert (Q : printed f = Ok f) by (apply (printed_fixed d N e f H); now rewrite <- import_printed).
  rewrite import_printed; [exact Q|]. exact (imported_writable d resolution N resolution_int _ f K).
Qed.
Lemma import_settles text (e f : engine f64) : import text = Ok e -> import (export e) = Ok f -> import (export f) = Ok f.
Proof. intros H. apply import_fixed. exact (imported_writable d resolution N resolution_int text e H). Qed.
End Files.

(** ** engines for examples *)
#[local] Hint Extern 9 (Scalar _) => exact (F64Scalar fp_default) : typeclass_instances.
Notation q := f64_lit.
Definition lines (l : list string) : string := join l (char newline).
(** an outcome that satisfies a test *)
Definition passes {A} (test : A -> bool) (r : res A) : bool := match r with Ok a => test a | _ => false end.
Lemma passed {A} (test : A -> bool) (r : res A) : passes test r = true -> exists a, r = Ok a /\ test a = true.
Proof. destruct r; try discriminate. intro H. exists a. split; [reflexivity|exact H]. Qed.

(** a heater: a level in [0,1] controls a power in [-1,2.5] *)
Definition level : variable f64 := mkVariable "level" "how full" s_nan (q 0 1) (q 1 1) true false
  [mkTerm "low" (q 1 1) (TShape (Ramp (q 1 1) (q 0 1))); mkTerm "mid" (q 1 2) (TShape (Trapezoid (q 0 1) (q 1 3) (q 2 3) (q 1 1)));
   mkTerm "high" (q 1 1) (TDiscrete [(q 0 1, q 0 1); (q 1 1, q 1 1)])].
Definition power_terms : list (term f64) :=
  [mkTerm "off" (q 1 1) (TConstant (q 0 1)); mkTerm "some" (q 1 1) (TLinear [q 1 2; q 1 4] true); mkTerm "full" (q 1 1) (TShape (Triangle (q 1 2) (q 3 4) (q 1 1)))].
Definition power_var (terms : list (term f64)) : output f64 :=
  mkOutput (mkVariable "power" "" s_nan (f64_lit (-1) 1) (q 5 2) true true terms) [] None (Some (DWeighted WeightedAverage WAutomatic)) s_nan (q 1 8) true.
Definition rule_of (enabled : bool) (weight : f64) (text : string) (ins : list (variable f64)) (outs : list (output f64)) : rule f64 :=
  let r := fst (rule_load (engine_env ins outs) text (rule_new text s_1)) in
  mkRule enabled (rl_text r) weight (rl_degree r) (rl_triggered r) (rl_antecedent_text r) (rl_antecedent r) (rl_consequent_text r) (rl_consequent r).
Definition heater_rules (enabled : bool) (weight : f64) (outs : list (output f64)) : block f64 :=
  mkBlock true "rules" "" [rule_of enabled weight "if level is low or level is not mid then power is full with 0.5" [level] outs;
                           rule_of true (q 1 1) "if level is high then power is off" [level] outs] None (Some Maximum) (Some AlgebraicProduct) (Some (First 1 (q 1 4))).
Definition heater_with (name : string) (terms : list (term f64)) (enabled : bool) (weight : f64) : engine f64 :=
  mkEngine name "a heater" [level] [power_var terms] [heater_rules enabled weight [power_var terms]].
Definition heater : engine f64 := heater_with "heater" power_terms true (q 1 2).

Ltac good_text := split; reflexivity.
Ltac good_name := split; [discriminate|reflexivity].
Ltac good_terms := repeat (apply Forall_cons; [split; [good_name|exact I || good_text]|]); apply Forall_nil.
Lemma level_plain : plain_variable level.
Proof. split; [good_name|]. split; [good_text|good_terms]. Qed.
Lemma rules_plain enabled weight outs : plain_block (heater_rules enabled weight outs).
Proof.
  assert (E : forall en w t outs, rl_text (rule_of en w t [level] outs) = t) by (intros en w t o; unfold rule_of; cbn [rl_text]; apply load_text).
  unfold plain_block, heater_rules. cbn [b_rules b_name b_description b_activation]. split; [good_text|]. split; [good_text|]. split; [|unfold int_range; lia].
  apply Forall_cons; [rewrite E; good_text|]. apply Forall_cons; [rewrite E; good_text|constructor].
Qed.
Lemma heater_plain name terms enabled weight : plain_text name -> Forall plain_term terms -> plain_engine (heater_with name terms enabled weight).
Proof.
  intros H K. split; [exact H|]. split; [good_text|]. split; [exact (Forall_cons _ level_plain (Forall_nil _))|]. split.
  - apply Forall_cons; [|constructor]. split; [|exact I]. split; [good_name|]. split; [good_text|exact K].
  - exact (Forall_cons _ (rules_plain _ _ _) (Forall_nil _)).
Qed.
Lemma power_plain : Forall plain_term power_terms.
Proof. good_terms. Qed.

Definition lazy_heater : engine f64 := heater_with "heater" power_terms false (q 1 4).
Lemma rules_lost : exists e f : engine f64, plain_engine e /\ fll_import 100 (char newline) (fll_export 3 100 "  " (char newline) e) = Ok f /\
  existsb (fun b => existsb (fun r => negb (rl_enabled r)) (b_rules b)) (e_blocks e) = true /\
  forallb (fun b => forallb (fun r => rl_enabled r) (b_rules b)) (e_blocks f) = true /\
  forallb (fun p => forallb (fun p => negb (Beqb (rl_weight (fst p)) (rl_weight (snd p))) || String.eqb (rl_text (fst p)) "if level is high then power is off")
    (combine (b_rules (fst p)) (b_rules (snd p)))) (combine (e_blocks e) (e_blocks f)) = true.
Proof.
  exists lazy_heater.
  destruct (passed (fun f => forallb (fun b => forallb (fun r => rl_enabled r) (b_rules b)) (e_blocks f) &&
    forallb (fun p => forallb (fun p => negb (Beqb (rl_weight (fst p)) (rl_weight (snd p))) || String.eqb (rl_text (fst p)) "if level is high then power is off")
    (combine (b_rules (fst p)) (b_rules (snd p)))) (combine (e_blocks lazy_heater) (e_blocks f)))%bool (fll_import 100 (char newline) (fll_export 3 100 "  " (char newline) lazy_heater))) as (f & E & Q); [vm_compute; reflexivity|].
  apply andb_prop in Q. exists f. split; [apply heater_plain; [good_text|apply power_plain]|]. split; [exact E|]. split; [vm_compute; reflexivity|exact Q].
Qed.
Definition tall : engine f64 := heater_with "heater" [mkTerm "full" (q 10004 10000) (TShape (Triangle (q 1 2) (q 3 4) (q 1 1)))] true (q 1 1).
Lemma height_lost : exists e f : engine f64, plain_engine e /\ fll_import 100 (char newline) (fll_export 3 100 "  " (char newline) e) = Ok f /\
  fll_export 3 100 "  " (char newline) f <> fll_export 3 100 "  " (char newline) e.
Proof.
  exists tall. destruct (passed (fun f => negb (String.eqb (fll_export 3 100 "  " (char newline) f) (fll_export 3 100 "  " (char newline) tall)))
    (fll_import 100 (char newline) (fll_export 3 100 "  " (char newline) tall))) as (f & E & Q); [vm_compute; reflexivity|].
  exists f. split; [apply heater_plain; [good_text|good_terms]|]. split; [exact E|]. apply negb_true_iff in Q. now apply String.eqb_neq.
Qed.
Definition self_reference : engine f64 :=
  heater_with "heater" [mkTerm "full" (q 1 1) (TFunction {| fn_formula := "power + level"; fn_root := None; fn_vars := []; fn_engine := true |})] true (q 1 1).
Lemma formula_lost : exists e : engine f64, plain_engine e /\ (forall f, fll_import 100 (char newline) (fll_export 3 100 "  " (char newline) e) <> Ok f).
Proof.
  exists self_reference. split; [apply heater_plain; [good_text|good_terms]|]. intros f E.
  assert (Q : passes (fun _ => true) (fll_import 100 (char newline) (fll_export 3 100 "  " (char newline) self_reference)) = false) by (vm_compute; reflexivity). rewrite E in Q. discriminate Q.
Qed.
Definition injected : engine f64 := mkEngine (lines ["heater"; "InputVariable: b"]) "" [] [] [].
Lemma line_break : exists e f : engine f64, fll_import 100 (char newline) (fll_export 3 100 "  " (char newline) e) = Ok f /\ List.length (e_inputs f) <> List.length (e_inputs e).
Proof.
  exists injected. destruct (passed (fun f => Nat.eqb (List.length (e_inputs f)) 1) (fll_import 100 (char newline) (fll_export 3 100 "  " (char newline) injected))) as (f & E & Q); [vm_compute; reflexivity|].
  exists f. split; [exact E|]. apply Nat.eqb_eq in Q. rewrite Q. discriminate.
Qed.
Definition unnamed : engine f64 := mkEngine "" "" [mkVariable "x" "" s_nan (q 0 1) (q 1 1) true false [mkTerm "%" (q 1 1) (TShape (Ramp (q 0 1) (q 1 1)))]] [] [].
Lemma name_lost : exists e : engine f64, no_functions e /\ fll_import 100 (char newline) (fll_export 3 100 "  " (char newline) e) = Throw EFactory.
Proof. exists unnamed. split; [split; [apply Forall_cons; [apply Forall_cons; [exact I|]|]|]; apply Forall_nil|]. vm_compute. reflexivity. Qed.
Definition messy : engine f64 := mkEngine " mess # no comment" " " [mkVariable "%" "a # b" s_nan (q 0 1) (q 1 1) true false [mkTerm "a b" (q 1 3) (TShape (Ramp (q 0 1) (q 1 3)))]] [] [].
Lemma messy_case : writable messy /\ passes (fun f => negb (String.eqb (e_name f) (e_name messy)) && String.eqb (e_name f) "mess")
  (fll_import 100 (char newline) (fll_export 3 100 "  " (char newline) messy)) = true.
Proof. split; [|vm_compute; reflexivity]. split; [reflexivity|]. split; [reflexivity|]. split; [|split; constructor].
  apply Forall_cons; [|constructor]. split; [reflexivity|]. apply Forall_cons; [|constructor]. split; [discriminate|exact I]. Qed.

Definition heater_text : list string :=
  ["Engine: heater"; "description: a heater"; "InputVariable: level"; "  description: how full"; "  enabled: true"; "  range: 0.000 1.000"; "  lock-range: false";
   "  term: low Ramp 1.000 0.000"; "  term: mid Trapezoid 0.000 0.333 0.667 1.000 0.500"; "  term: high Discrete 0.000 0.000 1.000 1.000";
   "OutputVariable: power"; "  enabled: true"; "  range: -1.000 2.500"; "  lock-range: true"; "  aggregation: none"; "  defuzzifier: WeightedAverage";
   "  default: 0.125"; "  lock-previous: true"; "  term: off Constant 0.000"; "  term: some Linear 0.500 0.250"; "  term: full Triangle 0.500 0.750 1.000";
   "RuleBlock: rules"; "  enabled: true"; "  conjunction: none"; "  disjunction: Maximum"; "  implication: AlgebraicProduct"; "  activation: First 1 0.250";
   "  rule: if level is low or level is not mid then power is full with 0.5"; "  rule: if level is high then power is off"].
Ltac shown := repeat (apply Forall_cons; [exact I || (left; vm_compute; reflexivity) || (right; vm_compute; reflexivity)|]); apply Forall_nil.
Lemma heater_case : fine_tolerance fp_default 3 /\ blank "  " = true /\ one_line "  " /\ plain_engine heater /\ heights_shown 3 heater /\ no_functions heater /\
  fll_export 3 100 "  " (char newline) heater = lines heater_text.
Proof.
  split; [exact default_fine|]. split; [reflexivity|]. split; [reflexivity|]. split; [apply heater_plain; [good_text|apply power_plain]|].
  split; [split; (apply Forall_cons; [shown|apply Forall_nil])|]. split; [split; (apply Forall_cons; [shown|apply Forall_nil])|]. vm_compute. reflexivity.
Qed.
Lemma lines_case : rejected ["Engine: a"; "InputVariable: b"] "rule: if b is c then d is e" /\ rejected ["Engine: a"] "range: 0 1" /\ rejected [] "nothing" /\
  passes (fun _ => true) (fll_import 100 (char newline) (lines ["Engine: a"; "InputVariable: b"; "  range: 0 1"])) = true /\
  fll_import 100 (char newline) (lines ["Engine: a"; "InputVariable: b"; "rule: if b is c then d is e"; "  range: 0 1"]) = Throw EImport /\
  filter nonempty (map content (chop newline (lines ["Engine: a # the engine"; ""; "  "; "# InputVariable: b"; "  RuleBlock: c  "]))) = ["Engine: a"; "RuleBlock: c"].
Proof.
  assert (D : forall k l, existsb (String.eqb k) l = false -> ~ In k l).
  { intros k l E K. assert (X : existsb (String.eqb k) l = true) by (apply existsb_exists; exists k; split; [exact K|apply String.eqb_refl]). congruence. }
  repeat split; try discriminate; try (apply D; reflexivity); vm_compute; reflexivity.
Qed.
