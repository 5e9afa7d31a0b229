(** Facts about the Fuzzy Control Language, in the form of the property theorems; engines for examples. *)
From Coq Require Import ZArith String List Bool Ascii Reals Lia.
From Flocq Require Import IEEE754.BinarySingleNaN.
From Verif Require Import Base Op F64 F64Arith Norm Hedge Shape Discrete Defuzz Aggregated Text SpecText Function FunctionTable Rule Var Activation Engine Factory
  Fll SpecFll FllText FllLines FllExport FllRound FllRound2 FllFix FllF64 FllSame FllBundle TextProofs TextProofs2 Fis SpecFis FisBundle Fcl SpecFcl FclText FclRound FclRound2 FclRound3 FclRound4 FclSame.
Import ListNotations.
Local Open Scope string_scope.

(** ** numbers *)
Lemma fixed_numbers sign k n : lacks "." sign = true -> sforall numeral sign = true -> sforall numeral (sign ++ fixed_text k n) = true /\ dotted (sign ++ fixed_text k n).
Proof.
  intros L F. unfold fixed_text, nat_text. set (a := int_digits _ _). assert (A : sforall is_digit a = true) by apply int_digit_chars.
  assert (AN : sforall numeral a = true) by (eapply sforall_impl; [apply digit_numeral|exact A]). destruct (Nat.eqb_spec k 0) as [->|NK].
  - rewrite sapp_nil_r, sforall_app, F, AN. split; [reflexivity|]. left. now rewrite lacks_app, L, (digit_dotless a A).
  - set (b := frac_digits k _). assert (B : sforall is_digit b = true) by apply frac_digit_chars. assert (BN : sforall numeral b = true) by (eapply sforall_impl; [apply digit_numeral|exact B]).
    assert (NB : b <> "").
    { unfold b. destruct k as [|k]; [congruence|]. cbn [frac_digits]. destruct (frac_digits k _); discriminate. }
    split; [rewrite !sforall_app, F, AN; cbn [sforall append]; rewrite BN; reflexivity|]. destruct b as [|c b]; [congruence|]. right. exists (sign ++ a), c, b. rewrite sapp_assoc. split; [reflexivity|]. split; [now rewrite lacks_app, L, (digit_dotless a A)|]. now apply digit_dotless.
Qed.
Lemma numbers_f64 P d (x : f64) : sforall numeral (@str f64 (F64Scalar P) d x) = true /\ dotted (@str f64 (F64Scalar P) d x).
Proof.
  unfold str. destruct (isNaN x); [split; [reflexivity|left; reflexivity]|]. destruct (isInf x); [destruct (s_ltb x s_0); (split; [reflexivity|left; reflexivity])|].
  destruct (isEq_tol _ x s_0); [apply (fixed_numbers ""); reflexivity|]. destruct (s_ltb x s_0); apply fixed_numbers; reflexivity.
Qed.

Section Files.
Variable P : fparam.
Variable d : nat.
Variable resolution : Z.
Variables library indent : string.
Hypothesis fine : fine_tolerance P d.
Hypothesis indent_blank : blank indent = true.
Hypothesis indent_line : one_line indent.
Hypothesis library_line : one_line library.
Local Notation export := (@fcl_export f64 (F64Scalar P) d library indent).
Local Notation import := (@fcl_import f64 (F64Scalar P) resolution).
Local Notation printed := (@fcl_printed f64 (F64Scalar P) d resolution).
Let N : @printable f64 (F64Scalar P) d := fine_printable P d fine.

Lemma fcl_import_printed (e : engine f64) : clear_engine e -> import (export e) = printed e.
Proof. exact (fcl_round d resolution library indent N (numbers_f64 P d) indent_blank indent_line library_line e). Qed.
Lemma fcl_import_same (e f : engine f64) : tidy_engine e -> import (export e) = Ok f -> @same_configuration f64 (F64Scalar P) (number_kept P d) (@kept f64 (F64Scalar P) resolution e) f.
Proof. intros H. rewrite (fcl_import_printed e (proj1 H)). exact (kept_same d resolution (number_kept P d) e f (reread_kept P d) H). Qed.
Lemma fcl_import_succeeds (e : engine f64) : clear_engine e -> no_functions e -> exists f, import (export e) = Ok f.
Proof. intros H K. rewrite (fcl_import_printed e H). now apply kept_ok. Qed.
Lemma fcl_import_fixed (e f : engine f64) : clear_engine e -> clear_engine (@kept f64 (F64Scalar P) resolution e) -> import (export e) = Ok f -> import (export f) = Ok f.
Proof.
  intros H K. rewrite (fcl_import_printed e H). intro E. destruct (again d resolution N e f H K E) as (A & _ & B). now rewrite (fcl_import_printed f A).
Qed.
Lemma fcl_import_names (e f : engine f64) : tidy_engine e -> import (export e) = Ok f -> engine_env (e_inputs f) (e_outputs f) = engine_env (e_inputs e) (e_outputs e).
Proof.
  intros H K. destruct (fcl_import_same e f H K) as (_ & _ & I & O & _). unfold engine_env. cbn [kept e_inputs e_outputs] in I, O.
  assert (KN : forall v : variable f64, var_names (@kept_variable f64 (F64Scalar P) v) = var_names v).
  { intro v. unfold var_names. cbn [kept_variable v_name v_terms]. f_equal. rewrite map_map. apply map_ext. intro t. unfold kept_term. destruct (tm_body t); reflexivity. }
  assert (V : forall v w, @same_variable f64 (F64Scalar P) (number_kept P d) (@kept_variable f64 (F64Scalar P) v) w -> var_names w = var_names v).
  { intros v w (A & _ & _ & _ & _ & _ & B & _). rewrite <- (KN v). unfold var_names. rewrite A. f_equal. induction B as [|t u ts us [Q _] B IH]; [reflexivity|]. cbn [map]. now rewrite Q, IH. }
  f_equal.
  - clear - I V. revert I. generalize (e_inputs f). induction (e_inputs e) as [|v vs IH]; intros ws I; inversion_clear I as [|? ? ? ? H0 H1]; [reflexivity|]. cbn [map]. rewrite (V _ _ H0). f_equal. now apply IH.
  - clear - O V. revert O. generalize (e_outputs f). induction (e_outputs e) as [|v vs IH]; intros ws O; inversion_clear O as [|? ? ? ? H0 H1]; [reflexivity|]. destruct H0 as [Q _]. cbn [map]. rewrite (V _ _ Q). f_equal. now apply IH.
Qed.
Lemma fcl_import_rules (e f : engine f64) i j b c r s : tidy_engine e -> import (export e) = Ok f ->
  nth_error (e_blocks e) i = Some b -> nth_error (e_blocks f) i = Some c -> nth_error (b_rules b) j = Some r -> nth_error (b_rules c) j = Some s ->
  (exists r0, @rule_load f64 (F64Scalar P) (engine_env (e_inputs e) (e_outputs e)) (rl_text r) r0 = (r, Ok tt)) -> s = r.
Proof.
  intros H K B C J L (r0 & E). destruct (fcl_import_same e f H K) as (_ & _ & _ & _ & Q). cbn [kept e_blocks] in Q.
  assert (B' : nth_error (map (@kept_block f64) (e_blocks e)) i = Some (kept_block b)) by now apply map_nth_error.
  destruct (Forall2_at _ _ _ _ _ _ Q B' C) as (_ & _ & _ & Z & _). cbn [kept_block b_rules] in Z.
  destruct (Forall2_at _ _ _ _ _ _ Z J L) as [-> _]. rewrite (fcl_import_names e f H K). exact (load_any P _ _ _ _ _ E).
Qed.
End Files.

(** ** engines for examples *)
#[local] Hint Extern 9 (Scalar _) => exact (F64Scalar fp_default) : typeclass_instances.
Lemma clear_ok s : clearb s = true -> clear_text s.
Proof. intro H. apply clear_parts in H. destruct H as (A & B & C & D). split; [exact A|]. split; [exact B|]. split; [exact C|]. now apply slashed_occurs. Qed.
Ltac clear_all := repeat (apply Forall_cons; [split; [discriminate|exact I || (apply clear_ok; reflexivity) || discriminate]|]); apply Forall_nil.
Lemma heater_clear name terms enabled weight : clear_text name -> Forall clear_term terms -> clear_engine (heater_with name terms enabled weight).
Proof.
  intros H K. split; [exact H|]. split; [apply Forall_cons; [split; [discriminate|clear_all]|apply Forall_nil]|]. split; [apply Forall_cons; [split; [discriminate|exact K]|apply Forall_nil]|]. split.
  - apply Forall_cons; [|apply Forall_nil]. split; [apply clear_ok; reflexivity|]. split; [reflexivity|]. cbn [heater_rules b_rules].
    apply Forall_cons; [unfold rule_of; cbn [rl_text]; rewrite load_text; apply clear_ok; reflexivity|]. apply Forall_cons; [unfold rule_of; cbn [rl_text]; rewrite load_text; apply clear_ok; reflexivity|apply Forall_nil].
  - split; (apply NoDup_cons; [intros []|apply NoDup_nil]).
Qed.
Lemma heater_tidy name terms enabled weight : clear_text name -> Forall clear_term terms -> join (tokens name) " " = name -> Forall (fun t => plain_name (tm_name t)) terms -> tidy_engine (heater_with name terms enabled weight).
Proof.
  intros H K L M. split; [now apply heater_clear|]. split; [exact L|]. split; [apply Forall_cons; [|apply Forall_nil]; split; [good_name|]; repeat (apply Forall_cons; [good_name|]); apply Forall_nil|].
  split; [apply Forall_cons; [split; [good_name|exact M]|apply Forall_nil]|]. apply Forall_cons; [|apply Forall_nil]. cbn [heater_rules b_rules].
  apply Forall_cons; [unfold rule_of; cbn [rl_text]; rewrite load_text; reflexivity|]. apply Forall_cons; [unfold rule_of; cbn [rl_text]; rewrite load_text; reflexivity|apply Forall_nil].
Qed.
Lemma power_clear : Forall clear_term power_terms.
Proof. clear_all. Qed.
Lemma power_names : Forall (fun t => plain_name (tm_name t)) power_terms.
Proof. repeat (apply Forall_cons; [good_name|]). apply Forall_nil. Qed.
Definition heater_fcl : list string :=
  ["//Code automatically generated with fuzzylite 6.0."; ""; "FUNCTION_BLOCK my heater"; "";
   "VAR_INPUT"; "  level: REAL;"; "END_VAR"; ""; "VAR_OUTPUT"; "  power: REAL;"; "END_VAR"; "";
   "FUZZIFY level"; "  RANGE := (0.000 .. 1.000);"; "  TERM low := Ramp 1.000 0.000;"; "  TERM mid := Trapezoid 0.000 0.333 0.667 1.000 0.500;"; "  TERM high := (0.000, 0.000) (1.000, 1.000);"; "END_FUZZIFY"; "";
   "DEFUZZIFY power"; "  RANGE := (-1.000 .. 2.500);"; "  TERM off := 0.000;"; "  TERM some := Linear 0.500 0.250;"; "  TERM full := Triangle 0.500 0.750 1.000;"; "  METHOD : COGS;"; "  DEFAULT := 0.125 | NC;"; "END_DEFUZZIFY"; "";
   "RULEBLOCK rules"; "  OR : MAX;"; "  ACT : PROD;"; "  RULE 1 : if level is low or level is not mid then power is full with 0.5"; "  RULE 2 : if level is high then power is off"; "END_RULEBLOCK"; "";
   "END_FUNCTION_BLOCK"; ""].
Definition my_heater : engine f64 := heater_with "my heater" power_terms true (q 1 2).
Lemma heater_fcl_case : fine_tolerance fp_default 3 /\ blank "  " = true /\ one_line "  " /\ one_line "fuzzylite 6.0" /\ tidy_engine my_heater /\ clear_engine (kept 100 my_heater) /\ no_functions my_heater /\
  fcl_export 3 "fuzzylite 6.0" "  " my_heater = lines heater_fcl /\
  passes (fun f => String.eqb (e_name f) "my heater" && Nat.eqb (List.length (e_inputs f)) 1 && Nat.eqb (List.length (e_outputs f)) 1 && forallb (fun b => Nat.eqb (List.length (b_rules b)) 2) (e_blocks f))%bool
    (fcl_import 100 (lines heater_fcl)) = true.
Proof.
  split; [exact default_fine|]. split; [reflexivity|]. split; [reflexivity|]. split; [reflexivity|]. split; [apply heater_tidy; [apply clear_ok; reflexivity|apply power_clear|reflexivity|apply power_names]|].
  split.
  - split; [apply clear_ok; reflexivity|]. split; [apply Forall_cons; [split; [discriminate|clear_all]|apply Forall_nil]|]. split; [apply Forall_cons; [split; [discriminate|clear_all]|apply Forall_nil]|].
    destruct (heater_clear "my heater" power_terms true (q 1 2)) as (_ & _ & _ & B & Q); [apply clear_ok; reflexivity|apply power_clear|]. split; [|exact Q].
    inversion_clear B. apply Forall_cons; [assumption|apply Forall_nil].
  - split; [split; (apply Forall_cons; [shown|apply Forall_nil])|]. split; vm_compute; reflexivity.
Qed.

(** ** what is lost *)
Definition lost_engine : engine f64 :=
  mkEngine "fan" "a fan" [mkVariable "x" "" s_nan (q 0 1) (q 1 1) false true [mkTerm "a" (q 1 2) (TDiscrete [(q 0 1, q 0 1); (q 1 1, q 1 1)])]]
    [mkOutput (mkVariable "y" "" s_nan (q 0 1) (q 1 1) true true [mkTerm "b" (q 1 1) (TShape (Ramp (q 0 1) (q 1 1)))]) [] None (Some (DIntegral Centroid 500)) s_nan (q 0 1) false]
    [mkBlock false "rules" "" [] None None None (Some Proportional)].
Ltac one := apply Forall_cons; [|apply Forall_nil].
Lemma lost_tidy : tidy_engine lost_engine.
Proof.
  split; [|split; [reflexivity|split; [one; split; [good_name|one; good_name]|split; [one; split; [good_name|one; good_name]|one; apply Forall_nil]]]].
  split; [apply clear_ok; reflexivity|]. split; [one; split; [discriminate|clear_all]|]. split; [one; split; [discriminate|clear_all]|]. split; [one; split; [apply clear_ok; reflexivity|split; [reflexivity|apply Forall_nil]]|].
  split; (apply NoDup_cons; [intros []|apply NoDup_nil]).
Qed.
Lemma only_flags (l : list (bool * bool)) : match l with [(true, false)] => true | _ => false end = true -> l = [(true, false)].
Proof. destruct l as [|[[] []] []]; discriminate || reflexivity. Qed.
Lemma only_centroid (l : list (option defuzzifier)) : match l with [Some (DIntegral Centroid n)] => Z.eqb n 100 | _ => false end = true -> l = [Some (DIntegral Centroid 100)].
Proof. destruct l as [|[[[] n|]|] []]; try discriminate. intro H. apply Z.eqb_eq in H. now subst. Qed.
Lemma only_general (l : list (bool * option (activation f64))) : match l with [(true, Some General)] => true | _ => false end = true -> l = [(true, Some General)].
Proof. destruct l as [|[[] [[]|]] []]; discriminate || reflexivity. Qed.
Lemma settings_lost : exists e f : engine f64, tidy_engine e /\ fcl_import 100 (fcl_export 3 "fuzzylite" "  " e) = Ok f /\
  e_description f <> e_description e /\
  map (fun v => (v_enabled v, v_lock_range v)) (e_inputs e) = [(false, true)] /\ map (fun v => (v_enabled v, v_lock_range v)) (e_inputs f) = [(true, false)] /\
  map (fun o => o_defuzzifier o) (e_outputs e) = [Some (DIntegral Centroid 500)] /\ map (fun o => o_defuzzifier o) (e_outputs f) = [Some (DIntegral Centroid 100)] /\
  map (fun b => (b_enabled b, b_activation b)) (e_blocks e) = [(false, Some Proportional)] /\ map (fun b => (b_enabled b, b_activation b)) (e_blocks f) = [(true, Some General)] /\
  existsb (fun v => existsb (fun t => Beqb (tm_height t) (q 1 2)) (v_terms v)) (e_inputs e) = true /\ forallb (fun v => forallb (fun t => Beqb (tm_height t) (q 1 1)) (v_terms v)) (e_inputs f) = true.
Proof.
  exists lost_engine. destruct (passed (fun f => String.eqb (e_description f) "" && match map (fun v => (v_enabled v, v_lock_range v)) (e_inputs f) with [(true, false)] => true | _ => false end &&
    match map (fun o => o_defuzzifier o) (e_outputs f) with [Some (DIntegral Centroid n)] => Z.eqb n 100 | _ => false end &&
    match map (fun b => (b_enabled b, b_activation b)) (e_blocks f) with [(true, Some General)] => true | _ => false end &&
    forallb (fun v => forallb (fun t => Beqb (tm_height t) (q 1 1)) (v_terms v)) (e_inputs f))%bool (fcl_import 100 (fcl_export 3 "fuzzylite" "  " lost_engine))) as (f & E & Q); [vm_compute; reflexivity|].
  rewrite !andb_true_iff in Q. destruct Q as ((((Q1 & Q2) & Q3) & Q4) & Q5). exists f. split; [exact lost_tidy|]. split; [exact E|]. split; [intro X; apply String.eqb_eq in Q1; assert (Y := eq_trans (eq_sym X) Q1); discriminate Y|]. split; [reflexivity|].
  split; [exact (only_flags _ Q2)|]. split; [reflexivity|]. split; [exact (only_centroid _ Q3)|]. split; [reflexivity|]. split; [exact (only_general _ Q4)|]. split; [vm_compute; reflexivity|exact Q5].
Qed.
(** an empty discrete term cannot be imported *)
Definition empty_discrete : engine f64 := mkEngine "fan" "" [mkVariable "x" "" s_nan (q 0 1) (q 1 1) true false [mkTerm "a" (q 1 1) (TDiscrete [])]] [] [].
Lemma discrete_lost : exists e : engine f64, no_functions e /\ fcl_import 100 (fcl_export 3 "fuzzylite" "  " e) = Throw ESyntax.
Proof. exists empty_discrete. split; [split; [one; one; exact I|apply Forall_nil]|]. vm_compute. reflexivity. Qed.
(** the name of a block is cut to its last word *)
Definition two_words : engine f64 := mkEngine "fan" "" [] [] [mkBlock true "my rules" "" [] None None None (Some General)].
Lemma only_rules (l : list string) : match l with [n] => String.eqb n "rules" | _ => false end = true -> l = ["rules"].
Proof. destruct l as [|n []]; try discriminate. intro H. apply String.eqb_eq in H. now subst. Qed.
Lemma block_name_lost : exists e f : engine f64, fcl_import 100 (fcl_export 3 "fuzzylite" "  " e) = Ok f /\ map (@b_name f64) (e_blocks e) = ["my rules"] /\ map (@b_name f64) (e_blocks f) = ["rules"].
Proof.
  exists two_words. destruct (passed (fun f => match map (@b_name f64) (e_blocks f) with [n] => String.eqb n "rules" | _ => false end) (fcl_import 100 (fcl_export 3 "fuzzylite" "  " two_words))) as (f & E & Q); [vm_compute; reflexivity|].
  exists f. split; [exact E|]. split; [reflexivity|]. exact (only_rules _ Q).
Qed.
(** a formula with an operator that is a word cannot be imported although it can be used *)
Definition worded : engine f64 := mkEngine "fan" "" [mkVariable "x" "" s_nan (q 0 1) (q 1 1) true false
  [mkTerm "a" (q 1 1) (TFunction {| fn_formula := "x and 1"; fn_root := None; fn_vars := []; fn_engine := true |})]] [] [].
Lemma words_lost : exists e : engine f64, clear_engine e /\ passes (fun _ => true) (loaded_function (declared e) "x and 1") = true /\ (forall f, fcl_import 100 (fcl_export 3 "fuzzylite" "  " e) <> Ok f).
Proof.
  exists worded. split; [|split; [vm_compute; reflexivity|]].
  - split; [apply clear_ok; reflexivity|]. split; [one; split; [discriminate|clear_all]|]. split; [apply Forall_nil|]. split; [apply Forall_nil|]. split; [apply NoDup_cons; [intros []|apply NoDup_nil]|apply NoDup_nil].
  - intros f E. assert (Q : passes (fun _ => true) (fcl_import 100 (fcl_export 3 "fuzzylite" "  " worded)) = false) by (vm_compute; reflexivity). rewrite E in Q. discriminate Q.
Qed.
(** a formula whose blanks kept two slashes apart is imported once but not twice *)
Definition slashes : engine f64 := mkEngine "fan" "" [mkVariable "x" "" s_nan (q 0 1) (q 1 1) true false
  [mkTerm "a" (q 1 1) (TFunction {| fn_formula := "(x) (2) / / 4"; fn_root := None; fn_vars := []; fn_engine := true |})]] [] [].
Lemma slashes_lost : exists e f : engine f64, clear_engine e /\ fcl_import 100 (fcl_export 3 "fuzzylite" "  " e) = Ok f /\ (forall g, fcl_import 100 (fcl_export 3 "fuzzylite" "  " f) <> Ok g).
Proof.
  exists slashes. destruct (passed (fun f => negb (passes (fun _ => true) (fcl_import 100 (fcl_export 3 "fuzzylite" "  " f)))) (fcl_import 100 (fcl_export 3 "fuzzylite" "  " slashes))) as (f & E & Q); [vm_compute; reflexivity|].
  exists f. split; [|split; [exact E|]].
  - split; [apply clear_ok; reflexivity|]. split; [one; split; [discriminate|clear_all]|]. split; [apply Forall_nil|]. split; [apply Forall_nil|]. split; [apply NoDup_cons; [intros []|apply NoDup_nil]|apply NoDup_nil].
  - intros g G. rewrite G in Q. discriminate Q.
Qed.
