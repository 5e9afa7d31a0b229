(** C76: engines in the Fuzzy Inference System format. *)
From Coq Require Import ZArith String List Bool Ascii Reals.
From Flocq Require Import IEEE754.BinarySingleNaN.
From Verif Require Import Base Op F64 F64Arith Norm Shape Discrete Defuzz Aggregated Text Function Rule Var Activation Engine Factory
  Fll SpecFll FllBundle Fis SpecFis FisBundle SpecFcl SpecFis2 Fis2Bundle FisCases.
Import ListNotations.
Local Open Scope string_scope.
#[local] Hint Extern 9 (Scalar _) => exact (F64Scalar fis_params) : typeclass_instances.
Local Notation exported P d library version := (@fis_export f64 (F64Scalar P) d library version).
Local Notation imported P d resolution := (@fis_import f64 (F64Scalar P) d resolution).

(** an engine that the format can express is exported *)
Theorem C76_exports : forall P d library version e, fine_tolerance P d -> fis_settings P d -> one_line library -> plain_name version -> fis_engine e ->
  exists text, exported P d library version e = Ok text.
Proof. intros P d library version e F S L V. exact (fis_export_succeeds P d 100 library version F S L V e). Qed.
Print Assumptions C76_exports.
(** what is imported from it has the same variables, terms, operators and rules, up to the number of decimals; and the same names *)
Theorem C76_same_configuration : forall P d resolution library version e f text, fine_tolerance P d -> fis_settings P d -> one_line library -> plain_name version -> fis_engine e ->
  exported P d library version e = Ok text -> imported P d resolution text = Ok f ->
  @fis_same f64 (F64Scalar P) resolution (number_kept P d) e f /\ engine_env (e_inputs f) (e_outputs f) = engine_env (e_inputs e) (e_outputs e).
Proof. intros P d resolution library version e f text F S L V. exact (fis_import_same P d resolution library version F S L V e f text). Qed.
Print Assumptions C76_same_configuration.
(** without formulas, the import succeeds *)
Theorem C76_succeeds : forall P d resolution library version e text, fine_tolerance P d -> fis_settings P d -> one_line library -> plain_name version -> fis_engine e -> no_functions e ->
  exported P d library version e = Ok text -> exists f, imported P d resolution text = Ok f.
Proof. intros P d resolution library version e text F S L V. exact (fis_import_succeeds P d resolution library version F S L V e text). Qed.
Print Assumptions C76_succeeds.
(** an engine that was imported can be exported and imported any number of times without further change *)
Theorem C76_fixed_point : forall P d resolution library version e f text, fine_tolerance P d -> fis_settings P d -> one_line library -> plain_name version -> fis_engine e ->
  Forall (fun v => Forall (fun t => fis_term_ok (@fis_kept_term f64 (F64Scalar P) t)) (v_terms v)) (e_inputs e) ->
  Forall (fun o => Forall (fun t => fis_term_ok (@fis_kept_term f64 (F64Scalar P) t)) (v_terms (o_var o))) (e_outputs e) ->
  exported P d library version e = Ok text -> imported P d resolution text = Ok f ->
  fis_engine f /\ exists text2, exported P d library version f = Ok text2 /\ imported P d resolution text2 = Ok f.
Proof. intros P d resolution library version e f text F S L V. exact (fis_again P d resolution library version F S L V e f text). Qed.
Print Assumptions C76_fixed_point.
(** heights of terms, default values, lock-previous and the operators of further blocks are lost *)
Theorem C76_settings_refuted : exists (e f : engine f64) text, fis_engine e /\ exported fis_params 3 "fuzzylite" "6.0" e = Ok text /\ imported fis_params 3 100 text = Ok f /\
  map (@b_conjunction f64) (e_blocks e) = [Some Minimum; Some EinsteinProduct] /\ map (@b_conjunction f64) (e_blocks f) = [Some Minimum] /\
  map (@o_lock_previous f64) (e_outputs e) = [true; false] /\ map (@o_lock_previous f64) (e_outputs f) = [false; false] /\
  existsb (fun o => Beqb (o_default o) (f64_lit 1 8)) (e_outputs e) = true /\ forallb (fun o => is_nan (o_default o)) (e_outputs f) = true /\
  existsb (fun v => existsb (fun t => Beqb (tm_height t) (f64_lit 1 2)) (v_terms v)) (e_inputs e) = true /\
  forallb (fun v => forallb (fun t => Beqb (tm_height t) (f64_lit 1 1)) (v_terms v)) (e_inputs f) = true.
Proof. exact fis_settings_lost. Qed.
Print Assumptions C76_settings_refuted.
(** a discrete term without points is exported to a text that cannot be imported *)
Theorem C76_empty_refuted : exists text, exported fis_params 3 "fuzzylite" "6.0" (with_term (TDiscrete [])) = Ok text /\ forall f, imported fis_params 3 100 text <> Ok f.
Proof. exact fis_empty_lost. Qed.
Print Assumptions C76_empty_refuted.
(** so is a valid formula with a comma *)
Theorem C76_comma_refuted : passes (fun _ => true) (loaded_function (declared (with_term comma_term)) "max(x, 0.5)") = true /\
  exists text, exported fis_params 3 "fuzzylite" "6.0" (with_term comma_term) = Ok text /\ forall f, imported fis_params 3 100 text <> Ok f.
Proof. exact fis_comma_lost. Qed.
Print Assumptions C76_comma_refuted.
Example C76_case : fine_tolerance fis_params 3 /\ fis_settings fis_params 3 /\ one_line "fuzzylite 6.0" /\ plain_name "6.0" /\ fis_engine cooler /\ no_functions cooler /\
  Forall (fun v => Forall (fun t => fis_term_ok (fis_kept_term t)) (v_terms v)) (e_inputs cooler) /\ Forall (fun o => Forall (fun t => fis_term_ok (fis_kept_term t)) (v_terms (o_var o))) (e_outputs cooler) /\
  exported fis_params 3 "fuzzylite 6.0" "6.0" cooler = Ok (lines cooler_fis) /\
  passes (fun f => String.eqb (e_name f) "my cooler" && match e_blocks f with [b] => match b_conjunction b, b_implication b, b_rules b with Some HamacherProduct, Some AlgebraicProduct, [r; s] =>
      match rl_antecedent r, rl_consequent r with Some (Opr "and" (Prp p) (Prp q)), [c1; c2] => varref_eqb (pr_var p) (VIn 0) && varref_eqb (pr_var q) (VIn 1) && varref_eqb (pr_var c1) (VOut 0) && varref_eqb (pr_var c2) (VOut 1) | _, _ => false end &&
      Beqb (rl_weight r) (f64_lit 1 4) && Beqb (rl_weight s) (f64_lit 1 1)
    | _, _, _ => false end | _ => false end)%bool (imported fis_params 3 100 (lines cooler_fis)) = true.
Proof. exact cooler_case. Qed.
Example C76_formula_case : fis_formula "(x * 2) + 1" /\ passes (fun f => match e_inputs f with [v] => match v_terms v with [t] => match tm_body t with TFunction g => String.eqb (fn_formula g) "(x*2)+1" | _ => false end | _ => false end | _ => false end)
  (trip (with_term (TFunction {| fn_formula := "(x * 2) + 1"; fn_root := None; fn_vars := []; fn_engine := true |}))) = true.
Proof. exact fis_formula_kept. Qed.
