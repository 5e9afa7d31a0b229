(** Engines in the Fuzzy Inference System format: examples, and what is lost. *)
From Coq Require Import ZArith String List Bool Ascii Reals Lia Permutation Sorting.Sorted.
From Flocq Require Import IEEE754.BinarySingleNaN.
From Verif Require Import Base Op F64 F64Arith Norm Hedge Shape Discrete Defuzz Aggregated Text SpecText Function FunctionTable Rule Var Activation Engine Factory SpecRule
  TextProofs Fll SpecFll FllText FllF64 FllSame FllBundle Fis SpecFis FisRule FisBundle Fcl SpecFcl FclBundle SpecFis2 Fis2Bundle.
Import ListNotations.
Local Open Scope string_scope.
#[local] Hint Extern 9 (Scalar _) => exact (F64Scalar fis_params) : typeclass_instances.

(** a cooler with the names of the fan: two blocks, rules with other orders than the variables, terms of many kinds *)
Definition n (x : Z) (y : positive) : f64 := f64_lit x y.
Definition cooler_heat (height : f64) : variable f64 := mkVariable "heat" "" s_nan (n 0 1) (n 1 1) true false
  [mkTerm "low" height (TShape (Bell (n 1 8) (n 1 4) (n 3 1))); mkTerm "high" (n 1 1) (TDiscrete [(n 0 1, n 0 1); (n 1 1, n 1 1)])].
Definition cooler_damp : variable f64 := mkVariable "damp" "" s_nan (n (-1) 1) (n 1 1) true false
  [mkTerm "low" (n 1 1) (TShape (SigmoidDifference (n 1 4) (n 8 1) (n 16 1) (n 3 4))); mkTerm "high" (n 1 1) (TShape (Gaussian (n 1 2) (n 1 8)))].
Definition cooler_output (name : string) (default : f64) (lock : bool) : output f64 := mkOutput (mkVariable name "" s_nan (n 0 1) (n 1 1) true false
  [mkTerm "off" (n 1 1) (TConstant (n 0 1)); mkTerm "half" (n 1 1) (TLinear [n 1 2; n (-1) 4] true); mkTerm "full" (n 1 1) (TShape (Triangle (n 1 2) (n 3 4) (n 1 1)))])
  [] None (Some (DWeighted WeightedAverage WAutomatic)) s_nan default lock.
Definition cooler_rule : rule f64 := fan_rule (n 1 4) (Opr "and" (Prp p_damp) (Prp p_heat)) [p_swing; p_speed].
Definition cooler_with (height default : f64) (lock : bool) (first second : option tnorm) : engine f64 :=
  mkEngine "my cooler" "" [cooler_heat height; cooler_damp] [cooler_output "speed" default lock; cooler_output "swing" s_nan false]
    [mkBlock true "first" "" [cooler_rule] first None (Some AlgebraicProduct) (Some General);
     mkBlock true "second" "" [mkRule true "if" (n 1 1) (n 0 1) false "" None "" []; fan_rule (n 1 1) (Prp p_heat) [p_speed]] second None None (Some General)].
Definition cooler : engine f64 := cooler_with (n 1 1) s_nan false None (Some HamacherProduct).
Definition cooler_fis : list string :=
  ["#Code automatically generated with fuzzylite 6.0."; ""; "[System]"; "Name='my cooler'"; "Type='inverse tsukamoto'"; "Version=6.0"; "NumInputs=2"; "NumOutputs=2"; "NumRules=3";
   "AndMethod='hamacher_product'"; "OrMethod='max'"; "ImpMethod='prod'"; "AggMethod='max'"; "DefuzzMethod='wtaver'"; "";
   "[Input1]"; "Name='heat'"; "Range=[0.000 1.000]"; "NumMFs=2"; "MF1='low':'gbellmf',[0.250 3.000 0.125]"; "MF2='high':'discretemf',[0.000 0.000 1.000 1.000]"; "";
   "[Input2]"; "Name='damp'"; "Range=[-1.000 1.000]"; "NumMFs=2"; "MF1='low':'dsigmf',[8.000 0.250 16.000 0.750]"; "MF2='high':'gaussmf',[0.125 0.500]"; "";
   "[Output1]"; "Name='speed'"; "Range=[0.000 1.000]"; "NumMFs=3"; "MF1='off':'constant',[0.000]"; "MF2='half':'linear',[0.500 -0.250]"; "MF3='full':'trimf',[0.500 0.750 1.000]"; "";
   "[Output2]"; "Name='swing'"; "Range=[0.000 1.000]"; "NumMFs=3"; "MF1='off':'constant',[0.000]"; "MF2='half':'linear',[0.500 -0.250]"; "MF3='full':'trimf',[0.500 0.750 1.000]"; "";
   "[Rules]"; "# RuleBlock first"; "-1.400 2.050 , 3.000 -2.000 (0.250) : 1"; "# RuleBlock second"; "-1.400 0.000 , 3.000 0.000 (1.000) : 1"; ""].
Lemma first_rule_ok : fis_expressible fan_env "and" (Opr "and" (Prp p_damp) (Prp p_heat)) [p_swing; p_speed].
Proof.
  split.
  - left; reflexivity.
  - repeat split.
  - split; [repeat (constructor; [cbn; intuition discriminate|]); constructor|]. repeat (apply Forall_cons; [eexists; split; [reflexivity|cbn; lia]|]). apply Forall_nil.
  - repeat apply Forall_cons; try apply Forall_nil.
    + split; [exists false, 5%Z; split; [repeat constructor|cbn; lia]|]. cbn. intuition discriminate.
    + split; [exists true, 40%Z; split; [repeat constructor|cbn; lia]|]. cbn. intuition discriminate.
  - split; [repeat (constructor; [cbn; intuition discriminate|]); constructor|]. repeat (apply Forall_cons; [eexists; split; [reflexivity|cbn; lia]|]). apply Forall_nil.
  - repeat apply Forall_cons; try apply Forall_nil; (split; [|discriminate]).
    + exists true, 0%Z. split; [repeat constructor|cbn; lia].
    + exists false, 0%Z. split; [repeat constructor|cbn; lia].
  - discriminate.
Qed.
Lemma second_rule_ok : fis_expressible fan_env "and" (Prp p_heat) [p_speed].
Proof.
  split.
  - left; reflexivity.
  - exact I.
  - split; [repeat (constructor; [cbn; intuition discriminate|]); constructor|]. repeat (apply Forall_cons; [eexists; split; [reflexivity|cbn; lia]|]). apply Forall_nil.
  - apply Forall_cons; [|apply Forall_nil]. split; [exists true, 40%Z; split; [repeat constructor|cbn; lia]|]. cbn. intuition discriminate.
  - split; [repeat (constructor; [cbn; intuition discriminate|]); constructor|]. repeat (apply Forall_cons; [eexists; split; [reflexivity|cbn; lia]|]). apply Forall_nil.
  - apply Forall_cons; [|apply Forall_nil]. split; [|discriminate]. exists false, 0%Z. split; [repeat constructor|cbn; lia].
  - discriminate.
Qed.
Definition textb (s : string) : bool := (lacks newline s && lacks "#" s && lacks "'" s && lacks "=" s && match find_sub "//" s with None => true | Some _ => false end)%bool.
Lemma text_ok s : textb s = true -> fis_text s.
Proof.
  unfold textb. rewrite !andb_true_iff. intros ((((A & B) & C) & D) & E). repeat (split; [assumption|]). split; [|split; assumption]. apply find_sub_none. now destruct (find_sub "//" s).
Qed.
Ltac terms_ok := repeat (apply Forall_cons; [repeat (apply Forall_cons; [exact I || discriminate|]); apply Forall_nil|]); apply Forall_nil.
Lemma cooler_ok height default lock first second : fis_engine (cooler_with height default lock first second).
Proof.
  split.
  - split; [apply text_ok; reflexivity|reflexivity].
  - exact fan_names.
  - terms_ok.
  - terms_ok.
  - repeat (apply Forall_cons; [reflexivity|]). apply Forall_nil.
  - apply Forall_cons; [exists "and"; eexists; split; [reflexivity|exact first_rule_ok]|]. apply Forall_cons; [exists "and"; eexists; split; [reflexivity|exact second_rule_ok]|]. apply Forall_nil.
Qed.
Lemma cooler_again : Forall (fun v => Forall (fun t => fis_term_ok (fis_kept_term t)) (v_terms v)) (e_inputs cooler) /\ Forall (fun o => Forall (fun t => fis_term_ok (fis_kept_term t)) (v_terms (o_var o))) (e_outputs cooler).
Proof. split; terms_ok. Qed.
Lemma cooler_plain : no_functions cooler.
Proof. split; repeat (apply Forall_cons; [repeat (apply Forall_cons; [exact I|]); apply Forall_nil|]); apply Forall_nil. Qed.
Lemma cooler_case : fine_tolerance fis_params 3 /\ fis_settings fis_params 3 /\ one_line "fuzzylite 6.0" /\ plain_name "6.0" /\ fis_engine cooler /\ no_functions cooler /\
  Forall (fun v => Forall (fun t => fis_term_ok (fis_kept_term t)) (v_terms v)) (e_inputs cooler) /\ Forall (fun o => Forall (fun t => fis_term_ok (fis_kept_term t)) (v_terms (o_var o))) (e_outputs cooler) /\
  fis_export 3 "fuzzylite 6.0" "6.0" cooler = Ok (lines cooler_fis) /\
  passes (fun f => String.eqb (e_name f) "my cooler" && match e_blocks f with [b] => match b_conjunction b, b_implication b, b_rules b with Some HamacherProduct, Some AlgebraicProduct, [r; s] =>
      match rl_antecedent r, rl_consequent r with Some (Opr "and" (Prp p) (Prp q)), [c1; c2] => varref_eqb (pr_var p) (VIn 0) && varref_eqb (pr_var q) (VIn 1) && varref_eqb (pr_var c1) (VOut 0) && varref_eqb (pr_var c2) (VOut 1) | _, _ => false end &&
      Beqb (rl_weight r) (n 1 4) && Beqb (rl_weight s) (n 1 1)
    | _, _, _ => false end | _ => false end)%bool (fis_import 3 100 (lines cooler_fis)) = true.
Proof.
  split; [exact default_fine|]. split; [apply params_settings; lia|]. split; [reflexivity|]. split; [split; [discriminate|reflexivity]|]. split; [apply cooler_ok|]. split; [exact cooler_plain|]. split; [exact (proj1 cooler_again)|]. split; [exact (proj2 cooler_again)|].
  split; vm_compute; reflexivity.
Qed.

(** ** what is lost *)
Definition other_cooler : engine f64 := cooler_with (n 1 2) (n 1 8) true (Some Minimum) (Some EinsteinProduct).
Definition conjunctions (e : engine f64) : list (option tnorm) := map (@b_conjunction f64) (e_blocks e).
Lemma only_minimum (l : list (option tnorm)) : match l with [Some Minimum] => true | _ => false end = true -> l = [Some Minimum].
Proof. destruct l as [|[[]|] []]; discriminate || reflexivity. Qed.
Lemma only_unlocked (l : list bool) : match l with [false; false] => true | _ => false end = true -> l = [false; false].
Proof. destruct l as [|[] [|[] []]]; discriminate || reflexivity. Qed.
Lemma fis_settings_lost : exists (e f : engine f64) text, fis_engine e /\ fis_export 3 "fuzzylite" "6.0" e = Ok text /\ fis_import 3 100 text = Ok f /\
  conjunctions e = [Some Minimum; Some EinsteinProduct] /\ conjunctions f = [Some Minimum] /\
  map (@o_lock_previous f64) (e_outputs e) = [true; false] /\ map (@o_lock_previous f64) (e_outputs f) = [false; false] /\
  existsb (fun o => Beqb (o_default o) (n 1 8)) (e_outputs e) = true /\ forallb (fun o => is_nan (o_default o)) (e_outputs f) = true /\
  existsb (fun v => existsb (fun t => Beqb (tm_height t) (n 1 2)) (v_terms v)) (e_inputs e) = true /\ forallb (fun v => forallb (fun t => Beqb (tm_height t) (n 1 1)) (v_terms v)) (e_inputs f) = true.
Proof.
  exists other_cooler. destruct (passed (fun f => match conjunctions f with [Some Minimum] => true | _ => false end && match map (@o_lock_previous f64) (e_outputs f) with [false; false] => true | _ => false end &&
    forallb (fun o => is_nan (o_default o)) (e_outputs f) && forallb (fun v => forallb (fun t => Beqb (tm_height t) (n 1 1)) (v_terms v)) (e_inputs f))%bool
    (do text <- fis_export 3 "fuzzylite" "6.0" other_cooler; fis_import 3 100 text)) as (f & E & Q); [vm_compute; reflexivity|]. exists f.
  destruct (fis_export 3 "fuzzylite" "6.0" other_cooler) as [text|x| |] eqn:X; try discriminate E. exists text. rewrite !andb_true_iff in Q. destruct Q as (((Q1 & Q2) & Q3) & Q4).
  split; [apply cooler_ok|]. split; [reflexivity|]. split; [exact E|]. split; [reflexivity|]. split; [exact (only_minimum _ Q1)|]. split; [reflexivity|]. split; [exact (only_unlocked _ Q2)|]. split; [vm_compute; reflexivity|]. split; [exact Q3|]. split; [vm_compute; reflexivity|exact Q4].
Qed.
(** terms without parameters are written, but cannot be read *)
Definition with_term (b : tbody f64) : engine f64 := mkEngine "fan" "" [mkVariable "x" "" s_nan (n 0 1) (n 1 1) true false [mkTerm "a" (n 1 1) b]] [] [].
Definition trip (e : engine f64) : res (engine f64) := do text <- fis_export 3 "fuzzylite" "6.0" e; fis_import 3 100 text.
Lemma fis_empty_lost : exists text, fis_export 3 "fuzzylite" "6.0" (with_term (TDiscrete [])) = Ok text /\ forall f, fis_import 3 100 text <> Ok f.
Proof.
  destruct (passed (fun text => negb (passes (fun _ => true) (fis_import 3 100 text))) (fis_export 3 "fuzzylite" "6.0" (with_term (TDiscrete [])))) as (text & E & Q); [vm_compute; reflexivity|].
  exists text. split; [exact E|]. intros f G. rewrite G in Q. discriminate Q.
Qed.
(** so are formulas with commas, though they are valid *)
Definition comma : string := "max(x, 0.5)".
Definition comma_term : tbody f64 := TFunction {| fn_formula := comma; fn_root := None; fn_vars := []; fn_engine := true |}.
Lemma fis_comma_lost : passes (fun _ => true) (loaded_function (declared (with_term comma_term)) comma) = true /\ exists text, fis_export 3 "fuzzylite" "6.0" (with_term comma_term) = Ok text /\ forall f, fis_import 3 100 text <> Ok f.
Proof.
  split; [vm_compute; reflexivity|]. destruct (passed (fun text => negb (passes (fun _ => true) (fis_import 3 100 text))) (fis_export 3 "fuzzylite" "6.0" (with_term comma_term))) as (text & E & Q); [vm_compute; reflexivity|].
  exists text. split; [exact E|]. intros f G. rewrite G in Q. discriminate Q.
Qed.
(** a formula without commas is kept *)
Lemma fis_formula_kept : fis_formula "(x * 2) + 1" /\ passes (fun f => match e_inputs f with [v] => match v_terms v with [t] => match tm_body t with TFunction g => String.eqb (fn_formula g) "(x*2)+1" | _ => false end | _ => false end | _ => false end)
  (trip (with_term (TFunction {| fn_formula := "(x * 2) + 1"; fn_root := None; fn_vars := []; fn_engine := true |}))) = true.
Proof. split; [split; [apply text_ok; reflexivity|repeat split; discriminate]|vm_compute; reflexivity]. Qed.
