(** C46-C54: engines. *)
From Coq Require Import ZArith String List Bool Permutation Reals Lra.
From Flocq Require Import IEEE754.BinarySingleNaN.
From Verif Require Import Base Op XR F64 F64Arith Norm Shape Discrete Defuzz Aggregated Function FunctionTable Rule Var Activation Engine
  SpecText SpecRule SpecVar SpecActivation SpecEngine ActivationProofs3 VarProofs EngineProofs EngineProofs2 EngineProofs3 EngineReady EngineProofs4 EngineBundle.
Import ListNotations.
Local Open Scope string_scope.
#[local] Hint Extern 9 (Scalar _) => exact (F64Scalar fp_default) : typeclass_instances.

(** * C46 *)
Theorem C46_history : forall T (S : Scalar T) drain (a b : engine T), same_engine a b -> input_values a = input_values b -> ignores_outputs a ->
  let x := process drain a in let y := process drain b in
  snd y = snd x /\ Forall2 (agrees (snd x)) (e_outputs (fst x)) (e_outputs (fst y)) /\
  (snd x = Ok tt -> Forall2 (fun c d => b_enabled c = true -> b_rules d = b_rules c) (e_blocks (fst x)) (e_blocks (fst y))).
Proof. exact @history. Qed.
Print Assumptions C46_history.
(** whatever was done before: the hypothesis on the configuration always holds *)
Theorem C46_run_same : forall T (S : Scalar T) drain cs (e : engine T), same_engine e (run drain cs e).
Proof. exact @run_same. Qed.
Print Assumptions C46_run_same.
Definition with_output (o : output f64) (e : engine f64) : engine f64 := mkEngine (e_name e) (e_description e) (e_inputs e) [o] (e_blocks e).
(** an output which locks its previous value depends on it *)
Definition remembers (p : f64) : output f64 :=
  mkOutput (mkVariable "y" "" s_nan (f64_lit 0 1) (f64_lit 1 1) true true y_terms) [] (Some Maximum) (Some (DIntegral Centroid 4)) p s_nan true.
Definition idle (o : output f64) : engine f64 := mkEngine "idle" "" [x_var] [o] [].
Theorem C46_lock_previous_refuted : exists a b : engine f64, same_engine a b /\ input_values a = input_values b /\ ignores_outputs a /\
  all_equal (values (processed a)) [f64_lit 1 4] = true /\ all_equal (values (processed b)) [f64_lit 3 4] = true.
Proof.
  exists (idle (remembers (f64_lit 1 4))), (idle (remembers (f64_lit 3 4))).
  split; [repeat split; repeat constructor|]. split; [reflexivity|]. split; [apply no_formula; reflexivity|vm_compute; auto].
Qed.
Print Assumptions C46_lock_previous_refuted.
(** a formula which reads the output depends on its value *)
Definition echo : fstate f64 := {| fn_formula := "y"; fn_root := Some (Node None None None "y" s_nan); fn_vars := []; fn_engine := true |}.
Definition echo_output (value : f64) : output f64 :=
  mkOutput (mkVariable "y" "" value (f64_lit 0 1) (f64_lit 1 1) true true [mkTerm "same" (f64_lit 1 1) (TFunction echo)]) [] None
    (Some (DWeighted WeightedAverage WTakagiSugeno)) s_nan s_nan false.
Definition echo_engine (value : f64) : engine f64 := mkEngine "echo" "" [x_var] [echo_output value]
  [mkBlock true "" "" (fst (load_rules (engine_env [x_var] [echo_output value]) [mkRule true "if x is low then y is same" (f64_lit 1 1) (f64_lit 0 1) false "" None "" []]))
     None None None (Some General)].
Theorem C46_formula_refuted : exists a b : engine f64, same_engine a b /\ input_values a = input_values b /\
  Forall (fun o => o_lock_previous o = false) (e_outputs a) /\
  all_equal (values (processed a)) [f64_lit 1 4] = true /\ all_equal (values (processed b)) [f64_lit 3 4] = true.
Proof.
  exists (echo_engine (f64_lit 1 4)), (echo_engine (f64_lit 3 4)).
  split; [|split; [reflexivity|split; [repeat constructor|vm_compute; auto]]].
  split; [reflexivity|]. split; [reflexivity|]. split; [repeat constructor|]. split; [repeat constructor|]. constructor; [|constructor].
  repeat split. cbn [b_rules echo_engine e_blocks].
  change (same_rules (fst (load_rules (engine_env [x_var] [echo_output (f64_lit 1 4)]) [mkRule true "if x is low then y is same" (f64_lit 1 1) (f64_lit 0 1) false "" None "" []]))
                     (fst (load_rules (engine_env [x_var] [echo_output (f64_lit 1 4)]) [mkRule true "if x is low then y is same" (f64_lit 1 1) (f64_lit 0 1) false "" None "" []]))).
  apply Forall2_refl. repeat split.
Qed.
Print Assumptions C46_formula_refuted.
Lemma sample_ignores : ignores_outputs sample.
Proof. apply no_formula. reflexivity. Qed.
Example C46_case : ignores_outputs sample /\
  let e := run stable_drain [CInputs [f64_lit 3 4]; CProcess; CInputs [f64_lit 1 4]] sample in
  all_equal (input_values e) (input_values sample) = true /\ all_equal (values e) (values sample) = false /\
  all_equal (values (processed e)) [s_div (f64_lit 5 1) (f64_lit 12 1)] = true /\ all_equal (values (processed sample)) [s_div (f64_lit 5 1) (f64_lit 12 1)] = true.
Proof. split; [exact sample_ignores|]. vm_compute. auto 10. Qed.

(** * C47 *)
Theorem C47_idempotent : forall T (S : Scalar T) drain (e : engine T), ignores_outputs e ->
  let x := process drain e in let y := process drain (fst x) in
  snd y = snd x /\ e_inputs (fst y) = e_inputs (fst x) /\
  Forall2 (fun o p => o_fuzzy p = o_fuzzy o /\ (snd x = Ok tt -> o_lock_previous o = false -> v_value (o_var p) = v_value (o_var o)))
    (e_outputs (fst x)) (e_outputs (fst y)) /\
  (snd x = Ok tt -> Forall2 (fun c d => b_enabled c = true -> b_rules d = b_rules c) (e_blocks (fst x)) (e_blocks (fst y))).
Proof. exact @idempotent. Qed.
Print Assumptions C47_idempotent.
Example C47_case : ignores_outputs sample /\ all_equal (values (processed (processed sample))) (values (processed sample)) = true /\
  all_equal (values (processed (processed sample))) [s_div (f64_lit 5 1) (f64_lit 12 1)] = true.
Proof. split; [exact sample_ignores|]. vm_compute. auto 10. Qed.

(** * C48 *)
Theorem C48_restart : forall T (S : Scalar T) (e : engine T), nan_unordered ->
  unused (restart e) /\ same_engine e (restart e) /\ e_blocks (restart e) = e_blocks e.
Proof. exact @restart_all. Qed.
Print Assumptions C48_restart.
Theorem C48_restart_trace : forall T (S : Scalar T) drain (e0 : engine T) cs0 cs, nan_unordered -> unused e0 ->
  trace drain cs (restart (run drain cs0 e0)) = trace drain cs e0.
Proof. exact @restart_trace. Qed.
Print Assumptions C48_restart_trace.
Theorem C48_nan_binary64 : forall P : fparam, @nan_unordered f64 (F64Scalar P).
Proof. exact nan_f64. Qed.
Print Assumptions C48_nan_binary64.
Theorem C48_nan_exact : forall P : xparam, @nan_unordered xr (XRScalar P).
Proof. exact nan_xr. Qed.
Print Assumptions C48_nan_exact.
Example C48_case : unused (restart sample) /\ length (trace stable_drain [CInputs [f64_lit 1 4]; CProcess; CProcess] (restart sample)) = 2%nat /\
  all_equal (values (run stable_drain [CInputs [f64_lit 1 4]; CProcess] (restart (processed sample)))) [s_div (f64_lit 5 1) (f64_lit 12 1)] = true.
Proof. split; [exact (restart_unused sample (nan_f64 fp_default))|]. split; [reflexivity|vm_compute; reflexivity]. Qed.

(** * C49 *)
Theorem C49_copy : forall T (S : Scalar T) drain (e : engine T) cs, Forall term_attached (all_terms e) -> all_current e ->
  trace drain cs (engine_copy e) = trace drain cs e.
Proof. exact @copy_trace. Qed.
Print Assumptions C49_copy.
(** a rule is enabled and a weight set by Rule::setWeight is lost in the copy *)
Definition map_rules (f : rule f64 -> rule f64) (e : engine f64) : engine f64 :=
  mkEngine (e_name e) (e_description e) (e_inputs e) (e_outputs e) (map (fun b => set_rules (map f (b_rules b)) b) (e_blocks e)).
Definition disabled (r : rule f64) : rule f64 :=
  mkRule false (rl_text r) (rl_weight r) (rl_degree r) (rl_triggered r) (rl_antecedent_text r) (rl_antecedent r) (rl_consequent_text r) (rl_consequent r).
Definition reweighted (w : f64) (r : rule f64) : rule f64 :=
  mkRule (rl_enabled r) (rl_text r) w (rl_degree r) (rl_triggered r) (rl_antecedent_text r) (rl_antecedent r) (rl_consequent_text r) (rl_consequent r).
Theorem C49_flags_refuted : exists e : engine f64, Forall term_attached (all_terms e) /\ snd (process stable_drain e) = Ok tt /\
  all_equal (values (processed (engine_copy e))) (values (processed e)) = false /\
  map (fun b => map (@rl_enabled f64) (b_rules b)) (e_blocks e) = [[false; false]] /\
  map (fun b => map (@rl_enabled f64) (b_rules b)) (e_blocks (engine_copy e)) = [[true; true]].
Proof. exists (map_rules disabled sample). split; [apply attached_plain; reflexivity|]. vm_compute. auto 10. Qed.
Print Assumptions C49_flags_refuted.
Theorem C49_weights_refuted : exists e : engine f64, Forall term_attached (all_terms e) /\ snd (process stable_drain e) = Ok tt /\
  all_equal (concat (map (fun b => map (@rl_degree f64) (b_rules b)) (e_blocks (processed e)))) [f64_lit 3 8; f64_lit 1 8] = true /\
  all_equal (concat (map (fun b => map (@rl_degree f64) (b_rules b)) (e_blocks (processed (engine_copy e))))) [f64_lit 3 4; f64_lit 1 4] = true.
Proof. exists (map_rules (reweighted (f64_lit 1 2)) sample). split; [apply attached_plain; reflexivity|]. vm_compute. auto 10. Qed.
Print Assumptions C49_weights_refuted.
Lemma sample_current : all_current sample.
Proof. repeat constructor. Qed.
Example C49_case : Forall term_attached (all_terms sample) /\ all_current sample /\
  all_equal (values (processed (engine_copy sample))) [s_div (f64_lit 5 1) (f64_lit 12 1)] = true.
Proof. split; [apply attached_plain; reflexivity|]. split; [exact sample_current|vm_compute; reflexivity]. Qed.

(** * C50 *)
Theorem C50_block : forall T (S : Scalar T) drain (e : engine T) bs1 b bs2, e_blocks e = (bs1 ++ b :: bs2)%list -> b_enabled b = false ->
  let x := process drain e in let y := process drain (without bs1 bs2 e) in
  snd x = snd y /\ e_inputs (fst x) = e_inputs (fst y) /\ e_outputs (fst x) = e_outputs (fst y) /\
  exists cs1 cs2, length cs1 = length bs1 /\ e_blocks (fst y) = (cs1 ++ cs2)%list /\ e_blocks (fst x) = (cs1 ++ b :: cs2)%list.
Proof. exact @disabled_block. Qed.
Print Assumptions C50_block.
Theorem C50_rule : forall T (S : Scalar T) drain (e e' : engine T) b r, process drain e = (e', Ok tt) -> In b (e_blocks e') -> b_enabled b = true ->
  In r (b_rules b) -> rl_enabled r = false -> rl_triggered r = false.
Proof. exact @disabled_rule. Qed.
Print Assumptions C50_rule.
Theorem C50_input : forall T (S : Scalar T) (ins : list (variable T)) outs degree i v hs t, nth_error ins i = Some v -> v_enabled v = false ->
  proposition_degree (engine_enabled ins outs) degree (mkProp (VIn i) hs t) = Ok s_0.
Proof. exact @disabled_input. Qed.
Print Assumptions C50_input.
Theorem C50_output : forall T (S : Scalar T) drain (e e' : engine T) r j o p, process drain e = (e', r) -> nth_error (e_outputs e) j = Some o ->
  nth_error (e_outputs e') j = Some p -> v_enabled (o_var o) = false -> o_fuzzy p = [] /\ same_values o p.
Proof. exact @disabled_output. Qed.
Print Assumptions C50_output.
Definition disabled_input_sample : engine f64 := mkEngine "sample" "" [enable_variable false x_var] [y_var] [sample_block texts].
Definition disabled_output_sample : engine f64 := with_output (set_var (enable_variable false (o_var y_var)) y_var) sample.
Example C50_case : snd (process stable_drain (map_rules disabled sample)) = Ok tt /\
  forallb (fun o => isNaN (v_value (o_var o))) (e_outputs (processed (map_rules disabled sample))) = true /\
  all_equal (concat (map (fun b => map (@rl_degree f64) (b_rules b)) (e_blocks (processed disabled_input_sample)))) [f64_lit 0 1; f64_lit 0 1] = true /\
  snd (process stable_drain disabled_output_sample) = Ok tt /\ map (@o_fuzzy f64) (e_outputs (processed disabled_output_sample)) = [[]].
Proof. vm_compute. auto 10. Qed.

(** * C51 *)
Theorem C51_fuzzy_outputs : forall T (S : Scalar T) drain (e : engine T) bs, Forall order_free (e_blocks e) -> Forall2 reordered_block (e_blocks e) bs ->
  snd (process drain e) = Ok tt ->
  let p := fst (process drain e) in let p2 := fst (process drain (reorder e bs)) in
  Forall2 reordered_block (e_blocks p) (e_blocks p2) /\ Forall2 (fun o o2 => Permutation (o_fuzzy o) (o_fuzzy o2)) (e_outputs p) (e_outputs p2).
Proof. exact @reordered. Qed.
Print Assumptions C51_fuzzy_outputs.
Theorem C51_values : forall (P : xparam) drain (e : engine xr) bs, (0 <= xp_eps P)%R -> Forall order_free (e_blocks e) -> Forall2 reordered_block (e_blocks e) bs ->
  snd (@process xr (XRScalar P) drain e) = Ok tt -> Forall (order_safe P) (e_outputs (fst (@process xr (XRScalar P) drain e))) ->
  snd (@process xr (XRScalar P) drain (reorder e bs)) = Ok tt /\
  Forall2 equal_but_fuzzy (e_outputs (fst (@process xr (XRScalar P) drain e))) (e_outputs (fst (@process xr (XRScalar P) drain (reorder e bs)))).
Proof. exact reordered_values. Qed.
Print Assumptions C51_values.
Example C51_case : Forall order_free (e_blocks sample) /\ Forall2 reordered_block (e_blocks sample) [sample_block (rev texts)] /\
  snd (process stable_drain sample) = Ok tt /\
  map (fun o => map (@ac_term f64 nat) (o_fuzzy o)) (e_outputs (processed sample)) = [[0%nat; 1%nat]] /\
  map (fun o => map (@ac_term f64 nat) (o_fuzzy o)) (e_outputs (processed (reorder sample [sample_block (rev texts)]))) = [[1%nat; 0%nat]] /\
  all_equal (values (processed (reorder sample [sample_block (rev texts)]))) (values (processed sample)) = true.
Proof.
  split; [|split; [|vm_compute; auto 10]].
  - constructor; [|constructor]. intros _. split; [reflexivity|].
    apply reads_inputs_only. vm_compute. reflexivity.
  - constructor; [|constructor]. repeat split. apply perm_swap.
Qed.

(** * C52 *)
Theorem C52_exceptions : forall T (S : Scalar T) drain (e e' : engine T) r, process drain e = (e', r) -> length (e_outputs e') = length (e_outputs e) /\
  exists k, (k <= length (e_outputs e))%nat /\ (r = Ok tt <-> snd (activation_phase drain e) = Ok tt /\ k = length (e_outputs e)) /\
   (snd (activation_phase drain e) <> Ok tt -> k = 0%nat /\ r = snd (activation_phase drain e)) /\
   forall i o p, nth_error (e_outputs e) i = Some o -> nth_error (e_outputs e') i = Some p ->
     ((i < k)%nat -> (exists vw, defuzzify vw (set_fuzzy (o_fuzzy p) o) = (p, Ok tt)) /\
        if v_enabled (o_var o) then o_previous p = v_value (o_var o) else same_values o p) /\
     ((i >= k)%nat -> same_values o p) /\
     (i = k -> snd (activation_phase drain e) = Ok tt -> exists vw q, defuzzify vw (set_fuzzy (o_fuzzy p) o) = (q, r)).
Proof. exact @exceptions. Qed.
Print Assumptions C52_exceptions.
(** two outputs, the second without defuzzifier; a block without conjunction *)
Definition broken_output : engine f64 := mkEngine "broken" "" [x_var] [y_var; set_operators (Some Maximum) None y_var] [sample_block texts].
Definition broken_block : engine f64 := mkEngine "broken" "" [x_var] [y_var] [mkBlock true "" "" (sample_rules texts) None None (Some Minimum) (Some General)].
Example C52_case : snd (process stable_drain broken_output) = Throw EDefuzzify /\
  map (fun v => isNaN v) (values (processed broken_output)) = [false; true] /\
  snd (process stable_drain broken_block) = Throw EConjunction /\ map (fun v => isNaN v) (values (processed broken_block)) = [true].
Proof. vm_compute. auto 10. Qed.

(** * C53 *)
Theorem C53_ready : forall T (S : Scalar T) drain (e : engine T), is_ready e = true ->
  Forall (fun b => b_enabled b = true -> Forall visible (b_rules b)) (e_blocks e) -> fine (snd (process drain e)).
Proof. exact @ready_process. Qed.
Print Assumptions C53_ready.
(** texts whose tokens are separated by single blanks *)
Theorem C53_ready_neat : forall T (S : Scalar T) drain env (e : engine T), is_ready e = true ->
  Forall (fun b => Forall (fun r => neat (rl_text r) /\ loaded_from_text env r) (b_rules b)) (e_blocks e) -> fine (snd (process drain e)).
Proof. exact @ready_neat. Qed.
Print Assumptions C53_ready_neat.
(** a keyword next to a parenthesis is not seen *)
Definition glued : engine f64 := mkEngine "glued" "" [x_var] [y_var]
  [mkBlock true "" "" (sample_rules ["if (x is high)and(x is low) then y is big"]) None None (Some Minimum) (Some General)].
Theorem C53_glued_refuted : exists e : engine f64, is_ready e = true /\
  Forall (fun b => Forall (fun r => rule_loaded r = true) (b_rules b)) (e_blocks e) /\ snd (process stable_drain e) = Throw EConjunction.
Proof. exists glued. split; [reflexivity|]. split; [repeat constructor|vm_compute; reflexivity]. Qed.
Print Assumptions C53_glued_refuted.
(** configuring installs the operators everywhere, General if there is no activation method, and touches nothing else *)
Theorem C53_configure : forall T c d i g df a (e : engine T), let e' := configure c d i g df a e in
  e_name e' = e_name e /\ e_description e' = e_description e /\ e_inputs e' = e_inputs e /\
  Forall2 (fun o o' => o_aggregation o' = g /\ o_defuzzifier o' = df /\
    o_var o' = o_var o /\ o_fuzzy o' = o_fuzzy o /\ o_previous o' = o_previous o /\ o_default o' = o_default o /\ o_lock_previous o' = o_lock_previous o) (e_outputs e) (e_outputs e') /\
  Forall2 (fun b b' => b_conjunction b' = c /\ b_disjunction b' = d /\ b_implication b' = i /\ b_activation b' = match a with Some m => Some m | None => Some General end /\
    b_rules b' = b_rules b /\ b_enabled b' = b_enabled b /\ b_name b' = b_name b /\ b_description b' = b_description b) (e_blocks e) (e_blocks e').
Proof. exact @configure_effect. Qed.
Print Assumptions C53_configure.
(** an engine with all operators is ready, and lacks none whatever its rules say *)
Theorem C53_configured : forall T (S : Scalar T) drain c d i g df a (e : engine T), let e' := configure (Some c) (Some d) (Some i) (Some g) (Some df) a e in
  Forall (fun o => v_terms (o_var o) <> []) (e_outputs e) -> fine (snd (process drain e')) /\
  (e_inputs e <> [] -> e_outputs e <> [] -> e_blocks e <> [] -> Forall (fun b => b_rules b <> []) (e_blocks e) -> is_ready e' = true).
Proof. exact @configured. Qed.
Print Assumptions C53_configured.
Example C53_case_configured : is_ready (configure (Some Minimum) (Some Maximum) (Some Minimum) (Some Maximum) (Some (DIntegral Centroid 10)) None broken_block) = true /\
  snd (process stable_drain (configure (Some Minimum) (Some Maximum) (Some Minimum) (Some Maximum) (Some (DIntegral Centroid 10)) None glued)) = Ok tt.
Proof. split; vm_compute; reflexivity. Qed.
Example C53_case : is_ready sample = true /\ is_ready broken_block = false /\ is_ready broken_output = false /\
  Forall (fun b => Forall (fun r => neat (rl_text r) /\ loaded_from_text (engine_env [x_var] [y_var]) r) (b_rules b)) (e_blocks sample).
Proof.
  split; [reflexivity|]. split; [reflexivity|]. split; [reflexivity|].
  constructor; [|constructor]. apply loaded_sample; [vm_compute; reflexivity|]. constructor; [|constructor; [|constructor]]; cbn [rl_text].
  - exists ["if"; "x"; "is"; "low"; "then"; "y"; "is"; "small"]. split; [reflexivity|]. split; [|repeat split; discriminate].
    repeat (apply Forall_cons; [apply lexemeb_ok; reflexivity|]). apply Forall_nil.
  - exists ["if"; "x"; "is"; "high"; "and"; "x"; "is"; "not"; "low"; "then"; "y"; "is"; "big"]. split; [reflexivity|]. split; [|repeat split; discriminate].
    repeat (apply Forall_cons; [apply lexemeb_ok; reflexivity|]). apply Forall_nil.
Qed.

(** * C54 *)
Theorem C54_type : forall T (e : engine T) ty, engine_type e = ty <-> classified e ty.
Proof. exact @type_iff. Qed.
Print Assumptions C54_type.
Example C54_case : engine_type sample = EtMamdani /\ engine_type (echo_engine (f64_lit 1 2)) = EtTakagiSugeno /\ engine_type broken_output = EtUnknown /\
  engine_type (mkEngine "" "" [x_var] [y_var; echo_output s_nan] []) = EtHybrid.
Proof. auto. Qed.
