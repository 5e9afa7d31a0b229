(** Engines exported to C++ code, for binary64 numbers. *)
From Coq Require Import ZArith String List Bool Ascii Reals Lia Lra.
From Flocq Require Import Core IEEE754.BinarySingleNaN.
From Verif Require Import Base Op F64 F64Arith Norm Hedge Shape Discrete Defuzz Aggregated Text Function Rule Var Activation Engine Factory SpecText TextProofs TextProofs2
  Fll SpecFll FllText FllLines FllExport FllRound FllFix FllSame TextF64 FllF64 FllBundle Fis FclText FclRound2 FclBundle Cpp SpecCpp CppSyntax CppAtoms CppRun CppProgram.
Import ListNotations.
Local Open Scope string_scope.

Section Same.
Context {T : Type} `{S : Scalar T}.
Variables (d : nat) (num : T -> T -> Prop).
Hypothesis NUM : forall x, num x (reread d x).
Lemma term_same vw t u : rebuilt_term d vw t = Ok u -> same_term num t u.
Proof.
  intro H. unfold rebuilt_term in H. unfold same_term. destruct (tm_body t) as [s|xy|v|cs b|f] eqn:E; cbn [rbind] in H.
  5: { destruct (loaded_function vw (fn_formula f)) as [f'| | |] eqn:L; try discriminate. injection H as <-. cbn [tm_name tm_body]. split; [reflexivity|]. split; [|exact (loaded_root _ _ _ L)]. exact (loaded_formula _ _ _ L). }
  all: injection H as <-; cbn [tm_name tm_body tm_height]; unfold printed_height; rewrite ?E; (split; [reflexivity|]).
  - split; [destruct s; reflexivity|]. split; [|now apply same_height_printed]. assert (Q : shape_list (shape_map (reread d) s) = map (reread d) (shape_list s)) by (destruct s; reflexivity). rewrite Q. now apply num_map.
  - split; [|now apply same_height_printed]. clear - NUM. induction xy as [|p xy IH]; cbn [map]; constructor; [split; apply NUM|exact IH].
  - apply NUM.
  - split; [now apply num_map|reflexivity].
Qed.
Lemma all_same {A B} (f : A -> res B) (R : A -> B -> Prop) : (forall a b, f a = Ok b -> R a b) -> forall l m, rmapM f l = Ok m -> Forall2 R l m.
Proof. intros H l m. apply (rmap_forall2 f (fun _ => True) R l); [auto|]. apply Forall_forall. auto. Qed.
Lemma variable_same vw v w : rebuilt_variable d vw v = Ok w -> same_variable num v w.
Proof.
  intro H. unfold rebuilt_variable in H. destruct (rmapM (rebuilt_term d vw) (v_terms v)) as [ts| | |] eqn:E; try discriminate. injection H as <-. unfold same_variable. cbn [v_name v_description v_minimum v_maximum v_enabled v_lock_range v_terms v_value]. repeat split; try apply NUM.
  exact (all_same _ _ (term_same vw) _ _ E).
Qed.
Lemma output_same vw o p : rebuilt_output d vw o = Ok p -> same_output num o p.
Proof.
  intro H. unfold rebuilt_output in H. destruct (rebuilt_variable d vw (o_var o)) as [v| | |] eqn:E; try discriminate. injection H as <-. split; [exact (variable_same _ _ _ E)|]. repeat split. apply NUM.
Qed.
Lemma rule_same env r s : rebuilt_rule env r = Ok s -> same_rule env r s.
Proof.
  unfold rebuilt_rule, same_rule. assert (L := load_text env (rl_text r) (rule_new (rl_text r) s_1)). destruct (rule_load env (rl_text r) (rule_new (rl_text r) s_1)) as [q [u| | |]] eqn:E; cbn [rbind fst] in *; try discriminate. intro H. injection H as <-. split; [reflexivity|exact L].
Qed.
Lemma block_same env b c : b_activation b <> None -> rebuilt_block d env b = Ok c -> same_block num env b c.
Proof.
  intros G H. unfold rebuilt_block in H. destruct (rmapM (rebuilt_rule env) (b_rules b)) as [rs| | |] eqn:E; try discriminate. injection H as <-. unfold same_block. cbn [b_enabled b_name b_description b_rules b_conjunction b_disjunction b_implication b_activation]. repeat split.
  - exact (all_same _ _ (rule_same env) _ _ E).
  - destruct (b_activation b) as [a|]; [|congruence]. destruct a; cbn; repeat split; apply NUM.
Qed.
Lemma inputs_same vs : forall bef ins, rebuilt_inputs d bef vs = Ok ins -> exists ws, ins = (bef ++ ws)%list /\ Forall2 (same_variable num) vs ws.
Proof.
  induction vs as [|v vs IH]; intros bef ins H; [injection H as <-; exists []; split; [now rewrite app_nil_r|constructor]|]. cbn [rebuilt_inputs] in H. destruct (rebuilt_variable d _ v) as [w| | |] eqn:E; try discriminate. cbn [rbind] in H. destruct (IH _ _ H) as (ws & -> & F). exists (w :: ws). split; [now rewrite <- app_assoc|]. constructor; [exact (variable_same _ _ _ E)|exact F].
Qed.
Lemma outputs_same ins os : forall bef outs, rebuilt_outputs d ins bef os = Ok outs -> exists ws, outs = (bef ++ ws)%list /\ Forall2 (same_output num) os ws.
Proof.
  induction os as [|v vs IH]; intros bef outs H; [injection H as <-; exists []; split; [now rewrite app_nil_r|constructor]|]. cbn [rebuilt_outputs] in H. destruct (rebuilt_output d _ v) as [w| | |] eqn:E; try discriminate. cbn [rbind] in H. destruct (IH _ _ H) as (ws & -> & F). exists (w :: ws). split; [now rewrite <- app_assoc|]. constructor; [exact (output_same _ _ _ E)|exact F].
Qed.
Lemma rebuilt_same e f : activations_given e -> rebuilt d e = Ok f -> same_configuration num e f.
Proof.
  intros G H. unfold rebuilt in H. destruct (rebuilt_inputs d [] (e_inputs e)) as [ins| | |] eqn:EI; try discriminate. cbn [rbind] in H. destruct (rebuilt_outputs d ins [] (e_outputs e)) as [outs| | |] eqn:EO; try discriminate. cbn [rbind] in H. destruct (rmapM (rebuilt_block d (engine_env ins outs)) (e_blocks e)) as [bs| | |] eqn:EB; try discriminate. injection H as <-.
  destruct (inputs_same _ _ _ EI) as (i & -> & FI). destruct (outputs_same _ _ _ _ EO) as (o & -> & FO). cbn [app] in *. split; [reflexivity|]. split; [reflexivity|]. split; [exact FI|]. split; [exact FO|]. cbn [e_inputs e_outputs e_blocks].
  refine (rmap_forall2 _ (fun b => b_activation b <> None) _ _ _ G _ EB). intros b c A B. now apply block_same.
Qed.

(** ** success *)
Lemma variable_ok vw v : Forall no_function (v_terms v) -> exists w, rebuilt_variable d vw v = Ok w /\ var_names w = var_names v.
Proof.
  intro F. assert (Q : exists ts, rmapM (rebuilt_term d vw) (v_terms v) = Ok ts /\ map (@tm_name T) ts = map (@tm_name T) (v_terms v)).
  { induction F as [|t ts H F IH]; [exists []; split; reflexivity|]. destruct IH as (us & E & M). cbn [rmapM]. unfold rebuilt_term at 1. unfold no_function in H. destruct (tm_body t) eqn:B; try contradiction; cbn [rbind]; rewrite E; (eexists; split; [reflexivity|cbn [map tm_name]; now rewrite M]). }
  destruct Q as (ts & E & M). unfold rebuilt_variable. rewrite E. eexists. split; [reflexivity|]. unfold var_names. cbn [v_name v_terms]. f_equal. exact M.
Qed.
Lemma inputs_ok vs : Forall (fun v => Forall no_function (v_terms v)) vs -> forall bef, exists ws, rebuilt_inputs d bef vs = Ok (bef ++ ws)%list /\ map var_names ws = map var_names vs.
Proof.
  intro F. induction F as [|v vs H F IH]; intros bef; [exists []; split; [now rewrite app_nil_r|reflexivity]|]. cbn [rebuilt_inputs]. destruct (variable_ok (engine_view bef []) v H) as (w & -> & M). cbn [rbind]. destruct (IH (bef ++ [w])%list) as (ws & -> & Q). exists (w :: ws). split; [now rewrite <- app_assoc|]. cbn [map]. now rewrite M, Q.
Qed.
Lemma outputs_ok ins os : Forall (fun o => Forall no_function (v_terms (o_var o))) os -> forall bef, exists ws, rebuilt_outputs d ins bef os = Ok (bef ++ ws)%list /\ map (fun o => var_names (o_var o)) ws = map (fun o => var_names (o_var o)) os.
Proof.
  intro F. induction F as [|v vs H F IH]; intros bef; [exists []; split; [now rewrite app_nil_r|reflexivity]|]. cbn [rebuilt_outputs]. unfold rebuilt_output. destruct (variable_ok (engine_view ins bef) (o_var v) H) as (w & -> & M). cbn [rbind]. match goal with |- context [(bef ++ [?o])%list] => destruct (IH (bef ++ [o])%list) as (ws & -> & Q); exists (o :: ws) end. split; [now rewrite <- app_assoc|]. cbn [map o_var]. now rewrite M, Q.
Qed.
Lemma rebuilt_ok e : no_functions e -> rules_load e -> exists f, rebuilt d e = Ok f.
Proof.
  intros [A B] L. unfold rebuilt. destruct (inputs_ok _ A []) as (ins & -> & MI). cbn [rbind app]. destruct (outputs_ok ins _ B []) as (outs & -> & MO). cbn [rbind app].
  assert (E : engine_env ins outs = engine_env (e_inputs e) (e_outputs e)) by (unfold engine_env; now rewrite MI, MO). rewrite E.
  assert (Q : exists bs, rmapM (rebuilt_block d (engine_env (e_inputs e) (e_outputs e))) (e_blocks e) = Ok bs).
  { unfold rules_load in L. induction L as [|b bs H L IH]; [exists []; reflexivity|]. destruct IH as (cs & IH). cbn [rmapM]. unfold rebuilt_block at 1.
    assert (R : exists rs, rmapM (rebuilt_rule (engine_env (e_inputs e) (e_outputs e))) (b_rules b) = Ok rs).
    { clear - H. induction H as [|r rs H F IH]; [exists []; reflexivity|]. destruct IH as (us & IH). cbn [rmapM]. unfold rebuilt_rule at 1. destruct (rule_load _ (rl_text r) _) as [q o]. cbn [snd] in H. subst o. cbn [rbind]. rewrite IH. eexists. reflexivity. }
    destruct R as (rs & ->). cbn [rbind]. rewrite IH. eexists. reflexivity. }
  destruct Q as (bs & ->). eexists. reflexivity.
Qed.
End Same.

(** ** binary64 *)
Lemma inf_sign P (x : f64) : @isNaN f64 (F64Scalar P) x = false -> @isInf f64 (F64Scalar P) x = true -> @s_ltb f64 (F64Scalar P) (@s_0 f64 (F64Scalar P)) x = negb (@s_ltb f64 (F64Scalar P) x (@s_0 f64 (F64Scalar P))).
Proof.
  intros A C. destruct (is_finite x) eqn:F; [destruct (finite_kind P x F); congruence|]. destruct x as [s|s| |s m e B]; try discriminate. destruct s; reflexivity.
Qed.
Section Code.
Variables (P : fparam) (d : nat) (library : string) (namespaced named : bool).
Hypothesis fine : fine_tolerance P d.
Hypothesis decimals : d <> 0%nat.
Hypothesis library_line : one_line library.
Local Notation export := (@cpp_export f64 (F64Scalar P) d library namespaced named).
Local Notation run := (@run_cpp f64 (F64Scalar P)).
Let N : @printable f64 (F64Scalar P) d := fine_printable P d fine.
Lemma code_text e : @expressible f64 (F64Scalar P) namespaced named e -> exists text, export e = Ok text /\ run text = @rebuilt f64 (F64Scalar P) d e.
Proof. exact (code_runs d library namespaced named N decimals (inf_sign P) e library_line). Qed.
Lemma code_same e text f : @expressible f64 (F64Scalar P) namespaced named e -> activations_given e -> export e = Ok text -> run text = Ok f -> @same_configuration f64 (F64Scalar P) (number_kept P d) e f.
Proof.
  intros X G A B. destruct (code_text e X) as (t & E & R). assert (text = t) by congruence. subst t. rewrite R in B. exact (rebuilt_same d (number_kept P d) (reread_kept P d) e f G B).
Qed.
Lemma code_succeeds e : @expressible f64 (F64Scalar P) namespaced named e -> no_functions e -> @rules_load f64 (F64Scalar P) e -> exists text f, export e = Ok text /\ run text = Ok f.
Proof.
  intros X A L. destruct (code_text e X) as (t & E & R). destruct (rebuilt_ok (S := F64Scalar P) d e A L) as (f & F). exists t, f. split; [exact E|]. now rewrite R.
Qed.
Lemma code_names e text f : @expressible f64 (F64Scalar P) namespaced named e -> activations_given e -> export e = Ok text -> run text = Ok f -> engine_env (e_inputs f) (e_outputs f) = engine_env (e_inputs e) (e_outputs e).
Proof.
  intros X G A B. destruct (code_same e text f X G A B) as (_ & _ & I & O & _). unfold engine_env.
  assert (V : forall v w, @same_variable f64 (F64Scalar P) (number_kept P d) v w -> var_names w = var_names v).
  { intros v w (Q & _ & _ & _ & _ & _ & R & _). unfold var_names. rewrite Q. f_equal. induction R as [|t u ts us [Z _] R IH]; [reflexivity|]. cbn [map]. now rewrite Z, IH. }
  f_equal.
  - induction I as [|v w vs ws Q I IH]; [reflexivity|]. cbn [map]. rewrite (V _ _ Q). f_equal. exact IH.
  - induction O as [|v w vs ws Q O IH]; [reflexivity|]. cbn [map]. destruct Q as [Q _]. rewrite (V _ _ Q). f_equal. exact IH.
Qed.
Lemma code_rules e text f i j b c r s : @expressible f64 (F64Scalar P) namespaced named e -> activations_given e -> export e = Ok text -> run text = Ok f ->
  nth_error (e_blocks e) i = Some b -> nth_error (e_blocks f) i = Some c -> nth_error (b_rules b) j = Some r -> nth_error (b_rules c) j = Some s ->
  (exists r0, @rule_load f64 (F64Scalar P) (engine_env (e_inputs e) (e_outputs e)) (rl_text r) r0 = (r, Ok tt)) -> s = r.
Proof.
  intros X G A K B C J L (r0 & E). destruct (code_same e text f X G A K) as (_ & _ & _ & _ & Q). destruct (Forall2_at _ _ _ _ _ _ Q B C) as (_ & _ & _ & Z & _).
  destruct (Forall2_at _ _ _ _ _ _ Z J L) as [-> _]. rewrite (code_names e text f X G A K). exact (load_any _ _ _ _ _ _ E).
Qed.
End Code.

(** ** cases *)
#[local] Hint Extern 9 (Scalar _) => exact (F64Scalar fp_default) : typeclass_instances.
Local Notation code namespaced named e := (@cpp_export f64 (F64Scalar fp_default) 3 "fuzzylite" namespaced named e).
Local Notation recoded namespaced named e := (do text <- @cpp_export f64 (F64Scalar fp_default) 3 "fuzzylite" namespaced named e; @run_cpp f64 (F64Scalar fp_default) text).
Definition quote_lines (l : list string) : string := join (map (fun s => join (split s "'" false) dq) l) (char newline).
Definition heater_code : list string :=
  ["//Code automatically generated with fuzzylite."; ""; "using namespace fuzzylite;"; ""; "Engine* engine = new Engine;"; "engine->setName('my heater');"; "engine->setDescription('a heater');"; "";
   "InputVariable* level = new InputVariable;"; "level->setName('level');"; "level->setDescription('how full');"; "level->setEnabled(true);"; "level->setRange(0.000, 1.000);"; "level->setLockValueInRange(false);";
   "level->addTerm(new Ramp('low', 1.000, 0.000));"; "level->addTerm(new Trapezoid('mid', 0.000, 0.333, 0.667, 1.000, 0.500));"; "level->addTerm(Discrete::create('high', 4, 0.000, 0.000, 1.000, 1.000));";
   "engine->addInputVariable(level);"; "";
   "OutputVariable* power = new OutputVariable;"; "power->setName('power');"; "power->setDescription('');"; "power->setEnabled(true);"; "power->setRange(-1.000, 2.500);"; "power->setLockValueInRange(true);";
   "power->setAggregation(fl::null);"; "power->setDefuzzifier(new WeightedAverage('Automatic'));"; "power->setDefaultValue(0.125);"; "power->setLockPreviousValue(true);";
   "power->addTerm(new Constant('off', 0.000));"; "power->addTerm(Linear::create('some', engine, 0.500, 0.250));"; "power->addTerm(new Triangle('full', 0.500, 0.750, 1.000));"; "engine->addOutputVariable(power);"; "";
   "RuleBlock* rules = new RuleBlock;"; "rules->setName('rules');"; "rules->setDescription('');"; "rules->setEnabled(true);"; "rules->setConjunction(fl::null);"; "rules->setDisjunction(new Maximum);";
   "rules->setImplication(new AlgebraicProduct);"; "rules->setActivation(new First(1, 0.250));";
   "rules->addRule(Rule::parse('if level is low or level is not mid then power is full with 0.5', engine));"; "rules->addRule(Rule::parse('if level is high then power is off', engine));"; "engine->addRuleBlock(rules);"; ""; ""].
Lemma literal_ok s : (lacks "034" s && lacks newline s && lacks "\" s)%bool = true -> literal s.
Proof. rewrite !andb_true_iff. unfold literal. tauto. Qed.
Ltac lit_ok := apply literal_ok; reflexivity.
Ltac fin := first [lit_ok|exact I|vm_compute; reflexivity].
Lemma usable_list l : forallb (fun x => is_identifier x && negb (existsb (String.eqb x) library_classes))%bool l = true -> Forall (fun x => is_identifier x = true /\ ~ In x library_classes) l.
Proof.
  rewrite forallb_forall. intro H. apply Forall_forall. intros x I. specialize (H x I). apply andb_true_iff in H. destruct H as [A B]. split; [exact A|]. apply negb_true_iff in B. now apply not_existsb.
Qed.
Fixpoint distinct (l : list string) : bool := match l with [] => true | x :: r => (negb (existsb (String.eqb x) r) && distinct r)%bool end.
Lemma distinct_ok l : distinct l = true -> NoDup l.
Proof. induction l as [|x l IH]; [constructor|]. cbn [distinct]. intro H. apply andb_true_iff in H. destruct H as [A B]. apply negb_true_iff in A. constructor; [now apply not_existsb|auto]. Qed.
Lemma heater_expressible namespaced named name enabled weight : namespaced = false -> literal name -> expressible namespaced named (heater_with name power_terms enabled weight).
Proof.
  intros NS L. split; [exact L|]. split; [lit_ok|]. split; [|split; [|split; [|intros _; split; [apply distinct_ok; reflexivity|apply usable_list; reflexivity]]]].
  - split; [|exact I]. split; [lit_ok|]. split; [lit_ok|]. cbn [level v_terms]. apply Forall_cons; [|apply Forall_cons; [|apply Forall_cons; [|apply Forall_nil]]].
    + split; [lit_ok|]. cbn [tm_body shape_list]. split; [repeat (apply Forall_cons; [vm_compute; reflexivity|]); apply Forall_nil|left; vm_compute; reflexivity].
    + split; [lit_ok|]. cbn [tm_body shape_list]. split; [repeat (apply Forall_cons; [vm_compute; reflexivity|]); apply Forall_nil|right; vm_compute; reflexivity].
    + split; [lit_ok|]. cbn [tm_body]. split; [discriminate|]. split; [unfold int_range; cbn; lia|]. split; [repeat (apply Forall_cons; [split; vm_compute; reflexivity|]); apply Forall_nil|vm_compute; reflexivity].
  - apply Forall_cons; [|apply Forall_nil]. split; [|exact NS]. split; [lit_ok|]. split; [lit_ok|]. cbn [power_var o_var v_terms power_terms]. apply Forall_cons; [|apply Forall_cons; [|apply Forall_cons; [|apply Forall_nil]]].
    + split; [lit_ok|]. cbn [tm_body]. vm_compute. reflexivity.
    + split; [lit_ok|]. cbn [tm_body]. split; [repeat (apply Forall_cons; [vm_compute; reflexivity|]); apply Forall_nil|reflexivity].
    + split; [lit_ok|]. cbn [tm_body shape_list]. split; [repeat (apply Forall_cons; [vm_compute; reflexivity|]); apply Forall_nil|left; vm_compute; reflexivity].
  - apply Forall_cons; [|apply Forall_nil]. split; [lit_ok|]. split; [lit_ok|]. split; [|split; [unfold int_range; lia|vm_compute; reflexivity]].
    assert (E : forall en w t outs, rl_text (FllBundle.rule_of en w t [level] outs) = t) by (intros en w t o; unfold FllBundle.rule_of; cbn [rl_text]; apply load_text).
    cbn [heater_rules b_rules]. apply Forall_cons; [rewrite E; lit_ok|]. apply Forall_cons; [rewrite E; lit_ok|apply Forall_nil].
Qed.
Lemma heater_case : fine_tolerance fp_default 3 /\ one_line "fuzzylite" /\ expressible false true my_heater /\ expressible false false my_heater /\ activations_given my_heater /\ no_functions my_heater /\ rules_load my_heater /\
  code false true my_heater = Ok (quote_lines heater_code) /\
  passes (fun f => String.eqb (e_name f) "my heater" && Nat.eqb (List.length (e_inputs f)) 1 && Nat.eqb (List.length (e_outputs f)) 1 && forallb (fun b => Nat.eqb (List.length (b_rules b)) 2) (e_blocks f))%bool (run_cpp (quote_lines heater_code)) = true /\
  passes (fun f => Nat.eqb (List.length (e_inputs f)) 1) (recoded false false my_heater) = true.
Proof.
  split; [exact default_fine|]. split; [reflexivity|]. split; [apply heater_expressible; [reflexivity|lit_ok]|]. split; [apply heater_expressible; [reflexivity|lit_ok]|]. split; [apply Forall_cons; [discriminate|apply Forall_nil]|].
  split; [destruct heater_fcl_case as (_ & _ & _ & _ & _ & _ & Q & _); exact Q|]. split; [apply Forall_cons; [|apply Forall_nil]; apply Forall_cons; [vm_compute; reflexivity|apply Forall_cons; [vm_compute; reflexivity|apply Forall_nil]]|].
  split; [vm_compute; reflexivity|]. split; vm_compute; reflexivity.
Qed.

(** ** what the code does not rebuild *)
Definition fails {A} (r : res A) : bool := match r with Throw ESyntax => true | _ => false end.
Lemma fails_throw {A} (r : res A) : fails r = true -> r = Throw ESyntax. Proof. destruct r as [|x| |]; try discriminate. destruct x; try discriminate. reflexivity. Qed.
Definition is_ub {A} (r : res A) : bool := match r with UB => true | _ => false end.
Lemma is_ub_ok {A} (r : res A) : is_ub r = true -> r = UB. Proof. destruct r; try discriminate. reflexivity. Qed.
Definition said : engine f64 := heater_with ("a " ++ quoted "hot" ++ " heater") power_terms true (q 1 2).
Lemma quotes_break : (exists text, code false true said = Ok text) /\ recoded false true said = Throw ESyntax.
Proof. split; [|apply fails_throw; vm_compute; reflexivity]. destruct (passed (fun _ => true) (code false true said)) as (t & E & _); [vm_compute; reflexivity|]. now exists t. Qed.
Lemma namespace_breaks : (exists f, recoded false true my_heater = Ok f) /\ recoded true true my_heater = Throw ESyntax.
Proof.
  split; [|apply fails_throw; vm_compute; reflexivity]. destruct (passed (fun _ => true) (recoded false true my_heater)) as (f & E & _); [vm_compute; reflexivity|]. now exists f.
Qed.
Definition linear_heater (cs : list f64) : engine f64 := heater_with "heater" [mkTerm "off" (q 1 1) (TConstant (q 0 1)); mkTerm "full" (q 1 1) (TLinear cs true)] true (q 1 2).
Definition coefficients (e : engine f64) : list nat := flat_map (fun o => flat_map (fun t => match tm_body t with TLinear cs _ => [List.length cs] | _ => [] end) (v_terms (o_var o))) (e_outputs e).
Lemma only_two l : match l with [2%nat] => true | _ => false end = true -> l = [2%nat].
Proof. destruct l as [|[|[|[|]]] [|]]; try discriminate. reflexivity. Qed.
Lemma linear_breaks : recoded false true (linear_heater [q 1 2]) = UB /\ exists f, recoded false true (linear_heater [q 1 2; q 1 4; q 1 8]) = Ok f /\ coefficients f = [2%nat].
Proof.
  split; [apply is_ub_ok; vm_compute; reflexivity|]. destruct (passed (fun f => match coefficients f with [2%nat] => true | _ => false end) (recoded false true (linear_heater [q 1 2; q 1 4; q 1 8]))) as (f & E & Q); [vm_compute; reflexivity|]. exists f. split; [exact E|]. now apply only_two.
Qed.
Definition half_engine : engine f64 :=
  mkEngine "half" "" [mkVariable "x" "" s_nan (q 0 1) (q 1 1) true false [mkTerm "a" (q 1 2) (TDiscrete [(q 0 1, q 0 1); (q 1 1, q 1 1)])]] [] [].
Lemma height_breaks : existsb (fun v => existsb (fun t => Beqb (tm_height t) (q 1 2)) (v_terms v)) (e_inputs half_engine) = true /\
  exists f, recoded false true half_engine = Ok f /\ forallb (fun v => forallb (fun t => Beqb (tm_height t) (q 1 1)) (v_terms v)) (e_inputs f) = true.
Proof. split; [vm_compute; reflexivity|]. apply passed. vm_compute. reflexivity. Qed.
Definition nan_engine : engine f64 := mkEngine "nan" "" [mkVariable "x" "" s_nan (q 0 1) (q 1 1) true false [mkTerm "a" (q 1 1) (TShape (Ramp s_nan s_nan))]] [] [].
Definition twice_engine : engine f64 := mkEngine "twice" "" [mkVariable "x" "" s_nan (q 0 1) (q 1 1) true false []] [] [mkBlock true "x" "" [] None None None (Some General)].
Lemma names_break : recoded false true nan_engine = Throw ESyntax /\ recoded false true twice_engine = Throw ESyntax /\ exists f, recoded false false twice_engine = Ok f.
Proof. split; [apply fails_throw; vm_compute; reflexivity|]. split; [apply fails_throw; vm_compute; reflexivity|]. destruct (passed (fun _ => true) (recoded false false twice_engine)) as (f & E & _); [vm_compute; reflexivity|]. now exists f. Qed.
Lemma rules_enabled : existsb (fun b => existsb (fun r => negb (rl_enabled r)) (b_rules b)) (e_blocks lazy_heater) = true /\
  exists f, recoded false true lazy_heater = Ok f /\ forallb (fun b => forallb (fun r => rl_enabled r) (b_rules b)) (e_blocks f) = true.
Proof. split; [vm_compute; reflexivity|]. apply passed. vm_compute. reflexivity. Qed.
