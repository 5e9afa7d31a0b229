(** Engines exported to Java code, for binary64 numbers. *)
From Coq Require Import ZArith String List Bool Ascii Reals Lia.
From Flocq Require Import Core IEEE754.BinarySingleNaN.
From Verif Require Import Base Op F64 F64Arith Norm Hedge Shape Discrete Defuzz Aggregated Text Function Rule Var Activation Engine Factory SpecText TextProofs TextProofs2
  Fll SpecFll FllText FllLines FllExport FllRound FllFix FllSame TextF64 FllF64 FllBundle Fis FclText FclRound2 FclBundle Cpp SpecCpp CppSyntax CppAtoms CppRun CppProgram CppBundle Java SpecJava JavaProofs.
Import ListNotations.
Local Open Scope string_scope.

Section Code.
Variables (P : fparam) (d : nat) (library : string) (named : bool).
Hypothesis fine : fine_tolerance P d.
Hypothesis decimals : d <> 0%nat.
Hypothesis library_line : one_line library.
Local Notation export := (@java_export f64 (F64Scalar P) d library named).
Local Notation run := (@run_java f64 (F64Scalar P)).
Local Notation fit := (@java_expressible f64 (F64Scalar P) named).
Let N : @printable f64 (F64Scalar P) d := fine_printable P d fine.
Lemma java_code e : fit e -> exists text, export e = Ok text /\ run text = @rebuilt f64 (F64Scalar P) d e.
Proof. exact (java_runs d library named N decimals (inf_sign P) e library_line). Qed.
Lemma java_same e text f : fit e -> activations_given e -> export e = Ok text -> run text = Ok f -> @same_configuration f64 (F64Scalar P) (number_kept P d) e f.
Proof.
  intros X G A B. destruct (java_code e X) as (t & E & R). assert (text = t) by congruence. subst t. rewrite R in B. exact (rebuilt_same d (number_kept P d) (reread_kept P d) e f G B).
Qed.
Lemma java_succeeds e : fit e -> no_functions e -> @rules_load f64 (F64Scalar P) e -> exists text f, export e = Ok text /\ run text = Ok f.
Proof.
  intros X A L. destruct (java_code e X) as (t & E & R). destruct (rebuilt_ok (S := F64Scalar P) d e A L) as (f & F). exists t, f. split; [exact E|]. now rewrite R.
Qed.
(** the engines built by the code in both languages are the same *)
Lemma java_cpp e text text' : fit e -> export e = Ok text -> @cpp_export f64 (F64Scalar P) d library false named e = Ok text' -> run text = @run_cpp f64 (F64Scalar P) text'.
Proof.
  intros X A B. destruct (java_code e X) as (t & E & R). destruct (code_text P d library false named fine decimals library_line e (proj1 X)) as (t' & E' & R'). congruence.
Qed.
Lemma java_rules e text f i j b c r s : fit e -> activations_given e -> export e = Ok text -> run text = Ok f ->
  nth_error (e_blocks e) i = Some b -> nth_error (e_blocks f) i = Some c -> nth_error (b_rules b) j = Some r -> nth_error (b_rules c) j = Some s ->
  (exists r0, @rule_load f64 (F64Scalar P) (engine_env (e_inputs e) (e_outputs e)) (rl_text r) r0 = (r, Ok tt)) -> s = r.
Proof.
  intros X G A K. destruct (code_text P d library false named fine decimals library_line e (proj1 X)) as (t' & E' & _). rewrite (java_cpp e text t' X A E') in K. exact (code_rules P d library false named fine decimals library_line e t' f i j b c r s (proj1 X) G E' K).
Qed.
End Code.

(** ** cases *)
#[local] Hint Extern 9 (Scalar _) => exact (F64Scalar fp_default) : typeclass_instances.
Local Notation code named e := (@java_export f64 (F64Scalar fp_default) 3 "fuzzylite" named e).
Local Notation recoded named e := (do text <- @java_export f64 (F64Scalar fp_default) 3 "fuzzylite" named e; @run_java f64 (F64Scalar fp_default) text).
Definition heater_java : list string :=
  ["//Code automatically generated with fuzzylite."; ""; "Engine engine = new Engine();"; "engine.setName('my heater');"; "engine.setDescription('a heater');"; "";
   "InputVariable level = new InputVariable();"; "level.setName('level');"; "level.setDescription('how full');"; "level.setEnabled(true);"; "level.setRange(0.000, 1.000);"; "level.setLockValueInRange(false);";
   "level.addTerm(new Ramp('low', 1.000, 0.000));"; "level.addTerm(new Trapezoid('mid', 0.000, 0.333, 0.667, 1.000, 0.500));"; "level.addTerm(Discrete.create('high', 0.000, 0.000, 1.000, 1.000));";
   "engine.addInputVariable(level);"; "";
   "OutputVariable power = new OutputVariable();"; "power.setName('power');"; "power.setDescription('');"; "power.setEnabled(true);"; "power.setRange(-1.000, 2.500);"; "power.setLockValueInRange(true);";
   "power.setAggregation(null);"; "power.setDefuzzifier(new WeightedAverage('Automatic'));"; "power.setDefaultValue(0.125);"; "power.setLockPreviousValue(true);";
   "power.addTerm(new Constant('off', 0.000));"; "power.addTerm(Linear.create('some', engine, 0.500, 0.250));"; "power.addTerm(new Triangle('full', 0.500, 0.750, 1.000));"; "engine.addOutputVariable(power);"; "";
   "RuleBlock rules = new RuleBlock();"; "rules.setName('rules');"; "rules.setDescription('');"; "rules.setEnabled(true);"; "rules.setConjunction(null);"; "rules.setDisjunction(new Maximum());";
   "rules.setImplication(new AlgebraicProduct());"; "rules.setActivation(new First(1, 0.250));";
   "rules.addRule(Rule.parse('if level is low or level is not mid then power is full with 0.5', engine));"; "rules.addRule(Rule.parse('if level is high then power is off', engine));"; "engine.addRuleBlock(rules);"; ""; ""].
Lemma apart_list l : forallb (fun x => negb (existsb (String.eqb x) java_keywords)) l = true -> Forall (fun x => ~ In x java_keywords) l.
Proof. rewrite forallb_forall. intro H. apply Forall_forall. intros x I. specialize (H x I). apply negb_true_iff in H. now apply not_existsb. Qed.
Lemma heater_java_case : java_expressible true my_heater /\ java_expressible false my_heater /\ activations_given my_heater /\ no_functions my_heater /\ rules_load my_heater /\
  code true my_heater = Ok (quote_lines heater_java) /\
  passes (fun f => String.eqb (e_name f) "my heater" && Nat.eqb (List.length (e_inputs f)) 1 && Nat.eqb (List.length (e_outputs f)) 1 && forallb (fun b => Nat.eqb (List.length (b_rules b)) 2) (e_blocks f))%bool (run_java (quote_lines heater_java)) = true /\
  passes (fun f => Nat.eqb (List.length (e_inputs f)) 1) (recoded false my_heater) = true.
Proof.
  destruct heater_case as (_ & _ & A & B & C & D & E & _). split; [split; [exact A|]; intros _; apply apart_list; reflexivity|]. split; [split; [exact B|discriminate]|]. split; [exact C|]. split; [exact D|]. split; [exact E|].
  split; [vm_compute; reflexivity|]. split; vm_compute; reflexivity.
Qed.

(** ** what the code does not rebuild *)
Lemma java_quotes : (exists text, code true said = Ok text) /\ recoded true said = Throw ESyntax.
Proof. split; [|apply fails_throw; vm_compute; reflexivity]. destruct (passed (fun _ => true) (code true said)) as (t & E & _); [vm_compute; reflexivity|]. now exists t. Qed.
Lemma java_height : existsb (fun v => existsb (fun t => Beqb (tm_height t) (q 1 2)) (v_terms v)) (e_inputs half_engine) = true /\
  exists f, recoded true half_engine = Ok f /\ forallb (fun v => forallb (fun t => Beqb (tm_height t) (q 1 1)) (v_terms v)) (e_inputs f) = true.
Proof. split; [vm_compute; reflexivity|]. apply passed. vm_compute. reflexivity. Qed.
Definition infinite_engine (range term : f64) : engine f64 := mkEngine "wide" "" [mkVariable "x" "" s_nan (q 0 1) range true false [mkTerm "a" (q 1 1) (TShape (Ramp (q 0 1) term))]] [] [].
Lemma java_infinite : (exists f, recoded true (infinite_engine s_inf (q 1 1)) = Ok f) /\ (exists text, code true (infinite_engine (q 1 1) s_inf) = Ok text) /\ recoded true (infinite_engine (q 1 1) s_inf) = Throw ESyntax.
Proof.
  split; [destruct (passed (fun _ => true) (recoded true (infinite_engine s_inf (q 1 1)))) as (f & E & _); [vm_compute; reflexivity|]; now exists f|].
  split; [destruct (passed (fun _ => true) (code true (infinite_engine (q 1 1) s_inf))) as (f & E & _); [vm_compute; reflexivity|]; now exists f|]. apply fails_throw. vm_compute. reflexivity.
Qed.
Definition final_engine : engine f64 := mkEngine "last" "" [mkVariable "final" "" s_nan (q 0 1) (q 1 1) true false []] [] [].
Lemma java_names_break : recoded true twice_engine = Throw ESyntax /\ (exists f, recoded false twice_engine = Ok f) /\ recoded true final_engine = Throw ESyntax /\
  exists f, (do text <- @cpp_export f64 (F64Scalar fp_default) 3 "fuzzylite" false true final_engine; @run_cpp f64 (F64Scalar fp_default) text) = Ok f.
Proof.
  split; [apply fails_throw; vm_compute; reflexivity|]. split; [destruct (passed (fun _ => true) (recoded false twice_engine)) as (f & E & _); [vm_compute; reflexivity|]; now exists f|]. split; [apply fails_throw; vm_compute; reflexivity|].
  match goal with |- exists f, ?r = Ok f => destruct (passed (fun _ => true) r) as (f & E & _); [vm_compute; reflexivity|]; now exists f end.
Qed.
Lemma java_enabled : existsb (fun b => existsb (fun r => negb (rl_enabled r)) (b_rules b)) (e_blocks lazy_heater) = true /\
  exists f, recoded true lazy_heater = Ok f /\ forallb (fun b => forallb (fun r => rl_enabled r) (b_rules b)) (e_blocks f) = true.
Proof. split; [vm_compute; reflexivity|]. apply passed. vm_compute. reflexivity. Qed.
