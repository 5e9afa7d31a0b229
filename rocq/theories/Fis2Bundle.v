(** The round trip through the Fuzzy Inference System format, in the form of the property theorems; engines for examples. *)
From Coq Require Import ZArith String List Bool Ascii Reals Lia Permutation Sorting.Sorted.
From Flocq Require Import IEEE754.BinarySingleNaN.
From Verif Require Import Base Op F64 F64Arith Norm Hedge Shape Discrete Defuzz Aggregated Text SpecText Function FunctionTable Rule Var Activation Engine Factory SpecRule
  Fll SpecFll FllText FllLines FllExport FllRound FllRound2 FllFix FllF64 FllSame FllBundle TextProofs TextProofs2 Fis SpecFis FisBundle Fcl SpecFcl FclText FclRound FclRound2 FclRound3 FclRound4 FclSame FclBundle
  SpecFis2 FisText FisRound FisRound2 FisRound3 FisRound4 FisRound5 FisAgain.
Import ListNotations.
Local Open Scope string_scope.

Section Same.
Context {T : Type} `{S : Scalar T}.
Lemma fis_same_operators resolution (num : T -> T -> Prop) e ins outs ss : num s_nan s_nan ->
  Forall2 (same_variable num) (map fis_kept_variable (e_inputs e)) ins -> Forall2 (same_raw_output num) (map (fun o => fis_kept_variable (o_var o)) (e_outputs e)) outs -> Forall2 (fis_same_rule num) (all_rules e) ss ->
  fis_same resolution num e (operators resolution e (mkEngine (e_name e) "" ins outs [set_rules ss new_block])).
Proof.
  intros NN A B C. split; [reflexivity|]. split; [reflexivity|]. split; [exact A|]. split.
  - unfold operators, configure. cbn [e_outputs].
    assert (X : forall os us, Forall2 (same_raw_output num) (map (fun o => fis_kept_variable (o_var o)) os) us -> Forall2 (same_output num) (map (fis_kept_output resolution e) os) (map (set_operators (Some (all_aggregation e)) (option_map (like resolution) (all_defuzzifier e))) us)).
    { clear B. induction os as [|o os IH]; intros us B; inversion B as [|? u ? us0 B1 B2]; subst; [constructor|]. cbn [map]. constructor; [|now apply IH]. destruct B1 as (w & -> & B1). split; [exact B1|]. repeat split. exact NN. }
    now apply X.
  - eexists. split; [reflexivity|]. repeat split. exact C.
Qed.
End Same.

Section Files.
Variable P : fparam.
Variable d : nat.
Variable resolution : Z.
Variables library version : string.
Hypothesis fine : fine_tolerance P d.
Hypothesis settings : fis_settings P d.
Hypothesis library_line : one_line library.
Hypothesis version_name : plain_name version.
Local Notation export := (@fis_export f64 (F64Scalar P) d library version).
Local Notation import := (@fis_import f64 (F64Scalar P) d resolution).
Let N : @printable f64 (F64Scalar P) d := fine_printable P d fine.

Lemma nan_kept : number_kept P d (@s_nan f64 (F64Scalar P)) (@s_nan f64 (F64Scalar P)).
Proof. split; reflexivity. Qed.
Lemma weight_same w : (if @isEq f64 (F64Scalar P) (@reread f64 (F64Scalar P) d w) (@s_1 f64 (F64Scalar P)) then @s_1 f64 (F64Scalar P) else @reread f64 (F64Scalar P) d w) = @reread f64 (F64Scalar P) d w.
Proof.
  destruct (isEq (reread d w) s_1) eqn:E; [|reflexivity]. symmetry. apply (pr_height d N w); [|exact E]. apply (reread_ok d N).
Qed.
Lemma restored_f64 (e : engine f64) : fis_names (engine_env (e_inputs e) (e_outputs e)) -> forall r op ex, rl_antecedent r = Some ex -> fis_expressible (engine_env (e_inputs e) (e_outputs e)) op ex (rl_consequent r) ->
  exists line s, @back f64 (F64Scalar P) d (number_kept P d) e r line s.
Proof.
  intros NM r op ex A X. destruct (rule_restored_f64 P d settings e r op ex NM A X) as (line & s & ps & cs & E1 & E2 & B1 & B2 & C1 & C2 & D1 & D2 & D3 & D4). exists line, s. split; [exact E1|]. split; [exact E2|].
  exists op, ex, ps, cs. repeat (split; [assumption|]). split; [exact (fe_joined _ _ _ _ X)|]. repeat (split; [assumption|]). cbv zeta in D4. rewrite weight_same in D4. rewrite D4. apply reread_kept.
Qed.
Lemma fis_trip (e : engine f64) : fis_engine e -> exists text ss, export e = Ok text /\ Forall2 (fun r s => exists line, @back f64 (F64Scalar P) d (number_kept P d) e r line s) (all_rules e) ss /\
  import text = (do ins <- @read_inputs f64 (F64Scalar P) d [] (e_inputs e); do outs <- @read_outputs f64 (F64Scalar P) d ins [] (e_outputs e);
    Ok (operators resolution e (mkEngine (e_name e) "" ins outs [set_rules ss (@new_block f64)]))).
Proof.
  intro H. exact (round_trip d resolution library version N (numbers_f64 P d) library_line version_name (number_kept P d) (reread_kept P d) e H (restored_f64 e (fe_names e H))).
Qed.
Lemma backs_same (e : engine f64) rs ss : Forall2 (fun r s => exists line, @back f64 (F64Scalar P) d (number_kept P d) e r line s) rs ss -> Forall2 (fis_same_rule (number_kept P d)) rs ss.
Proof. intro F. induction F as [|r s rs ss (line & _ & _ & Q) F IH]; constructor; assumption. Qed.
Lemma fis_export_succeeds (e : engine f64) : fis_engine e -> exists text, export e = Ok text.
Proof. intro H. destruct (fis_trip e H) as (text & ss & E & _). now exists text. Qed.
Lemma fis_import_same (e f : engine f64) text : fis_engine e -> export e = Ok text -> import text = Ok f ->
  @fis_same f64 (F64Scalar P) resolution (number_kept P d) e f /\ engine_env (e_inputs f) (e_outputs f) = engine_env (e_inputs e) (e_outputs e).
Proof.
  intros H E I. destruct (fis_trip e H) as (text' & ss & E' & R & Q). rewrite E in E'. injection E' as <-. rewrite Q in I.
  destruct (read_inputs d [] (e_inputs e)) as [ins|x| |] eqn:RI; try discriminate. cbn [rbind] in I. destruct (read_outputs d ins [] (e_outputs e)) as [outs|x| |] eqn:RO; try discriminate. cbn [rbind] in I. injection I as <-.
  destruct (@inputs_same f64 (F64Scalar P) d library library_line (number_kept P d) (reread_kept P d) _ (inputs_ok e H) _ _ RI) as (ws & -> & SW). destruct (@outputs_same f64 (F64Scalar P) d library library_line (number_kept P d) (reread_kept P d) _ _ (outputs_ok e H) _ _ RO) as (us & -> & SU). cbn [app] in *.
  split; [exact (@fis_same_operators f64 (F64Scalar P) resolution (number_kept P d) e ws us ss nan_kept SW SU (backs_same _ _ _ R))|].
  unfold operators, configure. cbn [e_inputs e_outputs]. rewrite <- (@env_kept f64 (F64Scalar P) _ _ _ _ _ SW SU). unfold engine_env. f_equal. rewrite map_map. reflexivity.
Qed.
Lemma fis_import_succeeds (e : engine f64) text : fis_engine e -> no_functions e -> export e = Ok text -> exists f, import text = Ok f.
Proof.
  intros H [K1 K2] E. destruct (fis_trip e H) as (text' & ss & E' & R & Q). rewrite E in E'. injection E' as <-. rewrite Q.
  destruct (@read_inputs_ok f64 (F64Scalar P) d (e_inputs e) K1 []) as [ins ->]. cbn [rbind]. destruct (@read_outputs_ok f64 (F64Scalar P) d ins (e_outputs e) K2 []) as [outs ->]. eexists. reflexivity.
Qed.
(** ** a second export and import *)
Lemma like_twice z : like resolution (like resolution z) = like resolution z.
Proof. destruct z; reflexivity. Qed.
Lemma backs_back (e f : engine f64) rs ss : engine_env (e_inputs f) (e_outputs f) = engine_env (e_inputs e) (e_outputs e) ->
  Forall (fun r => exists op ex, rl_antecedent r = Some ex /\ fis_expressible (engine_env (e_inputs e) (e_outputs e)) op ex (rl_consequent r)) rs ->
  Forall2 (fun r s => exists line, @back f64 (F64Scalar P) d (number_kept P d) e r line s) rs ss ->
  forall ts, Forall2 (fun r s => exists line, @back f64 (F64Scalar P) d (number_kept P d) f r line s) ss ts -> ts = ss.
Proof.
  intros V F Q. induction Q as [|r s rs ss (line & B1 & B2 & B3) Q IH]; intros ts Q'; inversion Q' as [|? t ? ts0 (line' & C1 & C2 & C3) Q0]; subst; [reflexivity|]. inversion_clear F as [|? ? (op & ex & A & X) F0]. f_equal; [|now apply IH].
  destruct (sizes_env e f (eq_sym V)) as [S1 S2]. assert (L : line' = line) by (eapply (@line_again f64 (F64Scalar P) d (number_kept P d) (fun x y => @proj1 _ _) e f); eauto). subst line'.
  specialize (B2 (@new_block f64)). specialize (C2 (@new_block f64)). rewrite V, B2 in C2.
  apply (f_equal (fun x => match x with Ok b => b_rules b | _ => [] end)) in C2. cbn in C2. congruence.
Qed.
Lemma fis_again (e f : engine f64) text : fis_engine e ->
  Forall (fun v => Forall (fun t => fis_term_ok (@fis_kept_term f64 (F64Scalar P) t)) (v_terms v)) (e_inputs e) ->
  Forall (fun o => Forall (fun t => fis_term_ok (@fis_kept_term f64 (F64Scalar P) t)) (v_terms (o_var o))) (e_outputs e) ->
  export e = Ok text -> import text = Ok f -> fis_engine f /\ exists text2, export f = Ok text2 /\ import text2 = Ok f.
Proof.
  intros H K1 K2 E J. destruct (fis_import_same e f text H E J) as [_ V]. destruct (fis_trip e H) as (text' & ss & E' & Rl & Q). rewrite E in E'. injection E' as <-. rewrite Q in J.
  destruct (read_inputs d [] (e_inputs e)) as [ins|x| |] eqn:RI; try discriminate. cbn [rbind] in J. destruct (read_outputs d ins [] (e_outputs e)) as [outs|x| |] eqn:RO; try discriminate. cbn [rbind] in J.
  assert (FE : f = operators resolution e (mkEngine (e_name e) "" ins outs [set_rules ss (@new_block f64)])) by congruence. clear J Q.
  destruct (@inputs_again f64 (F64Scalar P) d N (number_kept P d) (reread_kept P d) _ (inputs_ok e H) _ _ RI) as (ws & EW & RI2 & TI). destruct (@outputs_again f64 (F64Scalar P) d N (number_kept P d) (reread_kept P d) _ _ (outputs_ok e H) _ _ RO) as (us & EU & RO2 & TO). cbn [app] in EW, EU. subst ws us.
  assert (SR := backs_same _ _ _ Rl). assert (FR := fe_rules e H).
  assert (RS : Forall (fun s => rule_loaded s = true /\ exists op ex, rl_antecedent s = Some ex /\ fis_expressible (engine_env (e_inputs e) (e_outputs e)) op ex (rl_consequent s)) ss).
  { clear - SR FR. revert FR. induction SR as [|r s rs ss A SR IH]; intro F; constructor; inversion_clear F as [|? ? (op & ex & B & X) F0]; [|now apply IH]. exact (expressible_again (number_kept P d) _ op ex _ r s B eq_refl X A). }
  assert (AR : all_rules f = ss).
  { subst f. unfold all_rules, operators, configure. cbn [e_blocks map flat_map b_rules set_rules]. rewrite app_nil_r. clear - RS. induction RS as [|s ss (A & _) RS IH]; [reflexivity|]. cbn [filter app new_block b_rules] in *. rewrite A. f_equal. exact IH. }
  assert (FF : fis_engine f).
  { split.
    - subst f. exact (fe_name e H).
    - rewrite V. exact (fe_names e H).
    - subst f. exact (TI K1).
    - subst f. unfold operators, configure. cbn [e_outputs]. specialize (TO K2). clear - TO. induction TO; constructor; assumption.
    - subst f. repeat constructor.
    - rewrite AR, V. eapply Forall_impl; [|exact RS]. intros s (_ & Z). exact Z. }
  split; [exact FF|]. destruct (fis_trip f FF) as (text2 & ts & E2 & R2 & Q2). exists text2. split; [exact E2|]. rewrite AR in R2. assert (ts = ss) by (eapply backs_back; eauto). subst ts. rewrite Q2.
  assert (I1 : e_inputs f = ins) by (subst f; reflexivity). assert (I2 : e_outputs f = map (set_operators (Some (all_aggregation e)) (option_map (like resolution) (all_defuzzifier e))) outs) by (subst f; reflexivity).
  rewrite I1, RI2. cbn [rbind]. rewrite I2, RO2. cbn [rbind]. f_equal.
  assert (X : map (set_operators (Some (all_aggregation f)) (option_map (like resolution) (all_defuzzifier f))) outs = map (set_operators (Some (all_aggregation e)) (option_map (like resolution) (all_defuzzifier e))) outs).
  { destruct outs as [|o os]; [reflexivity|]. unfold all_aggregation at 1, all_defuzzifier at 1. rewrite I2. cbn [map first_given set_operators o_aggregation o_defuzzifier]. destruct (all_defuzzifier e) as [z|] eqn:Z; cbn [option_map first_given].
    - now rewrite like_twice.
    - f_equal; [|]. all: rewrite ?map_map; cbn [set_operators o_defuzzifier option_map]. 1: f_equal. all: clear; try (apply map_ext; intro). all: try f_equal.
      all: try (induction os as [|o' os IH]; [reflexivity|]; cbn [map first_given]; exact IH). }
  unfold operators at 1, configure. cbn [e_name e_description e_inputs e_outputs e_blocks map]. rewrite X. subst f. reflexivity.
Qed.
End Files.
