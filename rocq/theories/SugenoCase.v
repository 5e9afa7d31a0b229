(** An engine for the examples of Takagi-Sugeno inference in binary64. *)
From Coq Require Import ZArith Reals String Bool List Lia Lra.
From Flocq Require Import Core BinarySingleNaN.
From Verif Require Import Base Op XR F64 F64Arith F64Err F64Sum Shape Norm Hedge Defuzz Aggregated Rule Var Activation Engine SpecTerm SpecDegree SpecActivation SpecEngine SpecInfer SpecDefuzz SpecRound SpecMamdani SpecSugeno
  FisF64 ShapeF64 MamdaniF64 EngineF64 ActivationProofs3 MamdaniCase SugenoF64 SugenoF64c.
Import ListNotations.
Local Open Scope R_scope. Local Open Scope string_scope.

#[local] Hint Extern 9 (Scalar _) => exact (F64Scalar fp_default) : typeclass_instances.
Definition three : term f64 := mkTerm "three" (f64_lit 1 1) (TConstant (f64_lit 3 1)).
(** 2 x + 1 *)
Definition twice : term f64 := mkTerm "twice" (f64_lit 1 1) (TLinear [f64_lit 2 1; f64_lit 1 1] true).
Definition sum_or_mean (kd : weighted_kind) : output f64 := mkOutput (mkVariable "y" "" s_nan zero ten true false [three; twice]) [] None (Some (DWeighted kd WAutomatic)) s_nan s_nan false.
Definition y_is (t : nat) : list proposition := [mkProp (VOut 0) [] (Some t)].
Definition sugeno_rules : list (rule f64) := [mkRule true "" (f64_lit 1 1) s_0 false "" (Some is_up) "" (y_is 0); mkRule true "" (f64_lit 1 2) s_0 false "" (Some (Opr "and" not_up is_up)) "" (y_is 1)].
Definition sugeno_case (kd : weighted_kind) : engine f64 := mkEngine "" "" [x_case] [sum_or_mean kd] [mkBlock true "" "" sugeno_rules (Some Minimum) (Some Maximum) None (Some General)].

Lemma case_inputs kd : input_values (sugeno_case kd) = [5].
Proof. destruct (lit_int 5 ltac:(lia)) as [F1 F2]. unfold input_values. cbn [map e_inputs sugeno_case v_value x_case]. now rewrite F2. Qed.
Lemma case_formulas kd : formula (sugeno_case kd) three = 3 /\ formula_size (sugeno_case kd) three = 3 /\ formula (sugeno_case kd) twice = 11 /\ formula_size (sugeno_case kd) twice = 11.
Proof.
  destruct (lit_int 3 ltac:(lia)) as [F1 F2]. destruct (lit_int 2 ltac:(lia)) as [D1 D2]. destruct (lit_int 1 ltac:(lia)) as [O1 O2]. unfold formula, formula_size. cbn [tm_body three twice]. rewrite case_inputs. cbn [map dot length nth]. rewrite F2, D2, O2. unfold Rabs. repeat destruct Rcase_abs; repeat split; lra.
Qed.
Lemma case_sugeno kd : sugeno_engine (sugeno_case kd) 10 11 1 0 [three; twice].
Proof.
  destruct f64_1_correct as [O1 O2]. destruct f64_half_correct as [H1 H2]. destruct (lit_int 5 ltac:(lia)) as [F1 F2]. destruct (lit_int 3 ltac:(lia)) as [C1 C2]. destruct (lit_int 2 ltac:(lia)) as [D1 D2]. destruct (case_formulas kd) as (Q1 & Q2 & Q3 & Q4). constructor.
  - constructor; [|constructor]. intros _. reflexivity.
  - intros v [<- | []]. split; [split; [exact F1|cbn [v_value x_case]; rewrite F2, Rabs_pos_eq by lra; apply room; lra]|]. constructor; [exact up_line|constructor].
  - constructor; [split; [rewrite Q2; lra|exact C1]|]. constructor; [|constructor]. split; [rewrite Q4; lra|]. cbn [tm_body twice]. split; [reflexivity|]. split; [repeat constructor; assumption|cbn; lia].
  - repeat constructor; cbn; intuition discriminate.
  - intros b [<- | []] _. cbn. auto.
  - intros r [<- | [<- | []]]; cbn [rl_weight]; rewrite ?O1, ?H1; split; try assumption; lra.
  - intros r a p [<- | [<- | []]]; cbn [rl_antecedent]; intro Q; injection Q as <-; cbn [propositions is_up not_up app]; intros H.
    + destruct H as [<- | []]. split; [exists 0%nat, x_case; auto|]. split; [constructor|cbn; lia].
    + destruct H as [<- | [<- | []]]; (split; [exists 0%nat, x_case; auto|]); (split; [repeat constructor|cbn; lia]).
  - intros r p [<- | [<- | []]] [<- | []]; (split; [reflexivity|]); intros t _ Q; injection Q as <-; cbn; lia.
Qed.
Lemma sugeno_truth kd : truth (sugeno_case kd) is_up = 1 / 2 /\ truth (sugeno_case kd) not_up = 1 / 2.
Proof.
  destruct (lit_int 5 ltac:(lia)) as [F1 F2]. cbn [truth is_up not_up]. unfold truth_of. cbn [pr_var nth_error e_inputs sugeno_case v_enabled x_case pr_hedges pr_term hedged_truth fold_right v_terms v_value]. rewrite F2, up_doc by lra. split; lra.
Qed.
Lemma case_votes kd : votes (sugeno_case kd) 0 = [(1 / 2, 0%nat); (1 / 4, 1%nat)].
Proof.
  destruct (sugeno_truth kd) as [T1 T2]. destruct f64_1_correct as [O1 O2]. destruct f64_half_correct as [H1 H2]. unfold votes, rules_in_force. cbn [e_blocks sugeno_case flat_map b_enabled b_rules sugeno_rules app]. unfold votes_of. cbn [rl_antecedent rl_enabled rl_consequent y_is flat_map pr_var pr_term Nat.eqb app rl_weight].
  change (truth (sugeno_case kd) (Opr "and" not_up is_up)) with (Rmin (truth (sugeno_case kd) not_up) (truth (sugeno_case kd) is_up)). rewrite T1, T2, O1, H1. rewrite Rmin_left by lra. apply (f_equal2 cons); [|apply (f_equal2 cons); [|reflexivity]]; f_equal; lra.
Qed.
Lemma sugeno_runs kd : match @process f64 (F64Scalar fp_default) (@stable_drain f64) (sugeno_case kd) with (e', Ok tt) => match e_outputs e' with [_] => true | _ => false end | _ => false end = true.
Proof. destruct kd; vm_compute; reflexivity. Qed.
Lemma sugeno_case_value kd : exists e' p, @process f64 (F64Scalar fp_default) (@stable_drain f64) (sugeno_case kd) = (e', Ok tt) /\ e_outputs e' = [p] /\
  is_finite (v_value (o_var p)) = true /\ Rabs (B2R (v_value (o_var p)) - match kd with WeightedAverage => 17 / 3 | WeightedSum => 17 / 4 end) <= / 4000.
Proof.
  assert (R := sugeno_runs kd). remember (@process f64 (F64Scalar fp_default) (@stable_drain f64) (sugeno_case kd)) as r eqn:E. destruct r as [e' [[]| | |]]; try discriminate R. destruct (e_outputs e') as [|p [|]] eqn:O; try discriminate R. exists e', p. split; [reflexivity|]. split; [exact O|].
  destruct eps_case as [E1 E2]. destruct tiny as [T U].
  assert (DE : 0 <= vote_error 2 (INR 1) 10 (B2R (fp_eps fp_default)) <= / 400000).
  { unfold vote_error, degree_error, shape_error. cbn [INR]. replace (2 * eta64 / 10) with (/ 5 * eta64) by field. replace (1 * B2R (fp_eps fp_default) / 10) with (/ 10 * B2R (fp_eps fp_default)) by field. lra. }
  assert (LE : 0 <= linear_error 1 11 <= / 1000000) by (unfold linear_error; lra).
  assert (NV : INR (length (votes (sugeno_case kd) 0)) = 2) by (rewrite case_votes; cbn; lra). assert (NI : INR (length (e_inputs (sugeno_case kd))) = 1) by (cbn; lra).
  assert (TW : total_weight (sugeno_case kd) 0 = 3 / 4) by (unfold total_weight; rewrite case_votes; unfold rsum; cbn [map fst fold_right]; lra).
  destruct (case_formulas kd) as (Q1 & _ & Q3 & _).
  assert (TS : sugeno_sum (sugeno_case kd) [three; twice] 0 = 17 / 4) by (unfold sugeno_sum; rewrite case_votes; unfold rsum; cbn [map fst snd fold_right]; unfold formula_at; cbn [nth_error]; rewrite Q1, Q3; lra).
  destruct (sugeno_close fp_default (@stable_drain f64) (sugeno_case kd) e' 0 (sum_or_mean kd) p kd WAutomatic 1 10 11) as (V2 & V3).
  - split; [exact E1|lra].
  - lra.
  - lia.
  - exact (case_sugeno kd).
  - split; [lra|]. apply room. lra.
  - cbn; lia.
  - rewrite case_votes. cbn. lia.
  - symmetry. exact E.
  - reflexivity.
  - rewrite O. reflexivity.
  - reflexivity.
  - reflexivity.
  - now left.
  - reflexivity.
  - now right.
  - rewrite NV, TW. lra.
  - split; [exact V2|]. change (v_terms (o_var (sum_or_mean kd))) with [three; twice] in V3. rewrite NV, NI, TW in V3. set (de := vote_error 2 (INR 1) 10 (B2R (fp_eps fp_default))) in *. set (nu := linear_error 1 11) in *. destruct kd.
    + unfold sugeno_average in V3. rewrite TS, TW in V3. replace (17 / 4 / (3 / 4)) with (17 / 3) in V3 by field. apply Rle_trans with (1 := V3). unfold sugeno_error. set (om := 3 / 4 - 2 * de). assert (OM : 1 / 2 <= om) by (unfold om; lra).
      assert (X1 : 2 * 11 * (2 * de) / om <= / 8000 + 44 * / 400000) by (apply (Rmult_le_reg_r om); [lra|]; replace (2 * 11 * (2 * de) / om * om) with (44 * de) by (field; lra); lra).
      assert (X2 : 2 * 2 * eta64 / om <= / 1000000) by (apply (Rmult_le_reg_r om); [lra|]; replace (2 * 2 * eta64 / om * om) with (4 * eta64) by (field; lra); lra).
      unfold mean_error. assert (5 / 2 * (2 + 1) * u64 * (11 + nu) <= 5 / 2 * (2 + 1) * u64 * 12) by (apply Rmult_le_compat_l; lra). lra.
    + rewrite TS in V3. apply Rle_trans with (1 := V3). unfold sugeno_sum_error, sum_error. set (om := 3 / 4 + 2 * de). assert (OM : 0 <= om <= 1) by (unfold om; lra).
      assert (X1 : nu * om <= nu * 1) by (apply Rmult_le_compat_l; lra). assert (X2 : (11 + nu) * om <= 12 * 1) by (apply Rmult_le_compat; lra).
      assert (65 / 64 * (2 + 1) * u64 * ((11 + nu) * om) <= 65 / 64 * (2 + 1) * u64 * (12 * 1)) by (apply Rmult_le_compat_l; lra). lra.
Qed.
