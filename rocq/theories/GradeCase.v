(** An engine with algebraic operators and a hedge, and why the feet of triangles are excepted. *)
From Coq Require Import ZArith Reals String Bool List Lra Lia.
From Coquelicot Require Import Coquelicot.
From Flocq Require Import Core BinarySingleNaN.
From Verif Require Import Base Op XR XRFacts F64 F64Facts F64Arith F64Err Shape Norm Hedge Defuzz Aggregated Rule Var Activation Engine SpecTerm SpecNorm NormSpec SpecActivation SpecEngine SpecInfer SpecDefuzz SpecRound SpecMamdani
  SpecLimit LimitMamdani SpecNormErr SpecGrade FisF64 MamdaniF64 EngineF64 ActivationProofs3 MamdaniCase GradeEngine.
Import ListNotations.
Local Open Scope R_scope. Local Open Scope string_scope.
#[local] Hint Extern 9 (Scalar _) => exact (F64Scalar fp_default) : typeclass_instances.

Definition y_soft : output f64 := mkOutput (mkVariable "y" "" s_nan zero ten true false [up]) [] (Some AlgebraicSum) (Some (DIntegral Centroid 1000)) s_nan s_nan false.
Definition very_up : expression := Prp (mkProp (VIn 0) [Very] (Some 0%nat)).
Definition rules_soft : list (rule f64) := [mkRule true "" (f64_lit 1 1) s_0 false "" (Some is_up) "" y_up; mkRule true "" (f64_lit 1 1) s_0 false "" (Some (Opr "and" very_up is_up)) "" y_up].
Definition block_soft : block f64 := mkBlock true "" "" rules_soft (Some AlgebraicProduct) (Some AlgebraicSum) (Some AlgebraicProduct) (Some General).
Definition soft_case : engine f64 := mkEngine "" "" [x_case] [y_soft] [block_soft].

Definition soft (x : R) : R := x / 20 + x / 80 - x / 20 * (x / 80).
Lemma int_soft : is_RInt soft 0 10 (35 / 12) /\ is_RInt (fun x => x * soft x) 0 10 (925 / 48).
Proof.
  split.
  - replace (35 / 12) with ((fun x => x ^ 2 / 32 - x ^ 3 / 4800) 10 - (fun x => x ^ 2 / 32 - x ^ 3 / 4800) 0) by (cbn; field).
    apply (is_RInt_derive (V := R_CompleteNormedModule) (fun x => x ^ 2 / 32 - x ^ 3 / 4800) soft).
    + intros x _. unfold soft. auto_derive; [exact I|field].
    + intros x _. apply continuity_pt_filterlim. apply derivable_continuous_pt. exists (1 / 16 - x / 800). apply is_derive_Reals. unfold soft. auto_derive; [exact I|field].
  - replace (925 / 48) with ((fun x => x ^ 3 / 48 - x ^ 4 / 6400) 10 - (fun x => x ^ 3 / 48 - x ^ 4 / 6400) 0) by (cbn; field).
    apply (is_RInt_derive (V := R_CompleteNormedModule) (fun x => x ^ 3 / 48 - x ^ 4 / 6400) (fun x => x * soft x)).
    + intros x _. unfold soft. auto_derive; [exact I|field].
    + intros x _. apply continuity_pt_filterlim. apply derivable_continuous_pt. exists (x / 8 - 3 * x ^ 2 / 1600). apply is_derive_Reals. unfold soft. auto_derive; [exact I|field].
Qed.
Lemma soft_area : area soft 0 10 = 35 / 12.
Proof. apply is_RInt_unique. apply int_soft. Qed.
Lemma soft_gravity : gravity soft 0 10 = 185 / 28.
Proof. unfold gravity. rewrite (is_RInt_unique _ _ _ _ (proj1 int_soft)), (is_RInt_unique _ _ _ _ (proj2 int_soft)). lra. Qed.
Lemma soft_bound E : 0 <= E <= / 100000 -> gravity_error (INR 1000) (10 - 0) 10 (35 / 12) (2 * (1 / 10)) E <= 53 / 1000.
Proof.
  intro D. assert (N : INR 1000 = 1000) by (rewrite INR_IZR_INZ; reflexivity). rewrite N. destruct tiny as [T U]. unfold gravity_error. set (o := 35 / 12 / (10 - 0) - 2 * (1 / 10) * (10 - 0) / (2 * 1000) - E).
  assert (O : 1 / 4 <= o) by (unfold o; lra). assert (Q1 : E * (10 - 0) / o <= / 2500). { apply (Rmult_le_reg_r o); [lra|]. replace (E * (10 - 0) / o * o) with (10 * E) by (field; lra). lra. }
  assert (Q2 : 2 * eta64 / o <= / 1000000). { apply (Rmult_le_reg_r o); [lra|]. replace (2 * eta64 / o * o) with (2 * eta64) by (field; lra). lra. }
  assert (S1 : sample_error 1000 10 <= / 1000000) by (unfold sample_error; lra). assert (S2 : 0 <= sample_error 1000 10) by (unfold sample_error; lra).
  assert (Q3 : 5 / 2 * (1000 + 1) * u64 * (10 + sample_error 1000 10) <= / 100000). { apply Rle_trans with (5 / 2 * (1000 + 1) * u64 * 11); [apply Rmult_le_compat_l; lra|lra]. }
  replace ((2 * (1 / 10) * (10 - 0) + 1) * (10 - 0) ^ 2 / (2 * 1000 * (35 / 12) - 2 * (1 / 10) * (10 - 0) ^ 2)) with (45 / 872) by field. lra.
Qed.
Lemma soft_even : even_engine soft_case.
Proof.
  destruct f64_1_correct as [O1 O2]. constructor.
  - constructor; [|constructor]. intros _. reflexivity.
  - intros b [<- | []] _. cbn [block_soft b_conjunction b_disjunction b_implication]. split; [|split].
    + intros n Q. injection Q as <-. split; discriminate.
    + intros n Q. injection Q as <-. repeat split; discriminate.
    + exists AlgebraicProduct. split; [reflexivity|split; discriminate].
  - intros br [<- | [<- | []]]; cbn [snd rl_weight]; (split; [exact O2|rewrite O1; lra]).
  - intros br a p [<- | [<- | []]]; cbn [snd rl_antecedent]; intro Q; injection Q as <-; cbn [propositions is_up very_up app]; intros H.
    + destruct H as [<- | []]. exists 0%nat, x_case. auto.
    + destruct H as [<- | [<- | []]]; exists 0%nat, x_case; auto.
  - intros br p [<- | [<- | []]] [<- | []]; reflexivity.
Qed.
Lemma soft_grades : grade soft_case block_soft is_up = 1 / 2 /\ grade soft_case block_soft (Opr "and" very_up is_up) = 1 / 8.
Proof.
  destruct (lit_int 5 ltac:(lia)) as [F1 F2]. assert (U : documented (v_terms x_case) 0 (B2R (v_value x_case)) = 1 / 2) by (cbn [v_terms v_value x_case]; rewrite F2, up_doc by lra; lra).
  assert (G1 : grade soft_case block_soft is_up = 1 / 2) by exact U.
  assert (G2 : grade soft_case block_soft very_up = 1 / 4). { change (grade soft_case block_soft very_up) with (documented (v_terms x_case) 0 (B2R (v_value x_case)) * documented (v_terms x_case) 0 (B2R (v_value x_case))). rewrite U. lra. }
  split; [exact G1|]. change (grade soft_case block_soft (Opr "and" very_up is_up)) with (grade soft_case block_soft very_up * grade soft_case block_soft is_up). rewrite G1, G2. lra.
Qed.
Lemma soft_set x : 0 <= x <= 10 -> joint_set soft_case AlgebraicSum [up] 0 x = soft x.
Proof.
  intro X. destruct soft_grades as [T1 T2]. destruct f64_1_correct as [O1 O2]. unfold joint_set, in_force. cbn [e_blocks soft_case flat_map b_enabled block_soft b_rules rules_soft map app]. unfold says, heads. cbn [fst snd rl_consequent y_up flat_map pr_var pr_term Nat.eqb app map b_implication]. unfold rule_grade. cbn [rl_antecedent rl_enabled rl_weight fold_left].
  fold block_soft. fold rules_soft. fold block_soft. change (mkBlock true "" "" rules_soft (Some AlgebraicProduct) (Some AlgebraicSum) (Some AlgebraicProduct) (Some General)) with block_soft. rewrite T1, T2, O1, up_doc by exact X. cbn [tname_of sname_of t_formula s_formula]. unfold soft.
  cbn [block_soft b_implication tname_of t_formula]. field.
Qed.
Lemma soft_runs : match @process f64 (F64Scalar fp_default) (@stable_drain f64) soft_case with (e', Ok tt) => match e_outputs e' with [_] => true | _ => false end | _ => false end = true.
Proof. vm_compute. reflexivity. Qed.
Lemma soft_value : exists e' p, @process f64 (F64Scalar fp_default) (@stable_drain f64) soft_case = (e', Ok tt) /\ e_outputs e' = [p] /\
  is_finite (v_value (o_var p)) = true /\ Rabs (B2R (v_value (o_var p)) - 185 / 28) <= 53 / 1000.
Proof.
  assert (R := soft_runs). remember (@process f64 (F64Scalar fp_default) (@stable_drain f64) soft_case) as r eqn:E. destruct r as [e' [[]| | |]]; try discriminate R. destruct (e_outputs e') as [|p [|]] eqn:O; try discriminate R. exists e', p. split; [reflexivity|]. split; [exact O|].
  destruct eps_case as [E1 E2]. destruct tiny as [T U]. destruct zero_ok as [Z1 Z2]. destruct ten_ok as [N1 N2]. assert (FE := first_error). destruct (lit_int 5 ltac:(lia)) as [F1 F2].
  assert (N : INR 1000 = 1000) by (rewrite INR_IZR_INZ; reflexivity).
  assert (UC : forall x, clear (B2R (fp_eps fp_default)) up x) by (intro; exact I).
  assert (D0 : 0 <= shape_error 1 10 (B2R (fp_eps fp_default)) <= / 4000000).
  { unfold shape_error. replace (2 * eta64 / 10) with (/ 5 * eta64) by field. replace (1 * B2R (fp_eps fp_default) / 10) with (/ 10 * B2R (fp_eps fp_default)) by field. lra. }
  set (delta := shape_error 1 10 (B2R (fp_eps fp_default))) in *. set (delta' := delta + sample_error (INR 1000) 10 / 10) in *.
  assert (JE : joint_error soft_case (B2R (fp_eps fp_default)) delta delta' AlgebraicSum 0 = 2 * delta' + (delta + u64 + B2R (fp_eps fp_default) + 16 * u64) + (8 * u64 + (u64 + 2 * delta + delta) + u64 + B2R (fp_eps fp_default) + 16 * u64)).
  { unfold joint_error, in_force. cbn [e_blocks soft_case flat_map b_enabled block_soft b_rules rules_soft map app fold_right]. unfold heads, head_error, rule_error. cbn [fst snd rl_consequent y_up flat_map pr_var pr_term Nat.eqb app List.length INR rl_antecedent b_implication is_up very_up].
    cbn [grade_error String.eqb Ascii.eqb Bool.eqb b_conjunction both pr_hedges hedged_error fold_right hedge_error hedge_spread tnorm_error snorm_error block_soft b_implication tname_of].
    unfold is_up, very_up. cbn [grade_error pr_hedges hedged_error fold_right hedge_error hedge_spread]. ring. }
  assert (JB : 0 <= joint_error soft_case (B2R (fp_eps fp_default)) delta delta' AlgebraicSum 0 <= / 100000) by (rewrite JE; lra).
  destruct (line_value fp_default (@stable_drain f64) soft_case e' 0 y_soft p 1000 AlgebraicSum 10 10) as (V2 & V3).
  - exact E1.
  - lra.
  - lra.
  - lra.
  - exact soft_even.
  - intros v [<- | []]. split; [split; [exact F1|cbn [v_value x_case]; rewrite F2, Rabs_pos_eq by lra; apply room; lra]|]. split; (constructor; [|constructor]); [exact up_line|apply UC].
  - symmetry. exact E.
  - reflexivity.
  - rewrite O. reflexivity.
  - reflexivity.
  - reflexivity.
  - repeat split; discriminate.
  - reflexivity.
  - lia.
  - lia.
  - apply in_zero. lra.
  - apply in_ten. lra.
  - change (B2R zero < B2R ten). rewrite Z1, N1. lra.
  - apply room. lra.
  - constructor; [exact up_line|constructor].
  - intros br t [<- | [<- | []]] [<- | []]; cbn; lia.
  - intros i _. constructor; [apply UC|constructor].
  - fold delta. fold delta'. change (v_minimum (o_var y_soft)) with zero. change (v_maximum (o_var y_soft)) with ten. change (v_terms (o_var y_soft)) with [up]. rewrite Z1, N1. rewrite (area_same _ soft) by (exact soft_set || lra). rewrite soft_area. change (INR (heads_count soft_case 0)) with 2. rewrite N. lra.
  - split; [exact V2|]. fold delta in V3. fold delta' in V3. change (v_minimum (o_var y_soft)) with zero in V3. change (v_maximum (o_var y_soft)) with ten in V3. change (v_terms (o_var y_soft)) with [up] in V3. rewrite Z1, N1 in V3. rewrite (area_same _ soft), (gravity_same _ soft), soft_area, soft_gravity in V3 by (exact soft_set || lra). change (INR (heads_count soft_case 0)) with 2 in V3.
    apply Rle_trans with (1 := V3). apply soft_bound. exact JB.
Qed.

(** ** feet of triangles *)
Definition foot : term f64 := mkTerm "foot" (f64_lit 1 1) (TShape (Triangle zero (f64_lit 5 1) ten)).
Definition below : f64 := Bopp (f64_lit 1 2000000).
Lemma foot_negative : match @term_membership f64 (F64Scalar fp_default) (mkView [] []) foot below with Ok m => Bltb m (f64_lit 0 1) && is_finite m | _ => false end = true.
Proof. vm_compute. reflexivity. Qed.
Lemma foot_line : line_term 5 foot.
Proof.
  destruct f64_1_correct as [O1 O2]. destruct zero_ok as [Z1 Z2]. destruct ten_ok as [T1 T2]. destruct (lit_int 5 ltac:(lia)) as [F1 F2]. split; [|split].
  - split; [exact O2|]. cbn [tm_height foot]. rewrite O1, Rabs_pos_eq; lra.
  - cbn [tm_height foot]. rewrite O1. lra.
  - cbn [tm_body foot]. split; [cbn [shape_map sloped]; rewrite Z1, F2, T1; lra|]. constructor; [apply in_zero; apply room; lra|]. constructor; [split; [exact F1|rewrite F2, Rabs_pos_eq by lra; apply room; lra]|]. constructor; [apply in_ten, room; lra|constructor].
Qed.
Lemma foot_refuted : exists (t : term f64) (x m : f64), line_term 5 t /\ within 1 x /\ @term_membership f64 (F64Scalar fp_default) (mkView [] []) t x = Ok m /\ is_finite m = true /\ B2R m < 0.
Proof.
  assert (Q := foot_negative). destruct (@term_membership f64 (F64Scalar fp_default) (mkView [] []) foot below) as [m| | |] eqn:M; try discriminate Q. apply andb_true_iff in Q. destruct Q as [Q1 Q2]. exists foot, below, m. split; [exact foot_line|].
  destruct (lit_close 1 2000000 ltac:(lia) ltac:(lia)) as [F E]. destruct tiny as [_ U]. change (bpow radix2 (-53)) with u64 in E. split; [unfold below; split; [rewrite is_finite_Bopp; exact F|]; rewrite B2R_Bopp; apply Rabs_le_inv in E; apply Rabs_le; lra|]. split; [exact M|]. split; [exact Q2|].
  destruct zero_ok as [Z1 Z2]. rewrite Bltb_correct in Q1 by assumption. change (f64_lit 0 1) with zero in Q1. rewrite Z1 in Q1. revert Q1. case Rlt_bool_spec; [auto|discriminate].
Qed.
