(** Memberships of straight-line shapes, and an engine for the examples of Mamdani inference in binary64. *)
From Coq Require Import ZArith Reals String Bool List Lia Lra.
From Coquelicot Require Import Coquelicot.
From Flocq Require Import Core BinarySingleNaN.
From Verif Require Import Base Op XR F64 F64Arith F64Err F64Sum Shape Norm Hedge Defuzz Aggregated Rule Var Activation Engine SpecTerm SpecDegree SpecActivation SpecEngine SpecInfer SpecDefuzz SpecRound SpecMamdani SpecLimit
  LimitMamdani FisF64 ShapeF64 MamdaniF64 EngineF64 ActivationProofs3.
Import ListNotations.
Local Open Scope R_scope. Local Open Scope string_scope.

Lemma shape_total (P : fparam) (s : shape f64) (h x : f64) w : is_finite (fp_eps P) = true -> 0 <= B2R (fp_eps P) <= w -> eta64 <= w ->
  line_term w (mkTerm "" h (TShape s)) -> is_finite x = true -> Rabs (B2R x) <= bpow radix2 300 ->
  is_finite (@sh_membership f64 (F64Scalar P) s h x) = true /\
  Rabs (B2R (@sh_membership f64 (F64Scalar P) s h x) - doc_membership (shape_map B2R s) (B2R h) (B2R x)) <= shape_error (B2R h) w (B2R (fp_eps P)).
Proof.
  intros FE PE WE LT FX BX. assert (TX : tame x) by (apply (tame_within (bpow radix2 300)); [apply bpow_le; lia|split; assumption]).
  destruct (line_close P (mkView [] []) (mkTerm "" h (TShape s)) w x FE PE WE LT TX) as (m & M1 & M2 & M3). cbn [tm_body tm_height] in M3. unfold term_membership in M1. cbn [tm_body tm_height] in M1. injection M1 as <-. split; [exact M2|exact M3].
Qed.

#[local] Hint Extern 9 (Scalar _) => exact (F64Scalar fp_default) : typeclass_instances.
Definition zero : f64 := f64_lit 0 1.
Definition ten : f64 := f64_lit 10 1.
Definition up : term f64 := mkTerm "up" (f64_lit 1 1) (TShape (Ramp zero ten)).
Definition x_case : variable f64 := mkVariable "x" "" (f64_lit 5 1) zero ten true false [up].
Definition y_case (fuzzy : list (activated f64 nat)) : output f64 := mkOutput (mkVariable "y" "" s_nan zero ten true false [up]) fuzzy (Some Maximum) (Some (DIntegral Centroid 1000)) s_nan s_nan false.
Definition is_up : expression := Prp (mkProp (VIn 0) [] (Some 0%nat)).
Definition not_up : expression := Prp (mkProp (VIn 0) [Not] (Some 0%nat)).
Definition y_up : list proposition := [mkProp (VOut 0) [] (Some 0%nat)].
Definition rules_case : list (rule f64) := [mkRule true "" (f64_lit 1 1) s_0 false "" (Some is_up) "" y_up; mkRule true "" (f64_lit 1 2) s_0 false "" (Some (Opr "and" not_up is_up)) "" y_up].
Definition line_case : engine f64 := mkEngine "" "" [x_case] [y_case []] [mkBlock true "" "" rules_case (Some Minimum) (Some Maximum) (Some Minimum) (Some General)].
Definition case_view : view f64 := mkView [] [].
Definition case_output : output f64 := y_case [mkActivated 0%nat (f64_lit 1 2) (Some Minimum)].

Lemma lit_int k : (Z.abs k < 2 ^ 53)%Z -> is_finite (f64_lit k 1) = true /\ B2R (f64_lit k 1) = IZR k.
Proof. intro H. now destruct (int_correct k H). Qed.
Lemma eps_case : is_finite (fp_eps fp_default) = true /\ 0 <= B2R (fp_eps fp_default) <= 2 / 1000000.
Proof.
  destruct (lit_close 1 1000000 ltac:(lia) ltac:(lia)) as [F E]. destruct u64_small as [U1 U2]. change (bpow radix2 (-53)) with u64 in E. split; [exact F|]. change (fp_eps fp_default) with (f64_lit 1 1000000). apply Rabs_le_inv in E. lra.
Qed.
Lemma room x : x <= 100 -> x <= bpow radix2 300.
Proof. intro H. assert (Q : bpow radix2 7 <= bpow radix2 300) by (apply bpow_le; lia). change (bpow radix2 7) with 128 in Q. lra. Qed.
Lemma tiny : 0 < eta64 <= / 1000000000000000 /\ 0 < u64 <= / 1000000000000000.
Proof. destruct eta64_small as [T1 T2]. destruct u64_small as [U1 U2]. assert (U3 : u64 <= / 1000000000000000) by lra. lra. Qed.
Lemma zero_ok : B2R zero = 0 /\ is_finite zero = true. Proof. exact f64_0_correct. Qed.
Lemma ten_ok : B2R ten = 10 /\ is_finite ten = true. Proof. destruct (lit_int 10 ltac:(lia)). split; assumption. Qed.
Lemma in_zero X : 0 <= X -> within X zero. Proof. intro H. destruct zero_ok as [E F]. split; [exact F|]. rewrite E, Rabs_R0. exact H. Qed.
Lemma in_ten X : 10 <= X -> within X ten. Proof. intro H. destruct ten_ok as [E F]. split; [exact F|]. rewrite E, Rabs_pos_eq; lra. Qed.
Lemma up_line : line_term 10 up.
Proof.
  destruct f64_1_correct as [O1 O2]. destruct zero_ok as [Z1 Z2]. destruct ten_ok as [T1 T2]. split; [|split].
  - split; [exact O2|]. cbn [tm_height up]. rewrite O1, Rabs_pos_eq; lra.
  - cbn [tm_height up]. rewrite O1. lra.
  - cbn [tm_body up]. split; [cbn [shape_map sloped]; rewrite Z1, T1, Rabs_pos_eq; lra|]. constructor; [apply in_zero; apply room; lra|]. constructor; [apply in_ten, room; lra|constructor].
Qed.
Lemma up_doc x : 0 <= x <= 10 -> documented [up] 0 x = x / 10.
Proof.
  intro X. destruct f64_1_correct as [O1 O2]. destruct zero_ok as [Z1 Z2]. destruct ten_ok as [T1 T2]. unfold documented. cbn [nth_error tm_body up tm_height shape_map]. rewrite Z1, T1, O1. rewrite ramp_up by lra. unfold Rmax, Rmin. repeat destruct Rle_dec; lra.
Qed.
Lemma case_shape : let h := f64_lit 1 1 in let m := @sh_membership f64 (F64Scalar fp_default) (Triangle (f64_lit 0 1) (f64_lit 5 1) (f64_lit 10 1)) h (f64_lit 3 1) in
  is_finite m = true /\ Rabs (B2R m - 3 / 5) <= / 1000000.
Proof.
  intros h m. destruct eps_case as [E1 E2]. destruct tiny as [T U]. destruct f64_1_correct as [O1 O2]. destruct (lit_int 3 ltac:(lia)) as [H1 H2]. destruct (lit_int 5 ltac:(lia)) as [F1 F2]. destruct zero_ok as [Z1 Z2]. destruct ten_ok as [N1 N2].
  destruct (shape_total fp_default (Triangle zero (f64_lit 5 1) ten) h (f64_lit 3 1) 5 E1 ltac:(lra)) as [M1 M2].
  - lra.
  - split; [|split]; cbn [tm_height tm_body].
    + split; [exact O2|]. unfold h. rewrite O1, Rabs_pos_eq; lra.
    + unfold h. rewrite O1. lra.
    + split; [cbn [shape_map sloped]; rewrite Z1, F2, N1; lra|]. constructor; [apply in_zero; apply room; lra|]. constructor; [split; [exact F1|rewrite F2, Rabs_pos_eq by lra; apply room; lra]|]. constructor; [apply in_ten, room; lra|constructor].
  - exact H1.
  - rewrite H2, Rabs_pos_eq by lra. apply room. lra.
  - split; [exact M1|]. change (B2R m) with (B2R (@sh_membership f64 (F64Scalar fp_default) (Triangle zero (f64_lit 5 1) ten) h (f64_lit 3 1))). cbn [shape_map] in M2. assert (HH : B2R h = 1) by exact O1. rewrite triangle_doc in M2 by (rewrite ?Z1, ?F2, ?N1, ?HH; lra). rewrite Z1, F2, N1, H2, HH in M2.
    match type of M2 with Rabs (_ - ?z) <= _ => replace z with (3 / 5) in M2 end; [|unfold Rmax, Rmin; repeat destruct Rle_dec; lra]. apply Rle_trans with (1 := M2). unfold shape_error. replace (2 * eta64 / 5) with (2 / 5 * eta64) by field. replace (1 * B2R (fp_eps fp_default) / 5) with (/ 5 * B2R (fp_eps fp_default)) by field. lra.
Qed.
Lemma cut_bound delta : 0 <= delta <= / 250000 -> gravity_error (INR 1000) (10 - 0) 10 (15 / 4) (1 / 10) delta <= 27 / 1000.
Proof.
  intro D. assert (N : INR 1000 = 1000) by (rewrite INR_IZR_INZ; reflexivity). rewrite N. destruct tiny as [T U]. unfold gravity_error. set (o := 15 / 4 / (10 - 0) - 1 / 10 * (10 - 0) / (2 * 1000) - delta).
  assert (O : 1 / 3 <= o) by (unfold o; lra). assert (Q1 : delta * (10 - 0) / o <= / 5000). { apply (Rmult_le_reg_r o); [lra|]. replace (delta * (10 - 0) / o * o) with (10 * delta) by (field; lra). lra. }
  assert (Q2 : 2 * eta64 / o <= / 1000000). { apply (Rmult_le_reg_r o); [lra|]. replace (2 * eta64 / o * o) with (2 * eta64) by (field; lra). lra. }
  assert (S1 : sample_error 1000 10 <= / 1000000) by (unfold sample_error; lra). assert (S2 : 0 <= sample_error 1000 10) by (unfold sample_error; lra).
  assert (Q3 : 5 / 2 * (1000 + 1) * u64 * (10 + sample_error 1000 10) <= / 100000). { apply Rle_trans with (5 / 2 * (1000 + 1) * u64 * 11); [apply Rmult_le_compat_l; lra|lra]. }
  replace ((1 / 10 * (10 - 0) + 1) * (10 - 0) ^ 2 / (2 * 1000 * (15 / 4) - 1 / 10 * (10 - 0) ^ 2)) with (20 / 749) by field. lra.
Qed.
Lemma first_error : 0 <= shape_error 1 10 (B2R (fp_eps fp_default)) + sample_error (INR 1000) 10 / 10 <= / 4000000.
Proof.
  assert (N : INR 1000 = 1000) by (rewrite INR_IZR_INZ; reflexivity). rewrite N. destruct tiny as [T U]. destruct eps_case as [_ E]. unfold shape_error, sample_error. replace (2 * eta64 / 10) with (/ 5 * eta64) by field. replace (1 * B2R (fp_eps fp_default) / 10) with (/ 10 * B2R (fp_eps fp_default)) by field. unfold Rdiv. lra.
Qed.
Lemma case_value : let v := v_value (o_var (fst (@defuzzify f64 (F64Scalar fp_default) case_view case_output))) in is_finite v = true /\ Rabs (B2R v - 55 / 9) <= 27 / 1000.
Proof.
  intro v. destruct eps_case as [E1 E2]. destruct tiny as [T U]. destruct zero_ok as [Z1 Z2]. destruct ten_ok as [N1 N2]. destruct f64_half_correct as [H1 H2]. assert (FE := first_error).
  assert (SET : forall x, 0 <= x <= 10 -> mamdani_set (documented [up]) [mkActivated 0%nat (f64_lit 1 2) (Some Minimum)] x = cut x).
  { intros x X. unfold mamdani_set. cbn [fold_left ac_term ac_degree]. rewrite up_doc by exact X. rewrite H1. now apply cut_max. }
  assert (N : INR 1000 = 1000) by (rewrite INR_IZR_INZ; reflexivity).
  destruct (value_close fp_default case_view case_output 1000 10 10) as (_ & V2 & V3).
  - split; [exact E1|lra].
  - lra.
  - apply in_zero. lra.
  - apply in_ten. lra.
  - change (B2R zero < B2R ten). rewrite Z1, N1. lra.
  - apply room. lra.
  - lia.
  - lia.
  - reflexivity.
  - intros c [<- | []]. split; [split; [reflexivity|]; split; [exact H2|cbn [ac_degree]; rewrite H1; lra]|]. exists up. split; [reflexivity|exact up_line].
  - reflexivity.
  - reflexivity.
  - change (v_minimum (o_var case_output)) with zero. change (v_maximum (o_var case_output)) with ten. change (v_terms (o_var case_output)) with [up]. change (o_fuzzy case_output) with [mkActivated 0%nat (f64_lit 1 2) (Some Minimum)]. rewrite Z1, N1. rewrite (area_same _ cut) by (exact SET || lra). rewrite cut_area. revert FE. rewrite N. lra.
  - split; [exact V2|]. change (v_minimum (o_var case_output)) with zero in V3. change (v_maximum (o_var case_output)) with ten in V3. change (v_terms (o_var case_output)) with [up] in V3. change (o_fuzzy case_output) with [mkActivated 0%nat (f64_lit 1 2) (Some Minimum)] in V3. rewrite Z1, N1 in V3. rewrite (area_same _ cut), (gravity_same _ cut), cut_area, cut_gravity in V3 by (exact SET || lra).
    apply Rle_trans with (1 := V3). replace (1 / 10) with (1 / 10) by ring. apply cut_bound. lra.
Qed.
Lemma case_line : line_engine line_case 10 1 0 [up].
Proof.
  destruct f64_1_correct as [O1 O2]. destruct f64_half_correct as [H1 H2]. destruct (lit_int 5 ltac:(lia)) as [F1 F2]. constructor.
  - constructor; [|constructor]. intros _. reflexivity.
  - intros v [<- | []]. split; [split; [exact F1|cbn [v_value x_case]; rewrite F2, Rabs_pos_eq by lra; apply room; lra]|]. constructor; [exact up_line|constructor].
  - constructor; [exact up_line|constructor].
  - intros b [<- | []] _. cbn. auto.
  - intros r [<- | [<- | []]]; cbn [rl_weight]; rewrite ?O1, ?H1; split; try assumption; lra.
  - intros r a p [<- | [<- | []]]; cbn [rl_antecedent]; intro Q; injection Q as <-; cbn [propositions is_up not_up app]; intros H.
    + destruct H as [<- | []]. split; [exists 0%nat, x_case; auto|]. split; [constructor|cbn; lia].
    + destruct H as [<- | [<- | []]]; (split; [exists 0%nat, x_case; auto|]); (split; [repeat constructor|cbn; lia]).
  - intros r p [<- | [<- | []]] [<- | []]; (split; [reflexivity|]); intros t _ Q; injection Q as <-; cbn; lia.
Qed.
Lemma case_truth : truth line_case is_up = 1 / 2 /\ truth line_case not_up = 1 / 2.
Proof.
  destruct (lit_int 5 ltac:(lia)) as [F1 F2]. cbn [truth is_up not_up]. unfold truth_of. cbn [pr_var nth_error e_inputs line_case v_enabled x_case pr_hedges pr_term hedged_truth fold_right v_terms v_value]. rewrite F2, up_doc by lra. split; lra.
Qed.
Lemma case_set x : 0 <= x <= 10 -> conclusion_set line_case [up] 0 x = cut x.
Proof.
  intro X. destruct case_truth as [T1 T2]. destruct f64_1_correct as [O1 O2]. destruct f64_half_correct as [H1 H2]. unfold conclusion_set, rules_in_force. cbn [e_blocks line_case flat_map b_enabled b_rules rules_case app]. unfold said. cbn [rl_antecedent rl_enabled rl_consequent y_up flat_map pr_var pr_term Nat.eqb app rl_weight fold_left].
  change (truth line_case (Opr "and" not_up is_up)) with (Rmin (truth line_case not_up) (truth line_case is_up)). rewrite T1, T2, O1, H1, up_doc by exact X. unfold cut, Rmax, Rmin. repeat destruct Rle_dec; lra.
Qed.
Lemma case_runs : match @process f64 (F64Scalar fp_default) (@stable_drain f64) line_case with (e', Ok tt) => match e_outputs e' with [_] => true | _ => false end | _ => false end = true.
Proof. vm_compute. reflexivity. Qed.
Lemma case_engine : exists e' p, @process f64 (F64Scalar fp_default) (@stable_drain f64) line_case = (e', Ok tt) /\ e_outputs e' = [p] /\
  is_finite (v_value (o_var p)) = true /\ Rabs (B2R (v_value (o_var p)) - 55 / 9) <= 27 / 1000.
Proof.
  assert (R := case_runs). remember (@process f64 (F64Scalar fp_default) (@stable_drain f64) line_case) as r eqn:E. destruct r as [e' [[]| | |]]; try discriminate R. destruct (e_outputs e') as [|p [|]] eqn:O; try discriminate R. exists e', p. split; [reflexivity|]. split; [exact O|].
  destruct eps_case as [E1 E2]. destruct tiny as [T U]. destruct zero_ok as [Z1 Z2]. destruct ten_ok as [N1 N2]. assert (FE := first_error).
  assert (N : INR 1000 = 1000) by (rewrite INR_IZR_INZ; reflexivity).
  assert (DE : 0 <= degree_error (INR 1) 10 (B2R (fp_eps fp_default)) <= / 400000).
  { unfold degree_error, shape_error. cbn [INR]. replace (2 * eta64 / 10) with (/ 5 * eta64) by field. replace (1 * B2R (fp_eps fp_default) / 10) with (/ 10 * B2R (fp_eps fp_default)) by field. lra. }
  destruct (engine_close fp_default (@stable_drain f64) line_case e' 0 (y_case []) p 1000 1 10 10) as (V2 & V3).
  - split; [exact E1|lra].
  - lra.
  - lia.
  - exact case_line.
  - symmetry. exact E.
  - reflexivity.
  - rewrite O. reflexivity.
  - reflexivity.
  - reflexivity.
  - reflexivity.
  - lia.
  - lia.
  - apply in_zero. lra.
  - apply in_ten. lra.
  - change (B2R zero < B2R ten). rewrite Z1, N1. lra.
  - apply room. lra.
  - change (v_minimum (o_var (y_case []))) with zero. change (v_maximum (o_var (y_case []))) with ten. change (v_terms (o_var (y_case []))) with [up]. rewrite Z1, N1. rewrite (area_same _ cut) by (exact case_set || lra). rewrite cut_area. revert FE. rewrite N. lra.
  - split; [exact V2|]. change (v_minimum (o_var (y_case []))) with zero in V3. change (v_maximum (o_var (y_case []))) with ten in V3. change (v_terms (o_var (y_case []))) with [up] in V3. rewrite Z1, N1 in V3. rewrite (area_same _ cut), (gravity_same _ cut), cut_area, cut_gravity in V3 by (exact case_set || lra).
    apply Rle_trans with (1 := V3). apply cut_bound. lra.
Qed.
