(** Engines with straight-line terms and operators without jumps, in binary64. *)
From Coq Require Import ZArith Reals String Bool List Lra Lia.
From Coquelicot Require Import Coquelicot.
From Flocq Require Import Core BinarySingleNaN.
From Verif Require Import Base Op XR XRFacts F64 F64Facts F64Arith F64Err F64Sum F64Quot Shape Norm Hedge Defuzz Aggregated Rule Var Activation Engine SpecTerm SpecNorm SpecActivation SpecEngine SpecInfer SpecDefuzz SpecRound SpecMamdani
  SpecLimit DefuzzReal LimitRiemann LimitProofs LimitMamdani SpecNormErr SpecGrade NormSpec NormF64 NormErr OpProofs F64Centroid FisF64 ShapeF64 MamdaniF64 EngineF64 ActivationProofs3 MamdaniCase GradeF64 GradeSet GradeValue GradeLine.
Import ListNotations.
Local Open Scope R_scope.

Section Lines.
Variables (P : fparam) (w : R).
Let eps := B2R (fp_eps P).
Hypothesis eps_fin : is_finite (fp_eps P) = true.
Hypothesis eps_ok : 0 <= eps <= w.
Hypothesis w_pos : eta64 <= w.
Lemma shape_error_pos : 0 <= shape_error 1 w eps.
Proof. exact (proj1 (s_range P w (conj eps_fin eps_ok) w_pos)). Qed.
Lemma line_accurate vw ts t tm x : List.Forall (line_term w) ts -> nth_error ts t = Some tm -> tame x -> clear eps tm (B2R x) ->
  exists m, @term_membership f64 (F64Scalar P) vw tm x = Ok m /\ fdegree m /\ Rabs (B2R m - documented ts t (B2R x)) <= shape_error 1 w eps.
Proof.
  intros F N T C. assert (LT : line_term w tm) by (rewrite List.Forall_forall in F; apply F, (nth_error_In _ _ N)). destruct (line_close P vw tm w x eps_fin eps_ok w_pos LT T) as (m & M1 & M2 & M3). exists m. split; [exact M1|].
  assert (H := LT). destruct H as (H1 & H2 & H3). destruct H1 as [HF HB]. rewrite Rabs_pos_eq in HB by exact H2. split; [exact (line_degree P w (tm_height tm) x eps_fin eps_ok w_pos (conj HF (conj H2 HB)) T tm vw LT eq_refl C m M1)|].
  unfold documented. rewrite N. destruct (tm_body tm); try contradiction. apply Rle_trans with (1 := M3). exact (height_mono P w (conj eps_fin eps_ok) w_pos _ (conj H2 HB)).
Qed.
Theorem line_measured e : (forall v, In v (e_inputs e) -> within (bpow radix2 300) (v_value v) /\ List.Forall (line_term w) (v_terms v) /\ List.Forall (fun t => clear eps t (B2R (v_value v))) (v_terms v)) -> measured e P (shape_error 1 w eps).
Proof.
  intros H v t tm Iv N. destruct (H v Iv) as (H1 & H2 & H3). split; [exact (documented_ok w w_pos (v_terms v) t _ H2)|]. intros m M. assert (TX : tame (v_value v)) by (apply (tame_within (bpow radix2 300)); [apply bpow_le; lia|exact H1]).
  assert (C : clear eps tm (B2R (v_value v))) by (rewrite List.Forall_forall in H3; apply H3, (nth_error_In _ _ N)). destruct (line_accurate (engine_view (e_inputs e) (e_outputs e)) (v_terms v) t tm (v_value v) H2 N TX C) as (m' & M1 & M2). assert (m' = m) by congruence. subst m'. exact M2.
Qed.
Theorem line_traced vw ts a b X n : List.Forall (line_term w) ts -> within X a -> within X b -> B2R a < B2R b -> X <= bpow radix2 300 -> (1 <= n)%nat -> (Z.of_nat n < 2 ^ 46)%Z ->
  (forall i, (i < n)%nat -> List.Forall (fun t => clear eps t (B2R (@sample f64 (F64Scalar P) a b (Z.of_nat n) i))) ts) ->
  forall i t, (i < n)%nat -> (t < List.length ts)%nat -> traced P vw ts (shape_error 1 w eps + sample_error (INR n) X / w) (@sample f64 (F64Scalar P) a b (Z.of_nat n) i) (mid (B2R a) (B2R b) n i) t.
Proof.
  intros F A B AB XS N1 N2 C i t HI HT. destruct (nth_error ts t) as [tm|] eqn:N; [|apply nth_error_None in N; lia]. destruct (sample_close P a b X n A B XS N1 N2 i HI) as [SF SE]. change (@sample f64 (F64Centroid.S64 P)) with (@sample f64 (F64Scalar P)) in SF, SE. set (x := @sample f64 (F64Scalar P) a b (Z.of_nat n) i) in *. set (z := mid (B2R a) (B2R b) n i) in *.
  assert (CX : clear eps tm (B2R x)) by (specialize (C i HI); rewrite List.Forall_forall in C; apply C, (nth_error_In _ _ N)). destruct (out_w w w_pos) as [W W2].
  assert (X0 : 0 <= X) by (destruct A as [_ Q]; assert (Z := Rabs_pos (B2R a)); lra).
  assert (S0 : 0 <= sample_error (INR n) X <= X + 1).
  { destruct u_tiny as [U1 U2]. destruct eta64_small as [T1 T2]. destruct u64_small as [U3 U4]. unfold sample_error. assert (NP := pos_INR n). assert (SC := small_count n N2). rewrite S_INR in SC. assert (0 <= u64 * X <= 1 / 1000 * X) by (split; [apply Rmult_le_pos; lra|apply Rmult_le_compat_r; lra]). assert (0 <= (INR n + 1) * eta64 <= (INR n + 1) * u64) by (split; [apply Rmult_le_pos; lra|apply Rmult_le_compat_l; lra]). lra. }
  assert (Z1 : Rabs z <= X). { assert (M := mid_in (B2R a) (B2R b) n i HI ltac:(lra)). fold z in M. destruct A as [_ A1]. destruct B as [_ B1]. unfold Rabs in *. repeat destruct Rcase_abs in *; repeat destruct Rcase_abs; lra. }
  assert (TX : tame x). { split; [exact SF|]. assert (Q := Rabs_triang (B2R x - z) z). replace (B2R x - z + z) with (B2R x) in Q by ring. assert (Q2 : bpow radix2 300 + (bpow radix2 300 + 1) <= big). { assert (Q3 : 1 <= bpow radix2 300) by (change 1 with (bpow radix2 0); apply bpow_le; lia). apply Rle_trans with (bpow radix2 2 * bpow radix2 300); [change (bpow radix2 2) with 4; lra|]. unfold big. rewrite <- bpow_plus. apply bpow_le. lia. } lra. }
  destruct (line_accurate vw ts t tm x F N TX CX) as (m & M1 & M2 & M3). exists tm, m. split; [exact N|]. split; [exact M1|]. split; [exact M2|]. assert (DS := documented_slope w w_pos ts t F (B2R x) z). apply Rle_trans with (1 := via _ _ _ _ _ M3 DS).
  assert (1 / w * Rabs (B2R x - z) <= 1 / w * sample_error (INR n) X) by (apply Rmult_le_compat_l; assumption). replace (sample_error (INR n) X / w) with (1 / w * sample_error (INR n) X) by (unfold Rdiv; ring). lra.
Qed.
End Lines.
(** all together *)
Theorem line_value (P : fparam) drain (e e' : engine f64) j o p n s X w : is_finite (fp_eps P) = true -> 0 <= B2R (fp_eps P) <= 1 / 8 -> B2R (fp_eps P) <= w -> eta64 <= w ->
  even_engine e -> (forall v, In v (e_inputs e) -> within (bpow radix2 300) (v_value v) /\ List.Forall (line_term w) (v_terms v) /\ List.Forall (fun t => clear (B2R (fp_eps P)) t (B2R (v_value v))) (v_terms v)) ->
  @process f64 (F64Scalar P) drain e = (e', Ok tt) -> nth_error (e_outputs e) j = Some o -> nth_error (e_outputs e') j = Some p ->
  v_enabled (o_var o) = true -> o_aggregation o = Some s -> even_snorm s -> o_defuzzifier o = Some (DIntegral Centroid (Z.of_nat n)) -> (1 <= n)%nat -> (Z.of_nat n < 2 ^ 46)%Z ->
  let a := v_minimum (o_var o) in let b := v_maximum (o_var o) in let ts := v_terms (o_var o) in within X a -> within X b -> B2R a < B2R b -> X <= bpow radix2 300 ->
  List.Forall (line_term w) ts -> (forall br t, In br (in_force e) -> In t (heads j (snd br)) -> (t < List.length ts)%nat) ->
  (forall i, (i < n)%nat -> List.Forall (fun t => clear (B2R (fp_eps P)) t (B2R (@sample f64 (F64Scalar P) a b (Z.of_nat n) i))) ts) ->
  let delta := shape_error 1 w (B2R (fp_eps P)) in
  let f := joint_set e s ts j in let E := joint_error e (B2R (fp_eps P)) delta (delta + sample_error (INR n) X / w) s j in let K := INR (heads_count e j) * (1 / w) in let d := B2R b - B2R a in let A := area f (B2R a) (B2R b) in
  0 < A / d - K * d / (2 * INR n) - E ->
  is_finite (v_value (o_var p)) = true /\ Rabs (B2R (v_value (o_var p)) - gravity f (B2R a) (B2R b)) <= gravity_error (INR n) d X A K E.
Proof.
  intros FE E8 EW W0 EV IN PR NO NP EN AG ES DE N1 N2 a b ts A0 B0 AB XS TS HB CL delta f E K d A OM. destruct (out_w w W0) as [W W2]. assert (EO : 0 <= B2R (fp_eps P) <= w) by lra.
  assert (D0 := shape_error_pos P w FE EO W0). fold delta in D0.
  assert (SP : 0 <= sample_error (INR n) X / w). { apply Rmult_le_pos; [|apply Rlt_le, Rinv_0_lt_compat, W]. unfold sample_error. destruct u_tiny. destruct eta64_small. assert (Q := pos_INR n). assert (0 <= X) by (destruct A0 as [_ A1]; assert (Z := Rabs_pos (B2R a)); lra). apply Rplus_le_le_0_compat; apply Rmult_le_pos; try lra. }
  apply (joint_value P drain e e' j o p n s X (1 / w) delta (delta + sample_error (INR n) X / w)); try assumption.
  - lra.
  - exact (line_measured P w FE EO W0 e IN).
  - intro t. split; [intros x y _ _; exact (documented_slope w W0 ts t TS x y)|intros x _; exact (documented_ok w W0 ts t x TS)].
  - intros vw i br t HI I1 I2. exact (line_traced P w FE EO W0 vw ts a b X n TS A0 B0 AB XS N1 N2 CL i t HI (HB br t I1 I2)).
Qed.
