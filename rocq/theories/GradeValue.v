(** The value of an output variable in binary64 against the center of gravity of the documented set, for operators without jumps; memberships of
    straight-line shapes. *)
From Coq Require Import ZArith Reals String Bool List Lra Lia.
From Coquelicot Require Import Coquelicot.
From Flocq Require Import Core BinarySingleNaN.
From Verif Require Import Base Op XR XRFacts F64 F64Facts F64Arith F64Err F64Sum F64Quot Shape Norm Hedge Defuzz Aggregated Rule Var Activation Engine SpecRule SpecDegree SpecActivation SpecEngine SpecInfer SpecTerm SpecNorm SpecDefuzz SpecRound SpecMamdani
  SpecLimit DefuzzReal LimitRiemann LimitProofs LimitMax LimitMamdani SpecNormErr SpecGrade NormSpec NormF64 NormErr HedgeErr OpProofs F64Centroid ShapeF64 MamdaniF64 InferProofs InferBundle GradeF64 GradeSet.
Import ListNotations.
Local Open Scope R_scope.

Section Slope.
Variables (e : engine f64) (ts : list (term f64)) (s : snorm) (j : nat) (lo hi L : R).
Hypothesis even : even_engine e.
Hypothesis aggregation : even_snorm s.
Hypothesis L_pos : 0 <= L.
Hypothesis terms : forall t, lipschitz (documented ts t) lo hi L /\ forall x, lo <= x <= hi -> 0 <= documented ts t x <= 1.
Hypothesis grades : forall br, In br (in_force e) -> 0 <= rule_grade e (fst br) (snd br) <= 1.
Lemma blocks_in br : In br (in_force e) -> In (fst br) (e_blocks e) /\ b_enabled (fst br) = true.
Proof. intro I. apply in_flat_map in I. destruct I as (b & I1 & I2). destruct (b_enabled b) eqn:EB; [|destruct I2]. apply in_map_iff in I2. destruct I2 as (r & <- & _). auto. Qed.
Lemma says_fold br : In br (in_force e) -> forall (g : R -> R) K, 0 <= K -> lipschitz g lo hi K -> (forall x, lo <= x <= hi -> 0 <= g x <= 1) ->
  let g' := fun x => fold_left (s_formula (sname_of s)) (says e ts j x br) (g x) in lipschitz g' lo hi (K + INR (List.length (heads j (snd br))) * L) /\ forall x, lo <= x <= hi -> 0 <= g' x <= 1.
Proof.
  intros I. destruct (blocks_in br I) as [I1 I2]. destruct (ee_blocks _ even _ I1 I2) as (_ & _ & n & BI & En). assert (G := grades br I). unfold says. rewrite BI. clear I. induction (heads j (snd br)) as [|t l IH]; intros g K K0 HL HR; cbn [map fold_left List.length].
  - split; [intros x y X Y; cbn [INR]; rewrite Rmult_0_l, Rplus_0_r; now apply HL|exact HR].
  - rewrite S_INR. destruct (terms t) as [T1 T2]. set (c := fun x => t_formula (tname_of n) (documented ts t x) (rule_grade e (fst br) (snd br))). assert (CR : forall x, lo <= x <= hi -> 0 <= c x <= 1) by (intros x X; apply t_range; [now apply T2|exact G]).
    assert (CL : lipschitz c lo hi L). { intros x y X Y. assert (Q := t_steady n (documented ts t x) (rule_grade e (fst br) (snd br)) (documented ts t y) (rule_grade e (fst br) (snd br)) En (T2 x X) G (T2 y Y) G). rewrite Rminus_eq_0, Rabs_R0 in Q. assert (Q2 := T1 x y X Y). unfold c. lra. }
    destruct (IH (fun x => s_formula (sname_of s) (g x) (c x)) (K + L) ltac:(lra)) as [J1 J2].
    + intros x y X Y. assert (Q := s_steady s (g x) (c x) (g y) (c y) aggregation (HR x X) (CR x X) (HR y Y) (CR y Y)). assert (Q2 := HL x y X Y). assert (Q3 := CL x y X Y). lra.
    + intros x X. apply NormErr.s_range; [exact aggregation|now apply HR|now apply CR].
    + split; [|exact J2]. intros x y X Y. assert (Q := J1 x y X Y). replace (K + (INR (List.length l) + 1) * L) with (K + L + INR (List.length l) * L) by ring. exact Q.
Qed.
Lemma joint_slope : lipschitz (joint_set e s ts j) lo hi (INR (heads_count e j) * L) /\ forall x, lo <= x <= hi -> 0 <= joint_set e s ts j x <= 1.
Proof.
  unfold joint_set, heads_count. assert (G : forall prs, (forall br, In br prs -> In br (in_force e)) -> forall (g : R -> R) K, 0 <= K -> lipschitz g lo hi K -> (forall x, lo <= x <= hi -> 0 <= g x <= 1) ->
    let g' := fun x => fold_left (s_formula (sname_of s)) (flat_map (says e ts j x) prs) (g x) in lipschitz g' lo hi (K + INR (List.length (flat_map (fun br => heads j (snd br)) prs)) * L) /\ forall x, lo <= x <= hi -> 0 <= g' x <= 1).
  { induction prs as [|br prs IH]; intros HI g K K0 HL HR; cbn [flat_map].
    - cbn [fold_left List.length INR]. split; [intros x y X Y; rewrite Rmult_0_l, Rplus_0_r; now apply HL|exact HR].
    - destruct (says_fold br (HI br (or_introl eq_refl)) g K K0 HL HR) as [S1 S2]. set (g1 := fun x => fold_left (s_formula (sname_of s)) (says e ts j x br) (g x)) in *. assert (K1 : 0 <= K + INR (List.length (heads j (snd br))) * L) by (assert (0 <= INR (List.length (heads j (snd br))) * L) by (apply Rmult_le_pos; [apply pos_INR|exact L_pos]); lra).
      destruct (IH (fun b I => HI b (or_intror I)) g1 _ K1 S1 S2) as [J1 J2]. split.
      + intros x y X Y. rewrite !fold_left_app, app_length, plus_INR. assert (Q := J1 x y X Y). fold (g1 x) (g1 y). replace (K + (INR (List.length (heads j (snd br))) + INR (List.length (flat_map (fun br0 => heads j (snd br0)) prs))) * L) with (K + INR (List.length (heads j (snd br))) * L + INR (List.length (flat_map (fun br0 => heads j (snd br0)) prs)) * L) by ring. exact Q.
      + intros x X. rewrite fold_left_app. exact (J2 x X). }
  destruct (G (in_force e) (fun br I => I) (fun _ => 0) 0 ltac:(lra)) as [J1 J2].
  - intros x y _ _. rewrite Rminus_eq_0, Rabs_R0. lra.
  - intros. lra.
  - split; [|exact J2]. intros x y X Y. assert (Q := J1 x y X Y). rewrite Rplus_0_l in Q. exact Q.
Qed.
End Slope.
(** the value set by defuzzify() *)
Lemma settled (P : fparam) vw (o : output f64) D (r : f64) g E : v_enabled (o_var o) = true -> o_defuzzifier o = Some D -> @defuzzified f64 (F64Scalar P) vw D o = Ok r -> is_finite r = true ->
  let a := v_minimum (o_var o) in let b := v_maximum (o_var o) in is_finite a = true -> is_finite b = true -> B2R a <= g <= B2R b -> Rabs (B2R r - g) <= E ->
  let v := v_value (o_var (fst (@defuzzify f64 (F64Scalar P) vw o))) in is_finite v = true /\ Rabs (B2R v - g) <= E.
Proof.
  intros En De R1 R2 a b Fa Fb G R3. unfold defuzzify. rewrite En, De, R1. cbn [negb fst snd]. cbv zeta.
  assert (NN : @isNaN f64 (F64Scalar P) r = false) by (transitivity (is_nan r); [apply f_isNaN|]; destruct r; try reflexivity; discriminate R2).
  unfold settle. rewrite NN, andb_false_r, NN. cbn [set_output_value set_var o_var set_previous set_value v_value v_lock_range v_minimum v_maximum]. fold a b. destruct (v_lock_range (o_var o)); [|auto].
  assert (Q := bound_close (B2R r) g (B2R a) (B2R b) G).
  assert (EB : @bound f64 (F64Scalar P) r a b = if Rltb (B2R b) (B2R r) then b else if Rltb (B2R r) (B2R a) then a else r). { unfold bound. change (@s_ltb f64 (F64Scalar P)) with (@Bltb prec64 emax64). rewrite !f_ltb, !f2x_finite by assumption. reflexivity. }
  rewrite EB. destruct (Rltb (B2R b) (B2R r)); [split; [exact Fb|lra]|]. destruct (Rltb (B2R r) (B2R a)); [split; [exact Fa|lra]|auto].
Qed.
Lemma documented_grade (P : fparam) (e : engine f64) delta : measured e P delta -> even_engine e -> forall br, In br (in_force e) -> 0 <= rule_grade e (fst br) (snd br) <= 1.
Proof.
  intros ME EV br I. destruct (ee_weights _ EV br I) as [_ W]. destruct (blocks_in e br I) as [I1 I2]. destruct (ee_blocks _ EV _ I1 I2) as (BC & BD & _). unfold rule_grade. destruct (rl_antecedent (snd br)) as [a|] eqn:RA; [|lra]. destruct (rl_enabled (snd br)); [|lra].
  assert (G : forall a', (forall p, In p (propositions a') -> In p (propositions a)) -> 0 <= grade e (fst br) a' <= 1).
  { induction a' as [p|name l IHl r IHr]; intro H; cbn [grade].
    - destruct (ee_antecedents _ EV br a p I RA (H p (or_introl eq_refl))) as (i & v & V & N). unfold grade_of. rewrite V, N. destruct (v_enabled v); [|lra]. apply hedged_range. destruct (pr_term p) as [t|]; [|lra]. destruct (nth_error (v_terms v) t) as [tm|] eqn:T; [exact (proj1 (ME v t tm (nth_error_In _ _ N) T))|]. unfold documented. rewrite T. lra.
    - specialize (IHl (fun p Ip => H p (in_or_app _ _ _ (or_introl Ip)))). specialize (IHr (fun p Ip => H p (in_or_app _ _ _ (or_intror Ip)))). destruct (String.eqb name "and").
      + destruct (b_conjunction (fst br)) as [n|]; [|lra]. apply t_range; assumption.
      + destruct (b_disjunction (fst br)) as [n|] eqn:BN; [|lra]. apply NormErr.s_range; auto. }
  specialize (G a (fun p Ip => Ip)). split; [apply Rmult_le_pos; lra|]. replace 1 with (1 * 1) by ring. apply Rmult_le_compat; lra.
Qed.
Theorem joint_value (P : fparam) drain (e e' : engine f64) j o p n s X L delta delta' : is_finite (fp_eps P) = true -> 0 <= B2R (fp_eps P) <= 1 / 8 -> 0 <= delta -> 0 <= delta' -> 0 <= L ->
  measured e P delta -> even_engine e -> @process f64 (F64Scalar P) drain e = (e', Ok tt) -> nth_error (e_outputs e) j = Some o -> nth_error (e_outputs e') j = Some p ->
  v_enabled (o_var o) = true -> o_aggregation o = Some s -> even_snorm s -> o_defuzzifier o = Some (DIntegral Centroid (Z.of_nat n)) -> (1 <= n)%nat -> (Z.of_nat n < 2 ^ 46)%Z ->
  let a := v_minimum (o_var o) in let b := v_maximum (o_var o) in let ts := v_terms (o_var o) in within X a -> within X b -> B2R a < B2R b -> X <= bpow radix2 300 ->
  (forall t, lipschitz (documented ts t) (B2R a) (B2R b) L /\ forall x, B2R a <= x <= B2R b -> 0 <= documented ts t x <= 1) ->
  (forall vw i br t, (i < n)%nat -> In br (in_force e) -> In t (heads j (snd br)) -> traced P vw ts delta' (@sample f64 (F64Scalar P) a b (Z.of_nat n) i) (mid (B2R a) (B2R b) n i) t) ->
  let f := joint_set e s ts j in let E := joint_error e (B2R (fp_eps P)) delta delta' s j in let K := INR (heads_count e j) * L in let d := B2R b - B2R a in let A := area f (B2R a) (B2R b) in
  0 < A / d - K * d / (2 * INR n) - E ->
  is_finite (v_value (o_var p)) = true /\ Rabs (B2R (v_value (o_var p)) - gravity f (B2R a) (B2R b)) <= gravity_error (INR n) d X A K E.
Proof.
  intros FE EO D0 D1 L0 ME EV PR NO NP EN AG ES DE N1 N2 a b ts A0 B0 AB XS TD TR f E K d A OM.
  destruct (inference drain e e' (ee_general _ EV) PR) as (known & INF & OUT). destruct (OUT j o NO) as (p' & NP' & DF). assert (p' = p) by congruence. subst p'. assert (AJ : active e (VOut j)) by (intros (o' & Q1 & Q2); congruence).
  set (vw := engine_view (e_inputs e) (firstn j (e_outputs e') ++ skipn j (e_outputs e))) in *. set (memb := fun t x => match nth_error ts t with Some tm => @term_membership f64 (F64Scalar P) vw tm x | None => UB end).
  set (mem := @agg_membership f64 (F64Scalar P) nat memb (Some s) (about j known)). set (y := fun i => match mem (@sample f64 (F64Scalar P) a b (Z.of_nat n) i) with Ok v => v | _ => f64_lit 0 1 end).
  assert (V : forall i, (i < n)%nat -> mem (@sample f64 (F64Scalar P) a b (Z.of_nat n) i) = Ok (y i) /\ is_finite (y i) = true /\ 0 <= B2R (y i) <= 1 /\ Rabs (B2R (y i) - f (mid (B2R a) (B2R b) n i)) <= E).
  { intros i HI. assert (SF : is_finite (@sample f64 (F64Scalar P) a b (Z.of_nat n) i) = true) by exact (proj1 (sample_close P a b X n A0 B0 XS N1 N2 i HI)). assert (MI := mid_in (B2R a) (B2R b) n i HI ltac:(lra)).
    destruct (joint_close P e delta delta' vw ts s j _ (mid (B2R a) (B2R b) n i) FE EO D0 D1 ME EV ES SF (fun t => proj2 (TD t) _ MI) known AJ INF (fun br t I1 I2 => TR vw i br t HI I1 I2)) as (v & V1 & V2 & V3). assert (EM : mem (@sample f64 (F64Scalar P) a b (Z.of_nat n) i) = Ok v) by exact V1. unfold y. rewrite EM. split; [reflexivity|]. split; [apply V2|]. split; [apply V2|exact V3]. }
  destruct (joint_slope e ts s j (B2R a) (B2R b) L EV ES L0 TD (documented_grade P e delta ME EV)) as [SL RG]. fold f K in SL. fold f in RG.
  assert (K0 : 0 <= K) by (apply Rmult_le_pos; [apply pos_INR|exact L0]).
  destruct (centroid_total P mem a b X 1 n y A0 B0 XS) with (f := f) (delta := E) (L := K) (B := 1) as (r & R1 & R2 & R3); try assumption.
  - change 1 with (bpow radix2 0). apply bpow_le. lia.
  - intros i HI. destruct (V i HI) as (V1 & V2 & V3 & _). auto.
  - intros i HI. now destruct (V i HI) as (_ & _ & _ & V4).
  - assert (DP : 0 < d) by (unfold d; lra). assert (E0 : 0 <= E) by (destruct (V 0%nat ltac:(lia)) as (_ & _ & _ & V4); assert (Q := Rabs_pos (B2R (y 0%nat) - f (mid (B2R a) (B2R b) n 0))); lra).
    assert (AP : 0 < A). { assert (0 <= K * d / (2 * INR n)) by (apply Rmult_le_pos; [apply Rmult_le_pos; lra|apply Rlt_le, Rinv_0_lt_compat; assert (Q := lt_0_INR n ltac:(lia)); lra]). assert (Q : 0 < A / d) by lra. replace A with (A / d * d) by (field; lra). apply Rmult_lt_0_compat; assumption. }
    assert (G := gravity_in f (B2R a) (B2R b) AB K 1 SL RG AP).
    assert (Q := settled P vw (set_fuzzy (about j known) o) (DIntegral Centroid (Z.of_nat n)) r (gravity f (B2R a) (B2R b)) (gravity_error (INR n) d X A K E)). cbv zeta in Q. rewrite DF in Q. cbn [fst] in Q. apply Q; try assumption.
    + unfold defuzzified. cbn [set_fuzzy o_aggregation o_fuzzy o_var]. rewrite AG. exact R1.
    + apply A0.
    + apply B0.
Qed.
