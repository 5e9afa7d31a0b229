(** Takagi-Sugeno engines in binary64: the value of the output. *)
From Coq Require Import ZArith Reals String Bool List Lra Lia.
From Flocq Require Import Core BinarySingleNaN.
From Verif Require Import Base Op XR XRFacts F64 F64Facts F64Arith F64Err F64Sum F64Quot Shape Norm Hedge Discrete Defuzz Aggregated Rule Var Activation Engine SpecRule SpecDegree SpecActivation SpecAgg SpecEngine SpecInfer SpecTerm SpecDefuzz SpecRound SpecMamdani SpecSugeno
  OpProofs AggProofs DefuzzReal ShapeF64 MamdaniF64 InferProofs InferBundle EngineF64 SugenoF64 SugenoF64b.
Import ListNotations.
Local Open Scope R_scope.

Lemma weighted_sugeno {T} {S : Scalar T} {A} k ty name memb tsuk wt aggregation (cs : list (activated T A)) : cs <> [] -> ty = WTakagiSugeno \/ ty = WAutomatic -> (forall c, In c cs -> wt (ac_term c) = WTakagiSugeno) ->
  weighted_defuzzify k ty name memb tsuk wt aggregation cs = weighted_with k name memb aggregation cs.
Proof.
  intros NE TY W. unfold weighted_defuzzify. destruct cs as [|c cs]; [congruence|]. destruct TY as [-> | ->]; [reflexivity|]. cbn [wtype_eqb]. unfold infer_type. cbn [map]. rewrite (W c (or_introl eq_refl)).
  assert (F : forallb (wtype_eqb WTakagiSugeno) (map (fun a => wt (ac_term a)) cs) = true). { apply forallb_forall. intros t I. apply in_map_iff in I. destruct I as (a & <- & I). rewrite (W a (or_intror I)). reflexivity. }
  rewrite F. reflexivity.
Qed.
Lemma dot_le cs xs : Rabs (dot cs xs) <= dot (map Rabs cs) (map Rabs xs).
Proof. revert xs. induction cs as [|c cs IH]; intros [|x xs]; cbn [dot map]; try (rewrite Rabs_R0; lra). apply Rle_trans with (1 := Rabs_triang _ _). rewrite Rabs_mult. specialize (IH xs). lra. Qed.

Section Value.
Variables (P : fparam) (e : engine f64) (w M : R) (k j : nat) (o : output f64) (outs : list (output f64)) (cs : list (activated f64 nat)).
#[local] Instance S64w : Scalar f64 := F64Scalar P.
Let ts := v_terms (o_var o).
Let eps := B2R (fp_eps P).
Let vw := engine_view (e_inputs e) outs.
Let memb t x := match nth_error ts t with Some tm => term_membership vw tm x | None => UB end.
Let name t := match nth_error ts t with Some tm => tm_name tm | None => EmptyString end.
Let vs := votes e j.
Let n := INR (length vs).
Let m := INR (length (e_inputs e)).
Let nu := linear_error m M.
Let delta := vote_error n (INR k) w eps.
Let W := total_weight e j.
Let S := sugeno_sum e ts j.
Let z := formula_at e ts.
Hypothesis eps_ok : is_finite (fp_eps P) = true /\ 0 <= eps <= w.
Hypothesis w_pos : eta64 <= w.
Hypothesis se : sugeno_engine e w M k j ts.
Hypothesis said : agree P w k ts cs vs.
Hypothesis count : (Z.of_nat (length vs) < 2 ^ 46)%Z.
Hypothesis inputs_count : (Z.of_nat (length (e_inputs e)) < 2 ^ 46 - 2)%Z.
Hypothesis M_range : 0 <= M <= bpow radix2 300.
Hypothesis added : o_aggregation o = None \/ o_aggregation o = Some UnboundedSum.
Hypothesis omega : 0 < W - n * delta.

Lemma nu_range : 0 <= nu <= M + 1.
Proof.
  destruct u64_small as [U1 _]. destruct eta64_small as [T1 T2]. assert (SC := small_count (Datatypes.S (length (e_inputs e))) ltac:(lia)). rewrite !S_INR in SC. fold m in SC. assert (N0 : 0 <= m) by apply pos_INR. assert (NU : 0 <= m * u64) by (apply Rmult_le_pos; lra). assert (NE : 0 <= m * eta64) by (apply Rmult_le_pos; lra). assert (NEU : m * eta64 <= m * u64) by (apply Rmult_le_compat_l; lra).
  unfold nu, linear_error. assert (0 <= (m + 2) * u64 <= 1 / 128) by lra. assert (0 <= (m + 2) * u64 * M <= 1 / 128 * M) by (split; [apply Rmult_le_pos; lra|apply Rmult_le_compat_r; lra]). lra.
Qed.
Lemma formula_close t tm : nth_error ts t = Some tm -> forall x, exists r, memb t x = Ok r /\ is_finite r = true /\ Rabs (B2R r - z t) <= nu /\ Rabs (z t) <= M.
Proof.
  intros T x. assert (NR := nu_range). assert (FT : formula_term e M tm) by (assert (F := su_terms _ _ _ _ _ _ se); rewrite List.Forall_forall in F; apply F, (nth_error_In _ _ T)). unfold memb, z, formula_at. rewrite T. destruct FT as [SZ FT]. unfold term_membership, formula, formula_size in *. destruct (tm_body tm) as [s|xy|v|co attached|fn]; try contradiction.
  - exists v. unfold const_membership. split; [reflexivity|]. split; [exact FT|]. rewrite Rminus_eq_0, Rabs_R0. lra.
  - destruct FT as (-> & FC & LC). assert (FI : List.Forall (fun x => is_finite x = true) (map (@v_value f64) (e_inputs e))). { apply List.Forall_forall. intros y I. apply in_map_iff in I. destruct I as (v & <- & I). destruct (su_inputs _ _ _ _ _ _ se v I) as [[Q _] _]. exact Q. }
    assert (EI : input_values e = map B2R (map (@v_value f64) (e_inputs e))) by (unfold input_values; rewrite map_map; reflexivity). assert (LI : length (input_values e) = length (map (@v_value f64) (e_inputs e))) by (rewrite EI; now rewrite map_length). rewrite LI, EI in *.
    destruct (linear_close P co (map (@v_value f64) (e_inputs e)) M FC FI) as (r & R1 & R2 & R3).
    + rewrite map_length. exact LC.
    + rewrite map_length. exact inputs_count.
    + exact SZ.
    + apply Rle_trans with (1 := proj2 M_range). apply bpow_le. lia.
    + exists r. split; [exact R1|]. split; [exact R2|]. split; [unfold nu, m; rewrite <- (map_length (@v_value f64) (e_inputs e)); exact R3|].
      apply Rle_trans with (2 := SZ). apply Rle_trans with (1 := Rabs_triang _ _). apply Rplus_le_compat_r. rewrite <- (map_map B2R Rabs co). apply dot_le.
Qed.
Let gs := grouped_terms name (o_aggregation o) cs.
Let val (a : activated f64 nat) : f64 := match memb (ac_term a) (ac_degree a) with Ok r => r | _ => f64_lit 0 1 end.
Lemma in_terms c : In c cs -> exists tm, nth_error ts (ac_term c) = Some tm.
Proof.
  intro I. destruct said as (A1 & A2 & A3 & A4). destruct (A1 c I) as (_ & _ & IV). apply in_map_iff in IV. destruct IV as (v & V1 & V2). destruct (A3 v V2) as [_ L]. rewrite V1 in L. destruct (nth_error ts (ac_term c)) as [tm|] eqn:T; [eauto|]. apply nth_error_None in T. lia.
Qed.
Lemma z_bound t : Rabs (z t) <= M.
Proof. destruct (nth_error ts t) as [tm|] eqn:T; [destruct (formula_close t tm T (f64_lit 0 1)) as (r & _ & _ & _ & Q); exact Q|]. unfold z, formula_at. rewrite T, Rabs_R0. apply M_range. Qed.
Lemma same_term a b : In a cs -> In b cs -> aname name a = aname name b -> ac_term a = ac_term b.
Proof.
  intros IA IB E. destruct (in_terms a IA) as [ta TA]. destruct (in_terms b IB) as [tb TB]. unfold aname, name in E. rewrite TA, TB in E. assert (ND := su_names _ _ _ _ _ _ se). rewrite NoDup_nth_error in ND. apply ND; [rewrite map_length; apply nth_error_Some; congruence|]. rewrite !nth_error_map, TA, TB. cbn. now rewrite E.
Qed.
Lemma cs_degrees c : In c cs -> is_finite (ac_degree c) = true /\ 0 <= B2R (ac_degree c) <= 8.
Proof. intro I. destruct said as (A1 & _). destruct (A1 c I) as (H1 & H2 & _). auto. Qed.
Lemma cs_count : (length cs <= length vs)%nat. Proof. apply said. Qed.
Lemma gs_values a : In a gs -> memb (ac_term a) (ac_degree a) = Ok (val a) /\ is_finite (ac_degree a) = true /\ is_finite (val a) = true /\ 0 <= B2R (ac_degree a) <= 9 * n /\ Rabs (B2R (val a)) <= M + nu /\ Rabs (B2R (val a) - z (ac_term a)) <= nu.
Proof.
  intro I. assert (CC := cs_count). destruct (gs_members P name (o_aggregation o) cs added cs_degrees ltac:(lia) a I) as (G1 & G2 & G3). apply in_map_iff in G3. destruct G3 as (c & C1 & C2). destruct (in_terms c C2) as [tm T]. rewrite C1 in T. destruct (formula_close _ _ T (ac_degree a)) as (r & R1 & R2 & R3 & R4). unfold val. rewrite R1. split; [reflexivity|]. split; [exact G1|]. split; [exact R2|]. apply le_INR in CC. fold n in CC. split; [lra|]. split; [|exact R3].
  assert (Q := Rabs_triang (B2R r - z (ac_term a)) (z (ac_term a))). replace (B2R r - z (ac_term a) + z (ac_term a)) with (B2R r) in Q by ring. lra.
Qed.
Let Wg := rsum (map (fun a => B2R (ac_degree a)) gs).
Let Zg := rsum (map (fun a => B2R (ac_degree a) * B2R (val a)) gs).
Lemma total_close g G : (forall t, Rabs (g t) <= G) -> 0 <= G -> Rabs (by_degree g gs - by_vote g vs) <= n * delta * G.
Proof.
  intros B G0. destruct said as (A1 & A2 & A3 & A4). specialize (A4 g G (fun t _ => B t)). assert (Q := gs_close P name (o_aggregation o) cs added cs_degrees ltac:(lia) same_term g G (fun c _ => B _) G0). fold n in A4. apply le_INR in A2. fold n in A2. set (N := INR (length cs)) in *. assert (N0 : 0 <= N) by apply pos_INR. destruct u64_small as [U1 _].
  assert (T := Rabs_triang (by_degree g gs - by_degree g cs) (by_degree g cs - by_vote g vs)). replace (by_degree g gs - by_degree g cs + (by_degree g cs - by_vote g vs)) with (by_degree g gs - by_vote g vs) in T by ring. fold gs in Q.
  apply Rle_trans with (1 := T). unfold delta, vote_error. replace (n * (degree_error (INR k) w eps + 9 * n * u64) * G) with (9 * n * u64 * (n * G) + n * degree_error (INR k) w eps * G) by ring. apply Rplus_le_compat; [|exact A4]. apply Rle_trans with (1 := Q). apply Rmult_le_compat.
  - apply Rmult_le_pos; lra.
  - apply Rmult_le_pos; lra.
  - apply Rmult_le_compat_r; lra.
  - apply Rmult_le_compat_r; lra.
Qed.
Lemma W_by : Wg = by_degree (fun _ => 1) gs /\ W = by_vote (fun _ => 1) vs.
Proof. unfold Wg, W, total_weight, by_degree, by_vote. fold vs. split; apply rsum_ext; intros; ring. Qed.
Lemma Wg_close : Rabs (Wg - W) <= n * delta.
Proof. destruct W_by as [-> ->]. assert (Q := total_close (fun _ => 1) 1 ltac:(intro; cbv beta; rewrite Rabs_R1; lra) ltac:(lra)). lra. Qed.
Lemma delta_pos : 0 <= n * delta.
Proof. assert (E2 := E2_pos P w k eps_ok w_pos). fold eps in E2. assert (N0 : 0 <= n) by apply pos_INR. destruct u64_small as [U1 _]. apply Rmult_le_pos; [exact N0|]. unfold delta, vote_error. assert (0 <= n * u64) by (apply Rmult_le_pos; lra). lra. Qed.
Lemma Wg_pos : W - n * delta <= Wg <= W + n * delta.
Proof. assert (Q := Wg_close). apply Rabs_le_inv in Q. lra. Qed.
Lemma Zg_close : Rabs (Zg - S) <= nu * Wg + n * delta * M.
Proof.
  assert (Q := total_close z M z_bound (proj1 M_range)). assert (ES : S = by_vote z vs) by reflexivity. rewrite <- ES in Q.
  assert (Q2 : Rabs (Zg - by_degree z gs) <= nu * Wg). { unfold Zg, by_degree, Wg. rewrite <- rsum_scale. apply rsum_close. intros a I. destruct (gs_values a I) as (_ & _ & _ & D & _ & V). replace (B2R (ac_degree a) * B2R (val a) - B2R (ac_degree a) * z (ac_term a)) with ((B2R (val a) - z (ac_term a)) * B2R (ac_degree a)) by ring. rewrite Rabs_mult, (Rabs_pos_eq (B2R (ac_degree a))) by apply D. apply Rmult_le_compat_r; [apply D|exact V]. }
  assert (T := Rabs_triang (Zg - by_degree z gs) (by_degree z gs - S)). replace (Zg - by_degree z gs + (by_degree z gs - S)) with (Zg - S) in T by ring. lra.
Qed.
Lemma S_bound : Rabs S <= M * W.
Proof.
  unfold S, sugeno_sum, W, total_weight. fold vs. destruct said as (_ & _ & A3 & _). assert (ZB := z_bound). clear -A3 ZB. induction vs as [|v l IH]; unfold rsum in *; cbn [map fold_right]; [rewrite Rabs_R0; lra|]. specialize (IH (fun x I => A3 x (or_intror I))). destruct (A3 v (or_introl eq_refl)) as [A _].
  apply Rle_trans with (1 := Rabs_triang _ _). rewrite Rabs_mult, (Rabs_pos_eq (fst v)) by exact A. specialize (ZB (snd v)). unfold z in ZB. assert (fst v * Rabs (formula_at e ts (snd v)) <= fst v * M) by (apply Rmult_le_compat_l; assumption). lra.
Qed.
Lemma rounding_room : 9 * n <= bpow radix2 400 /\ 0 <= M + nu <= bpow radix2 400 /\ (Z.of_nat (length gs) < 2 ^ 46)%Z /\ INR (length gs) <= n.
Proof.
  assert (NR := nu_range). assert (GC := gs_count P name (o_aggregation o) cs added cs_degrees ltac:(assert (Q := cs_count); lia)). fold gs in GC. assert (CC := cs_count). split; [|split; [|split]].
  - assert (NB : n <= 2 ^ 46). { unfold n. rewrite INR_IZR_INZ. replace (2 ^ 46) with (IZR (2 ^ 46)) by (rewrite <- pow_IZR with (n := 46%nat); reflexivity). apply IZR_le. lia. } apply Rle_trans with (bpow radix2 50); [|apply bpow_le; lia]. rewrite pow_bpow in NB. change (Z.of_nat 46) with 46%Z in NB. replace (bpow radix2 50) with (16 * bpow radix2 46) by (change 16 with (bpow radix2 4); rewrite <- bpow_plus; reflexivity). assert (Q := bpow_gt_0 radix2 46). lra.
  - split; [lra|]. apply Rle_trans with (bpow radix2 302); [|apply bpow_le; lia]. replace (bpow radix2 302) with (4 * bpow radix2 300) by (change 4 with (bpow radix2 2); rewrite <- bpow_plus; reflexivity). assert (1 <= bpow radix2 300) by (change 1 with (bpow radix2 0); apply bpow_le; lia). lra.
  - apply Z.le_lt_trans with (Z.of_nat (length vs)); [apply inj_le; exact (Nat.le_trans _ _ _ GC CC)|exact count].
  - apply le_INR. exact (Nat.le_trans _ _ _ GC CC).
Qed.
Lemma quotients (Z0 S0 W0 W1 A B C : R) : 0 < W0 -> 0 < W1 -> Rabs (Z0 - S0) <= B * W0 + C * A -> Rabs (W0 - W1) <= C -> Rabs S0 <= A * W1 -> 0 <= A -> Rabs (Z0 / W0 - S0 / W1) <= B + 2 * A * C / W0.
Proof.
  intros H0 H1 HZ HW HS HA. replace (Z0 / W0 - S0 / W1) with (((Z0 - S0) + - (S0 / W1) * (W0 - W1)) / W0) by (field; lra). unfold Rdiv at 1. rewrite Rabs_mult, (Rabs_pos_eq (/ W0)) by (left; now apply Rinv_0_lt_compat).
  assert (H : Rabs (S0 / W1) <= A). { unfold Rdiv. rewrite Rabs_mult, (Rabs_pos_eq (/ W1)) by (left; now apply Rinv_0_lt_compat). apply (Rmult_le_reg_r W1); [exact H1|]. rewrite Rmult_assoc, Rinv_l, Rmult_1_r by lra. exact HS. }
  apply (Rmult_le_reg_r W0); [exact H0|]. rewrite Rmult_assoc, Rinv_l, Rmult_1_r by lra. replace ((B + 2 * A * C / W0) * W0) with (B * W0 + C * A + A * C) by (field; lra).
  apply Rle_trans with (1 := Rabs_triang _ _). rewrite Rabs_mult, Rabs_Ropp. assert (Rabs (S0 / W1) * Rabs (W0 - W1) <= A * C) by (apply Rmult_le_compat; try apply Rabs_pos; assumption). lra.
Qed.
Lemma sugeno_weighted kd : exists r, weighted_with kd name memb (o_aggregation o) cs = Ok r /\ is_finite r = true /\
  Rabs (B2R r - match kd with WeightedAverage => S / W | WeightedSum => S end) <= match kd with WeightedAverage => sugeno_error n M W delta nu | WeightedSum => sugeno_sum_error n M W delta nu end.
Proof.
  destruct rounding_room as (R1 & R2 & R3 & R4). assert (WP := Wg_pos). assert (DP := delta_pos). assert (ZC := Zg_close). assert (WC := Wg_close). assert (SB := S_bound). assert (NR := nu_range). assert (L0 := pos_INR (length gs)). destruct u64_small as [U1 _]. destruct eta64_small as [T1 _].
  assert (V : forall a, In a gs -> memb (ac_term a) (ac_degree a) = Ok (val a) /\ is_finite (ac_degree a) = true /\ is_finite (val a) = true /\ 0 <= B2R (ac_degree a) <= 9 * n /\ Rabs (B2R (val a)) <= M + nu) by (intros a I; destruct (gs_values a I) as (? & ? & ? & ? & ? & _); auto).
  destruct kd.
  - destruct (average_error P nat name memb (o_aggregation o) cs val (9 * n) (M + nu) R1 R2 V R3) as (r & A1 & A2 & A3); [change (Wg <> 0); lra|]. change (Rabs (B2R r - Zg / Wg) <= mean_error (INR (length gs)) (M + nu) Wg) in A3. exists r. split; [exact A1|]. split; [exact A2|].
    assert (Q := quotients Zg S Wg W M nu (n * delta) ltac:(lra) ltac:(lra) ZC WC SB (proj1 M_range)). assert (T := Rabs_triang (B2R r - Zg / Wg) (Zg / Wg - S / W)). replace (B2R r - Zg / Wg + (Zg / Wg - S / W)) with (B2R r - S / W) in T by ring.
    unfold sugeno_error. cbv zeta. set (om := W - n * delta) in *. assert (IV : / Wg <= / om) by (apply Rinv_le_contravar; [exact omega|lra]). assert (IP : 0 < / Wg) by (apply Rinv_0_lt_compat; lra).
    assert (X1 : 2 * M * (n * delta) / Wg <= 2 * M * (n * delta) / om). { apply Rmult_le_compat_l; [|exact IV]. apply Rmult_le_pos; lra. }
    assert (X2 : mean_error (INR (length gs)) (M + nu) Wg <= mean_error n (M + nu) om).
    { unfold mean_error. assert (5 / 2 * (INR (length gs) + 1) * u64 * (M + nu) <= 5 / 2 * (n + 1) * u64 * (M + nu)) by (apply Rmult_le_compat_r; [lra|]; apply Rmult_le_compat_r; lra). assert (2 * INR (length gs) * eta64 / Wg <= 2 * n * eta64 / om); [|lra]. apply Rmult_le_compat; [apply Rmult_le_pos; lra|lra| |exact IV]. apply Rmult_le_compat_r; lra. }
    lra.
  - destruct (weighted_sum_error P nat name memb (o_aggregation o) cs val (9 * n) (M + nu) R1 R2 V R3) as (r & A1 & A2 & A3). change (Rabs (B2R r - Zg) <= sum_error (INR (length gs)) (M + nu) Wg) in A3. exists r. split; [exact A1|]. split; [exact A2|].
    assert (T := Rabs_triang (B2R r - Zg) (Zg - S)). replace (B2R r - Zg + (Zg - S)) with (B2R r - S) in T by ring. unfold sugeno_sum_error. cbv zeta. set (om := W + n * delta) in *.
    assert (X1 : nu * Wg <= nu * om) by (apply Rmult_le_compat_l; lra).
    assert (X2 : sum_error (INR (length gs)) (M + nu) Wg <= sum_error n (M + nu) om).
    { unfold sum_error. apply Rplus_le_compat; [|apply Rmult_le_compat_r; lra]. apply Rmult_le_compat; [apply Rmult_le_pos; lra|apply Rmult_le_pos; lra|apply Rmult_le_compat_r; lra|apply Rmult_le_compat_l; lra]. }
    lra.
Qed.
Lemma cs_some : cs <> [].
Proof. intro E. assert (Q := Wg_pos). unfold Wg, gs in Q. rewrite E in Q. change (W - n * delta <= 0 <= W + n * delta) in Q. lra. Qed.
Lemma sugeno_settled kd ty : ty = WTakagiSugeno \/ ty = WAutomatic -> v_lock_range (o_var o) = false ->
  exists r, defuzzified vw (DWeighted kd ty) (set_fuzzy cs o) = Ok r /\ let v := v_value (o_var (settle r (set_fuzzy cs o))) in is_finite v = true /\
  Rabs (B2R v - match kd with WeightedAverage => S / W | WeightedSum => S end) <= match kd with WeightedAverage => sugeno_error n M W delta nu | WeightedSum => sugeno_sum_error n M W delta nu end.
Proof.
  intros TY LK. destruct (sugeno_weighted kd) as (r & R1 & R2 & R3). exists r. split.
  - unfold defuzzified. cbn [set_fuzzy o_var o_aggregation o_fuzzy]. fold ts. rewrite weighted_sugeno; [exact R1|exact cs_some|exact TY|]. intros c I. destruct (in_terms c I) as [tm T]. rewrite T. assert (F := su_terms _ _ _ _ _ _ se). rewrite List.Forall_forall in F. destruct (F tm (nth_error_In _ _ T)) as [_ Q]. unfold term_wtype. destruct (tm_body tm); try contradiction; reflexivity.
  - assert (NN : isNaN r = false) by (transitivity (is_nan r); [apply f_isNaN|]; destruct r; try reflexivity; discriminate R2). cbv zeta. unfold settle. rewrite NN, andb_false_r, NN. cbn [set_output_value set_var o_var set_previous set_value v_value v_lock_range v_minimum v_maximum set_fuzzy]. rewrite LK. auto.
Qed.
End Value.

Theorem sugeno_close (P : fparam) drain (e e' : engine f64) j o p kd ty k w M : is_finite (fp_eps P) = true /\ 0 <= B2R (fp_eps P) <= w -> eta64 <= w -> (Z.of_nat k < 2 ^ 46)%Z ->
  sugeno_engine e w M k j (v_terms (o_var o)) -> 0 <= M <= bpow radix2 300 -> (Z.of_nat (length (e_inputs e)) < 2 ^ 46 - 2)%Z -> (Z.of_nat (length (votes e j)) < 2 ^ 46)%Z ->
  @process f64 (F64Scalar P) drain e = (e', Ok tt) -> nth_error (e_outputs e) j = Some o -> nth_error (e_outputs e') j = Some p ->
  v_enabled (o_var o) = true -> v_lock_range (o_var o) = false -> o_aggregation o = None \/ o_aggregation o = Some UnboundedSum ->
  o_defuzzifier o = Some (DWeighted kd ty) -> ty = WTakagiSugeno \/ ty = WAutomatic ->
  let n := INR (length (votes e j)) in let W := total_weight e j in let delta := vote_error n (INR k) w (B2R (fp_eps P)) in let nu := linear_error (INR (length (e_inputs e))) M in
  0 < W - n * delta ->
  let v := v_value (o_var p) in is_finite v = true /\
  match kd with
  | WeightedAverage => Rabs (B2R v - sugeno_average e (v_terms (o_var o)) j) <= sugeno_error n M W delta nu
  | WeightedSum => Rabs (B2R v - sugeno_sum e (v_terms (o_var o)) j) <= sugeno_sum_error n M W delta nu
  end.
Proof.
  intros EO W0 KS SE MR IC VC PR NO NP EN LK AG DE TY n W delta nu OM v.
  destruct (inference drain e e' (su_general _ _ _ _ _ _ SE) PR) as (known & INF & _). assert (AJ : active e (VOut j)) by (intros (o' & Q1 & Q2); congruence).
  destruct (value_of (S := F64Scalar P) drain e e' known j o p _ (su_general _ _ _ _ _ _ SE) PR INF NO NP EN DE) as (r & D & E).
  assert (AG2 := known_agree P e w M k j (v_terms (o_var o)) EO W0 KS SE known AJ INF).
  destruct (sugeno_settled P e w M k j o (firstn j (e_outputs e') ++ skipn j (e_outputs e)) (about j known) EO W0 SE AG2 VC IC MR AG OM kd ty TY LK) as (r' & D' & F & C).
  assert (r' = r) by (assert (Q : Ok r' = Ok r) by (rewrite <- D, <- D'; reflexivity); congruence). subst r'. unfold v. rewrite E. split; [exact F|]. destruct kd; exact C.
Qed.
