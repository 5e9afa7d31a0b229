(** Mamdani engines in binary64: the value of an output against the center of gravity of the documented set. *)
From Coq Require Import ZArith Reals String Bool List Lra Lia.
From Coquelicot Require Import Coquelicot.
From Flocq Require Import Core BinarySingleNaN.
From Verif Require Import Base Op XR XRFacts F64 F64Facts F64Arith F64Err F64Sum F64Quot Shape Norm Hedge Defuzz Aggregated Rule Var Activation Engine SpecRule SpecDegree SpecActivation SpecEngine SpecInfer SpecTerm SpecDefuzz SpecRound SpecMamdani
  SpecLimit OpProofs DefuzzReal LimitRiemann LimitProofs LimitMax LimitMamdani F64Centroid ShapeF64 MamdaniF64 InferProofs InferBundle.
Import ListNotations.
Local Open Scope R_scope.

Section EngineF64.
Variables (P : fparam) (e : engine f64) (w : R) (k j : nat) (ts : list (term f64)).
#[local] Instance S64e : Scalar f64 := F64Scalar P.
Let eps := B2R (fp_eps P).
Hypothesis eps_ok : is_finite (fp_eps P) = true /\ 0 <= eps <= w.
Hypothesis w_pos : eta64 <= w.
Hypothesis k_small : (Z.of_nat k < 2 ^ 46)%Z.
Hypothesis li : forall v, In v (e_inputs e) -> within (bpow radix2 300) (v_value v) /\ List.Forall (line_term w) (v_terms v).
Let s := shape_error 1 w eps.
Lemma s_range : 0 <= s <= 4.
Proof.
  destruct u_tiny as [U1 U2]. destruct eta64_small as [T1 T2]. assert (EW := eta_w w w_pos). destruct eps_ok as [_ E]. unfold s, shape_error. assert (0 <= 1 * eps / w <= 1). { rewrite Rmult_1_l. split; [apply Rmult_le_pos; [lra|apply Rlt_le, Rinv_0_lt_compat; lra]|]. apply (Rmult_le_reg_r w); [lra|]. unfold Rdiv. rewrite Rmult_assoc, Rinv_l by lra. lra. }
  replace (2 * eta64 / w) with (2 * (eta64 / w)) by (unfold Rdiv; ring). lra.
Qed.
Lemma count_small m : (m <= k)%nat -> 0 <= 8 * INR m * u64 <= 1.
Proof.
  intro H. destruct u_tiny as [U1 U2]. assert (SC := small_count k k_small). rewrite S_INR in SC. apply le_INR in H. assert (Q := pos_INR m). assert (0 <= INR m * u64) by (apply Rmult_le_pos; lra). assert (INR m * u64 <= (INR k + 1) * u64) by (apply Rmult_le_compat_r; lra). lra.
Qed.
Lemma hedged_close hs (m x : f64) m' : Hedged hs m x -> List.Forall (fun h => h = Not \/ h = Any) hs -> (List.length hs <= k)%nat -> is_finite m = true -> 0 <= m' <= 1 -> Rabs (B2R m - m') <= s ->
  is_finite x = true /\ 0 <= hedged_truth hs m' <= 1 /\ Rabs (B2R x - hedged_truth hs m') <= s + 8 * INR (List.length hs) * u64.
Proof.
  intro H. induction H as [x|h hs x y H IH]; intros F L Fm M D.
  - cbn [hedged_truth fold_right List.length INR]. split; [exact Fm|]. split; [exact M|lra].
  - inversion F as [|? ? Hh F2]; subst. cbn [List.length] in L. destruct (IH F2 ltac:(lia) Fm M D) as (Fy & Ry & Dy). clear IH. assert (C := count_small (List.length hs) ltac:(lia)). assert (SR := s_range). destruct u_tiny as [U1 U2]. assert (BH := big_huge). assert (BP := big_pos).
    cbn [hedged_truth fold_right List.length]. change (fold_right (fun h y => match h with Not => 1 - y | Any => 1 | _ => y end) m' hs) with (hedged_truth hs m'). rewrite S_INR. set (t := hedged_truth hs m') in *. destruct f64_1_correct as [O1 O2]. destruct Hh as [-> | ->]; cbv beta match.
    + change (@hedge_apply f64 S64e Not y) with (Bminus mode_NE (f64_lit 1 1) y).
      assert (B : Rabs (1 - B2R y) <= 7). { assert (Q := Rabs_triang (1 - t) (- (B2R y - t))). replace (1 - t + - (B2R y - t)) with (1 - B2R y) in Q by ring. rewrite Rabs_Ropp, (Rabs_pos_eq (1 - t)) in Q by lra. lra. }
      destruct (minus_err (f64_lit 1 1) y O2 Fy) as [F3 E3]; [rewrite O1; lra|]. rewrite O1 in E3. split; [exact F3|]. split; [lra|].
      assert (E4 : Rabs (1 - B2R y - (1 - t)) <= s + 8 * INR (List.length hs) * u64) by (replace (1 - B2R y - (1 - t)) with (- (B2R y - t)) by ring; rewrite Rabs_Ropp; exact Dy).
      assert (u64 * Rabs (1 - B2R y) <= u64 * 7) by (apply Rmult_le_compat_l; lra). assert (Q := via _ _ _ _ _ E3 E4).
 lra.
    + change (@hedge_apply f64 S64e Any y) with (f64_lit 1 1). split; [exact O2|]. split; [lra|]. rewrite O1, Rminus_eq_0, Rabs_R0. lra.
Qed.
Lemma documented_ok l t x : List.Forall (line_term w) l -> 0 <= documented l t x <= 1.
Proof.
  intro F. unfold documented. destruct (nth_error l t) as [tm|] eqn:T; [|lra]. apply nth_error_In in T. rewrite List.Forall_forall in F. specialize (F tm T). destruct F as (H1 & H2 & H3). destruct (tm_body tm); try lra. destruct H3 as [Sl _]. destruct eta64_small as [T1 _]. apply (doc_lines _ _ w); [lra| |exact Sl]. destruct H1 as [_ B]. rewrite Rabs_pos_eq in B by exact H2. lra.
Qed.
Lemma documented_slope l t : List.Forall (line_term w) l -> lip (documented l t) (1 / w).
Proof.
  intro F. assert (W := out_w w w_pos). unfold documented. destruct (nth_error l t) as [tm|] eqn:T; [|apply lip_const, W]. apply nth_error_In in T. rewrite List.Forall_forall in F. specialize (F tm T). destruct F as (H1 & H2 & H3). destruct (tm_body tm); try contradiction. destruct H3 as [Sl _]. apply (doc_lines _ _ w); [apply W| |exact Sl]. destruct H1 as [_ B]. rewrite Rabs_pos_eq in B by exact H2. lra.
Qed.
Lemma height_mono h : 0 <= h <= 1 -> shape_error h w eps <= s.
Proof.
  intro H. destruct (out_w w w_pos) as [W W2]. destruct u_tiny as [U1 U2]. destruct eps_ok as [_ E]. unfold s, shape_error. assert (5 * u64 * h <= 5 * u64 * 1) by (apply Rmult_le_compat_l; lra). assert (h * eps / w <= 1 * eps / w); [|lra]. apply Rmult_le_compat_r; [apply Rlt_le, Rinv_0_lt_compat, W|]. apply Rmult_le_compat_r; lra.
Qed.
Let E := s + 8 * INR k * u64.
Definition fair (p : proposition) : Prop := (exists i v, pr_var p = VIn i /\ nth_error (e_inputs e) i = Some v) /\ List.Forall (fun h => h = Not \/ h = Any) (pr_hedges p) /\ (List.length (pr_hedges p) <= k)%nat.
Lemma hedged_snoc hs x : hedged_truth (hs ++ [Any]) x = hedged_truth hs 1.
Proof. unfold hedged_truth. rewrite fold_right_app. reflexivity. Qed.
Lemma E_mono m : (m <= k)%nat -> s + 8 * INR m * u64 <= E.
Proof. intro H. unfold E. apply le_INR in H. destruct u_tiny as [U1 _]. assert (INR m * u64 <= INR k * u64) by (apply Rmult_le_compat_r; lra). lra. Qed.
Lemma strength_close b known a d : (b_conjunction b = None \/ b_conjunction b = Some Minimum) /\ (b_disjunction b = None \/ b_disjunction b = Some Maximum) ->
  Strength e b known a d -> (forall p, In p (propositions a) -> fair p) -> is_finite d = true /\ 0 <= truth e a <= 1 /\ Rabs (B2R d - truth e a) <= E.
Proof.
  intros [BC BD] H. assert (SR := s_range). assert (KS := count_small k ltac:(lia)). destruct f64_0_correct as [Z1 Z2]. destruct f64_1_correct as [O1 O2].
  induction H as [p I|p hs x A Q H|p t m x A NA T Ho H|l r x y n Q H1 IH1 H2 IH2|l r x y n Q H1 IH1 H2 IH2]; intro F.
  - destruct (F p (or_introl eq_refl)) as ((i & v0 & V & _) & _). cbn [truth]. unfold truth_of. rewrite V in *. destruct I as (v & I1 & I2). rewrite I1, I2. change (@s_0 f64 _) with (f64_lit 0 1). split; [exact Z2|]. split; [lra|]. rewrite Z1, Rminus_eq_0, Rabs_R0. unfold E. lra.
  - destruct (F p (or_introl eq_refl)) as ((i & v & V & NI) & G & L). cbn [truth]. unfold truth_of. rewrite V, Q in *. rewrite List.Forall_app in G. destruct G as [G _]. rewrite app_length in L. cbn [List.length] in L.
    destruct (hedged_close hs (f64_lit 1 1) x 1 H G ltac:(lia) O2 ltac:(lra)) as (C1 & C2 & C3); [rewrite O1, Rminus_eq_0, Rabs_R0; lra|]. assert (EM := E_mono (List.length hs) ltac:(lia)).
    rewrite NI. destruct (v_enabled v) eqn:EN; [|exfalso; apply A; exists v; auto]. rewrite hedged_snoc. split; [exact C1|]. split; [exact C2|lra].
  - destruct (F p (or_introl eq_refl)) as ((i & v0 & V & _) & G & L). cbn [truth]. unfold truth_of. rewrite V, T in *. inversion Ho as [i' v t' tm m' N1 N2 N3|]; subst. rewrite N1. destruct (v_enabled v) eqn:EN; [|exfalso; apply A; exists v; auto].
    destruct (li v (nth_error_In _ _ N1)) as [W1 W2]. assert (DO := documented_ok (v_terms v) t (B2R (v_value v)) W2). assert (LT : line_term w tm) by (rewrite List.Forall_forall in W2; apply W2, (nth_error_In _ _ N2)).
    destruct (line_close P (engine_view (e_inputs e) (e_outputs e)) tm w (v_value v) (proj1 eps_ok) (proj2 eps_ok) w_pos LT) as (m2 & M1 & M2 & M3). { apply (tame_within (bpow radix2 300)); [apply bpow_le; lia|exact W1]. }
    assert (m2 = m) by (assert (Z : Ok m2 = Ok m) by (rewrite <- M1; exact N3); congruence). subst m2.
    destruct (hedged_close (pr_hedges p) m x (documented (v_terms v) t (B2R (v_value v))) H G L M2 DO) as (C1 & C2 & C3).
    { unfold documented. rewrite N2. destruct LT as (L1 & L2 & L3). destruct (tm_body tm); try contradiction. apply Rle_trans with (1 := M3). apply height_mono. destruct L1 as [_ B]. rewrite Rabs_pos_eq in B by exact L2. lra. }
    assert (EM := E_mono (List.length (pr_hedges p)) L). split; [exact C1|]. split; [exact C2|lra].
  - destruct IH1 as (A1 & A2 & A3); [intros p I; apply F; cbn [propositions]; apply in_or_app; now left|]. destruct IH2 as (B1 & B2 & B3); [intros p I; apply F; cbn [propositions]; apply in_or_app; now right|].
    assert (n = Minimum) by (destruct BC as [BC|BC]; congruence). subst n. destruct (f_min P x y A1 B1) as [F1 E1]. cbn [truth String.eqb Ascii.eqb Bool.eqb]. split; [exact F1|]. split; [mm|]. change (@tnorm_compute f64 S64e Minimum x y) with (@op_min f64 (F64Scalar P) x y). rewrite E1. now apply min_slope.
  - destruct IH1 as (A1 & A2 & A3); [intros p I; apply F; cbn [propositions]; apply in_or_app; now left|]. destruct IH2 as (B1 & B2 & B3); [intros p I; apply F; cbn [propositions]; apply in_or_app; now right|].
    assert (n = Maximum) by (destruct BD as [BD|BD]; congruence). subst n. destruct (f_max P x y A1 B1) as [F1 E1]. cbn [truth String.eqb Ascii.eqb Bool.eqb]. split; [exact F1|]. split; [mm|]. change (@snorm_compute f64 S64e Maximum x y) with (@op_max f64 (F64Scalar P) x y). rewrite E1. now apply max_slope.
Qed.

(** ** rules *)
Let E2 := degree_error (INR k) w eps.
Lemma E_range : 0 <= E <= 5.
Proof. assert (SR := s_range). assert (KS := count_small k ltac:(lia)). unfold E. lra. Qed.
Lemma E2_eq : E2 = E + 8 * u64 + eta64 + eps.
Proof. unfold E2, degree_error, E. fold s. ring. Qed.
Lemma weighted_close (r : rule f64) (d : f64) t : is_finite (rl_weight r) = true /\ 0 <= B2R (rl_weight r) <= 1 -> is_finite d = true -> 0 <= t <= 1 -> Rabs (B2R d - t) <= E ->
  let m := Bmult mode_NE (rl_weight r) d in tame m /\ Rabs (B2R m) <= 8 /\ Rabs (B2R m - B2R (rl_weight r) * t) <= E + 8 * u64 + eta64.
Proof.
  intros [FW BW] F T D m. set (W := B2R (rl_weight r)) in *. assert (ER := E_range). destruct u_tiny as [U1 U2]. destruct eta64_small as [T1 T2]. assert (BH := big_huge). assert (BP := big_pos).
  assert (BD : Rabs (B2R d) <= 6). { assert (Q := Rabs_triang (B2R d - t) t). replace (B2R d - t + t) with (B2R d) in Q by ring. rewrite (Rabs_pos_eq t) in Q by lra. lra. }
  assert (WD : Rabs (W * B2R d) <= 6). { rewrite Rabs_mult, (Rabs_pos_eq W) by lra. replace 6 with (1 * 6) by ring. apply Rmult_le_compat; [lra|apply Rabs_pos|lra|exact BD]. }
  destruct (mult_err (rl_weight r) d FW F) as [FM EM]; [fold W; lra|]. fold W m in FM, EM. assert (u64 * Rabs (W * B2R d) <= u64 * 6) by (apply Rmult_le_compat_l; lra).
  assert (B8 : Rabs (B2R m) <= 7). { assert (Q := Rabs_triang (B2R m - W * B2R d) (W * B2R d)). replace (B2R m - W * B2R d + W * B2R d) with (B2R m) in Q by ring. lra. }
  split; [split; [exact FM|]|split; [lra|]].
  - unfold big. apply Rle_trans with (1 := B8). apply Rle_trans with (bpow radix2 3); [change (bpow radix2 3) with 8; lra|apply bpow_le; lia].
  - assert (Q : Rabs (W * B2R d - W * t) <= E). { replace (W * B2R d - W * t) with (W * (B2R d - t)) by ring. rewrite Rabs_mult, (Rabs_pos_eq W) by lra. replace E with (1 * E) by ring. apply Rmult_le_compat; [lra|apply Rabs_pos|lra|exact D]. }
    assert (Z := via _ _ _ _ _ EM Q). lra.
Qed.
Hypothesis le : line_engine e w k j ts.
Definition cutting (x : R) (m : R) (c : activated f64 nat) : R := Rmax m (Rmin (documented ts (ac_term c) x) (B2R (ac_degree c))).
(** conclusions of a rule which fires *)
Lemma follows_close b (d : f64) (ps : list proposition) cs W x : active e (VOut j) -> Follows e b d ps cs -> (forall p, In p ps -> pr_hedges p = []) -> Rabs (B2R d - W) <= E2 ->
  let l := flat_map (fun p => match pr_var p, pr_term p with VOut k, Some t => if Nat.eqb k j then [Rmin (documented ts t x) W] else [] | _, _ => [] end) ps in
  (forall c, In c (about j cs) -> ac_degree c = d /\ ac_implication c = b_implication b /\ exists p, In p ps /\ pr_var p = VOut j /\ pr_term p = Some (ac_term c)) /\
  forall u u', Rabs (u - u') <= E2 -> Rabs (fold_left (cutting x) (about j cs) u - fold_left Rmax l u') <= E2.
Proof.
  intros AJ H. induction H as [d|d p ps cs I H IH|d d' p ps cs i t A V T Hh H IH]; intros F D l.
  - split; [intros c []|]. intros u u' U. exact U.
  - destruct (IH (fun q Q => F q (or_intror Q)) D) as [G1 G2]. split.
    + intros c C. destruct (G1 c C) as (X1 & X2 & q & Q1 & Q2). split; [exact X1|]. split; [exact X2|]. exists q. split; [now right|exact Q2].
    + intros u u' U. unfold l. cbn [flat_map]. assert (Z : match pr_var p, pr_term p with VOut k, Some t => if Nat.eqb k j then [Rmin (documented ts t x) W] else [] | _, _ => [] end = []); [|rewrite Z; now apply G2].
      destruct (pr_var p) as [i|i] eqn:V; [reflexivity|]. destruct (pr_term p); [|reflexivity]. destruct (Nat.eqb_spec i j) as [->|]; [|reflexivity]. exfalso. now apply AJ.
  - assert (HH := F p (or_introl eq_refl)). rewrite HH in Hh. inversion Hh; subst. destruct (IH (fun q Q => F q (or_intror Q)) D) as [G1 G2].
    assert (AB : about j ((i, mkActivated t d' (b_implication b)) :: cs) = if Nat.eqb i j then mkActivated t d' (b_implication b) :: about j cs else about j cs) by (unfold about; cbn [filter fst]; destruct (Nat.eqb i j); reflexivity).
    rewrite AB. unfold l. cbn [flat_map]. rewrite V, T. destruct (Nat.eqb_spec i j) as [->|N].
    + split.
      * intros c [<-|C]; [cbn; split; [reflexivity|split; [reflexivity|exists p; auto]]; now left|]. destruct (G1 c C) as (X1 & X2 & q & Q1 & Q2). split; [exact X1|]. split; [exact X2|]. exists q. split; [now right|exact Q2].
      * intros u u' U. cbn [app fold_left]. apply G2. unfold cutting. cbn [ac_term ac_degree]. apply max_slope; [exact U|]. apply min_slope; [|exact D]. rewrite Rminus_eq_0, Rabs_R0. assert (Q := Rabs_pos (u - u')). lra.
    + split.
      * intros c C. destruct (G1 c C) as (X1 & X2 & q & Q1 & Q2). split; [exact X1|]. split; [exact X2|]. exists q. split; [now right|exact Q2].
      * intros u u' U. cbn [app]. now apply G2.
Qed.
(** a rule which does not fire would not say much *)
Lemma idle_close l u u' : 0 <= u -> List.Forall (fun v => v <= E2) l -> Rabs (u - u') <= E2 -> Rabs (u - fold_left Rmax l u') <= E2.
Proof.
  intros U F. revert u'. induction F as [|v l V F IH]; intros u' D; cbn [fold_left]; [exact D|]. apply IH. unfold Rmax. destruct Rle_dec; [|exact D]. unfold Rabs in *. repeat destruct Rcase_abs in *; repeat destruct Rcase_abs; lra.
Qed.
Lemma cut_pos x l u : 0 <= u -> 0 <= fold_left (cutting x) l u.
Proof. revert u. induction l as [|c l IH]; intros u U; cbn [fold_left]; [exact U|]. apply IH. unfold cutting. mm. Qed.
Lemma draws_close b r known cs x : active e (VOut j) -> In r (rules_in_force e) -> In b (e_blocks e) -> b_enabled b = true -> Draws e b known r cs ->
  (forall c, In c (about j cs) -> cut_off 8 c /\ exists t, nth_error ts (ac_term c) = Some t /\ line_term w t) /\
  forall u u', 0 <= u -> Rabs (u - u') <= E2 -> Rabs (fold_left (cutting x) (about j cs) u - fold_left Rmax (said e ts j x r) u') <= E2.
Proof.
  intros AJ IR IB EB H. destruct (le_blocks _ _ _ _ _ le b IB EB) as (BC & BD & BI). assert (LW := le_weights _ _ _ _ _ le r IR). assert (E2E := E2_eq). destruct u_tiny as [U1 _]. destruct eta64_small as [T1 _]. destruct eps_ok as [FE EP].
  destruct H as [LD|a d LD AN ST NF|a d cs LD AN ST EN FI FO].
  - split; [intros c []|]. intros u u' U D. unfold said. unfold rule_loaded in LD. destruct (rl_antecedent r); [|exact D]. destruct (rl_consequent r); [|discriminate LD]. destruct (rl_enabled r); exact D.
  - split; [intros c []|]. intros u u' U D. cbn [about map filter fold_left]. unfold said. rewrite AN. destruct (rl_enabled r) eqn:EN; [|exact D]. destruct NF as [NF|NF]; [discriminate NF|].
    destruct (strength_close b known a d (conj BC BD) ST) as (C1 & C2 & C3); [intros p Ip; exact (le_antecedents _ _ _ _ _ le r a p IR AN Ip)|].
    destruct (weighted_close r d (truth e a) LW C1 C2 C3) as (M1 & M2 & M3). set (m := Bmult mode_NE (rl_weight r) d) in *. destruct f64_0_correct as [Z1 Z2].
    assert (TZ : tame (f64_lit 0 1)) by (split; [exact Z2|]; rewrite Z1, Rabs_R0; assert (Q := big_pos); lra).
    assert (NF2 : @isGt f64 (F64Scalar P) m (f64_lit 0 1) = false) by exact NF. apply (gt_false P FE) in NF2; [|exact M1|exact TZ]. rewrite Z1, Rminus_0_r in NF2. fold eps in NF2.
    assert (WT : B2R (rl_weight r) * truth e a <= E2) by (rewrite E2E; unfold Rabs in *; destruct NF2 as [NF2|NF2]; repeat destruct Rcase_abs in *; lra).
    apply idle_close; [exact U| |exact D]. apply List.Forall_forall. intros v Iv. apply in_flat_map in Iv. destruct Iv as (p & _ & Iv). destruct (pr_var p); [destruct Iv|]. destruct (pr_term p); [|destruct Iv]. destruct (Nat.eqb _ j); [|destruct Iv]. destruct Iv as [<-|[]]. apply Rle_trans with (2 := WT). apply Rmin_r.
  - destruct (strength_close b known a d (conj BC BD) ST) as (C1 & C2 & C3); [intros p Ip; exact (le_antecedents _ _ _ _ _ le r a p IR AN Ip)|].
    destruct (weighted_close r d (truth e a) LW C1 C2 C3) as (M1 & M2 & M3). change (@s_mul f64 S64e (rl_weight r) d) with (Bmult mode_NE (rl_weight r) d) in FI, FO. set (m := Bmult mode_NE (rl_weight r) d) in *. destruct f64_0_correct as [Z1 Z2].
    assert (TZ : tame (f64_lit 0 1)) by (split; [exact Z2|]; rewrite Z1, Rabs_R0; assert (Q := big_pos); lra).
    assert (FI2 : @isGt f64 (F64Scalar P) m (f64_lit 0 1) = true) by exact FI. apply (gt_true P) in FI2; [|exact M1|exact TZ]. rewrite Z1 in FI2.
    destruct (follows_close b m (rl_consequent r) cs (B2R (rl_weight r) * truth e a) x AJ FO) as [G1 G2]; [intros p Ip; exact (proj1 (le_conclusions _ _ _ _ _ le r p IR Ip))|rewrite E2E; lra|]. split.
    + intros c C. destruct (G1 c C) as (X1 & X2 & p & Q1 & Q2 & Q3). split.
      * split; [congruence|]. rewrite X1. split; [apply M1|]. rewrite Rabs_pos_eq in M2 by lra. lra.
      * destruct (le_conclusions _ _ _ _ _ le r p IR Q1) as [_ Q4]. specialize (Q4 _ Q2 Q3). destruct (nth_error ts (ac_term c)) as [t|] eqn:NT; [|apply nth_error_None in NT; lia]. exists t. split; [reflexivity|]. assert (LT := le_terms _ _ _ _ _ le). rewrite List.Forall_forall in LT. apply LT, (nth_error_In _ _ NT).
    + intros u u' U D. unfold said. rewrite AN, EN. now apply G2.
Qed.
(** ** the engine *)
Lemma about_app (l m : facts f64) : about j (l ++ m) = (about j l ++ about j m)%list.
Proof. unfold about. now rewrite filter_app, map_app. Qed.
Lemma pairs_close x prs css : active e (VOut j) -> List.Forall2 (fun br cs => Draws e (fst br) [] (snd br) cs) prs css ->
  (forall br, In br prs -> In (fst br) (e_blocks e) /\ b_enabled (fst br) = true /\ In (snd br) (rules_in_force e)) ->
  (forall c, In c (about j (List.concat css)) -> cut_off 8 c /\ exists t, nth_error ts (ac_term c) = Some t /\ line_term w t) /\
  forall u u', 0 <= u -> Rabs (u - u') <= E2 -> Rabs (fold_left (cutting x) (about j (List.concat css)) u - fold_left Rmax (flat_map (said e ts j x) (map snd prs)) u') <= E2.
Proof.
  intros AJ H. induction H as [|br cs prs css D H IH]; intro Q.
  - split; [intros c []|]. intros u u' _ U. exact U.
  - destruct (IH (fun z Z => Q z (or_intror Z))) as [I1 I2]. destruct (Q br (or_introl eq_refl)) as (B1 & B2 & B3). destruct (draws_close (fst br) (snd br) [] cs x AJ B3 B1 B2 D) as [D1 D2]. cbn [List.concat map flat_map]. rewrite about_app. split.
    + intros c C. apply in_app_or in C. destruct C as [C|C]; [now apply D1|now apply I1].
    + intros u u' U DU. rewrite !fold_left_app. apply I2; [now apply cut_pos|]. now apply D2.
Qed.
Lemma pairs_rules : map snd (flat_map (fun b => if b_enabled b then map (pair b) (b_rules b) else []) (e_blocks e)) = rules_in_force e.
Proof.
  unfold rules_in_force. induction (e_blocks e) as [|b bs IH]; [reflexivity|]. cbn [flat_map]. rewrite map_app, IH. f_equal. destruct (b_enabled b); [|reflexivity]. rewrite map_map. cbn. apply map_id.
Qed.
Lemma reads b : In b (e_blocks e) -> b_enabled b = true -> List.Forall (@reads_inputs f64) (b_rules b).
Proof.
  intros IB EB. apply List.Forall_forall. intros r IR a v t AN C. assert (RF : In r (rules_in_force e)) by (unfold rules_in_force; apply in_flat_map; exists b; rewrite EB; auto).
  assert (G : forall p, In p (propositions a) -> exists i, pr_var p = VIn i) by (intros p Ip; destruct (le_antecedents _ _ _ _ _ le r a p RF AN Ip) as ((i & v' & V & _) & _); exists i; exact V).
  clear AN. revert C G. induction a as [p|name l IHl r0 IHr]; cbn [consults propositions]; intros C G.
  - destruct C as [C _]. destruct (G p (or_introl eq_refl)) as [i V]. exists i. congruence.
  - destruct C as [C|C]; [apply (IHl C)|apply (IHr C)]; intros p Ip; apply G; apply in_or_app; auto.
Qed.
Lemma known_close known x : active e (VOut j) -> Infers e known ->
  (forall c, In c (about j known) -> cut_off 8 c /\ exists t, nth_error ts (ac_term c) = Some t /\ line_term w t) /\
  Rabs (mamdani_set (documented ts) (about j known) x - conclusion_set e ts j x) <= E2.
Proof.
  intros AJ H. destruct (independent e known) as (css & D & ->); [apply List.Forall_forall; intros b IB EB; now apply reads|exact H|].
  destruct (pairs_close x _ _ AJ D) as [G1 G2].
  { intros [b r] Ib. apply in_flat_map in Ib. destruct Ib as (b' & I1 & I2). destruct (b_enabled b') eqn:EB; [|destruct I2]. apply in_map_iff in I2. destruct I2 as (r' & Z & I2). injection Z as <- <-. cbn [fst snd]. split; [exact I1|]. split; [exact EB|]. unfold rules_in_force. apply in_flat_map. exists b'. rewrite EB. auto. }
  split; [exact G1|]. unfold working in G2. rewrite pairs_rules in G2. unfold mamdani_set, conclusion_set. apply (G2 0 0); [lra|]. rewrite Rminus_eq_0, Rabs_R0. rewrite E2_eq. assert (ER := E_range). destruct u_tiny. destruct eta64_small. destruct eps_ok. lra.
Qed.
Lemma conclusion_slope : lip (conclusion_set e ts j) (1 / w).
Proof.
  assert (W := out_w w w_pos). unfold conclusion_set. assert (G : forall rs g, lip g (1 / w) -> lip (fun x => fold_left Rmax (flat_map (said e ts j x) rs) (g x)) (1 / w)); [|apply (G _ (fun _ => 0)), lip_const, W].
  induction rs as [|r rs IH]; intros g Hg; [exact Hg|]. apply (lip_ext _ (fun x => fold_left Rmax (flat_map (said e ts j x) rs) (fold_left Rmax (said e ts j x r) (g x)))); [intro x; cbn [flat_map]; now rewrite fold_left_app|]. apply (IH (fun x => fold_left Rmax (said e ts j x r) (g x))).
  unfold said. destruct (rl_antecedent r); [|exact Hg]. destruct (rl_enabled r); [|exact Hg]. clear IH. revert g Hg. induction (rl_consequent r) as [|p ps IH]; intros g Hg; [exact Hg|]. cbn [flat_map]. destruct (pr_var p) as [i|i]; [apply (IH g Hg)|]. destruct (pr_term p) as [t|]; [|apply (IH g Hg)]. destruct (Nat.eqb i j); [|apply (IH g Hg)].
  cbn [app fold_left]. apply (IH (fun x => Rmax (g x) (Rmin (documented ts t x) (B2R (rl_weight r) * truth e e0)))). apply lip_max; [exact Hg|]. apply lip_min; [apply documented_slope, (le_terms _ _ _ _ _ le)|apply lip_const, W].
Qed.
Lemma conclusion_range x : 0 <= conclusion_set e ts j x <= 1.
Proof.
  unfold conclusion_set. assert (G : forall l v, 0 <= v <= 1 -> List.Forall (fun y => y <= 1) l -> 0 <= fold_left Rmax l v <= 1). { induction l as [|y l IH]; intros v V F; [exact V|]. inversion F; subst. cbn [fold_left]. apply IH; [mm|assumption]. }
  apply G; [lra|]. apply List.Forall_forall. intros y Y. apply in_flat_map in Y. destruct Y as (r & _ & Y). unfold said in Y. destruct (rl_antecedent r); [|destruct Y]. destruct (rl_enabled r); [|destruct Y]. apply in_flat_map in Y. destruct Y as (p & _ & Y). destruct (pr_var p); [destruct Y|]. destruct (pr_term p) as [t|]; [|destruct Y]. destruct (Nat.eqb _ j); [|destruct Y]. destruct Y as [<-|[]].
  assert (Q := documented_ok ts t x (le_terms _ _ _ _ _ le)). assert (Z := Rmin_l (documented ts t x) (B2R (rl_weight r) * truth e e0)). lra.
Qed.
End EngineF64.

Theorem engine_close (P : fparam) drain (e e' : engine f64) j o p n k X w : is_finite (fp_eps P) = true /\ 0 <= B2R (fp_eps P) <= w -> eta64 <= w -> (Z.of_nat k < 2 ^ 46)%Z ->
  line_engine e w k j (v_terms (o_var o)) -> @process f64 (F64Scalar P) drain e = (e', Ok tt) -> nth_error (e_outputs e) j = Some o -> nth_error (e_outputs e') j = Some p ->
  v_enabled (o_var o) = true -> o_aggregation o = Some Maximum -> o_defuzzifier o = Some (DIntegral Centroid (Z.of_nat n)) -> (1 <= n)%nat -> (Z.of_nat n < 2 ^ 46)%Z ->
  let a := v_minimum (o_var o) in let b := v_maximum (o_var o) in within X a -> within X b -> B2R a < B2R b -> X <= bpow radix2 300 ->
  let f := conclusion_set e (v_terms (o_var o)) j in let delta := shape_error 1 w (B2R (fp_eps P)) + sample_error (INR n) X / w + degree_error (INR k) w (B2R (fp_eps P)) in
  let d := B2R b - B2R a in let A := area f (B2R a) (B2R b) in
  0 < A / d - 1 / w * d / (2 * INR n) - delta ->
  is_finite (v_value (o_var p)) = true /\ Rabs (B2R (v_value (o_var p)) - gravity f (B2R a) (B2R b)) <= gravity_error (INR n) d X A (1 / w) delta.
Proof.
  intros EO W0 KS LE PR NO NP EN AG DE N1 N2 a b A0 B0 AB XS f delta d A OM.
  destruct (inference drain e e' (le_general _ _ _ _ _ LE) PR) as (known & INF & OUT). destruct (OUT j o NO) as (p' & NP' & DF). assert (p' = p) by congruence. subst p'.
  assert (AJ : active e (VOut j)) by (intros (o' & Q1 & Q2); congruence).
  destruct (known_close P e w k j (v_terms (o_var o)) EO W0 KS (le_inputs _ _ _ _ _ LE) LE known 0 AJ INF) as [KC _].
  assert (V := value_near P (engine_view (e_inputs e) (firstn j (e_outputs e') ++ skipn j (e_outputs e))) (set_fuzzy (about j known) o) n X w 8 EO W0 A0 B0 AB XS N1 N2).
  specialize (V ltac:(split; [lra|]; apply Rle_trans with (bpow radix2 3); [change (bpow radix2 3) with 8; lra|apply bpow_le; lia]) AG KC f (degree_error (INR k) w (B2R (fp_eps P)))).
  specialize (V (fun x _ => proj2 (known_close P e w k j (v_terms (o_var o)) EO W0 KS (le_inputs _ _ _ _ _ LE) LE known x AJ INF))).
  specialize (V (fun x y _ _ => conclusion_slope e w k j (v_terms (o_var o)) W0 LE x y)).
  specialize (V (fun x _ => conclusion_range e w k j (v_terms (o_var o)) W0 LE x) EN DE OM). cbv zeta in V. destruct V as (_ & V2 & V3).
  assert (Q : fst (@defuzzify f64 (S64b P) (engine_view (e_inputs e) (firstn j (e_outputs e') ++ skipn j (e_outputs e))) (set_fuzzy (about j known) o)) = p) by (change (fst (@defuzzify f64 (F64Scalar P) (engine_view (e_inputs e) (firstn j (e_outputs e') ++ skipn j (e_outputs e))) (set_fuzzy (about j known) o)) = p); rewrite DF; reflexivity).
  rewrite Q in V2, V3. split; [exact V2|exact V3].
Qed.
