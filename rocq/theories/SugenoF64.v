(** Takagi-Sugeno engines in binary64: the value of an output against the documented mean. *)
From Coq Require Import ZArith Reals String Bool List Lra Lia.
From Flocq Require Import Core BinarySingleNaN.
From Verif Require Import Base Op XR XRFacts F64 F64Facts F64Arith F64Err F64Sum F64Quot Shape Norm Hedge Discrete Defuzz Aggregated Rule Var Activation Engine SpecRule SpecDegree SpecActivation SpecAgg SpecEngine SpecInfer SpecTerm SpecDefuzz SpecRound SpecMamdani SpecSugeno
  OpProofs AggProofs DefuzzReal ShapeF64 MamdaniF64 InferProofs InferBundle EngineF64.
Import ListNotations.
Local Open Scope R_scope.

(** ** Linear terms *)
Section Dot.
Let c : R := 65 / 64.
Definition dot_step (acc : f64) (p : f64 * f64) : f64 := Bplus mode_NE acc (Bmult mode_NE (fst p) (snd p)).
Definition prod_of (p : f64 * f64) : R := B2R (fst p) * B2R (snd p).
Definition finite_pair (p : f64 * f64) : Prop := is_finite (fst p) = true /\ is_finite (snd p) = true.
Definition sizes (l : list (f64 * f64)) : R := rsum (map (fun p => Rabs (prod_of p)) l).
Lemma sizes_bound l : 0 <= sizes l /\ Rabs (rsum (map prod_of l)) <= sizes l.
Proof.
  induction l as [|p l [I1 I2]]; unfold sizes, rsum in *; cbn [map fold_right]; [rewrite Rabs_R0; lra|]. assert (Q := Rabs_pos (prod_of p)). assert (Z := Rabs_triang (prod_of p) (fold_right Rplus 0 (map prod_of l))). lra.
Qed.
Lemma dot_error l : List.Forall finite_pair l -> (Z.of_nat (length l) < 2 ^ 46)%Z -> sizes l <= bpow radix2 400 ->
  let acc := fold_left dot_step l (f64_lit 0 1) in let n := INR (length l) in
  is_finite acc = true /\ Rabs (B2R acc - rsum (map prod_of l)) <= c * (n + 1) * u64 * sizes l + c * n * eta64.
Proof.
  induction l as [|p l IH] using rev_ind; intros F N B.
  - destruct f64_0_correct as [Z1 Z2]. cbv zeta. cbn [fold_left length INR]. rewrite Z1, Z2. unfold sizes, rsum. cbn [map fold_right]. rewrite Rminus_0_r, Rabs_R0. split; [reflexivity|lra].
  - apply Forall_app in F. destruct F as [F Fp]. inversion Fp as [|? ? [F1 F2] _ E1]; subst. clear Fp. rewrite app_length in N |- *. cbn [length] in N |- *. cbv zeta. rewrite fold_left_app. cbn [fold_left]. rewrite plus_INR. cbn [INR].
    assert (ES : sizes (l ++ [p]) = sizes l + Rabs (prod_of p)) by (unfold sizes; rewrite map_app; apply rsum_snoc). assert (EP : rsum (map prod_of (l ++ [p])) = rsum (map prod_of l) + prod_of p) by (rewrite map_app; apply rsum_snoc). rewrite ES in B |- *. rewrite EP.
    assert (AP := Rabs_pos (prod_of p)). destruct (IH F ltac:(lia) ltac:(lra)) as [G1 G2]. set (acc := fold_left dot_step l (f64_lit 0 1)) in *. set (n := INR (length l)) in *.
    destruct (sizes_bound l) as [B1 B2]. set (S0 := sizes l) in *. set (A0 := rsum (map prod_of l)) in *. set (q := prod_of p) in *.
    destruct u64_small as [U1 _]. destruct eta64_small as [T1 T2]. assert (SC := small_count (length l) ltac:(lia)). rewrite S_INR in SC. fold n in SC. assert (N0 : 0 <= n) by apply pos_INR. assert (NU : 0 <= n * u64) by (apply Rmult_le_pos; lra). assert (NE : 0 <= n * eta64) by (apply Rmult_le_pos; lra). assert (NEU : n * eta64 <= n * u64) by (apply Rmult_le_compat_l; lra).
    assert (HB : 8 * bpow radix2 400 <= huge) by (unfold huge; change 8 with (bpow radix2 3); rewrite <- bpow_plus; apply bpow_le; lia). assert (K1 : 1 <= bpow radix2 400) by (change 1 with (bpow radix2 0); apply bpow_le; lia). set (K := bpow radix2 400) in *.
    destruct (mult_err (fst p) (snd p) F1 F2) as [P1 P2]; [fold (prod_of p); fold q; lra|]. fold (prod_of p) in P2. fold q in P2. set (m := Bmult mode_NE (fst p) (snd p)) in *.
    set (d := c * (n + 1) * u64) in *. assert (c1 : c = 65 / 64) by reflexivity. assert (D1 : d <= 1 / 64) by (unfold d, c; lra). assert (D0 : u64 <= d) by (unfold d, c; lra).
    set (g := c * n * eta64) in *. assert (GE : 0 <= g <= 1 / 64) by (unfold g, c; lra). set (V := S0 + Rabs q) in *.
    assert (A4 : u64 * Rabs q <= d * Rabs q) by (apply Rmult_le_compat_r; lra).
    assert (A3 : Rabs (B2R acc + B2R m - (A0 + q)) <= d * V + (g + eta64)).
    { replace (B2R acc + B2R m - (A0 + q)) with ((B2R acc - A0) + (B2R m - q)) by ring. apply Rle_trans with (1 := Rabs_triang _ _). unfold V. lra. }
    assert (A5 : Rabs (A0 + q) <= V) by (apply Rle_trans with (1 := Rabs_triang _ _); unfold V; lra).
    assert (V0 : 0 <= V) by (unfold V; lra). assert (A7 : d * V <= V) by (apply scaled; lra).
    assert (A6 : Rabs (B2R acc + B2R m) <= 4 * K). { assert (Q := Rabs_triang (B2R acc + B2R m - (A0 + q)) (A0 + q)). replace (B2R acc + B2R m - (A0 + q) + (A0 + q)) with (B2R acc + B2R m) in Q by ring. lra. }
    destruct (plus_err acc m G1 P1) as [R1 R2]; [lra|]. split; [exact R1|]. unfold dot_step. fold m.
    apply Rle_trans with (1 := one_more _ _ (A0 + q) V d u64 (g + eta64) ltac:(lra) ltac:(lra) A5 A3 R2 D1). replace (c * (n + 1 + 1) * u64) with (d + c * u64) by (unfold d; ring). replace (c * (n + 1) * eta64) with (g + c * eta64) by (unfold g; ring).
    assert (GU : u64 * (g + eta64) <= 1 / 64 * eta64). { unfold g. replace (u64 * (c * n * eta64 + eta64)) with ((c * n * u64 + u64) * eta64) by ring. apply Rmult_le_compat_r; [lra|]. unfold c. lra. }
    rewrite c1. lra.
Qed.
End Dot.
Section Linear.
Variable P : fparam.
#[local] Instance S64l : Scalar f64 := F64Scalar P.
Lemma loop_fold acc cs (xs : list f64) : linear_loop acc cs xs = fold_left dot_step (combine cs xs) acc.
Proof. revert acc cs. induction xs as [|x xs IH]; intros acc [|c cs]; cbn [linear_loop combine fold_left]; try reflexivity. apply IH. Qed.
Lemma dot_combine (cs xs : list f64) : dot (map B2R cs) (map B2R xs) = rsum (map prod_of (combine cs xs)) /\
  dot (map (fun c => Rabs (B2R c)) cs) (map Rabs (map B2R xs)) = sizes (combine cs xs).
Proof.
  revert xs. induction cs as [|c cs IH]; intros [|x xs]; cbn [map dot combine]; try (split; reflexivity). destruct (IH xs) as [I1 I2]. rewrite I1, I2. unfold sizes, rsum, prod_of. cbn [map fold_right fst snd]. rewrite Rabs_mult. split; reflexivity.
Qed.
Lemma dot_abs (cs xs : list f64) : 0 <= dot (map (fun c => Rabs (B2R c)) cs) (map Rabs (map B2R xs)).
Proof. destruct (dot_combine cs xs) as [_ ->]. apply sizes_bound. Qed.
Lemma last_nth (cs : list f64) n d d' : length cs = Datatypes.S n -> last cs d = nth n cs d'.
Proof. revert n. induction cs as [|x cs IH]; intros n L; [discriminate|]. destruct cs as [|y cs]; [destruct n; [reflexivity|discriminate]|]. destruct n as [|n]; [discriminate|]. change (last (x :: y :: cs) d) with (last (y :: cs) d). cbn [nth]. apply IH. cbn in *. lia. Qed.
Lemma linear_close (cs xs : list f64) M : List.Forall (fun c => is_finite c = true) cs -> List.Forall (fun x => is_finite x = true) xs -> (length xs <= length cs <= Datatypes.S (length xs))%nat -> (Z.of_nat (length xs) < 2 ^ 46 - 2)%Z ->
  let v := dot (map B2R cs) (map B2R xs) + nth (length xs) (map B2R cs) 0 in
  dot (map (fun c => Rabs (B2R c)) cs) (map Rabs (map B2R xs)) + Rabs (nth (length xs) (map B2R cs) 0) <= M -> M <= bpow radix2 400 ->
  exists r, linear_membership cs (Some xs) = Ok r /\ is_finite r = true /\ Rabs (B2R r - v) <= linear_error (INR (length xs)) M.
Proof.
  intros Fc Fx [L1 L2] N v B BM. destruct (dot_combine cs xs) as [E1 E2]. rewrite E2 in B. set (k := nth (length xs) (map B2R cs) 0) in *. assert (KP := Rabs_pos k).
  assert (LC : length (combine cs xs) = length xs) by (rewrite combine_length; lia).
  assert (FP : List.Forall finite_pair (combine cs xs)). { apply List.Forall_forall. intros [a b] I. rewrite List.Forall_forall in Fc, Fx. split; cbn [fst snd]; [apply Fc, (in_combine_l _ _ _ _ I)|apply Fx, (in_combine_r _ _ _ _ I)]. }
  destruct (dot_error (combine cs xs) FP ltac:(lia) ltac:(lra)) as [G1 G2]. rewrite LC in G2. cbn [linear_membership]. rewrite loop_fold. change (@s_0 f64 S64l) with (f64_lit 0 1). set (acc := fold_left dot_step (combine cs xs) (f64_lit 0 1)) in *. rewrite <- E1 in G2.
  eexists. split; [reflexivity|]. unfold v. set (A := dot (map B2R cs) (map B2R xs)) in *. destruct (sizes_bound (combine cs xs)) as [S1 S2]. rewrite <- E1 in S2. fold A in S2. set (V := sizes (combine cs xs)) in *. set (n := INR (length xs)) in *.
  destruct u64_small as [U1 _]. destruct eta64_small as [T1 T2]. assert (SC := small_count (length xs) ltac:(lia)). rewrite S_INR in SC. fold n in SC. assert (N0 : 0 <= n) by apply pos_INR. assert (NU : 0 <= n * u64) by (apply Rmult_le_pos; lra). assert (NE : 0 <= n * eta64) by (apply Rmult_le_pos; lra). assert (NEU : n * eta64 <= n * u64) by (apply Rmult_le_compat_l; lra).
  set (d := 65 / 64 * (n + 1) * u64) in *. assert (D1 : 0 <= d <= 1 / 64) by (unfold d; lra). set (g := 65 / 64 * n * eta64) in *. assert (G0 : 0 <= g <= 1 / 64) by (unfold g; lra). assert (VM : V + Rabs k <= M) by exact B. clear B.
  unfold linear_error. replace (65 / 64 * (n + 2) * u64) with (d + 65 / 64 * u64) by (unfold d; ring). replace (65 / 64 * (n + 1) * eta64) with (g + 65 / 64 * eta64) by (unfold g; ring).
  assert (GU : u64 * g <= 65 / 64 * eta64). { unfold g. replace (u64 * (65 / 64 * n * eta64)) with (65 / 64 * (n * u64) * eta64) by ring. apply Rmult_le_compat_r; [lra|]. lra. }
  assert (DV : d * V <= d * M) by (apply Rmult_le_compat_l; lra). assert (UM : 0 <= u64 * M) by (apply Rmult_le_pos; lra). destruct (Nat.ltb_spec (length xs) (length cs)) as [L|L].
  - assert (LE : length cs = Datatypes.S (length xs)) by lia.
    assert (KE : k = B2R (last cs (f64_lit 0 1))).
    { unfold k. rewrite (last_nth cs (length xs) (f64_lit 0 1) (f64_lit 0 1) LE). rewrite <- (map_nth B2R cs (f64_lit 0 1)). apply nth_indep. rewrite map_length. exact L. }
    assert (FL : is_finite (last cs (f64_lit 0 1)) = true). { rewrite (last_nth cs (length xs) (f64_lit 0 1) (f64_lit 0 1) LE). rewrite List.Forall_forall in Fc. apply Fc, nth_In. exact L. }
    change (@s_0 f64 S64l) with (f64_lit 0 1). change (@s_add f64 S64l acc (last cs (f64_lit 0 1))) with (Bplus mode_NE acc (last cs (f64_lit 0 1))).
    assert (A1 : Rabs (B2R acc + k - (A + k)) <= d * (V + Rabs k) + g). { replace (B2R acc + k - (A + k)) with (B2R acc - A) by ring. assert (0 <= d * Rabs k) by (apply Rmult_le_pos; lra). lra. }
    assert (A2 : Rabs (A + k) <= V + Rabs k) by (apply Rle_trans with (1 := Rabs_triang _ _); lra).
    assert (DK : d * (V + Rabs k) <= 1 / 64 * (V + Rabs k)) by (apply Rmult_le_compat_r; lra).
    assert (HB : 8 * bpow radix2 400 <= huge) by (unfold huge; change 8 with (bpow radix2 3); rewrite <- bpow_plus; apply bpow_le; lia). assert (K1 : 1 <= bpow radix2 400) by (change 1 with (bpow radix2 0); apply bpow_le; lia).
    destruct (plus_err acc (last cs (f64_lit 0 1)) G1 FL) as [R1 R2].
    { rewrite <- KE. assert (Q := Rabs_triang (B2R acc + k - (A + k)) (A + k)). replace (B2R acc + k - (A + k) + (A + k)) with (B2R acc + k) in Q by ring. lra. }
    split; [exact R1|]. rewrite <- KE in R2. apply Rle_trans with (1 := one_more _ _ (A + k) (V + Rabs k) d u64 g ltac:(lra) ltac:(lra) A2 A1 R2 ltac:(lra)).
    assert ((d + 65 / 64 * u64) * (V + Rabs k) <= (d + 65 / 64 * u64) * M) by (apply Rmult_le_compat_l; lra). lra.
  - split; [exact G1|]. assert (K0 : k = 0) by (unfold k; apply nth_overflow; rewrite map_length; exact L). rewrite K0. rewrite Rplus_0_r. apply Rle_trans with (1 := G2). assert (d * V <= (d + 65 / 64 * u64) * M); [|lra]. rewrite Rmult_plus_distr_r. lra.
Qed.
End Linear.

(** ** degrees of the conclusions *)
Section Votes.
Variables (P : fparam) (e : engine f64) (w M : R) (k j : nat) (ts : list (term f64)).
#[local] Instance S64v : Scalar f64 := F64Scalar P.
Let eps := B2R (fp_eps P).
Hypothesis eps_ok : is_finite (fp_eps P) = true /\ 0 <= eps <= w.
Hypothesis w_pos : eta64 <= w.
Hypothesis k_small : (Z.of_nat k < 2 ^ 46)%Z.
Hypothesis se : sugeno_engine e w M k j ts.
Let E2 := degree_error (INR k) w eps.
Definition by_degree (g : nat -> R) (cs : list (activated f64 nat)) : R := rsum (map (fun c => B2R (ac_degree c) * g (ac_term c)) cs).
Definition by_vote (g : nat -> R) (vs : list (R * nat)) : R := rsum (map (fun v => fst v * g (snd v)) vs).
Lemma by_vote_app g l m : by_vote g (l ++ m) = by_vote g l + by_vote g m.
Proof. unfold by_vote. rewrite map_app. apply rsum_app. Qed.
Lemma by_degree_app g l m : by_degree g (l ++ m) = by_degree g l + by_degree g m.
Proof. unfold by_degree. rewrite map_app. apply rsum_app. Qed.
(** [cs] as computed say what [vs] say *)
Definition agree (cs : list (activated f64 nat)) (vs : list (R * nat)) : Prop :=
  (forall c, In c cs -> is_finite (ac_degree c) = true /\ 0 <= B2R (ac_degree c) <= 8 /\ In (ac_term c) (map snd vs)) /\ (length cs <= length vs)%nat /\
  (forall v, In v vs -> 0 <= fst v /\ (snd v < length ts)%nat) /\
  forall g G, (forall t, (t < length ts)%nat -> Rabs (g t) <= G) -> Rabs (by_degree g cs - by_vote g vs) <= INR (length vs) * E2 * G.
Lemma agree_nil : agree [] [].
Proof.
  split; [intros c []|]. split; [cbn; lia|]. split; [intros v []|]. intros g G _. unfold by_degree, by_vote, rsum. cbn. rewrite Rminus_0_r, Rabs_R0. lra.
Qed.
Lemma agree_app cs vs cs' vs' : agree cs vs -> agree cs' vs' -> agree (cs ++ cs') (vs ++ vs').
Proof.
  intros (A1 & A2 & A3 & A4) (B1 & B2 & B3 & B4). split; [|split; [rewrite !app_length; lia|split]].
  - intros c I. rewrite map_app. apply in_app_or in I. destruct I as [I|I]; [destruct (A1 c I) as (H1 & H2 & H3)|destruct (B1 c I) as (H1 & H2 & H3)]; (split; [exact H1|split; [exact H2|apply in_or_app; auto]]).
  - intros v I. apply in_app_or in I. destruct I; auto.
  - intros g G B. rewrite by_vote_app, by_degree_app, app_length, plus_INR. specialize (A4 g G B). specialize (B4 g G B). replace (by_degree g cs + by_degree g cs' - (by_vote g vs + by_vote g vs')) with ((by_degree g cs - by_vote g vs) + (by_degree g cs' - by_vote g vs')) by ring. apply Rle_trans with (1 := Rabs_triang _ _). lra.
Qed.
Lemma E2_pos : 0 <= E2.
Proof.
  assert (SR := s_range P w eps_ok w_pos). assert (Q := pos_INR k). destruct u_tiny as [U1 _]. destruct eta64_small as [T1 _]. destruct eps_ok as [_ E0]. unfold E2, degree_error. fold eps in SR. assert (0 <= (INR k + 1) * u64) by (apply Rmult_le_pos; lra). lra.
Qed.
Lemma agree_silent vs : (forall v, In v vs -> 0 <= fst v <= E2 /\ (snd v < length ts)%nat) -> agree [] vs.
Proof.
  intro F. split; [intros c []|]. split; [cbn; lia|]. split; [intros v I; destruct (F v I); split; [lra|assumption]|]. intros g G B. unfold by_degree. cbn [map]. unfold rsum at 1. cbn [fold_right]. rewrite Rminus_0_l, Rabs_Ropp. assert (EP := E2_pos).
  induction vs as [|v vs IH]; unfold by_vote, rsum in *; cbn [map fold_right length]; [rewrite Rabs_R0; cbn; lra|]. rewrite S_INR. apply Rle_trans with (1 := Rabs_triang _ _). specialize (IH (fun x I => F x (or_intror I))).
  destruct (F v (or_introl eq_refl)) as [F1 F2]. rewrite Rabs_mult, (Rabs_pos_eq (fst v)) by lra. specialize (B _ F2). assert (fst v * Rabs (g (snd v)) <= E2 * G) by (apply Rmult_le_compat; [lra|apply Rabs_pos|lra|exact B]). lra.
Qed.
Lemma agree_one (d : f64) W t i : is_finite d = true -> 0 <= B2R d <= 8 -> 0 <= W -> (t < length ts)%nat -> Rabs (B2R d - W) <= E2 -> agree [mkActivated t d i] [(W, t)].
Proof.
  intros F D HW T H. split; [intros c [<-|[]]; cbn; auto|]. split; [cbn; lia|]. split; [intros v [<-|[]]; cbn; auto|]. intros g G B. unfold by_degree, by_vote, rsum. cbn [map fold_right length ac_degree ac_term fst snd INR].
  replace (B2R d * g t + 0 - (W * g t + 0)) with ((B2R d - W) * g t) by ring. rewrite Rabs_mult. replace (1 * E2 * G) with (E2 * G) by ring. apply Rmult_le_compat; try apply Rabs_pos; auto.
Qed.
Lemma follows_agree b (d : f64) (ps : list proposition) cs W : active e (VOut j) -> Follows e b d ps cs -> (forall p, In p ps -> pr_hedges p = [] /\ forall t, pr_var p = VOut j -> pr_term p = Some t -> (t < length ts)%nat) ->
  is_finite d = true -> 0 <= B2R d <= 8 -> 0 <= W -> Rabs (B2R d - W) <= E2 ->
  agree (about j cs) (flat_map (fun p => match pr_var p, pr_term p with VOut k, Some t => if Nat.eqb k j then [(W, t)] else [] | _, _ => [] end) ps).
Proof.
  intros AJ H. induction H as [d|d p ps cs I H IH|d d' p ps cs i t A V T Hh H IH]; intros F FD BD HW D.
  - apply agree_nil.
  - specialize (IH (fun q Q => F q (or_intror Q)) FD BD HW D). cbn [flat_map]. assert (Z : match pr_var p, pr_term p with VOut k, Some t => if Nat.eqb k j then [(W, t)] else [] | _, _ => [] end = []); [|rewrite Z; exact IH].
    destruct (pr_var p) as [i|i] eqn:V; [reflexivity|]. destruct (pr_term p); [|reflexivity]. destruct (Nat.eqb_spec i j) as [->|]; [|reflexivity]. exfalso. now apply AJ.
  - destruct (F p (or_introl eq_refl)) as [HH LT]. rewrite HH in Hh. inversion Hh; subst. specialize (IH (fun q Q => F q (or_intror Q)) FD BD HW D).
    assert (AB : about j ((i, mkActivated t d' (b_implication b)) :: cs) = if Nat.eqb i j then mkActivated t d' (b_implication b) :: about j cs else about j cs) by (unfold about; cbn [filter fst]; destruct (Nat.eqb i j); reflexivity).
    rewrite AB. cbn [flat_map]. rewrite V, T. destruct (Nat.eqb_spec i j) as [->|N]; [|exact IH]. apply (agree_app [_] [_]); [|exact IH]. apply agree_one; auto.
Qed.
Lemma draws_agree b r known cs : active e (VOut j) -> In r (rules_in_force e) -> In b (e_blocks e) -> b_enabled b = true -> Draws e b known r cs -> agree (about j cs) (votes_of e j r).
Proof.
  intros AJ IR IB EB H. assert (BB := su_blocks _ _ _ _ _ _ se b IB EB). assert (LW := su_weights _ _ _ _ _ _ se r IR). assert (E2E : E2 = shape_error 1 w eps + 8 * INR k * u64 + 8 * u64 + eta64 + eps) by (unfold E2, degree_error; ring). destruct u_tiny as [U1 _]. destruct eta64_small as [T1 _]. destruct eps_ok as [FE EP].
  assert (CL := su_conclusions _ _ _ _ _ _ se r). assert (LI := su_inputs _ _ _ _ _ _ se).
  destruct H as [LD|a d LD AN ST NF|a d cs LD AN ST EN FI FO].
  - unfold votes_of. unfold rule_loaded in LD. destruct (rl_antecedent r); [|apply agree_nil]. destruct (rl_consequent r); [|discriminate LD]. destruct (rl_enabled r); apply agree_nil.
  - unfold votes_of. rewrite AN. destruct (rl_enabled r) eqn:EN; [|apply agree_nil]. destruct NF as [NF|NF]; [discriminate NF|].
    destruct (strength_close P e w k eps_ok w_pos k_small LI b known a d BB ST) as (C1 & C2 & C3); [intros p Ip; exact (su_antecedents _ _ _ _ _ _ se r a p IR AN Ip)|].
    destruct (weighted_close P w k eps_ok w_pos k_small r d (truth e a) LW C1 C2 C3) as (M1 & M2 & M3). set (m := Bmult mode_NE (rl_weight r) d) in *. destruct f64_0_correct as [Z1 Z2].
    assert (TZ : tame (f64_lit 0 1)) by (split; [exact Z2|]; rewrite Z1, Rabs_R0; assert (Q := big_pos); lra).
    assert (NF2 : @isGt f64 (F64Scalar P) m (f64_lit 0 1) = false) by exact NF. apply (gt_false P FE) in NF2; [|exact M1|exact TZ]. rewrite Z1, Rminus_0_r in NF2. fold eps in NF2, M3.
    assert (WT : 0 <= B2R (rl_weight r) * truth e a <= E2). { split; [apply Rmult_le_pos; lra|]. rewrite E2E; unfold Rabs in *; destruct NF2 as [NF2|NF2]; repeat destruct Rcase_abs in *; lra. }
    change (about j []) with (@nil (activated f64 nat)). apply agree_silent. intros v Iv. apply in_flat_map in Iv. destruct Iv as (p & Ip & Iv). destruct (pr_var p) as [i|i] eqn:V; [destruct Iv|]. destruct (pr_term p) as [t|] eqn:T; [|destruct Iv]. destruct (Nat.eqb_spec i j) as [->|]; [|destruct Iv]. destruct Iv as [<-|[]]. cbn [fst snd]. split; [exact WT|]. apply (proj2 (CL p IR Ip)); auto.
  - destruct (strength_close P e w k eps_ok w_pos k_small LI b known a d BB ST) as (C1 & C2 & C3); [intros p Ip; exact (su_antecedents _ _ _ _ _ _ se r a p IR AN Ip)|].
    destruct (weighted_close P w k eps_ok w_pos k_small r d (truth e a) LW C1 C2 C3) as (M1 & M2 & M3). change (@s_mul f64 S64v (rl_weight r) d) with (Bmult mode_NE (rl_weight r) d) in FI, FO. set (m := Bmult mode_NE (rl_weight r) d) in *. destruct f64_0_correct as [Z1 Z2].
    assert (TZ : tame (f64_lit 0 1)) by (split; [exact Z2|]; rewrite Z1, Rabs_R0; assert (Q := big_pos); lra).
    assert (FI2 : @isGt f64 (F64Scalar P) m (f64_lit 0 1) = true) by exact FI. apply (gt_true P) in FI2; [|exact M1|exact TZ]. rewrite Z1 in FI2. fold eps in M3.
    unfold votes_of. rewrite AN, EN. apply (follows_agree b m); [exact AJ|exact FO|intros p Ip; exact (CL p IR Ip)|apply M1|rewrite Rabs_pos_eq in M2 by lra; lra|apply Rmult_le_pos; lra|rewrite E2E; lra].
Qed.
Lemma pairs_agree prs css : active e (VOut j) -> List.Forall2 (fun br cs => Draws e (fst br) [] (snd br) cs) prs css ->
  (forall br, In br prs -> In (fst br) (e_blocks e) /\ b_enabled (fst br) = true /\ In (snd br) (rules_in_force e)) ->
  agree (about j (List.concat css)) (flat_map (votes_of e j) (map snd prs)).
Proof.
  intros AJ H. induction H as [|br cs prs css D H IH]; intro Q; [apply agree_nil|]. destruct (Q br (or_introl eq_refl)) as (B1 & B2 & B3). cbn [List.concat map flat_map]. rewrite about_app. apply agree_app.
  - exact (draws_agree (fst br) (snd br) [] cs AJ B3 B1 B2 D).
  - apply IH. intros z Z. apply Q. now right.
Qed.
Lemma reads_s b : In b (e_blocks e) -> b_enabled b = true -> List.Forall (@reads_inputs f64) (b_rules b).
Proof.
  intros IB EB. apply List.Forall_forall. intros r IR a v t AN C. assert (RF : In r (rules_in_force e)) by (unfold rules_in_force; apply in_flat_map; exists b; rewrite EB; auto).
  assert (G : forall p, In p (propositions a) -> exists i, pr_var p = VIn i) by (intros p Ip; destruct (su_antecedents _ _ _ _ _ _ se r a p RF AN Ip) as ((i & v' & V & _) & _); exists i; exact V).
  clear AN. revert C G. induction a as [p|name l IHl r0 IHr]; cbn [consults propositions]; intros C G.
  - destruct C as [C _]. destruct (G p (or_introl eq_refl)) as [i V]. exists i. congruence.
  - destruct C as [C|C]; [apply (IHl C)|apply (IHr C)]; intros p Ip; apply G; apply in_or_app; auto.
Qed.
Lemma known_agree known : active e (VOut j) -> Infers e known -> agree (about j known) (votes e j).
Proof.
  intros AJ H. destruct (independent e known) as (css & D & ->); [apply List.Forall_forall; intros b IB EB; now apply reads_s|exact H|].
  unfold votes. rewrite <- pairs_rules. apply pairs_agree; [exact AJ|exact D|].
  intros [b r] Ib. apply in_flat_map in Ib. destruct Ib as (b' & I1 & I2). destruct (b_enabled b') eqn:EB; [|destruct I2]. apply in_map_iff in I2. destruct I2 as (r' & Z & I2). injection Z as <- <-. cbn [fst snd]. split; [exact I1|]. split; [exact EB|]. unfold rules_in_force. apply in_flat_map. exists b'. rewrite EB. auto.
Qed.
End Votes.
