(** Rounding errors of sums, products and quotients in binary64. *)
From Coq Require Import ZArith Reals Bool List Lra Lia.
From Flocq Require Import Core BinarySingleNaN Relative Plus_error.
From Verif Require Import Base Op XR XRFacts F64 F64Facts F64Arith F64Err SpecDefuzz SpecRound.
Import ListNotations.
Local Open Scope R_scope.

Lemma pow_bpow k : 2 ^ k = bpow radix2 (Z.of_nat k).
Proof. rewrite bpow_powerRZ, <- pow_powerRZ. reflexivity. Qed.
Lemma u64_small : 0 < u64 /\ u64 * 2 ^ 53 = 1.
Proof. split; [apply bpow_gt_0|]. rewrite pow_bpow. unfold u64. rewrite <- bpow_plus. reflexivity. Qed.
Lemma eta64_small : 0 < eta64 <= u64.
Proof. split; [apply bpow_gt_0|]. apply bpow_le. lia. Qed.

Lemma rnd_error x : Rabs (rnd x - x) <= u64 * Rabs x + eta64.
Proof.
  destruct (error_N_FLT radix2 (-1074) 53 ltac:(lia) (fun z => negb (Z.even z)) x) as (e & t & E & T & _ & Q).
  change (rnd x = x * (1 + e) + t) in Q. rewrite Q. replace (x * (1 + e) + t - x) with (e * x + t) by ring. apply Rle_trans with (1 := Rabs_triang _ _). rewrite Rabs_mult.
  assert (E2 : / 2 * bpow radix2 (-53 + 1) = u64) by (unfold u64; change (/ 2) with (bpow radix2 (-1)); rewrite <- bpow_plus; reflexivity). assert (T2 : / 2 * bpow radix2 (-1074) = eta64) by (unfold eta64; change (/ 2) with (bpow radix2 (-1)); rewrite <- bpow_plus; reflexivity). change (Rabs e <= / 2 * bpow radix2 (-53 + 1)) in E. rewrite E2 in E. rewrite T2 in T.
  assert (Q2 := Rabs_pos x). assert (Rabs e * Rabs x <= u64 * Rabs x) by (apply Rmult_le_compat_r; assumption). lra.
Qed.
Lemma rnd_plus_error x y : fmt x -> fmt y -> Rabs (rnd (x + y) - (x + y)) <= u64 * Rabs (x + y).
Proof.
  intros X Y. destruct (FLT_plus_error_N_ex radix2 (-1074) 53 (fun z => negb (Z.even z)) x y X Y) as (e & E & Q). change (rnd (x + y) = (x + y) * (1 + e)) in Q. rewrite Q. replace ((x + y) * (1 + e) - (x + y)) with (e * (x + y)) by ring. rewrite Rabs_mult. apply Rmult_le_compat_r; [apply Rabs_pos|].
  assert (U : u_ro radix2 53 = u64) by (unfold u_ro, u64; change (/ 2) with (bpow radix2 (-1)); rewrite <- bpow_plus; reflexivity). rewrite U in E. apply Rle_trans with (1 := E). destruct u64_small as [U1 _]. apply (Rmult_le_reg_r (1 + u64)); [lra|]. replace (u64 / (1 + u64) * (1 + u64)) with u64 by (field; lra). nra.
Qed.
Definition huge : R := bpow radix2 900.
Lemma no_overflow x : Rabs x <= huge -> Rlt_bool (Rabs (rnd x)) (bpow radix2 emax64) = true.
Proof.
  intro H. apply Rlt_bool_true. assert (F : fmt huge) by (apply fmt_bpow; lia). assert (R0 := rnd_between (- huge) huge x (fmt_opp _ F) F ltac:(unfold Rabs in H; destruct Rcase_abs in H; lra)).
  apply Rle_lt_trans with huge; [unfold Rabs; destruct Rcase_abs; lra|]. apply bpow_lt. unfold emax64. lia.
Qed.
Lemma plus_err (a b : f64) : is_finite a = true -> is_finite b = true -> Rabs (B2R a + B2R b) <= huge ->
  is_finite (Bplus mode_NE a b) = true /\ Rabs (B2R (Bplus mode_NE a b) - (B2R a + B2R b)) <= u64 * Rabs (B2R a + B2R b).
Proof. intros A B H. destruct (plus_gen a b A B (no_overflow _ H)) as [E F]. split; [exact F|]. rewrite E. apply rnd_plus_error; apply fmt_B2R. Qed.
Lemma minus_err (a b : f64) : is_finite a = true -> is_finite b = true -> Rabs (B2R a - B2R b) <= huge ->
  is_finite (Bminus mode_NE a b) = true /\ Rabs (B2R (Bminus mode_NE a b) - (B2R a - B2R b)) <= u64 * Rabs (B2R a - B2R b).
Proof. intros A B H. destruct (minus_gen a b A B (no_overflow _ H)) as [E F]. split; [exact F|]. rewrite E. apply (rnd_plus_error (B2R a) (- B2R b)); [apply fmt_B2R|apply fmt_opp, fmt_B2R]. Qed.
Lemma mult_err (a b : f64) : is_finite a = true -> is_finite b = true -> Rabs (B2R a * B2R b) <= huge ->
  is_finite (Bmult mode_NE a b) = true /\ Rabs (B2R (Bmult mode_NE a b) - B2R a * B2R b) <= u64 * Rabs (B2R a * B2R b) + eta64.
Proof. intros A B H. destruct (mult_gen a b A B (no_overflow _ H)) as [E F]. split; [exact F|]. rewrite E. apply rnd_error. Qed.
Lemma div_err (a b : f64) : is_finite a = true -> B2R b <> 0 -> Rabs (B2R a / B2R b) <= huge ->
  is_finite (Bdiv mode_NE a b) = true /\ Rabs (B2R (Bdiv mode_NE a b) - B2R a / B2R b) <= u64 * Rabs (B2R a / B2R b) + eta64.
Proof. intros A B H. destruct (div_gen a b A B (no_overflow _ H)) as [E F]. split; [exact F|]. rewrite E. apply rnd_error. Qed.

Lemma scaled x k : 0 <= x -> k <= 1 -> k * x <= x.
Proof. intros. nra. Qed.
Lemma one_more (s a z V d u g : R) : 0 <= V -> 0 <= u -> Rabs z <= V -> Rabs (a - z) <= d * V + g -> Rabs (s - a) <= u * Rabs a -> d <= 1 / 64 ->
  Rabs (s - z) <= (d + 65 / 64 * u) * V + (g + u * g).
Proof.
  intros HV U Z A S D. assert (Q := Rabs_triang (s - a) (a - z)). replace (s - a + (a - z)) with (s - z) in Q by ring. assert (Q2 := Rabs_triang (a - z) z). replace (a - z + z) with a in Q2 by ring.
  assert (H1 : u * Rabs a <= u * (d * V + g + V)) by (apply Rmult_le_compat_l; lra). assert (H2 : d * V <= 1 / 64 * V) by (apply Rmult_le_compat_r; lra). assert (H3 : u * (d * V) <= u * (1 / 64 * V)) by (apply Rmult_le_compat_l; lra). lra.
Qed.

(** ** weighted sums *)
Section Sums.
Definition sum_step (acc : f64 * f64) (p : f64 * f64) : f64 * f64 := (Bplus mode_NE (fst acc) (fst p), Bplus mode_NE (snd acc) (Bmult mode_NE (fst p) (snd p))).
Definition wof (p : f64 * f64) : R := B2R (fst p).
Definition zof (p : f64 * f64) : R := B2R (snd p).
Variables (D M : R).
Hypothesis D_small : D <= bpow radix2 400.
Hypothesis M_small : M <= bpow radix2 400.
Definition sane (p : f64 * f64) : Prop := is_finite (fst p) = true /\ is_finite (snd p) = true /\ 0 <= wof p <= D /\ Rabs (zof p) <= M.
Let c : R := 65 / 64.
Lemma small_count n : (Z.of_nat n < 2 ^ 46)%Z -> INR (S n) * u64 <= 1 / 128.
Proof.
  intro H. destruct u64_small as [U1 U2]. assert (INR (S n) <= 2 ^ 46). { rewrite INR_IZR_INZ. replace (2 ^ 46) with (IZR (2 ^ 46)) by (rewrite <- pow_IZR with (n := 46%nat); reflexivity). apply IZR_le. lia. }
  apply Rle_trans with (2 ^ 46 * u64); [apply Rmult_le_compat_r; lra|]. replace (2 ^ 53) with (2 ^ 46 * 128) in U2 by ring. lra.
Qed.
Definition wtotal (l : list (f64 * f64)) : R := rsum (map wof l).
Definition ztotal (l : list (f64 * f64)) : R := rsum (map (fun p => wof p * zof p) l).
Lemma rsum_snoc l x : rsum (l ++ [x]) = rsum l + x.
Proof. induction l as [|y l IH]; unfold rsum in *; cbn [app fold_right]; [lra|]. rewrite IH. lra. Qed.
Lemma sane_bounds l : List.Forall sane l -> 0 <= wtotal l <= INR (length l) * D /\ Rabs (ztotal l) <= M * wtotal l.
Proof.
  induction 1 as [|p l (F1 & F2 & W & Z) H IH]; unfold wtotal, ztotal, rsum in *; cbn [map fold_right length].
  - cbn [INR]. rewrite Rabs_R0. lra.
  - change (INR (S (length l))) with (INR (Datatypes.S (length l))). rewrite S_INR. split; [lra|]. apply Rle_trans with (1 := Rabs_triang _ _). rewrite Rabs_mult, (Rabs_pos_eq (wof p)) by lra. assert (wof p * Rabs (zof p) <= wof p * M) by (apply Rmult_le_compat_l; lra). lra.
Qed.
Lemma huge_parts : bpow radix2 400 * bpow radix2 400 * (2 ^ 46) * 8 <= huge /\ 1 <= bpow radix2 400.
Proof.
  split; [|change 1 with (bpow radix2 0); apply bpow_le; lia]. rewrite pow_bpow. change 8 with (bpow radix2 3). rewrite <- !bpow_plus. apply bpow_le. lia.
Qed.
Lemma sums_error l : List.Forall sane l -> (Z.of_nat (length l) < 2 ^ 46)%Z -> 0 <= M ->
  let acc := fold_left sum_step l (f64_lit 0 1, f64_lit 0 1) in let n := INR (length l) in
  is_finite (fst acc) = true /\ is_finite (snd acc) = true /\ Rabs (B2R (fst acc) - wtotal l) <= c * n * u64 * wtotal l /\
  Rabs (B2R (snd acc) - ztotal l) <= c * (n + 1) * u64 * (M * wtotal l) + c * n * eta64.
Proof.
  induction l as [|p l IH] using rev_ind; intros F N M0.
  - destruct f64_0_correct as [Z1 Z2]. cbv zeta. cbn [fold_left fst snd length INR]. rewrite Z1, Z2. unfold wtotal, ztotal, rsum. cbn [map fold_right]. rewrite !Rminus_0_r, Rabs_R0. repeat split; lra.
  - apply Forall_app in F. destruct F as [F Fp]. inversion Fp as [|? ? (F1 & F2 & W & Z) _ E1]; subst. clear Fp. rewrite app_length in N |- *. cbn [length] in N |- *. cbv zeta. rewrite fold_left_app. cbn [fold_left]. rewrite plus_INR. cbn [INR].
    destruct (IH F ltac:(lia) M0) as (G1 & G2 & G3 & G4). set (acc := fold_left sum_step l (f64_lit 0 1, f64_lit 0 1)) in *. set (n := INR (length l)) in *.
    destruct (sane_bounds l F) as [B1 B2]. fold n in B1. assert (ET : wtotal (l ++ [p]) = wtotal l + wof p) by (unfold wtotal; rewrite map_app; apply rsum_snoc). assert (EZ : ztotal (l ++ [p]) = ztotal l + wof p * zof p) by (unfold ztotal; rewrite map_app; apply rsum_snoc). rewrite ET, EZ.
    set (W0 := wtotal l) in *. set (Z0 := ztotal l) in *. set (w := wof p) in *. set (z := zof p) in *.
    destruct u64_small as [U1 _]. destruct eta64_small as [T1 T2]. destruct huge_parts as [H1 H2]. assert (SC := small_count (length l) ltac:(lia)). rewrite S_INR in SC. fold n in SC. assert (N0 : 0 <= n) by apply pos_INR.
    assert (NB : n + 1 <= 2 ^ 46). { unfold n. rewrite <- S_INR, INR_IZR_INZ. replace (2 ^ 46) with (IZR (2 ^ 46)) by (rewrite <- pow_IZR with (n := 46%nat); reflexivity). apply IZR_le. lia. }
    set (K := bpow radix2 400) in *. set (C := 2 ^ 46) in *. assert (NU : 0 <= n * u64) by (apply Rmult_le_pos; lra). assert (U3 : u64 <= 1 / 128) by lra. assert (c1 : c = 65 / 64) by reflexivity. assert (CN : c * n * u64 <= 1 / 64) by (unfold c; lra). assert (CN1 : c * (n + 1) * u64 <= 1 / 64) by (unfold c; lra).
    assert (WB : W0 + w <= C * K). { apply Rle_trans with ((n + 1) * D); [lra|]. apply Rmult_le_compat; lra. }
    assert (ZB : Rabs (w * z) <= M * w) by (rewrite Rabs_mult, (Rabs_pos_eq w) by lra; assert (w * Rabs z <= w * M) by (apply Rmult_le_compat_l; lra); lra).
    assert (MB : M * (W0 + w) <= K * (C * K)) by (apply Rmult_le_compat; lra). assert (C1 : 1 <= C) by (unfold C; lra).
    assert (CK : 1 * 1 <= C * K) by (apply Rmult_le_compat; lra). assert (KCK : 1 * (C * K) <= K * (C * K)) by (apply Rmult_le_compat_r; lra). assert (HB : 8 * (K * (C * K)) <= huge) by lra. set (Y := K * (C * K)) in *.
    assert (MW : 0 <= M * W0) by (apply Rmult_le_pos; lra). assert (Mw : 0 <= M * w) by (apply Rmult_le_pos; lra).
    (* the product *)
    destruct (mult_err (fst p) (snd p) F1 F2) as [P1 P2]; [fold (wof p) (zof p); fold w z; lra|].
    fold (wof p) (zof p) in P2. fold w z in P2. set (q := Bmult mode_NE (fst p) (snd p)) in *.
    (* the weights *)
    set (d1 := c * n * u64) in *. set (d2 := c * (n + 1) * u64) in *. assert (D12 : d2 = d1 + c * u64) by (unfold d1, d2; ring). assert (D10 : 0 <= d1) by (unfold d1, c; lra).
    assert (A0 : d1 * W0 <= d1 * (W0 + w)) by (apply Rmult_le_compat_l; lra).
    assert (A1 : Rabs (B2R (fst acc) + w - (W0 + w)) <= d1 * (W0 + w) + 0) by (replace (B2R (fst acc) + w - (W0 + w)) with (B2R (fst acc) - W0) by ring; lra).
    assert (A2 : Rabs (B2R (fst acc) + w) <= 2 * (W0 + w)). { assert (Q := Rabs_triang (B2R (fst acc) + w - (W0 + w)) (W0 + w)). replace (B2R (fst acc) + w - (W0 + w) + (W0 + w)) with (B2R (fst acc) + w) in Q by ring. rewrite (Rabs_pos_eq (W0 + w)) in Q by lra. assert (d1 * (W0 + w) <= W0 + w) by (apply scaled; lra). lra. }
    destruct (plus_err (fst acc) (fst p) G1 F1) as [S1 S2]; [fold (wof p); fold w; lra|]. fold (wof p) in S2. fold w in S2.
    (* the sum *)
    assert (DU : u64 <= d2) by (rewrite D12; unfold c; lra). assert (A6 : u64 * (M * w) <= d2 * (M * w)) by (apply Rmult_le_compat_r; lra).
    assert (A3 : Rabs (B2R (snd acc) + B2R q - (Z0 + w * z)) <= d2 * (M * (W0 + w)) + (c * n * eta64 + eta64)).
    { replace (B2R (snd acc) + B2R q - (Z0 + w * z)) with ((B2R (snd acc) - Z0) + (B2R q - w * z)) by ring. apply Rle_trans with (1 := Rabs_triang _ _). assert (u64 * Rabs (w * z) <= u64 * (M * w)) by (apply Rmult_le_compat_l; lra). lra. }
    assert (A4 : Rabs (Z0 + w * z) <= M * (W0 + w)) by (apply Rle_trans with (1 := Rabs_triang _ _); lra).
    assert (NE : n * eta64 <= n * u64) by (apply Rmult_le_compat_l; lra). set (g := c * n * eta64) in *. assert (CE : g <= 1 / 64) by (unfold g, c; lra). assert (G0 : 0 <= n * eta64) by (apply Rmult_le_pos; lra).
    assert (A5 : Rabs (B2R (snd acc) + B2R q) <= Rabs (B2R (snd acc) + B2R q - (Z0 + w * z)) + M * (W0 + w)).
    { assert (Q := Rabs_triang (B2R (snd acc) + B2R q - (Z0 + w * z)) (Z0 + w * z)). replace (B2R (snd acc) + B2R q - (Z0 + w * z) + (Z0 + w * z)) with (B2R (snd acc) + B2R q) in Q by ring. lra. }
    assert (A7 : d2 * (M * (W0 + w)) <= M * (W0 + w)) by (apply scaled; lra).
    destruct (plus_err (snd acc) q G2 P1) as [R1 R2]; [lra|].
    split; [exact S1|]. split; [exact R1|]. cbn [sum_step fst snd]. fold q. split.
    + apply Rle_trans with (1 := one_more _ _ (W0 + w) (W0 + w) d1 u64 0 ltac:(lra) ltac:(lra) ltac:(rewrite Rabs_pos_eq; lra) A1 S2 CN). rewrite D12, c1. lra.
    + apply Rle_trans with (1 := one_more _ _ (Z0 + w * z) (M * (W0 + w)) d2 u64 (g + eta64) ltac:(lra) ltac:(lra) A4 A3 R2 CN1). replace (c * (n + 1 + 1) * u64) with (d2 + c * u64) by (unfold d2; ring). replace (c * (n + 1) * eta64) with (g + c * eta64) by (unfold g; ring).
      assert (GU : u64 * (g + eta64) <= 1 / 64 * eta64). { unfold g. replace (u64 * (c * n * eta64 + eta64)) with ((c * n * u64 + u64) * eta64) by ring. apply Rmult_le_compat_r; [lra|]. unfold c. lra. }
      rewrite c1. lra.
Qed.
End Sums.
