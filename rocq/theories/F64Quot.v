(** Rounding errors of the weighted and integral defuzzifiers in binary64. *)
From Coq Require Import ZArith Reals Bool List Lra Lia.
From Flocq Require Import Core BinarySingleNaN.
From Verif Require Import Base Op XR XRFacts F64 F64Facts F64Arith F64Err F64Sum Norm Defuzz Aggregated SpecDefuzz SpecRound.
Import ListNotations.
Local Open Scope R_scope.

Lemma least_positive (x : f64) : 0 < B2R x -> 2 * eta64 <= B2R x.
Proof.
  intro H. replace (2 * eta64) with (bpow radix2 (-1074)) by (unfold eta64; change 2 with (bpow radix2 1); rewrite <- bpow_plus; reflexivity).
  apply (generic_format_ge_bpow radix2 fe64); [|exact H|apply fmt_B2R]. intro e. unfold SpecFloat.fexp, SpecFloat.emin, prec64, emax64. lia.
Qed.
Lemma total_positive l : List.Forall (fun p => 0 <= wof p) l -> wtotal l <> 0 -> 2 * eta64 <= wtotal l.
Proof.
  destruct eta64_small as [T _]. assert (NN : forall l, List.Forall (fun p => 0 <= wof p) l -> 0 <= wtotal l) by (induction 1; unfold wtotal, rsum in *; cbn [map fold_right]; lra).
  induction 1 as [|p l W H IH]; intro N; unfold wtotal, rsum in *; cbn [map fold_right] in *; [lra|]. specialize (NN l H). destruct (Rle_lt_or_eq_dec 0 (wof p) W) as [Q|Q].
  - assert (X := least_positive (fst p) Q). unfold wof in *. lra.
  - rewrite <- Q in *. rewrite Rplus_0_l in *. auto.
Qed.
(** quotient of two approximations *)
Lemma quotient_error (S W s w d1 d2 g M : R) : 0 < W -> Rabs S <= M * W -> 0 <= g -> 0 <= M -> d1 <= 1 / 64 -> 0 <= d1 -> Rabs (w - W) <= d1 * W -> Rabs (s - S) <= d2 * (M * W) + g ->
  0 < w /\ Rabs (s / w - S / W) <= 64 / 63 * ((d1 + d2) * M + g / W).
Proof.
  intros HW HS G HM D1 D0 Ew Es. assert (LW : 63 / 64 * W <= w). { assert (d1 * W <= 1 / 64 * W) by (apply Rmult_le_compat_r; lra). assert (Q := Rle_abs (- (w - W))). rewrite Rabs_Ropp in Q. lra. }
  assert (Pw : 0 < w) by lra. split; [exact Pw|].
  replace (s / w - S / W) with (((s - S) + - (S / W) * (w - W)) / w) by (field; lra). unfold Rdiv at 1. rewrite Rabs_mult, (Rabs_pos_eq (/ w)) by (left; now apply Rinv_0_lt_compat).
  assert (H : Rabs (S / W) <= M). { unfold Rdiv. rewrite Rabs_mult, (Rabs_pos_eq (/ W)) by (left; now apply Rinv_0_lt_compat). apply (Rmult_le_reg_r W); [exact HW|]. rewrite Rmult_assoc, Rinv_l, Rmult_1_r by lra. exact HS. }
  assert (T : Rabs ((s - S) + - (S / W) * (w - W)) <= (d1 + d2) * (M * W) + g).
  { apply Rle_trans with (1 := Rabs_triang _ _). rewrite Rabs_mult, Rabs_Ropp. assert (Rabs (S / W) * Rabs (w - W) <= M * (d1 * W)) by (apply Rmult_le_compat; try apply Rabs_pos; assumption). lra. }
  apply Rle_trans with (((d1 + d2) * (M * W) + g) * / (63 / 64 * W)).
  - apply Rmult_le_compat; [apply Rabs_pos|left; now apply Rinv_0_lt_compat|exact T|]. apply Rinv_le_contravar; lra.
  - right. field. lra.
Qed.
Section Mean.
Variables (D M : R) (l : list (f64 * f64)).
Hypothesis D_small : D <= bpow radix2 400.
Hypothesis M_range : 0 <= M <= bpow radix2 400.
Hypothesis all_sane : List.Forall (sane D M) l.
Hypothesis count : (Z.of_nat (length l) < 2 ^ 46)%Z.
Let n := INR (length l).
Let acc := fold_left sum_step l (f64_lit 0 1, f64_lit 0 1).
Lemma mean_main : wtotal l <> 0 -> is_finite (Bdiv mode_NE (snd acc) (fst acc)) = true /\
  Rabs (B2R (Bdiv mode_NE (snd acc) (fst acc)) - ztotal l / wtotal l) <= mean_error n M (wtotal l).
Proof.
  intro NZ. destruct (sums_error D M D_small (proj2 M_range) l all_sane count (proj1 M_range)) as (F1 & F2 & E1 & E2). fold acc n in F1, F2, E1, E2.
  destruct (sane_bounds D M l all_sane) as [B1 B2]. assert (TP : 2 * eta64 <= wtotal l) by (apply total_positive; [|exact NZ]; eapply List.Forall_impl; [|exact all_sane]; intros p (_ & _ & H & _); lra).
  destruct u64_small as [U _]. destruct eta64_small as [T T2]. assert (SC := small_count (length l) count). rewrite S_INR in SC. fold n in SC. assert (N0 : 0 <= n) by apply pos_INR. assert (NU : 0 <= n * u64) by (apply Rmult_le_pos; lra). assert (NE : 0 <= n * eta64) by (apply Rmult_le_pos; lra).
  set (W := wtotal l) in *. set (Z := ztotal l) in *.
  destruct (quotient_error Z W (B2R (snd acc)) (B2R (fst acc)) (65 / 64 * n * u64) (65 / 64 * (n + 1) * u64) (65 / 64 * n * eta64) M) as [P Q]; try lra.
  set (q := B2R (snd acc) / B2R (fst acc)) in *. set (x := Z / W) in *.
  assert (X : Rabs x <= M). { unfold x, Rdiv. rewrite Rabs_mult, (Rabs_pos_eq (/ W)) by (left; apply Rinv_0_lt_compat; lra). apply (Rmult_le_reg_r W); [lra|]. rewrite Rmult_assoc, Rinv_l, Rmult_1_r by lra. exact B2. }
  set (v := n * eta64 / W) in *. assert (V0 : 0 <= v) by (unfold v, Rdiv; apply Rmult_le_pos; [lra|left; apply Rinv_0_lt_compat; lra]). assert (V1 : v <= n). { unfold v. apply (Rmult_le_reg_r W); [lra|]. replace (n * eta64 / W * W) with (n * eta64) by (field; lra). apply Rmult_le_compat_l; lra. }
  replace (65 / 64 * n * eta64 / W) with (65 / 64 * v) in Q by (unfold v; field; lra). replace (2 * n * eta64 / W) with (2 * v) by (unfold v; field; lra).
  set (k := (n + 1) * u64) in *. assert (K0 : 0 <= k <= 1 / 128) by (split; [unfold k; lra|exact SC]). assert (K1 : n * u64 <= k) by (unfold k; lra). assert (UK : u64 <= k) by (unfold k; lra).
  assert (KM : n * u64 * M <= k * M) by (apply Rmult_le_compat_r; lra). assert (UM : u64 * M <= k * M) by (apply Rmult_le_compat_r; lra). assert (M0 : 0 <= k * M) by (apply Rmult_le_pos; lra).
  assert (KN : 2 * (n * u64 * M) + u64 * M = 2 * (k * M) - u64 * M) by (unfold k; ring). assert (UM0 : 0 <= u64 * M) by (apply Rmult_le_pos; lra).
  assert (Q2 : Rabs (q - x) <= 104 / 100 * (2 * (k * M) - u64 * M + v)).
  { apply Rle_trans with (1 := Q). replace ((65 / 64 * n * u64 + 65 / 64 * (n + 1) * u64) * M + 65 / 64 * v) with (65 / 64 * (2 * (n * u64 * M) + u64 * M + v)) by ring. rewrite KN. lra. }
  assert (Q3 : Rabs q <= Rabs (q - x) + M) by (assert (R0 := Rabs_triang (q - x) x); replace (q - x + x) with q in R0 by ring; lra).
  assert (KM1 : k * M <= 1 / 128 * M) by (apply Rmult_le_compat_r; lra).
  destruct huge_parts as [H1 H2]. set (Kb := bpow radix2 400) in *. set (C := 2 ^ 46) in *. assert (C1 : 1 <= C) by (unfold C; lra). assert (NB : n <= C). { unfold n. rewrite INR_IZR_INZ. unfold C. replace (2 ^ 46) with (IZR (2 ^ 46)) by (rewrite <- pow_IZR with (n := 46%nat); reflexivity). apply IZR_le. lia. }
  assert (CK : C <= Kb * Kb * C) by (assert (1 * 1 <= Kb * Kb) by (apply Rmult_le_compat; lra); assert (1 * C <= Kb * Kb * C) by (apply Rmult_le_compat_r; lra); lra).
  assert (KK : Kb <= Kb * Kb * C). { assert (1 * Kb <= Kb * Kb) by (apply Rmult_le_compat_r; lra). assert (Kb * Kb * 1 <= Kb * Kb * C) by (apply Rmult_le_compat_l; lra). lra. }
  destruct (div_err (snd acc) (fst acc) F2 ltac:(lra)) as [DF DE]; [fold q; lra|]. split; [exact DF|]. fold q in DE. set (r := B2R (Bdiv mode_NE (snd acc) (fst acc))) in *.
  assert (R0 := Rabs_triang (r - q) (q - x)). replace (r - q + (q - x)) with (r - x) in R0 by ring.
  assert (UQ : u64 * Rabs q <= u64 * (Rabs (q - x) + M)) by (apply Rmult_le_compat_l; lra). assert (UX : u64 * Rabs (q - x) <= 1 / 128 * Rabs (q - x)) by (apply Rmult_le_compat_r; [apply Rabs_pos|lra]).
  unfold mean_error. replace (2 * n * eta64 / W) with (2 * v) by (unfold v; field; lra). replace (5 / 2 * (n + 1) * u64 * M) with (5 / 2 * (k * M)) by (unfold k; ring). lra.
Qed.
End Mean.

(** ** weighted defuzzifiers *)
Section Weighted.
Variables (P : fparam) (A : Type) (name : A -> String.string) (z : A -> f64 -> res f64) (aggregation : option snorm) (terms : list (activated f64 A)) (v : activated f64 A -> f64) (D M : R).
#[local] Instance S64 : Scalar f64 := F64Scalar P.
Let gs := grouped_terms name aggregation terms.
Hypothesis D_small : D <= bpow radix2 400.
Hypothesis M_range : 0 <= M <= bpow radix2 400.
Hypothesis values : forall a, In a gs -> z (ac_term a) (ac_degree a) = Ok (v a) /\ is_finite (ac_degree a) = true /\ is_finite (v a) = true /\ 0 <= B2R (ac_degree a) <= D /\ Rabs (B2R (v a)) <= M.
Hypothesis count : (Z.of_nat (length gs) < 2 ^ 46)%Z.
Let pairs := map (fun a => (ac_degree a, v a)) gs.
Lemma weighted_gen l : (forall a, In a l -> z (ac_term a) (ac_degree a) = Ok (v a)) -> forall x y, exists acc, rfold (weighted_step z) (x, y) l = Ok acc /\ (snd acc, fst acc) = fold_left sum_step (map (fun a => (ac_degree a, v a)) l) (y, x).
Proof.
  induction l as [|a l IH]; intros H x y; cbn [rfold map fold_left]; [eexists; split; reflexivity|].
  assert (E : weighted_step z (x, y) a = Ok (Bplus mode_NE x (Bmult mode_NE (ac_degree a) (v a)), Bplus mode_NE y (ac_degree a))) by (unfold weighted_step; rewrite (H a (or_introl eq_refl)); reflexivity). rewrite E. cbn [rbind]. destruct (IH (fun b I => H b (or_intror I)) (Bplus mode_NE x (Bmult mode_NE (ac_degree a) (v a))) (Bplus mode_NE y (ac_degree a))) as (acc & E1 & E2). exists acc. split; [exact E1|exact E2].
Qed.
Lemma weighted_fold : exists acc, rfold (weighted_step z) (s_0, s_0) gs = Ok acc /\ (snd acc, fst acc) = fold_left sum_step pairs (f64_lit 0 1, f64_lit 0 1).
Proof. apply weighted_gen. intros a I. now apply values. Qed.
Lemma pairs_sane : List.Forall (sane D M) pairs.
Proof. apply Forall_forall. intros p I. unfold pairs in I. apply in_map_iff in I. destruct I as (a & <- & I). destruct (values a I) as (_ & H1 & H2 & H3 & H4). unfold sane, wof, zof. cbn [fst snd]. auto. Qed.
Let W := rsum (map (fun a => B2R (ac_degree a)) gs).
Let Z := rsum (map (fun a => B2R (ac_degree a) * B2R (v a)) gs).
Lemma pairs_totals : wtotal pairs = W /\ ztotal pairs = Z /\ length pairs = length gs.
Proof. unfold wtotal, ztotal, pairs, W, Z. rewrite !map_map, map_length. auto. Qed.
Lemma average_error : W <> 0 -> exists r, weighted_with WeightedAverage name z aggregation terms = Ok r /\ is_finite r = true /\ Rabs (B2R r - Z / W) <= mean_error (INR (length gs)) M W.
Proof.
  intro NZ. destruct weighted_fold as (acc & E1 & E2). destruct pairs_totals as (T1 & T2 & T3). unfold weighted_with. fold gs. rewrite E1. cbn [rbind]. eexists. split; [reflexivity|].
  assert (Q := mean_main D M pairs D_small M_range pairs_sane ltac:(rewrite T3; exact count) ltac:(rewrite T1; exact NZ)). rewrite <- E2, T1, T2, T3 in Q. cbn [fst snd] in Q. exact Q.
Qed.
Lemma weighted_sum_error : exists r, weighted_with WeightedSum name z aggregation terms = Ok r /\ is_finite r = true /\
  Rabs (B2R r - Z) <= sum_error (INR (length gs)) M W.
Proof.
  destruct weighted_fold as (acc & E1 & E2). destruct pairs_totals as (T1 & T2 & T3). unfold weighted_with. fold gs. rewrite E1. cbn [rbind]. eexists. split; [reflexivity|].
  assert (Q := sums_error D M D_small (proj2 M_range) pairs pairs_sane ltac:(rewrite T3; exact count) (proj1 M_range)). rewrite <- E2, T1, T2, T3 in Q. cbn [fst snd] in Q. cbv zeta in Q. tauto.
Qed.
End Weighted.
