(** Norms in binary64 against their documented formulas. *)
From Coq Require Import ZArith Reals Bool Lra Lia Psatz.
From Flocq Require Import Core BinarySingleNaN.
From Verif Require Import Base Op XR XRFacts F64 F64Facts F64Arith F64Err F64Sum F64Quot OpProofs Norm Hedge SpecNorm SpecRound SpecNormErr NormFacts NormF64 NormSpec ShapeF64.
Local Open Scope R_scope.

(** ** over the reals *)
Lemma d_einstein a b : 0 <= a <= 1 -> 0 <= b <= 1 -> 1 <= 2 - (a + b - a * b) <= 2.
Proof. intros. nra. Qed.
Lemma d_hamacher a b : 0 <= a <= 1 -> 0 <= b <= 1 -> b <= a + b - a * b.
Proof. intros. nra. Qed.
Lemma t_comm n a b : t_formula n a b = t_formula n b a.
Proof.
  destruct n; cbn.
  - ring.
  - f_equal. ring.
  - rewrite (Rmax_comm a b), (Rmin_comm a b). reflexivity.
  - f_equal; ring.
  - rewrite (Rplus_comm a b), (Rmult_comm a b). reflexivity.
  - apply Rmin_comm.
  - rewrite (Rplus_comm a b), (Rmin_comm a b). reflexivity.
Qed.
Lemma s_comm n a b : s_formula n a b = s_formula n b a.
Proof.
  destruct n; cbn.
  - ring.
  - f_equal; ring.
  - rewrite (Rmax_comm a b), (Rmin_comm a b). reflexivity.
  - f_equal; ring.
  - rewrite (Rmult_comm a b). destruct Req_EM_T; [reflexivity|]. f_equal; ring.
  - apply Rmax_comm.
  - rewrite (Rplus_comm a b), (Rmax_comm a b). reflexivity.
  - rewrite (Rplus_comm a b). reflexivity.
  - ring.
Qed.
Lemma frac_le c d x : 0 <= c <= d -> 0 < d -> c / d * Rabs x <= Rabs x.
Proof. intros C D. assert (Q := Rabs_pos x). assert (c / d <= 1) by (apply (Rmult_le_reg_r d); [exact D|]; unfold Rdiv; rewrite Rmult_assoc, Rinv_l by lra; lra). assert (c / d * Rabs x <= 1 * Rabs x) by (apply Rmult_le_compat_r; lra). lra. Qed.
Lemma t_slope n a a' b : even_tnorm n -> 0 <= a <= 1 -> 0 <= a' <= 1 -> 0 <= b <= 1 -> Rabs (t_formula (tname_of n) a b - t_formula (tname_of n) a' b) <= Rabs (a - a').
Proof.
  intros [E1 E2] A A' B. destruct n; cbn; try congruence.
  - replace (a * b - a' * b) with (b * (a - a')) by ring. rewrite Rabs_mult, (Rabs_pos_eq b) by lra. assert (Q := Rabs_pos (a - a')). nra.
  - unfold Rmax. repeat destruct Rle_dec; unfold Rabs; repeat destruct Rcase_abs; lra.
  - assert (D := d_einstein a b A B). assert (D' := d_einstein a' b A' B). set (d := 2 - (a + b - a * b)) in *. set (d' := 2 - (a' + b - a' * b)) in *.
    replace (a * b / d - a' * b / d') with (b * (2 - b) / (d * d') * (a - a')) by (unfold d, d'; field; unfold d, d' in *; lra).
    assert (N : 0 <= b * (2 - b) <= 1) by nra. assert (M : 1 <= d * d') by nra. rewrite Rabs_mult, (Rabs_pos_eq (b * (2 - b) / (d * d'))) by (apply Rmult_le_pos; [lra|apply Rlt_le, Rinv_0_lt_compat; lra]). apply frac_le; lra.
  - destruct (Req_EM_T b 0) as [->|NB].
    + repeat destruct Req_EM_T; rewrite ?Rmult_0_r; unfold Rdiv; rewrite ?Rmult_0_l, Rminus_eq_0, Rabs_R0; apply Rabs_pos.
    + assert (PB : 0 < b) by lra. assert (D := d_hamacher a b A B). assert (D' := d_hamacher a' b A' B). destruct Req_EM_T; [lra|]. destruct Req_EM_T; [lra|].
      set (d := a + b - a * b) in *. set (d' := a' + b - a' * b) in *. replace (a * b / d - a' * b / d') with (b * b / (d * d') * (a - a')) by (unfold d, d'; field; unfold d, d' in *; lra).
      assert (M : b * b <= d * d') by nra. assert (N : 0 < b * b) by nra. rewrite Rabs_mult, (Rabs_pos_eq (b * b / (d * d'))) by (apply Rmult_le_pos; [lra|apply Rlt_le, Rinv_0_lt_compat; lra]). apply frac_le; lra.
  - unfold Rmin. repeat destruct Rle_dec; unfold Rabs; repeat destruct Rcase_abs; lra.
Qed.
Lemma norm_sum x : 0 <= x -> x / Rmax 1 x = Rmin 1 x.
Proof. intro H. unfold Rmax, Rmin. destruct Rle_dec; [field; lra|field]. Qed.
Lemma s_slope n a a' b : even_snorm n -> 0 <= a <= 1 -> 0 <= a' <= 1 -> 0 <= b <= 1 -> Rabs (s_formula (sname_of n) a b - s_formula (sname_of n) a' b) <= Rabs (a - a').
Proof.
  intros (E1 & E2 & E3 & E4) A A' B. destruct n; cbn; try congruence.
  - replace (a + b - a * b - (a' + b - a' * b)) with ((1 - b) * (a - a')) by ring. rewrite Rabs_mult, (Rabs_pos_eq (1 - b)) by lra. assert (Q := Rabs_pos (a - a')). nra.
  - unfold Rmin. repeat destruct Rle_dec; unfold Rabs; repeat destruct Rcase_abs; lra.
  - assert (D : 1 <= 1 + a * b) by nra. assert (D' : 1 <= 1 + a' * b) by nra. replace ((a + b) / (1 + a * b) - (a' + b) / (1 + a' * b)) with ((1 - b * b) / ((1 + a * b) * (1 + a' * b)) * (a - a')) by (field; lra).
    assert (M : 1 <= (1 + a * b) * (1 + a' * b)) by nra. assert (N : 0 <= 1 - b * b <= 1) by nra. rewrite Rabs_mult, (Rabs_pos_eq (_ / _)) by (apply Rmult_le_pos; [lra|apply Rlt_le, Rinv_0_lt_compat; lra]). apply frac_le; lra.
  - unfold Rmax. repeat destruct Rle_dec; unfold Rabs; repeat destruct Rcase_abs; lra.
  - rewrite !norm_sum by lra. unfold Rmin. repeat destruct Rle_dec; unfold Rabs; repeat destruct Rcase_abs; lra.
Qed.
Theorem t_steady n a b a' b' : even_tnorm n -> 0 <= a <= 1 -> 0 <= b <= 1 -> 0 <= a' <= 1 -> 0 <= b' <= 1 ->
  Rabs (t_formula (tname_of n) a b - t_formula (tname_of n) a' b') <= Rabs (a - a') + Rabs (b - b').
Proof.
  intros E A B A' B'. assert (X := t_slope n a a' b E A A' B). assert (Y := t_slope n b b' a' E B B' A'). rewrite !(t_comm _ _ a') in Y. exact (via _ _ _ _ _ X Y).
Qed.
Theorem s_steady n a b a' b' : even_snorm n -> 0 <= a <= 1 -> 0 <= b <= 1 -> 0 <= a' <= 1 -> 0 <= b' <= 1 ->
  Rabs (s_formula (sname_of n) a b - s_formula (sname_of n) a' b') <= Rabs (a - a') + Rabs (b - b').
Proof.
  intros E A B A' B'. assert (X := s_slope n a a' b E A A' B). assert (Y := s_slope n b b' a' E B B' A'). rewrite !(s_comm _ _ a') in Y. exact (via _ _ _ _ _ X Y).
Qed.
Lemma t_range n a b : 0 <= a <= 1 -> 0 <= b <= 1 -> 0 <= t_formula n a b <= 1.
Proof.
  intros A B. destruct n; cbn.
  - nra.
  - unfold Rmax. destruct Rle_dec; lra.
  - destruct Req_EM_T; [|lra]. unfold Rmin. destruct Rle_dec; lra.
  - assert (D := d_einstein a b A B). apply div_range; nra.
  - destruct Req_EM_T; [lra|]. assert (D := d_hamacher a b A B). assert (D2 := d_hamacher b a B A). apply div_range; nra.
  - unfold Rmin. destruct Rle_dec; lra.
  - destruct Rlt_dec; [|lra]. unfold Rmin. destruct Rle_dec; lra.
Qed.
Lemma s_range n a b : even_snorm n -> 0 <= a <= 1 -> 0 <= b <= 1 -> 0 <= s_formula (sname_of n) a b <= 1.
Proof.
  intros (E1 & E2 & E3 & E4) A B. destruct n; cbn; try congruence.
  - nra.
  - unfold Rmin. destruct Rle_dec; lra.
  - apply div_range; nra.
  - unfold Rmax. destruct Rle_dec; lra.
  - rewrite norm_sum by lra. unfold Rmin. destruct Rle_dec; lra.
Qed.

(** ** rounding *)
Lemma rnd_small x : Rabs x <= 2 -> Rabs (rnd x - x) <= u64.
Proof.
  intro H. assert (U := bpow_gt_0 radix2 (-53)). destruct (Req_dec (Rabs x) 2) as [E|E].
  { assert (F : fmt x). { unfold Rabs in E. destruct Rcase_abs in E; [replace x with (- (2)) by lra; apply fmt_opp, fmt_2|rewrite E; apply fmt_2]. } rewrite (rnd_id x F), Rminus_eq_0, Rabs_R0. unfold u64. lra. }
  assert (K := error_le_half_ulp radix2 fe64 (fun z => negb (Z.even z)) x). change (Rabs (rnd x - x) <= / 2 * ulp radix2 fe64 x) in K. apply Rle_trans with (1 := K).
  assert (Hf : bpow radix2 (-52) = 2 * bpow radix2 (-53)) by (change 2 with (bpow radix2 1); rewrite <- bpow_plus; reflexivity).
  assert (L : ulp radix2 fe64 x <= bpow radix2 (-52)); [|unfold u64; lra].
  destruct (Req_dec x 0) as [->|N].
  - apply Rle_trans with (ulp radix2 fe64 (bpow radix2 0)); [apply ulp_le_pos; auto with typeclass_instances; [lra|apply bpow_ge_0]|]. rewrite ulp_bpow. apply bpow_le. unfold SpecFloat.fexp, SpecFloat.emin, prec64, emax64. lia.
  - rewrite (ulp_neq_0 radix2 fe64 x N). unfold cexp. apply bpow_le. assert (M : (mag radix2 x <= 1)%Z) by (apply mag_le_bpow; [exact N|change (bpow radix2 1) with 2; lra]). unfold SpecFloat.fexp, SpecFloat.emin, prec64, emax64. lia.
Qed.
Section Round.
Context (P : fparam).
#[local] Hint Extern 0 (Scalar f64) => exact (F64Scalar P) : typeclass_instances.
#[local] Hint Extern 0 (Scalar (binary_float _ _)) => exact (F64Scalar P) : typeclass_instances.
Variables a b : f64.
Hypotheses (Da : fdegree a) (Db : fdegree b).
Let ra := B2R a.
Let rb := B2R b.
Let s := B2R (a + b)%S.
Let p := B2R (a * b)%S.
Let q := B2R (a + b - a * b)%S.
Lemma parts : Rabs (s - (ra + rb)) <= u64 /\ Rabs (p - ra * rb) <= u64 /\ Rabs (q - (ra + rb - ra * rb)) <= 3 * u64 /\ 0 <= s <= 2 /\ 0 <= p <= 1 /\ 0 <= q <= 1 /\ 0 <= ra <= 1 /\ 0 <= rb <= 1.
Proof.
  destruct (sum_fin P a b Da Db) as (Fs & Es & Bs). destruct (prod_fin P a b Da Db) as (Fp & Ep & Bp & _). destruct (asum_ok P a b Da Db) as (Fq & Eq & Bq). fold ra rb in Es, Ep, Eq, Bs, Bp, Bq. fold s in Es. fold p in Ep. fold q in Eq.
  rewrite <- Es, <- Ep in *. rewrite <- Eq in Bq.
  assert (A : 0 <= ra <= 1) by apply Da. assert (B : 0 <= rb <= 1) by apply Db. assert (0 <= ra * rb <= 1) by nra.
  assert (S1 : Rabs (s - (ra + rb)) <= u64) by (rewrite Es; apply rnd_small; rewrite Rabs_pos_eq; lra).
  assert (P1 : Rabs (p - ra * rb) <= u64) by (rewrite Ep; apply rnd_small; rewrite Rabs_pos_eq; lra).
  assert (Q1 : Rabs (q - (s - p)) <= u64) by (rewrite Eq; apply rnd_small; unfold Rabs; destruct Rcase_abs; lra).
  repeat split; try lra; try exact S1; try exact P1. unfold Rabs in *. repeat destruct Rcase_abs in *; repeat destruct Rcase_abs; lra.
Qed.
(** quotient of approximations, with a denominator of at least 1 *)
Lemma quot_close (x y x' y' ex ey : R) : 1 <= y -> 1 <= y' -> 0 <= x <= y -> Rabs (x' - x) <= ex -> Rabs (y' - y) <= ey -> Rabs (x' / y' - x / y) <= ex + ey.
Proof.
  intros Y Y' X EX EY. replace (x' / y' - x / y) with (((x' - x) - x / y * (y' - y)) / y') by (field; lra).
  assert (V := NormF64.div_range x y ltac:(lra) ltac:(lra) ltac:(lra)). unfold Rdiv at 1. rewrite Rabs_mult, (Rabs_pos_eq (/ y')) by (apply Rlt_le, Rinv_0_lt_compat; lra).
  assert (I : / y' <= 1) by (rewrite <- Rinv_1; apply Rinv_le_contravar; lra). assert (N : Rabs (x' - x - x / y * (y' - y)) <= ex + ey).
  { unfold Rminus at 1. apply Rle_trans with (1 := Rabs_triang _ _). rewrite Rabs_Ropp, Rabs_mult, (Rabs_pos_eq (x / y)) by lra. assert (Q := Rabs_pos (y' - y)). assert (x / y * Rabs (y' - y) <= 1 * Rabs (y' - y)) by (apply Rmult_le_compat_r; lra). lra. }
  assert (Q := Rabs_pos (x' - x - x / y * (y' - y))). assert (Rabs (x' - x - x / y * (y' - y)) * / y' <= Rabs (x' - x - x / y * (y' - y)) * 1) by (apply Rmult_le_compat_l; lra). lra.
Qed.
Lemma divide (x y : f64) : is_finite x = true -> 0 <= B2R x <= B2R y -> 0 < B2R y -> Rabs (B2R (x / y)%S - B2R x / B2R y) <= u64.
Proof.
  intros F X Y. assert (V := NormF64.div_range (B2R x) (B2R y) ltac:(lra) ltac:(lra) Y). destruct (div_ok x y F) as [E _]; [lra|lra|]. change (B2R (x / y)%S) with (B2R (Bdiv mode_NE x y)). rewrite E. apply rnd_small. rewrite Rabs_pos_eq; lra.
Qed.
Lemma u_pos : 0 < u64 <= 1 / 1000.
Proof. exact u_tiny. Qed.
Lemma bounded_difference : Rabs (B2R (tnorm_compute BoundedDifference a b) - t_formula TBoundedDifference ra rb) <= 8 * u64.
Proof.
  destruct parts as (S1 & _ & _ & S2 & _ & _ & A & B). destruct (sum_fin P a b Da Db) as (Fs & _). unfold tnorm_compute, t_formula. assert (U := u_pos).
  destruct (minus_ok (a + b)%S (f64_lit 1 1) Fs (proj2 f64_1_correct)) as [E F]; [fold s; rewrite (proj1 f64_1_correct); lra|]. fold s in E. rewrite (proj1 f64_1_correct) in E.
  assert (F2 : is_finite (a + b - s_1)%S = true) by exact F. destruct (op_max_fin P s_0 (a + b - s_1)%S (proj1 (fd_0 P)) F2) as [_ E']. rewrite E', (B2R_0 P). assert (E2 : B2R (a + b - s_1)%S = rnd (s - 1)) by exact E. rewrite E2.
  assert (R1 : Rabs (rnd (s - 1) - (s - 1)) <= u64) by (apply rnd_small; unfold Rabs; destruct Rcase_abs; lra).
  unfold Rmax. repeat destruct Rle_dec; unfold Rabs in *; repeat destruct Rcase_abs in *; repeat destruct Rcase_abs; lra.
Qed.
Lemma einstein_product : Rabs (B2R (tnorm_compute EinsteinProduct a b) - t_formula TEinsteinProduct ra rb) <= 8 * u64.
Proof.
  destruct parts as (S1 & P1 & Q1 & S2 & P2 & Q2 & A & B). destruct (prod_fin P a b Da Db) as (Fp & _). destruct (asum_ok P a b Da Db) as (Fq & _). unfold tnorm_compute, t_formula. assert (U := u_pos).
  destruct (minus_ok (f64_lit 2 1) (a + b - a * b)%S (proj2 f64_2_correct) Fq) as [E F]; [fold q; rewrite (proj1 f64_2_correct); lra|]. fold q in E. rewrite (proj1 f64_2_correct) in E.
  assert (E2 : B2R (s_2 - (a + b - a * b))%S = rnd (2 - q)) by exact E. set (D := (s_2 - (a + b - a * b))%S) in *.
  assert (R1 : Rabs (rnd (2 - q) - (2 - q)) <= u64) by (apply rnd_small; unfold Rabs; destruct Rcase_abs; lra).
  assert (R2 : 1 <= B2R D <= 2) by (rewrite E2; apply rnd_between; [apply fmt_1|apply fmt_2|lra]). rewrite <- E2 in R1. clearbody D.
  assert (V := divide (a * b)%S D Fp ltac:(fold p; lra) ltac:(lra)). fold p in V. assert (DE := d_einstein ra rb A B).
  assert (W := quot_close (ra * rb) (2 - (ra + rb - ra * rb)) p (B2R D) u64 (4 * u64) (proj1 DE) (proj1 R2) ltac:(nra) P1).
  apply Rle_trans with (1 := via _ _ _ _ _ V (W ltac:(unfold Rabs in *; repeat destruct Rcase_abs in *; repeat destruct Rcase_abs; lra))). lra.
Qed.
Lemma einstein_sum : Rabs (B2R (snorm_compute EinsteinSum a b) - s_formula SEinsteinSum ra rb) <= 8 * u64.
Proof.
  destruct parts as (S1 & P1 & Q1 & S2 & P2 & Q2 & A & B). destruct (sum_fin P a b Da Db) as (Fs & Es & _). destruct (prod_fin P a b Da Db) as (Fp & Ep & _). fold s ra rb in Es. fold p ra rb in Ep. unfold snorm_compute, s_formula. assert (U := u_pos).
  destruct (plus_ok (f64_lit 1 1) (a * b)%S (proj2 f64_1_correct) Fp) as [E F]; [fold p; rewrite (proj1 f64_1_correct); lra|]. fold p in E. rewrite (proj1 f64_1_correct) in E.
  assert (E2 : B2R (s_1 + a * b)%S = rnd (1 + p)) by exact E. set (D := (s_1 + a * b)%S) in *.
  assert (R1 : Rabs (rnd (1 + p) - (1 + p)) <= u64) by (apply rnd_small; unfold Rabs; destruct Rcase_abs; lra).
  assert (R2 : 1 <= B2R D <= 2) by (rewrite E2; apply rnd_between; [apply fmt_1|apply fmt_2|lra]).
  assert (SD : s <= B2R D). { rewrite E2, Es. apply rnd_mono. assert (PG := p_ge P a b Da Db). fold ra rb in PG. rewrite <- Ep in PG. lra. }
  rewrite <- E2 in R1. clearbody D. assert (V := divide (a + b)%S D Fs ltac:(fold s; lra) ltac:(lra)). fold s in V.
  assert (W := quot_close (ra + rb) (1 + ra * rb) s (B2R D) u64 (2 * u64) ltac:(nra) (proj1 R2) ltac:(nra) S1).
  apply Rle_trans with (1 := via _ _ _ _ _ V (W ltac:(unfold Rabs in *; repeat destruct Rcase_abs in *; repeat destruct Rcase_abs; lra))). lra.
Qed.
Lemma normalized_sum : Rabs (B2R (snorm_compute NormalizedSum a b) - s_formula SNormalizedSum ra rb) <= 8 * u64.
Proof.
  destruct parts as (S1 & P1 & Q1 & S2 & P2 & Q2 & A & B). destruct (sum_fin P a b Da Db) as (Fs & Es & _). unfold snorm_compute, s_formula. assert (U := u_pos).
  destruct (op_max_fin P s_1 (a + b)%S (proj1 (fd_1 P)) Fs) as [F E]. fold s in E. rewrite (B2R_1 P) in E. set (D := op_max s_1 (a + b)%S) in *. clearbody D.
  assert (V := divide (a + b)%S D Fs ltac:(fold s; rewrite E; unfold Rmax; destruct Rle_dec; lra) ltac:(rewrite E; unfold Rmax; destruct Rle_dec; lra)). fold s in V. rewrite E, norm_sum in V by lra. rewrite norm_sum by lra.
  apply Rle_trans with (u64 + u64); [|lra]. apply (via _ _ _ _ _ V). unfold Rmin. repeat destruct Rle_dec; unfold Rabs in *; repeat destruct Rcase_abs in *; repeat destruct Rcase_abs; lra.
Qed.
(** HamacherProduct: with a sum that is not zero the relative errors of the denominator are small; below 2^-1000 the product is rounded to zero *)
Lemma hamacher_quotient : 0 < s -> Rabs (B2R ((a * b) / (a + b - a * b))%S - ra * rb / (ra + rb - ra * rb)) <= 7 * u64.
Proof.
  intro SP. destruct parts as (_ & _ & _ & S2 & P2 & Q2 & A & B). assert (U := u_pos). destruct eta64_small as [T1 T2].
  destruct (sum_fin P a b Da Db) as (Fs & Es & _). destruct (prod_fin P a b Da Db) as (Fp & Ep & _ & Bp & Bp2). destruct (asum_ok P a b Da Db) as (Fq & Eq & _). fold s ra rb in Es. fold p ra rb in Ep. fold q ra rb in Eq. fold ra rb in Bp, Bp2. rewrite <- Ep in Bp, Bp2. rewrite <- Es, <- Ep in Eq.
  assert (AB : 0 <= ra * rb <= 1) by nra. assert (D1 := d_hamacher ra rb A B). assert (D2 : ra <= ra + rb - ra * rb) by nra. set (D := ra + rb - ra * rb) in *.
  assert (ES : Rabs (s - (ra + rb)) <= u64 * (ra + rb)). { rewrite Es. assert (Q := rnd_plus_error ra rb (fmt_B2R a) (fmt_B2R b)). rewrite (Rabs_pos_eq (ra + rb)) in Q by lra. exact Q. }
  assert (EP : Rabs (p - ra * rb) <= u64 * (ra * rb) + eta64). { rewrite Ep. assert (Q := rnd_error (ra * rb)). rewrite (Rabs_pos_eq (ra * rb)) in Q by lra. exact Q. }
  assert (EQ : Rabs (q - (s - p)) <= u64 * Rabs (s - p)). { rewrite Eq. assert (Q := rnd_plus_error s (- p) (fmt_B2R _) (fmt_opp _ (fmt_B2R _))). exact Q. }
  assert (DP : 0 < D). { destruct (Rle_lt_dec D 0) as [Z|]; [|assumption]. exfalso. assert (ra = 0) by lra. assert (rb = 0) by lra. rewrite Es in SP. replace (ra + rb) with 0 in SP by lra. rewrite rnd_0 in SP. lra. }
  assert (UAB : u64 * (ra + rb) <= 2 * (u64 * D)) by nra. assert (UP : u64 * (ra * rb) <= u64 * D) by (apply Rmult_le_compat_l; [lra|nra]). assert (UD : 0 < u64 * D) by (apply Rmult_lt_0_compat; lra).
  assert (UD2 : u64 * D <= 1 / 1000 * D) by (apply Rmult_le_compat_r; lra).
  assert (V : 0 <= ra * rb / D <= D). { split; [apply Rmult_le_pos; [lra|apply Rlt_le, Rinv_0_lt_compat, DP]|]. apply (Rmult_le_reg_r D); [exact DP|]. unfold Rdiv. rewrite Rmult_assoc, Rinv_l, Rmult_1_r by lra. nra. }
  assert (D3 : D <= 1) by (unfold D; nra).
  destruct (Rle_lt_dec (bpow radix2 (-1000)) D) as [L|L].
  - assert (TE : eta64 <= 1 / 100 * (u64 * D)). { apply Rle_trans with (1 / 100 * (u64 * bpow radix2 (-1000))); [|nra]. unfold eta64, u64. rewrite <- bpow_plus. change (-53 + -1000)%Z with (-1053)%Z. assert (Q : 128 * bpow radix2 (-1075) = bpow radix2 (-1068)) by (change 128 with (bpow radix2 7); rewrite <- bpow_plus; reflexivity). assert (bpow radix2 (-1068) <= bpow radix2 (-1053)) by (apply bpow_le; lia). assert (Q2' := bpow_gt_0 radix2 (-1075)). lra. }
    assert (SPA : Rabs (s - p) <= 3 * D) by (unfold Rabs in *; repeat destruct Rcase_abs in *; repeat destruct Rcase_abs; lra).
    assert (SPD : Rabs (s - p - D) <= 3.02 * (u64 * D)) by (unfold D in *; unfold Rabs in *; repeat destruct Rcase_abs in *; repeat destruct Rcase_abs; lra).
    assert (SPA2 : u64 * Rabs (s - p) <= 1.01 * (u64 * D)). { replace (1.01 * (u64 * D)) with (u64 * (1.01 * D)) by ring. apply Rmult_le_compat_l; [lra|]. unfold Rabs in *. repeat destruct Rcase_abs in *; repeat destruct Rcase_abs; lra. }
    assert (QD : Rabs (q - D) <= 4.03 * (u64 * D)) by (unfold Rabs in *; repeat destruct Rcase_abs in *; repeat destruct Rcase_abs; lra).
    assert (QL : 99 / 100 * D <= q) by (unfold Rabs in QD; destruct Rcase_abs in QD; lra).
    assert (PQ : p <= q). { assert (Hd : 2 * p <= s). { rewrite Es, Ep, <- (rnd_id (2 * rnd (ra * rb))) by (apply fmt_double, generic_format_round; auto with typeclass_instances). apply rnd_mono. rewrite <- Ep. lra. }
      rewrite Eq, <- (rnd_id p) by apply fmt_B2R. apply rnd_mono. rewrite (rnd_id p) by apply fmt_B2R. lra. }
    assert (Z0 : 0 <= p <= q) by (split; [apply P2|exact PQ]). assert (Z1 : 0 < q) by lra.
    assert (W := divide (a * b)%S (a + b - a * b)%S Fp Z0 Z1). fold p q in W.
    assert (X : Rabs (p / q - ra * rb / D) <= 6 * u64); [|assert (Z := via _ _ _ _ _ W X); lra].
    replace (p / q - ra * rb / D) with (((p - ra * rb) - ra * rb / D * (q - D)) / q) by (field; lra). unfold Rdiv at 1. rewrite Rabs_mult, (Rabs_pos_eq (/ q)) by (apply Rlt_le, Rinv_0_lt_compat; lra).
    apply (Rmult_le_reg_r q); [lra|]. rewrite Rmult_assoc, Rinv_l, Rmult_1_r by lra.
    assert (N : Rabs (p - ra * rb - ra * rb / D * (q - D)) <= 1.01 * (u64 * D) + 4.03 * (u64 * D)).
    { unfold Rminus at 1. apply Rle_trans with (1 := Rabs_triang _ _). rewrite Rabs_Ropp, Rabs_mult, (Rabs_pos_eq (ra * rb / D)) by lra. assert (Q := Rabs_pos (q - D)). assert (ra * rb / D * Rabs (q - D) <= 1 * Rabs (q - D)) by (apply Rmult_le_compat_r; lra). lra. }
    apply Rle_trans with (1 := N). nra.
  - assert (P0 : p = 0).
    { destruct (Req_dec p 0) as [|NZ]; [assumption|]. exfalso. assert (PP : 0 < p) by lra. assert (LP := least_positive (a * b)%S PP). fold p in LP. assert (Q : ra * rb <= bpow radix2 (-1000) * bpow radix2 (-1000)) by (apply Rmult_le_compat; lra). rewrite <- bpow_plus in Q. change (-1000 + -1000)%Z with (-2000)%Z in Q.
      assert (Q3 : 2 * bpow radix2 (-2000) = bpow radix2 (-1999)) by (change 2 with (bpow radix2 1); rewrite <- bpow_plus; reflexivity). assert (Q4 : bpow radix2 (-1999) < eta64) by (apply bpow_lt; lia). assert (u64 * (ra * rb) <= 1 / 1000 * (ra * rb)) by (apply Rmult_le_compat_r; lra). unfold Rabs in EP. destruct Rcase_abs in EP; lra. }
    assert (QS : q = s) by (rewrite Eq, P0, Rminus_0_r; apply rnd_id, fmt_B2R).
    assert (Z0 : 0 <= p <= q) by lra. assert (Z1 : 0 < q) by lra. assert (W := divide (a * b)%S (a + b - a * b)%S Fp Z0 Z1). fold p q in W. rewrite P0 in W. unfold Rdiv at 1 in W. rewrite Rmult_0_l in W.
    assert (bpow radix2 (-1000) <= u64) by (apply bpow_le; lia). set (z := B2R (a * b / (a + b - a * b))%S) in *. unfold Rabs in *. repeat destruct Rcase_abs in *; repeat destruct Rcase_abs; lra.
Qed.
Lemma sum_zero : is_finite (fp_eps P) = true -> 0 <= B2R (fp_eps P) -> if isEq (a + b)%S s_0 then s <= B2R (fp_eps P) else 0 < s.
Proof.
  intros Fe He. destruct parts as (_ & _ & _ & S2 & _). destruct (sum_fin P a b Da Db) as (Fs & _). unfold isEq, isEq_tol. fold (@isEq_tol f64 (F64Scalar P)).
  assert (Nx : isNaN (a + b)%S = false) by (rewrite f_isNaN; destruct (a + b)%S; auto; discriminate Fs). rewrite Nx. cbn [andb]. rewrite orb_false_r.
  change (@s_0 f64 (F64Scalar P)) with (f64_lit 0 1). destruct f64_0_correct as [Z1 Z2].
  change (s_eqb (a + b)%S (f64_lit 0 1)) with (Beqb (a + b)%S (f64_lit 0 1)). change (s_ltb (s_abs (a + b - f64_lit 0 1)%S) s_eps) with (Bltb (Babs (Bminus mode_NE (a + b)%S (f64_lit 0 1))) (fp_eps P)).
  rewrite (Beqb_correct prec64 emax64 _ _ Fs Z2), Z1. fold s. destruct (minus_ok (a + b)%S (f64_lit 0 1) Fs Z2) as [E F]; [rewrite Z1; fold s; lra|]. rewrite Z1, Rminus_0_r in E. fold s in E. rewrite (rnd_id s) in E by apply fmt_B2R.
  rewrite Bltb_correct by (rewrite ?is_finite_Babs; assumption). rewrite B2R_Babs, E, Rabs_pos_eq by lra. destruct (Req_bool_spec s 0); cbn [orb]; [lra|]. destruct (Rlt_bool_spec s (B2R (fp_eps P))); lra.
Qed.
Lemma hamacher_product : is_finite (fp_eps P) = true -> 0 <= B2R (fp_eps P) -> Rabs (B2R (tnorm_compute HamacherProduct a b) - t_formula THamacherProduct ra rb) <= 8 * u64 + B2R (fp_eps P).
Proof.
  intros Fe He. assert (Z := sum_zero Fe He). assert (U := u_pos). destruct parts as (_ & _ & _ & S2 & _ & _ & A & B). unfold tnorm_compute, t_formula.
  assert (ES : Rabs (s - (ra + rb)) <= u64 * (ra + rb)). { destruct (sum_fin P a b Da Db) as (_ & Es & _). fold s ra rb in Es. rewrite Es. assert (Q := rnd_plus_error ra rb (fmt_B2R a) (fmt_B2R b)). rewrite (Rabs_pos_eq (ra + rb)) in Q by lra. exact Q. }
  assert (u64 * (ra + rb) <= 1 / 1000 * (ra + rb)) by (apply Rmult_le_compat_r; lra). destruct (isEq (a + b)%S s_0).
  - rewrite (B2R_0 P). destruct Req_EM_T as [|NZ]; [rewrite Rminus_eq_0, Rabs_R0; lra|]. assert (D1 := d_hamacher ra rb A B). assert (D2 : ra <= ra + rb - ra * rb) by nra. set (D := ra + rb - ra * rb) in *. assert (DP : 0 < D) by lra.
    assert (V : 0 <= ra * rb / D <= Rmin ra rb). { split; [apply Rmult_le_pos; [nra|apply Rlt_le, Rinv_0_lt_compat, DP]|]. apply (Rmult_le_reg_r D); [exact DP|]. unfold Rdiv. rewrite Rmult_assoc, Rinv_l, Rmult_1_r by lra. unfold Rmin. destruct Rle_dec; nra. }
    assert (Rmin ra rb <= (ra + rb) / 2) by (unfold Rmin; destruct Rle_dec; lra). unfold Rabs in *. repeat destruct Rcase_abs in *; repeat destruct Rcase_abs; lra.
  - destruct Req_EM_T as [E|NZ]; [unfold Rabs in ES; destruct Rcase_abs in ES; lra|]. assert (Q := hamacher_quotient Z). lra.
Qed.
Theorem t_round n : even_tnorm n -> is_finite (fp_eps P) = true -> 0 <= B2R (fp_eps P) -> fdegree (tnorm_compute n a b) /\ Rabs (B2R (tnorm_compute n a b) - t_formula (tname_of n) ra rb) <= tnorm_error n (B2R (fp_eps P)).
Proof.
  intros [E1 E2] Fe He. split; [now apply tnorm_range_f64|]. assert (U := u_pos). destruct n; try congruence; cbn [tname_of tnorm_error].
  - destruct parts as (_ & P1 & _). unfold tnorm_compute, t_formula. fold p. lra.
  - apply bounded_difference.
  - apply einstein_product.
  - now apply hamacher_product.
  - destruct (op_min_fin P a b (proj1 Da) (proj1 Db)) as [_ E]. unfold tnorm_compute, t_formula. rewrite E. fold ra rb. rewrite Rminus_eq_0, Rabs_R0. lra.
Qed.
Theorem s_round n : even_snorm n -> fdegree (snorm_compute n a b) /\ Rabs (B2R (snorm_compute n a b) - s_formula (sname_of n) ra rb) <= snorm_error n.
Proof.
  intros (E1 & E2 & E3 & E4). split; [now apply snorm_range_f64|]. assert (U := u_pos). destruct n; try congruence; cbn [sname_of snorm_error].
  - destruct parts as (_ & _ & Q1 & _). unfold snorm_compute, s_formula. fold q. lra.
  - destruct parts as (S1 & _ & _ & S2 & _ & _ & A & B). destruct (sum_fin P a b Da Db) as (Fs & _). destruct (op_min_fin P s_1 (a + b)%S (proj1 (fd_1 P)) Fs) as [_ E]. unfold snorm_compute, s_formula. rewrite E, (B2R_1 P). fold s. unfold Rmin. repeat destruct Rle_dec; unfold Rabs in *; repeat destruct Rcase_abs in *; repeat destruct Rcase_abs; lra.
  - apply einstein_sum.
  - destruct (op_max_fin P a b (proj1 Da) (proj1 Db)) as [_ E]. unfold snorm_compute, s_formula. rewrite E. fold ra rb. rewrite Rminus_eq_0, Rabs_R0. lra.
  - apply normalized_sum.
Qed.
(** norms with jumps, away from these *)
Lemma tame_degree (z : f64) : is_finite z = true -> 0 <= B2R z <= 2 -> tame z.
Proof. intros F B. split; [exact F|]. rewrite Rabs_pos_eq by lra. unfold big. apply Rle_trans with (bpow radix2 1); [change (bpow radix2 1) with 2; lra|apply bpow_le; lia]. Qed.
Theorem t_jump n : off_jump_t n (B2R (fp_eps P)) ra rb -> is_finite (fp_eps P) = true -> 0 <= B2R (fp_eps P) -> B2R (tnorm_compute n a b) = t_formula (tname_of n) ra rb.
Proof.
  intros H Fe He. destruct parts as (S1 & _ & _ & S2 & _ & _ & A & B). destruct (sum_fin P a b Da Db) as (Fs & _). destruct (op_min_fin P a b (proj1 Da) (proj1 Db)) as [F1 E1]. destruct (op_max_fin P a b (proj1 Da) (proj1 Db)) as [F2 E2]. fold ra rb in E1, E2.
  assert (T1 : tame (@s_1 f64 (F64Scalar P))) by (apply tame_degree; [exact (proj1 (fd_1 P))|rewrite (B2R_1 P); lra]). destruct n; try contradiction; cbn [off_jump_t] in H; unfold tnorm_compute, t_formula, tname_of.
  - assert (TM : tame (op_max a b)) by (apply tame_degree; [exact F2|rewrite E2; unfold Rmax; destruct Rle_dec; lra]). destruct (isEq (op_max a b) s_1) eqn:Q.
    + apply (near_true P Fe) in Q; [|exact TM|exact T1]. rewrite E2, (B2R_1 P) in Q. destruct Req_EM_T as [|N]; [exact E1|]. exfalso. destruct H as [H|H]; [tauto|]. destruct Q as [Q|Q]; [tauto|]. unfold Rabs in Q. destruct Rcase_abs in Q; lra.
    + apply (near_false P) in Q; [|exact TM|exact T1]. rewrite E2, (B2R_1 P) in Q. destruct Req_EM_T; [tauto|apply (B2R_0 P)].
  - assert (TS : tame (a + b)%S) by (apply tame_degree; [exact Fs|exact S2]). destruct (isGt (a + b)%S s_1) eqn:Q.
    + apply (gt_true P) in Q; [|exact TS|exact T1]. rewrite (B2R_1 P) in Q. fold s in Q. destruct Rlt_dec as [|N]; [exact E1|]. exfalso. unfold Rabs in *. repeat destruct Rcase_abs in *; lra.
    + apply (gt_false P Fe) in Q; [|exact TS|exact T1]. rewrite (B2R_1 P) in Q. fold s in Q. destruct Rlt_dec as [L|]; [|apply (B2R_0 P)]. exfalso. destruct Q as [Q|Q]; unfold Rabs in *; repeat destruct Rcase_abs in *; lra.
Qed.
Theorem s_jump n : off_jump_s n (B2R (fp_eps P)) ra rb -> is_finite (fp_eps P) = true -> 0 <= B2R (fp_eps P) -> B2R (snorm_compute n a b) = s_formula (sname_of n) ra rb.
Proof.
  intros H Fe He. destruct parts as (S1 & _ & _ & S2 & _ & _ & A & B). destruct (sum_fin P a b Da Db) as (Fs & _). destruct (op_min_fin P a b (proj1 Da) (proj1 Db)) as [F1 E1]. destruct (op_max_fin P a b (proj1 Da) (proj1 Db)) as [F2 E2]. fold ra rb in E1, E2.
  assert (T1 : tame (@s_1 f64 (F64Scalar P))) by (apply tame_degree; [exact (proj1 (fd_1 P))|rewrite (B2R_1 P); lra]). assert (T0 : tame (@s_0 f64 (F64Scalar P))) by (apply tame_degree; [exact (proj1 (fd_0 P))|rewrite (B2R_0 P); lra]). destruct n; try contradiction; cbn [off_jump_s] in H; unfold snorm_compute, s_formula, sname_of.
  - assert (TM : tame (op_min a b)) by (apply tame_degree; [exact F1|rewrite E1; unfold Rmin; destruct Rle_dec; lra]). destruct (isEq (op_min a b) s_0) eqn:Q.
    + apply (near_true P Fe) in Q; [|exact TM|exact T0]. rewrite E1, (B2R_0 P) in Q. destruct Req_EM_T as [|N]; [exact E2|]. exfalso. destruct H as [H|H]; [tauto|]. destruct Q as [Q|Q]; [tauto|]. unfold Rabs in Q. destruct Rcase_abs in Q; lra.
    + apply (near_false P) in Q; [|exact TM|exact T0]. rewrite E1, (B2R_0 P) in Q. destruct Req_EM_T; [tauto|apply (B2R_1 P)].
  - assert (TS : tame (a + b)%S) by (apply tame_degree; [exact Fs|exact S2]). destruct (isLt (a + b)%S s_1) eqn:Q.
    + apply (lt_true P) in Q; [|exact TS|exact T1]. rewrite (B2R_1 P) in Q. fold s in Q. destruct Rlt_dec as [|N]; [exact E2|]. exfalso. unfold Rabs in *. repeat destruct Rcase_abs in *; lra.
    + apply (lt_false P Fe) in Q; [|exact TS|exact T1]. rewrite (B2R_1 P) in Q. fold s in Q. destruct Rlt_dec as [L|]; [|apply (B2R_1 P)]. exfalso. destruct Q as [Q|Q]; unfold Rabs in *; repeat destruct Rcase_abs in *; lra.
Qed.
Theorem unbounded_round : Rabs (B2R (snorm_compute UnboundedSum a b) - (ra + rb)) <= u64.
Proof. exact (proj1 parts). Qed.
End Round.
