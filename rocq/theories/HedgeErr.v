(** Hedges in binary64 against their documented formulas. *)
From Coq Require Import ZArith Reals Bool Lra Lia Psatz.
From Flocq Require Import Core BinarySingleNaN.
From Verif Require Import Base Op XR XRFacts F64 F64Facts F64Arith F64Err F64Sum F64Quot OpProofs Norm Hedge SpecNorm SpecRound SpecNormErr NormFacts NormF64 NormSpec ShapeF64 NormErr.
Local Open Scope R_scope.

Lemma root_eta : sqrt eta64 <= u64 / 100.
Proof.
  assert (E : sqrt eta64 <= bpow radix2 (-537)). { replace (bpow radix2 (-537)) with (sqrt (bpow radix2 (-537) * bpow radix2 (-537))) by (apply sqrt_square, bpow_ge_0). apply sqrt_le_1_alt. rewrite <- bpow_plus. apply bpow_le. lia. }
  assert (Q : 128 * bpow radix2 (-537) = bpow radix2 (-530)) by (change 128 with (bpow radix2 7); rewrite <- bpow_plus; reflexivity). assert (bpow radix2 (-530) <= u64) by (apply bpow_le; lia). assert (0 < bpow radix2 (-537)) by apply bpow_gt_0. lra.
Qed.
Lemma root_close y y' c : 0 <= c -> eta64 / 2 <= y <= 1 -> 0 <= y' -> Rabs (y' - y) <= c * u64 * y + eta64 -> Rabs (sqrt y' - sqrt y) <= (c + 1) * u64.
Proof.
  intros C Y Y' H. destruct eta64_small as [T1 T2]. destruct u_tiny as [U1 U2]. assert (S0 := sqrt_pos y'). assert (S1 : 0 < sqrt y) by (apply sqrt_lt_R0; lra). assert (S2 : sqrt y <= 1) by (rewrite <- sqrt_1; apply sqrt_le_1_alt; lra).
  assert (E : (sqrt y' - sqrt y) * (sqrt y' + sqrt y) = y' - y) by (assert (A := sqrt_sqrt y ltac:(lra)); assert (B := sqrt_sqrt y' Y'); nra).
  assert (A : Rabs (sqrt y' - sqrt y) * sqrt y <= c * u64 * y + eta64). { apply Rle_trans with (2 := H). rewrite <- E, Rabs_mult, (Rabs_pos_eq (sqrt y' + sqrt y)) by lra. apply Rmult_le_compat_l; [apply Rabs_pos|lra]. }
  assert (SE : 0 <= sqrt eta64) by apply sqrt_pos. assert (RE := root_eta). assert (SS := sqrt_sqrt eta64 ltac:(lra)). assert (SY := sqrt_sqrt y ltac:(lra)).
  assert (L : sqrt eta64 <= 2 * sqrt y). { apply Rsqr_incr_0_var; [|lra]. unfold Rsqr. nra. }
  apply (Rmult_le_reg_r (sqrt y)); [exact S1|]. apply Rle_trans with (1 := A). assert (CU : 0 <= c * u64) by (apply Rmult_le_pos; lra). assert (YS : y <= sqrt y) by (assert (sqrt y * sqrt y <= sqrt y * 1) by (apply Rmult_le_compat_l; lra); lra).
  assert (c * u64 * y <= c * u64 * sqrt y) by (apply Rmult_le_compat_l; assumption). assert (sqrt eta64 * sqrt eta64 <= u64 / 100 * (2 * sqrt y)) by (apply Rmult_le_compat; lra). assert (0 <= u64 * sqrt y) by (apply Rmult_le_pos; lra). lra.
Qed.
Section HedgeErr.
Context (P : fparam).
#[local] Hint Extern 0 (Scalar f64) => exact (F64Scalar P) : typeclass_instances.
#[local] Hint Extern 0 (Scalar (binary_float _ _)) => exact (F64Scalar P) : typeclass_instances.
Hypotheses (Fe : is_finite (fp_eps P) = true) (He : 0 <= B2R (fp_eps P) <= 1 / 8).
Let eps := B2R (fp_eps P).
Variable x : f64.
Hypothesis Dx : fdegree x.
Let r := B2R x.
Lemma branch : if isLE x s_half then r <= 1 / 2 + 1.002 * eps /\ r <= 5 / 8 else 1 / 2 < r.
Proof.
  assert (K := isLE_half_bound P x Fe (proj2 He) Dx). destruct Dx as [Fx Hx]. fold r in K, Hx. destruct (isLE x s_half) eqn:L; [|exact K]. split; [|exact K].
  revert L. unfold isLE, isLE_tol. set (hf := (@s_half f64 (F64Scalar P))). assert (Fh : is_finite hf = true) by exact (proj2 f64_half_correct). assert (Eh : B2R hf = 1/2) by exact (proj1 f64_half_correct). clearbody hf.
  change (s_eqb x hf) with (Beqb x hf). change (s_ltb (s_abs (x - hf)%S) s_eps) with (Bltb (Babs (Bminus mode_NE x hf)) (fp_eps P)). change (s_ltb x hf) with (Bltb x hf).
  assert (Nx : isNaN x = false) by (rewrite f_isNaN; destruct x; auto; discriminate). rewrite Nx. simpl andb. rewrite orb_false_r. rewrite Beqb_correct, (Bltb_correct prec64 emax64 x) by auto. rewrite Eh. fold r.
  destruct (minus_ok x hf Fx Fh) as [E F]; [rewrite Eh; fold r; lra|]. rewrite Eh in E. fold r in E. rewrite Bltb_correct by (rewrite ?is_finite_Babs; auto). rewrite B2R_Babs, E. fold eps.
  assert (Q := rnd_plus_error r (- (1 / 2)) (fmt_B2R x) (fmt_opp _ fmt_half)). replace (r + - (1 / 2)) with (r - 1 / 2) in Q by ring. destruct u_tiny as [U1 U2]. assert (u64 * Rabs (r - 1 / 2) <= 1 / 1000 * Rabs (r - 1 / 2)) by (apply Rmult_le_compat_r; [apply Rabs_pos|lra]).
  assert (0 <= eps) by apply He. destruct (Req_bool_spec r (1/2)); simpl; [intros _; lra|]. destruct (Rlt_bool_spec (Rabs (rnd (r - 1/2))) eps) as [L|L]; simpl; [intros _|].
  - unfold Rabs in *. repeat destruct Rcase_abs in *; repeat destruct Rcase_abs; lra.
  - destruct (Rlt_bool_spec r (1/2)); [intros _; lra|discriminate].
Qed.
Lemma root (y : f64) : fdegree y -> Rabs (B2R (s_sqrt y) - sqrt (B2R y)) <= u64.
Proof.
  intros [F B]. destruct (Bsqrt_correct prec64 emax64 _ _ mode_NE y) as (E & _). change (B2R (s_sqrt y)) with (B2R (Bsqrt mode_NE y)). rewrite E. simpl round_mode. apply rnd_small. rewrite Rabs_pos_eq by apply sqrt_pos. assert (sqrt (B2R y) <= 1) by (rewrite <- sqrt_1; apply sqrt_le_1_alt; lra). lra.
Qed.
Lemma complement (y : f64) : fdegree y -> B2R (s_1 - y)%S = rnd (1 - B2R y) /\ Rabs (B2R (s_1 - y)%S - (1 - B2R y)) <= u64 * (1 - B2R y) /\ fdegree (s_1 - y)%S.
Proof.
  intros D. destruct D as [F B]. destruct (minus_ok (f64_lit 1 1) y (proj2 f64_1_correct) F) as [E _]; [rewrite (proj1 f64_1_correct); lra|]. rewrite (proj1 f64_1_correct) in E. split; [exact E|]. split; [|apply (sub1_d P y (conj F B))].
  change (B2R (s_1 - y)%S) with (B2R (Bminus mode_NE (f64_lit 1 1) y)). rewrite E. assert (Q := rnd_plus_error 1 (- B2R y) fmt_1 (fmt_opp _ (fmt_B2R y))). replace (1 + - B2R y) with (1 - B2R y) in Q by ring. rewrite (Rabs_pos_eq (1 - B2R y)) in Q by lra. exact Q.
Qed.
Lemma doubled (y : f64) : fdegree y -> is_finite (s_2 * y)%S = true /\ B2R (s_2 * y)%S = 2 * B2R y.
Proof.
  intros [F B]. destruct (mult_ok (f64_lit 2 1) y (proj2 f64_2_correct) F) as [E F2]; [rewrite (proj1 f64_2_correct); lra|]. rewrite (proj1 f64_2_correct) in E. rewrite (rnd_id _ (fmt_double _ (fmt_B2R y))) in E. split; [exact F2|exact E].
Qed.
Lemma halved (y : f64) c v : fdegree y -> 0 <= c -> 0 <= v <= 1 -> Rabs (B2R y - v) <= c * u64 * v -> c * u64 <= 1 / 8 -> Rabs (B2R (s_sqrt (s_half * y)%S) - sqrt (v / 2)) <= (3 + 2 * c) * u64.
Proof.
  intros D C V H CU. assert (R1 := root (s_half * y)%S (half_mul P y D)). destruct D as [F B]. destruct u_tiny as [U1 U2]. destruct eta64_small as [T1 T2].
  destruct (mult_ok (@s_half f64 (F64Scalar P)) y (proj2 f64_half_correct) F) as [E F2]; [rewrite (B2R_half P); lra|]. rewrite (B2R_half P) in E. set (z := (s_half * y)%S) in *. assert (EZ : B2R z = rnd (1 / 2 * B2R y)) by exact E. clearbody z.
  assert (CV : 0 <= c * u64 * v <= 1 / 8 * v) by (split; [apply Rmult_le_pos; [apply Rmult_le_pos; lra|lra]|apply Rmult_le_compat_r; lra]).
  assert (Q := rnd_error (1 / 2 * B2R y)). rewrite <- EZ, (Rabs_pos_eq (1 / 2 * B2R y)) in Q by lra.
  destruct (Req_dec (B2R y) 0) as [Z|NZ].
  - rewrite Z, Rmult_0_r, rnd_0 in EZ. rewrite EZ in R1. rewrite Z in H. assert (v = 0) by (unfold Rabs in H; destruct Rcase_abs in H; lra). subst v. replace (0 / 2) with 0 by lra. assert (0 <= c * u64) by (apply Rmult_le_pos; lra). lra.
  - assert (LP := least_positive y ltac:(lra)). assert (VL : eta64 <= v) by (unfold Rabs in H; destruct Rcase_abs in H; lra).
    assert (Z0 : 0 <= B2R z) by (rewrite EZ; rewrite <- rnd_0; apply rnd_mono; lra).
    assert (RC : Rabs (sqrt (B2R z) - sqrt (v / 2)) <= (1 + 2 * c + 1) * u64). { apply (root_close (v / 2) (B2R z) (1 + 2 * c)); [lra|lra|exact Z0|]. assert (u64 * (1 / 2 * B2R y) <= u64 * (1 / 2 * v) + 1 / 2 * (c * u64 * v)). { assert (u64 * (1 / 2 * B2R y) <= u64 * (1 / 2 * v) + u64 * (1 / 2 * (c * u64 * v))); [|assert (u64 * (1 / 2 * (c * u64 * v)) <= 1 * (1 / 2 * (c * u64 * v))) by (apply Rmult_le_compat_r; lra); lra]. rewrite <- Rmult_plus_distr_l. apply Rmult_le_compat_l; [lra|]. unfold Rabs in H. destruct Rcase_abs in H; lra. }
      replace ((1 + 2 * c) * u64 * (v / 2)) with (u64 * (1 / 2 * v) + c * u64 * v) by field. unfold Rabs in *. repeat destruct Rcase_abs in *; repeat destruct Rcase_abs; lra. }
    assert (X := via _ _ _ _ _ R1 RC). lra.
Qed.
Theorem hedge_round h : fdegree (hedge_apply h x) /\ Rabs (B2R (hedge_apply h x) - h_formula (hname_of h) r) <= hedge_error h eps.
Proof.
  split; [apply (hedge_range_f64 P h x Fe (proj2 He) Dx)|]. assert (BR := branch). destruct u_tiny as [U1 U2]. assert (Hx : 0 <= r <= 1) by apply Dx. assert (E0 : 0 <= eps) by apply He. destruct h; unfold hedge_apply; cbn [hname_of h_formula hedge_error].
  - rewrite (B2R_1 P), Rminus_eq_0, Rabs_R0. lra.
  - destruct (doubled x Dx) as [F2 E2]. destruct (complement x Dx) as (_ & C1 & C2). fold r in E2, C1. destruct (isLE x s_half).
    + assert (M : Rabs (B2R (s_2 * x * x)%S - 2 * r * r) <= u64). { destruct (mult_ok (s_2 * x)%S x F2 (proj1 Dx)) as [E _]; [rewrite E2; fold r; nra|]. rewrite E2 in E. fold r in E. change (B2R (s_2 * x * x)%S) with (B2R (Bmult mode_NE (s_2 * x)%S x)). rewrite E. apply rnd_small. rewrite Rabs_pos_eq; nra. }
      destruct Rle_dec as [L|L]; [lra|]. assert (D : Rabs (2 * r * r - (1 - 2 * (1 - r) * (1 - r))) <= eps). { replace (2 * r * r - (1 - 2 * (1 - r) * (1 - r))) with ((2 * r - 1) * (2 * r - 1)) by ring. rewrite Rabs_pos_eq by nra. nra. }
      assert (X := via _ _ _ _ _ M D). lra.
    + destruct Rle_dec as [L|L]; [lra|]. set (t := (s_1 - x)%S) in *. destruct (doubled t C2) as [F3 E3]. destruct C2 as [Ft Bt]. set (T := 1 - r) in *. assert (HT : 0 <= T <= 1 / 2) by (unfold T; lra). assert (uT : u64 * T <= u64 * (1 / 2)) by (apply Rmult_le_compat_l; lra).
      assert (TB : B2R t <= 1 / 2 + 1 / 1000) by (unfold Rabs in C1; destruct Rcase_abs in C1; lra).
      destruct (mult_ok (s_2 * t)%S t F3 Ft) as [E4 F4]; [rewrite E3; nra|]. rewrite E3 in E4. set (m := (s_2 * t * t)%S) in *. assert (EM : B2R m = rnd (2 * B2R t * B2R t)) by exact E4. assert (FM : is_finite m = true) by exact F4. clearbody m.
      assert (M1 : Rabs (B2R m - 2 * B2R t * B2R t) <= u64) by (rewrite EM; apply rnd_small; rewrite Rabs_pos_eq; nra).
      assert (M2 : Rabs (2 * B2R t * B2R t - 2 * T * T) <= 2 * u64). { replace (2 * B2R t * B2R t - 2 * T * T) with ((B2R t - T) * (2 * (B2R t + T))) by ring. rewrite Rabs_mult, (Rabs_pos_eq (2 * (B2R t + T))) by lra. replace (2 * u64) with (u64 * (1 / 2) * 4) by field. apply Rmult_le_compat; [apply Rabs_pos|lra|lra|lra]. }
      assert (M3 := via _ _ _ _ _ M1 M2). assert (M4 : 0 <= B2R m <= 1) by (rewrite EM; apply rnd_between; [apply fmt_0|apply fmt_1|nra]).
      destruct (complement m (conj FM M4)) as (_ & N1 & _). assert (u64 * (1 - B2R m) <= u64 * 1) by (apply Rmult_le_compat_l; lra). unfold Rabs in *. repeat destruct Rcase_abs in *; repeat destruct Rcase_abs; lra.
  - destruct (complement x Dx) as (_ & C1 & _). fold r in C1. assert (u64 * (1 - r) <= u64 * 1) by (apply Rmult_le_compat_l; lra). lra.
  - destruct (isLE x s_half).
    + assert (X := halved x 0 r Dx ltac:(lra) Hx ltac:(fold r; rewrite Rminus_eq_0, Rabs_R0; lra) ltac:(lra)).
      destruct Rle_dec as [L|L]; [lra|]. set (d := r - 1 / 2). assert (HD : 0 <= d <= 1 / 8 /\ d <= 1.002 * eps) by (unfold d; lra).
      assert (A1 : 1 / 2 + d / 4 <= sqrt (r / 2) <= 1 / 2 + d / 2). { split; [apply Rsqr_incr_0_var; [|apply sqrt_pos]|apply Rsqr_incr_0_var; [|lra]]; rewrite Rsqr_sqrt by lra; unfold Rsqr, d in *; nra. }
      assert (A2 : 1 / 2 - d <= sqrt ((1 - r) / 2) <= 1 / 2). { split; [apply Rsqr_incr_0_var; [|apply sqrt_pos]|apply Rsqr_incr_0_var; [|lra]]; rewrite Rsqr_sqrt by lra; unfold Rsqr, d in *; nra. }
      assert (D : Rabs (sqrt (r / 2) - (1 - sqrt ((1 - r) / 2))) <= eps) by (unfold Rabs; destruct Rcase_abs; lra). assert (Z := via _ _ _ _ _ X D). lra.
    + destruct Rle_dec as [L|L]; [lra|]. destruct (complement x Dx) as (_ & C1 & C2). fold r in C1. assert (X := halved (s_1 - x)%S 1 (1 - r) C2 ltac:(lra) ltac:(lra) ltac:(rewrite Rmult_1_l; exact C1) ltac:(lra)).
      destruct (complement _ (sqrt_r P _ (half_mul P _ C2))) as (_ & N1 & N2). destruct (sqrt_r P _ (half_mul P _ C2)) as [_ B]. set (z := B2R (s_sqrt (s_half * (s_1 - x))%S)) in *. assert (u64 * (1 - z) <= u64 * 1) by (apply Rmult_le_compat_l; lra). unfold Rabs in *. repeat destruct Rcase_abs in *; repeat destruct Rcase_abs; lra.
  - assert (X := root x Dx). fold r in X. lra.
  - destruct (mult_ok x x (proj1 Dx) (proj1 Dx)) as [E _]; [fold r; nra|]. fold r in E. change (B2R (x * x)%S) with (B2R (Bmult mode_NE x x)). rewrite E. assert (Q : Rabs (rnd (r * r) - r * r) <= u64) by (apply rnd_small; rewrite Rabs_pos_eq; nra). lra.
Qed.
End HedgeErr.
