(** Sample points and the selecting defuzzifiers in binary64. *)
From Coq Require Import ZArith Reals Bool List Lra Lia.
From Flocq Require Import Core BinarySingleNaN Relative.
From Verif Require Import Base Op XR XRFacts F64 F64Facts F64Arith F64Err Defuzz OrdVal SpecDefuzz DefuzzSelect.
Import ListNotations.
Local Open Scope R_scope.

Definition u53 : R := / 9007199254740992.
Lemma u53_bpow : bpow radix2 (-53) = u53.
Proof. reflexivity. Qed.

Section F.
Context (P : fparam).
#[local] Hint Extern 0 (Scalar f64) => exact (F64Scalar P) : typeclass_instances.
#[local] Hint Extern 0 (Scalar (binary_float _ _)) => exact (F64Scalar P) : typeclass_instances.

Lemma grow h e1 e2 e3 : / 4294967296 <= h <= 1 -> Rabs e1 <= u53 -> Rabs e2 <= u53 -> Rabs e3 <= u53 ->
  0 <= (1 - h) * ((1 + e1) * (1 + e2) * (1 + e3)) <= 1 /\ 0 <= (1 - h) * (1 + e2) <= 1.
Proof.
  intros H E1 E2 E3. apply Rabs_le_inv in E1, E2, E3.
  assert (U : 0 < u53 <= / 1000000000000000) by (unfold u53; lra).
  assert (A : 0 <= (1 + e1) * (1 + e2) <= 1 + 3 * u53).
  { split; [apply Rmult_le_pos; lra|]. apply Rle_trans with ((1 + u53) * (1 + u53)); [apply Rmult_le_compat; lra|nra]. }
  assert (B : 0 <= (1 + e1) * (1 + e2) * (1 + e3) <= 1 + 5 * u53).
  { split; [apply Rmult_le_pos; lra|]. apply Rle_trans with ((1 + 3 * u53) * (1 + u53)); [apply Rmult_le_compat; lra|nra]. }
  assert (C : (1 - h) * (1 + 5 * u53) <= 1) by (unfold u53 in *; lra || nra).
  split; split.
  - apply Rmult_le_pos; lra.
  - apply Rle_trans with ((1 - h) * (1 + 5 * u53)); [apply Rmult_le_compat_l; lra|exact C].
  - apply Rmult_le_pos; lra.
  - apply Rle_trans with ((1 - h) * (1 + 5 * u53)); [apply Rmult_le_compat_l; lra|exact C].
Qed.

Lemma sample_in (a b : f64) n i : is_finite a = true -> is_finite b = true -> is_finite (Bminus mode_NE b a) = true ->
  bpow radix2 (-900) <= B2R b - B2R a -> (1 <= n < 2 ^ 31)%Z -> (Z.of_nat i < n)%Z ->
  is_finite (sample a b n i) = true /\ B2R a <= B2R (sample a b n i) <= B2R b.
Proof.
  intros Fa Fb Fd G N I. unfold sample, midpoint.
  change (s_sub b a) with (Bminus mode_NE b a). set (D := Bminus mode_NE b a) in *.
  assert (GP := bpow_gt_0 radix2 (-900)).
  assert (BA : 0 < B2R b - B2R a) by lra.
  assert (DE : B2R D = rnd (B2R b - B2R a)) by now apply minus_fin.
  destruct (rnd_rel (B2R b - B2R a)) as (e1 & E1 & R1).
  { rewrite Rabs_pos_eq by lra. eapply Rle_trans; [|exact G]. apply bpow_le. lia. }
  rewrite R1 in DE. rewrite u53_bpow in E1. assert (E1' := Rabs_le_inv _ _ E1).
  assert (U : 0 < u53 <= / 1000000000000000) by (unfold u53; lra).
  assert (DP : bpow radix2 (-901) <= B2R D).
  { rewrite DE. replace (bpow radix2 (-901)) with (bpow radix2 (-900) * (1/2)).
    - apply Rmult_le_compat; lra.
    - replace (1/2) with (bpow radix2 (-1)) by (simpl; lra). rewrite <- bpow_plus. reflexivity. }
  assert (DP0 := bpow_gt_0 radix2 (-901)).
  (* the integer n *)
  assert (NZ : 1 <= IZR n) by (apply IZR_le; lia).
  assert (NU : IZR n <= 2147483648) by (apply IZR_le; lia).
  destruct (int_correct n ltac:(lia)) as [NE NF].
  change (s_int n) with (f64_lit n 1). set (fn := f64_lit n 1) in *.
  (* the step *)
  change (s_div D fn) with (Bdiv mode_NE D fn).
  assert (QB : 0 <= B2R D / B2R fn <= B2R D).
  { rewrite NE. split; [apply Rmult_le_pos; [lra|left; apply Rinv_0_lt_compat; lra]|].
    apply Rmult_le_reg_r with (IZR n); [lra|]. unfold Rdiv. rewrite Rmult_assoc, Rinv_l by lra. nra. }
  destruct (div_gen D fn) as [QE QF]; auto; [rewrite NE; lra| |].
  { apply (finite_between (B754_zero false) D); auto. }
  set (q := Bdiv mode_NE D fn) in *.
  assert (DN : bpow radix2 (-932) <= B2R D / IZR n).
  { apply Rmult_le_reg_r with (IZR n); [lra|]. unfold Rdiv. rewrite Rmult_assoc, Rinv_l, Rmult_1_r by lra.
    eapply Rle_trans; [|exact DP]. apply Rle_trans with (bpow radix2 (-932) * 2147483648).
    - apply Rmult_le_compat_l; [apply bpow_ge_0|lra].
    - change 2147483648 with (IZR (Zpower radix2 31)). rewrite IZR_Zpower by lia. rewrite <- bpow_plus. apply Req_le. reflexivity. }
  destruct (rnd_rel (B2R D / B2R fn)) as (e2 & E2 & R2).
  { rewrite NE. rewrite Rabs_pos_eq. { eapply Rle_trans; [|exact DN]. apply bpow_le. lia. }
    eapply Rle_trans; [apply bpow_ge_0|exact DN]. }
  rewrite R2, NE in QE. rewrite u53_bpow in E2. assert (E2' := Rabs_le_inv _ _ E2).
  (* the factor *)
  destruct (int_correct (Z.of_nat i) ltac:(lia)) as [IE IF].
  change (s_int (Z.of_nat i)) with (f64_lit (Z.of_nat i) 1). set (fi := f64_lit (Z.of_nat i) 1) in *.
  destruct f64_half_correct as [HE HF]. change s_half with (f64_lit 1 2).
  change (s_add fi (f64_lit 1 2)) with (Bplus mode_NE fi (f64_lit 1 2)).
  assert (I0 : 0 <= IZR (Z.of_nat i)) by (apply IZR_le; lia).
  assert (I1 : IZR (Z.of_nat i) + 1 <= IZR n) by (rewrite <- plus_IZR; apply IZR_le; lia).
  assert (KF : fmt (IZR (Z.of_nat i) + 1/2)).
  { replace (IZR (Z.of_nat i) + 1/2) with (IZR (2 * Z.of_nat i + 1) * bpow radix2 (-1)).
    - apply fmt_int; lia.
    - rewrite plus_IZR, mult_IZR. simpl. lra. }
  destruct (plus_gen fi (f64_lit 1 2)) as [KE KFin]; auto.
  { rewrite IE, HE, (rnd_id _ KF). apply Rlt_bool_true. rewrite Rabs_pos_eq by lra.
    apply Rlt_le_trans with (bpow radix2 33); [|apply bpow_le; unfold emax64; lia]. simpl. lra. }
  rewrite IE, HE, (rnd_id _ KF) in KE. set (k := Bplus mode_NE fi (f64_lit 1 2)) in *.
  (* the offset *)
  change (s_mul k q) with (Bmult mode_NE k q).
  set (h := 1 - (IZR (Z.of_nat i) + 1/2) / IZR n).
  assert (HB : / 4294967296 <= h <= 1).
  { unfold h. assert (A : 0 <= (IZR (Z.of_nat i) + 1/2) / IZR n).
    { apply Rmult_le_pos; [lra|left; apply Rinv_0_lt_compat; lra]. }
    split; [|lra]. assert (B : (IZR (Z.of_nat i) + 1/2) / IZR n <= (IZR n - 1/2) / IZR n).
    { apply Rmult_le_compat_r; [left; apply Rinv_0_lt_compat; lra|lra]. }
    replace ((IZR n - 1/2) / IZR n) with (1 - 1/2 * / IZR n) in B by (field; lra).
    assert (C : / 2147483648 <= / IZR n) by (apply Rinv_le_contravar; lra). lra. }
  assert (KQ : B2R k * B2R q = (1 - h) * (1 + e2) * B2R D).
  { rewrite KE, QE. unfold h. field. lra. }
  assert (GR0 := grow h e1 e2 0 HB E1 E2 ltac:(rewrite Rabs_R0; unfold u53; lra)).
  assert (KQB : 0 <= B2R k * B2R q <= B2R D).
  { rewrite KQ. split; [apply Rmult_le_pos; lra|]. rewrite <- (Rmult_1_l (B2R D)) at 2. apply Rmult_le_compat_r; lra. }
  destruct (mult_gen k q) as [PE PF]; auto.
  { apply (finite_between (B754_zero false) D); auto. }
  set (p := Bmult mode_NE k q) in *.
  destruct (rnd_rel (B2R k * B2R q)) as (e3 & E3 & R3).
  { rewrite Rabs_pos_eq by lra. rewrite KE, QE.
    apply Rle_trans with (1/2 * (bpow radix2 (-932) * (1/2))).
    - replace (1/2) with (bpow radix2 (-1)) by (simpl; lra). rewrite <- !bpow_plus. apply bpow_le. lia.
    - apply Rmult_le_compat; [lra|apply Rmult_le_pos; [apply bpow_ge_0|lra]|lra|].
      apply Rmult_le_compat; [apply bpow_ge_0|lra|exact DN|lra]. }
  rewrite R3, KQ, DE in PE. rewrite u53_bpow in E3.
  assert (GR := grow h e1 e2 e3 HB E1 E2 E3).
  assert (PB : 0 <= B2R p <= B2R b - B2R a).
  { rewrite PE. replace ((1 - h) * (1 + e2) * ((B2R b - B2R a) * (1 + e1)) * (1 + e3)) with
      ((1 - h) * ((1 + e1) * (1 + e2) * (1 + e3)) * (B2R b - B2R a)) by ring.
    split; [apply Rmult_le_pos; lra|]. rewrite <- (Rmult_1_l (B2R b - B2R a)) at 2. apply Rmult_le_compat_r; lra. }
  (* the sum *)
  change (s_add a p) with (Bplus mode_NE a p).
  destruct (plus_gen a p) as [XE XF]; auto. { apply (finite_between a b); auto. lra. }
  split; auto. rewrite XE. apply rnd_between; try apply fmt_B2R. lra.
Qed.

(** the selecting defuzzifiers return NaN or a number in the range *)
Lemma fin_sum (a b : f64) r (mu : f64 -> res f64) n : som mu a b n = Ok r -> r <> B754_nan -> isFinite (s_add a b) = true.
Proof.
  intros E R. unfold som in E. destruct (isFinite (s_add a b)) eqn:F; auto. exfalso. simpl negb in E. cbv iota in E. injection E as <-. now apply R.
Qed.
Lemma fin_sum2 (a b : f64) r (mu : f64 -> res f64) n : lom mu a b n = Ok r -> r <> B754_nan -> isFinite (s_add a b) = true.
Proof.
  intros E R. unfold lom in E. destruct (isFinite (s_add a b)) eqn:F; auto. exfalso. simpl negb in E. cbv iota in E. injection E as <-. now apply R.
Qed.
Lemma nan_dec (r : f64) : {r = B754_nan} + {r <> B754_nan}.
Proof. destruct r; auto; right; discriminate. Qed.
Lemma xs_sample (a b : f64) n i x : nth_error (@xs f64 (F64Scalar P) a b n) i = Some x -> (0 <= n)%Z -> x = sample a b n i /\ (Z.of_nat i < n)%Z.
Proof.
  unfold xs, steps. intros E N. rewrite nth_error_map in E. destruct (nth_error (seq 0 (Z.to_nat n)) i) as [j|] eqn:J; [|discriminate].
  assert (I : (i < length (seq 0 (Z.to_nat n)))%nat) by (apply nth_error_Some; congruence). rewrite seq_length in I.
  apply (nth_error_nth _ _ 0%nat) in J. rewrite seq_nth in J by auto. simpl in J. subst j. inversion E. split; auto. lia.
Qed.
Lemma som_range64 (mu : f64 -> res f64) (a b : f64) n r : is_finite a = true -> is_finite b = true ->
  is_finite (Bminus mode_NE b a) = true -> bpow radix2 (-900) <= B2R b - B2R a -> (1 <= n < 2 ^ 31)%Z ->
  som mu a b n = Ok r -> r = B754_nan \/ (is_finite r = true /\ B2R a <= B2R r <= B2R b).
Proof.
  intros Fa Fb Fd G N E. destruct (nan_dec r) as [Z|Z]; auto. right.
  assert (F := fin_sum a b r mu n E Z). assert (E2 := som_eq mu a b n F).
  assert (E3 : som mu a b n = Ok r) by exact E. destruct (rmapM mu (xs a b n)) as [ys| | |] eqn:RM.
  2-4: rewrite E2 in E3; discriminate.
  destruct (som_main (ord_val_F64 P) mu a b n ys F RM) as [[_ H]|(i & x & X & H & _)].
  - rewrite H in E3. injection E3 as <-. now destruct Z.
  - rewrite H in E3. inversion E3. subst x. destruct (xs_sample a b n i r X ltac:(lia)) as [-> J]. apply sample_in; auto.
Qed.
Lemma lom_range64 (mu : f64 -> res f64) (a b : f64) n r : is_finite a = true -> is_finite b = true ->
  is_finite (Bminus mode_NE b a) = true -> bpow radix2 (-900) <= B2R b - B2R a -> (1 <= n < 2 ^ 31)%Z ->
  lom mu a b n = Ok r -> r = B754_nan \/ (is_finite r = true /\ B2R a <= B2R r <= B2R b).
Proof.
  intros Fa Fb Fd G N E. destruct (nan_dec r) as [Z|Z]; auto. right.
  assert (F := fin_sum2 a b r mu n E Z). assert (E2 := lom_eq mu a b n F).
  assert (E3 : lom mu a b n = Ok r) by exact E. destruct (rmapM mu (xs a b n)) as [ys| | |] eqn:RM.
  2-4: rewrite E2 in E3; discriminate.
  destruct (lom_main (ord_val_F64 P) mu a b n ys F RM) as [[_ H]|(i & x & X & H & _)].
  - rewrite H in E3. injection E3 as <-. now destruct Z.
  - rewrite H in E3. inversion E3. subst x. destruct (xs_sample a b n i r X ltac:(lia)) as [-> J]. apply sample_in; auto.
Qed.
End F.

(** a range whose width overflows: minimum + maximum is finite, the result is not *)
Definition big : f64 := SF2B (prec:=prec64) (emax:=emax64) (SpecFloat.S754_finite false 9007199254740991 971) eq_refl.
Lemma som_overflow : @som f64 (F64Scalar fp_default) (fun _ => Ok (f64_lit 1 1)) (Bopp big) big 1 = Ok (B754_infinity false).
Proof. vm_compute. reflexivity. Qed.
