(** Rounding of single operations in binary64, without a bound on the operands. *)
From Coq Require Import ZArith Reals Bool List Lra Lia.
From Flocq Require Import Core BinarySingleNaN Relative.
From Verif Require Import Base Op XR XRFacts F64 F64Facts F64Arith.
Local Open Scope R_scope.

Lemma fmt_int n e : (Z.abs n < 2 ^ 53)%Z -> (-1074 <= e <= 0)%Z -> fmt (IZR n * bpow radix2 e).
Proof.
  intros N E. apply (generic_format_FLT radix2 (-1074) 53). exists (Float radix2 n e); simpl; auto; lia.
Qed.
Lemma rnd_rel x : bpow radix2 (-1022) <= Rabs x -> exists e, Rabs e <= bpow radix2 (-53) /\ rnd x = x * (1 + e).
Proof.
  intro H. destruct (relative_error_N_FLT_ex radix2 (-1074) 53 ltac:(unfold Prec_gt_0; lia) (fun z => negb (Z.even z)) x) as (e & B & E).
  { exact H. }
  exists e. split; [|exact E]. eapply Rle_trans; [exact B|]. apply Req_le. change (/2) with (bpow radix2 (-1)).
  rewrite <- bpow_plus. reflexivity.
Qed.
Lemma finite_between (lo hi : f64) x : is_finite lo = true -> is_finite hi = true -> B2R lo <= x <= B2R hi ->
  Rlt_bool (Rabs (rnd x)) (bpow radix2 emax64) = true.
Proof.
  intros L H B. apply Rlt_bool_true. assert (R := rnd_between _ _ x (fmt_B2R lo) (fmt_B2R hi) B).
  assert (A1 := abs_B2R_lt_emax prec64 emax64 lo). assert (A2 := abs_B2R_lt_emax prec64 emax64 hi).
  unfold Rabs in *. repeat destruct Rcase_abs; lra.
Qed.
Lemma plus_gen (a b : f64) : is_finite a = true -> is_finite b = true ->
  Rlt_bool (Rabs (rnd (B2R a + B2R b))) (bpow radix2 emax64) = true ->
  B2R (Bplus mode_NE a b) = rnd (B2R a + B2R b) /\ is_finite (Bplus mode_NE a b) = true.
Proof.
  intros Fa Fb H. pose proof (Bplus_correct prec64 emax64 _ _ mode_NE a b Fa Fb) as K. simpl round_mode in K.
  rewrite H in K. tauto.
Qed.
Lemma minus_gen (a b : f64) : is_finite a = true -> is_finite b = true ->
  Rlt_bool (Rabs (rnd (B2R a - B2R b))) (bpow radix2 emax64) = true ->
  B2R (Bminus mode_NE a b) = rnd (B2R a - B2R b) /\ is_finite (Bminus mode_NE a b) = true.
Proof.
  intros Fa Fb H. pose proof (Bminus_correct prec64 emax64 _ _ mode_NE a b Fa Fb) as K. simpl round_mode in K.
  rewrite H in K. tauto.
Qed.
Lemma minus_fin (a b : f64) : is_finite a = true -> is_finite b = true -> is_finite (Bminus mode_NE a b) = true ->
  B2R (Bminus mode_NE a b) = rnd (B2R a - B2R b).
Proof.
  intros Fa Fb H. pose proof (Bminus_correct prec64 emax64 _ _ mode_NE a b Fa Fb) as K. simpl round_mode in K.
  destruct (Rlt_bool _ _); [tauto|]. destruct K as [K _].
  rewrite <- is_finite_SF_B2SF in H. rewrite K in H. discriminate.
Qed.
Lemma mult_gen (a b : f64) : is_finite a = true -> is_finite b = true ->
  Rlt_bool (Rabs (rnd (B2R a * B2R b))) (bpow radix2 emax64) = true ->
  B2R (Bmult mode_NE a b) = rnd (B2R a * B2R b) /\ is_finite (Bmult mode_NE a b) = true.
Proof.
  intros Fa Fb H. pose proof (Bmult_correct prec64 emax64 _ _ mode_NE a b) as K. simpl round_mode in K.
  rewrite H in K. rewrite Fa, Fb in K. tauto.
Qed.
Lemma div_gen (a b : f64) : is_finite a = true -> B2R b <> 0 ->
  Rlt_bool (Rabs (rnd (B2R a / B2R b))) (bpow radix2 emax64) = true ->
  B2R (Bdiv mode_NE a b) = rnd (B2R a / B2R b) /\ is_finite (Bdiv mode_NE a b) = true.
Proof.
  intros Fa Hb H. pose proof (Bdiv_correct prec64 emax64 _ _ mode_NE a b Hb) as K. simpl round_mode in K.
  rewrite H, Fa in K. tauto.
Qed.
Lemma of_Z_correct n : (Z.abs n < 2 ^ 53)%Z -> B2R (f64_of_Z n) = IZR n /\ is_finite (f64_of_Z n) = true.
Proof.
  intro N. unfold f64_of_Z.
  pose proof (binary_normalize_correct prec64 emax64 Hprec64 Hemax64 mode_NE n 0 false) as K. cbv zeta in K. simpl round_mode in K.
  assert (E : F2R (Float radix2 n 0) = IZR n) by (unfold F2R; simpl; ring). rewrite E in K.
  assert (F : fmt (IZR n)). { replace (IZR n) with (IZR n * bpow radix2 0) by (simpl; ring). apply fmt_int; lia. }
  assert (RI : round radix2 fe64 (round_mode mode_NE) (IZR n) = IZR n) by exact (rnd_id _ F).
  simpl round_mode in RI. rewrite RI in K. rewrite Rlt_bool_true in K. { tauto. }
  rewrite <- abs_IZR. apply Rlt_le_trans with (IZR (2 ^ 53)); [now apply IZR_lt|].
  change (IZR (2 ^ 53)) with (IZR (Zpower radix2 53)). rewrite IZR_Zpower by lia. apply bpow_le. unfold emax64; lia.
Qed.
Lemma int_correct n : (Z.abs n < 2 ^ 53)%Z -> B2R (f64_lit n 1) = IZR n /\ is_finite (f64_lit n 1) = true.
Proof.
  intro N. destruct (of_Z_correct n N) as [A B]. destruct (of_Z_correct 1 ltac:(lia)) as [C D].
  unfold f64_lit. assert (F : fmt (IZR n)). { rewrite <- A. apply fmt_B2R. }
  destruct (div_gen (f64_of_Z n) (f64_of_Z 1)) as [E G]; auto.
  - rewrite C. lra.
  - apply (finite_between (f64_of_Z n) (f64_of_Z n)); auto. rewrite A, C. lra.
  - split; auto. rewrite E, A, C. replace (IZR n / 1) with (IZR n) by lra. now apply rnd_id.
Qed.
