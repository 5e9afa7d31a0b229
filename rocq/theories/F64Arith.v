(** Rounded arithmetic on small binary64 values. *)
From Coq Require Import ZArith Reals Bool Lra Lia Psatz.
From Flocq Require Import Core BinarySingleNaN.
From Verif Require Import Base Op XR XRFacts F64 F64Facts.
Local Open Scope R_scope.

Notation fe64 := (SpecFloat.fexp prec64 emax64).
Notation rnd x := (round radix2 fe64 ZnearestE x).
Notation fmt x := (generic_format radix2 fe64 x).

#[global] Instance fe64_valid : Valid_exp fe64 := fexp_correct prec64 emax64 Hprec64.
#[global] Instance fe64_mono : Monotone_exp fe64 := fexp_monotone prec64 emax64.

Lemma fmt_B2R (x : f64) : fmt (B2R x).
Proof. apply generic_format_B2R. Qed.
Lemma rnd_mono x y : x <= y -> rnd x <= rnd y.
Proof. intros; apply round_le; auto with typeclass_instances. Qed.
Lemma rnd_id x : fmt x -> rnd x = x.
Proof. intros; apply round_generic; auto with typeclass_instances. Qed.
Lemma fmt_bpow e : (-1074 <= e <= 900)%Z -> fmt (bpow radix2 e).
Proof. intros. apply generic_format_bpow. unfold SpecFloat.fexp, SpecFloat.emin, prec64, emax64. lia. Qed.
Lemma fmt_0 : fmt 0. Proof. apply generic_format_0. Qed.
Lemma fmt_1 : fmt 1. Proof. apply (fmt_bpow 0); lia. Qed.
Lemma fmt_2 : fmt 2. Proof. apply (fmt_bpow 1); lia. Qed.
Lemma fmt_4 : fmt 4. Proof. apply (fmt_bpow 2); lia. Qed.
Lemma fmt_half : fmt (1/2).
Proof. replace (1/2) with (bpow radix2 (-1)) by (simpl; lra). apply fmt_bpow; lia. Qed.
Lemma fmt_opp x : fmt x -> fmt (- x). Proof. apply generic_format_opp. Qed.
Lemma rnd_0 : rnd 0 = 0. Proof. apply round_0; auto with typeclass_instances. Qed.

(** rounding between representable bounds *)
Lemma rnd_between lo hi x : fmt lo -> fmt hi -> lo <= x <= hi -> lo <= rnd x <= hi.
Proof.
  intros Hl Hh [H1 H2]. split.
  - rewrite <- (rnd_id lo Hl). apply rnd_mono; auto.
  - rewrite <- (rnd_id hi Hh). apply rnd_mono; auto.
Qed.
Lemma rnd_no_overflow x : -4 <= x <= 4 -> Rlt_bool (Rabs (rnd x)) (bpow radix2 emax64) = true.
Proof.
  intros H. apply Rlt_bool_true.
  assert (-4 <= rnd x <= 4) by (apply rnd_between; [exact (fmt_opp 4 fmt_4)|exact fmt_4|exact H]).
  apply Rle_lt_trans with 4.
  - apply Rabs_le; lra. 
  - change 4 with (bpow radix2 2). apply bpow_lt. unfold emax64; lia.
Qed.

Definition small (x : f64) : Prop := is_finite x = true /\ -2 <= B2R x <= 2.
(** a truth degree in binary64: a finite value in [0,1] (either zero) *)
Definition fdegree (x : f64) : Prop := is_finite x = true /\ 0 <= B2R x <= 1.

Lemma plus_ok (a b : f64) : is_finite a = true -> is_finite b = true -> -4 <= B2R a + B2R b <= 4 ->
  B2R (Bplus mode_NE a b) = rnd (B2R a + B2R b) /\ is_finite (Bplus mode_NE a b) = true.
Proof.
  intros Fa Fb H. pose proof (Bplus_correct prec64 emax64 _ _ mode_NE a b Fa Fb) as K. simpl round_mode in K.
  rewrite rnd_no_overflow in K by auto. tauto.
Qed.
Lemma minus_ok (a b : f64) : is_finite a = true -> is_finite b = true -> -4 <= B2R a - B2R b <= 4 ->
  B2R (Bminus mode_NE a b) = rnd (B2R a - B2R b) /\ is_finite (Bminus mode_NE a b) = true.
Proof.
  intros Fa Fb H. pose proof (Bminus_correct prec64 emax64 _ _ mode_NE a b Fa Fb) as K. simpl round_mode in K.
  rewrite rnd_no_overflow in K by auto. tauto.
Qed.
Lemma mult_ok (a b : f64) : is_finite a = true -> is_finite b = true -> -4 <= B2R a * B2R b <= 4 ->
  B2R (Bmult mode_NE a b) = rnd (B2R a * B2R b) /\ is_finite (Bmult mode_NE a b) = true.
Proof.
  intros Fa Fb H. pose proof (Bmult_correct prec64 emax64 _ _ mode_NE a b) as K. simpl round_mode in K.
  rewrite rnd_no_overflow in K by auto. rewrite Fa, Fb in K. tauto.
Qed.
Lemma div_ok (a b : f64) : is_finite a = true -> B2R b <> 0 -> -4 <= B2R a / B2R b <= 4 ->
  B2R (Bdiv mode_NE a b) = rnd (B2R a / B2R b) /\ is_finite (Bdiv mode_NE a b) = true.
Proof.
  intros Fa Hb H. pose proof (Bdiv_correct prec64 emax64 _ _ mode_NE a b Hb) as K. simpl round_mode in K.
  rewrite rnd_no_overflow in K by auto. rewrite Fa in K. tauto.
Qed.
Lemma sqrt_ok (a : f64) : is_finite a = true -> Bsign a = false ->
  B2R (Bsqrt mode_NE a) = rnd (sqrt (B2R a)) /\ is_finite (Bsqrt mode_NE a) = true.
Proof.
  intros Fa Sa. pose proof (Bsqrt_correct prec64 emax64 _ _ mode_NE a) as K. simpl round_mode in K.
  destruct K as (K1 & K2 & _). split; auto. rewrite K2.
  destruct a as [s|s| |[|] m e H]; simpl in *; auto; discriminate.
Qed.
Lemma sqrt_ok0 (a : f64) : is_finite a = true -> 0 <= B2R a ->
  B2R (Bsqrt mode_NE a) = rnd (sqrt (B2R a)) /\ is_finite (Bsqrt mode_NE a) = true.
Proof.
  intros Fa Sa. pose proof (Bsqrt_correct prec64 emax64 _ _ mode_NE a) as K. simpl round_mode in K.
  destruct K as (K1 & K2 & _). split; auto. rewrite K2.
  destruct a as [s|s| |[|] m e H]; simpl in *; auto; try discriminate.
  exfalso. revert Sa. apply Rlt_not_le. apply F2R_lt_0. simpl. lia.
Qed.

(** literals *)
Lemma f64_1_correct : B2R (f64_lit 1 1) = 1 /\ is_finite (f64_lit 1 1) = true.
Proof.
  split; [|reflexivity].
  assert (E : B2SF (f64_lit 1 1) = B2SF (Bone : f64)) by (vm_compute; reflexivity).
  apply B2SF_inj in E. rewrite E. apply Bone_correct.
Qed.
Lemma f64_0_correct : B2R (f64_lit 0 1) = 0 /\ is_finite (f64_lit 0 1) = true.
Proof. split; reflexivity. Qed.
Lemma f64_2_correct : B2R (f64_lit 2 1) = 2 /\ is_finite (f64_lit 2 1) = true.
Proof.
  split; [|reflexivity].
  assert (E : B2SF (f64_lit 2 1) = SpecFloat.S754_finite false 4503599627370496 (-51)) by (vm_compute; reflexivity).
  rewrite <- SF2R_B2SF, E. simpl. unfold F2R. simpl. lra.
Qed.
Lemma f64_half_correct : B2R (f64_lit 1 2) = 1/2 /\ is_finite (f64_lit 1 2) = true.
Proof.
  split; [|reflexivity].
  assert (E : B2SF (f64_lit 1 2) = SpecFloat.S754_finite false 4503599627370496 (-53)) by (vm_compute; reflexivity).
  rewrite <- SF2R_B2SF, E. simpl. unfold F2R. simpl. lra.
Qed.

(** a + b - 1 is representable for degrees with a + b >= 1 *)
Lemma fmt_mult x : fmt x -> exists m, x = IZR m * bpow radix2 (cexp radix2 fe64 x).
Proof. intros H. eexists. exact H. Qed.

Lemma cexp_ge_half a : 1/2 <= a -> (-53 <= cexp radix2 fe64 a)%Z.
Proof.
  intros H. unfold cexp, SpecFloat.fexp, SpecFloat.emin, prec64, emax64.
  assert (0 <= mag radix2 a)%Z; [|lia].
  apply mag_ge_bpow. rewrite Rabs_pos_eq by lra. simpl. lra.
Qed.
Lemma cexp_lt_1 b : 0 < b < 1 -> (cexp radix2 fe64 b <= -53)%Z /\ (-1074 <= cexp radix2 fe64 b)%Z.
Proof.
  intros H. unfold cexp, SpecFloat.fexp, SpecFloat.emin, prec64, emax64.
  assert (mag radix2 b <= 0)%Z; [|lia].
  apply mag_le_bpow; [lra|]. rewrite Rabs_pos_eq by lra. simpl. lra.
Qed.
Lemma bpow_split e e' : (e' <= e)%Z -> exists k, bpow radix2 e = IZR k * bpow radix2 e'.
Proof.
  intros H. exists (2 ^ (e - e'))%Z. change 2%Z with (radix_val radix2). rewrite IZR_Zpower by lia.
  rewrite <- bpow_plus. f_equal. lia.
Qed.

Lemma fmt_sum_minus_1_aux a b : fmt a -> fmt b -> 0 <= b <= a -> a <= 1 -> 1 <= a + b -> fmt (a + b - 1).
Proof.
  intros Fa Fb Hba Ha H.
  destruct (Req_dec b 1) as [->|Hb1].
  { replace (a + 1 - 1) with a by ring. auto. }
  destruct (Req_dec b 0) as [->|Hb0].
  { replace (a + 0 - 1) with 0 by lra. apply fmt_0. }
  destruct (cexp_lt_1 b) as [Ce1 Ce2]; [lra|].
  set (e := cexp radix2 fe64 b) in *.
  destruct (fmt_mult b Fb) as [mb Eb]. fold e in Eb.
  destruct (fmt_mult a Fa) as [ma Ea].
  destruct (bpow_split (cexp radix2 fe64 a) e) as [k1 K1].
  { pose proof (cexp_ge_half a ltac:(lra)). lia. }
  destruct (bpow_split 0 e) as [k2 K2]; [lia|]. simpl in K2.
  assert (E : a + b - 1 = IZR (ma * k1 + mb - k2) * bpow radix2 e).
  { rewrite minus_IZR, plus_IZR, mult_IZR. rewrite Ea, K1. rewrite Eb at 1. rewrite K2 at 1. ring. }
  pose proof (bpow_gt_0 radix2 e) as Pe.
  assert (0 <= ma * k1 + mb - k2 <= mb)%Z.
  { split; apply le_IZR; apply Rmult_le_reg_r with (bpow radix2 e); auto; rewrite <- E.
    - lra.
    - rewrite <- Eb. lra. }
  assert (mb < 2 ^ 53)%Z.
  { apply lt_IZR. apply Rmult_lt_reg_r with (bpow radix2 e); auto. rewrite <- Eb.
    change (2^53)%Z with (radix2 ^ 53)%Z. rewrite IZR_Zpower by lia. rewrite <- bpow_plus.
    unfold e, cexp.
    apply Rlt_le_trans with (bpow radix2 (mag radix2 b)).
    - rewrite <- (Rabs_pos_eq b) at 1 by lra. apply bpow_mag_gt.
    - apply bpow_le. unfold SpecFloat.fexp, prec64. lia. }
  rewrite E. apply generic_format_FLT.
  exists (Float radix2 (ma * k1 + mb - k2) e); auto.
  change (Z.abs (ma * k1 + mb - k2) < 2 ^ 53)%Z. rewrite Z.abs_eq by lia. lia.
Qed.
Lemma fmt_sum_minus_1 a b : fmt a -> fmt b -> 0 <= a <= 1 -> 0 <= b <= 1 -> 1 <= a + b -> fmt (a + b - 1).
Proof.
  intros Fa Fb Ha Hb H. destruct (Rle_dec b a).
  - apply fmt_sum_minus_1_aux; auto; lra.
  - rewrite (Rplus_comm a b). apply fmt_sum_minus_1_aux; auto; lra.
Qed.

(** rounding error of a sum in [1,2] *)
Lemma rnd_err_2 x : 1 <= x <= 2 -> rnd x <= x + bpow radix2 (-53).
Proof.
  intros H. destruct (Req_dec x 2) as [->|H2].
  { rewrite rnd_id by apply fmt_2. pose proof (bpow_gt_0 radix2 (-53)). lra. }
  pose proof (error_le_half_ulp radix2 fe64 (fun z => negb (Z.even z)) x) as K.
  assert (U : ulp radix2 fe64 x = 2 * bpow radix2 (-53)).
  { rewrite ulp_neq_0 by lra.
    assert (M : mag radix2 x = 1%Z :> Z).
    { apply mag_unique. rewrite Rabs_pos_eq by lra. simpl. lra. }
    unfold cexp. rewrite M. simpl. lra. }
  rewrite U in K. apply Rabs_le_inv in K. lra.
Qed.

Lemma rnd_tie_1 : rnd (1 + bpow radix2 (-53)) = 1.
Proof.
  set (t := SF2B (prec:=prec64) (emax:=emax64) (SpecFloat.S754_finite false 4503599627370496 (-105)) eq_refl).
  assert (Rt : B2R t = bpow radix2 (-53)).
  { unfold t. rewrite B2R_SF2B. unfold SF2R, F2R. simpl. lra. }
  assert (Ft : is_finite t = true) by reflexivity.
  pose proof f64_1_correct as [R1 F1].
  assert (S : -4 <= B2R (f64_lit 1 1) + B2R t <= 4).
  { rewrite R1, Rt. simpl. lra. }
  destruct (plus_ok _ _ F1 Ft S) as [K _]. rewrite R1, Rt in K. rewrite <- K.
  assert (E : B2SF (Bplus mode_NE (f64_lit 1 1) t) = B2SF (f64_lit 1 1)) by (vm_compute; reflexivity).
  apply B2SF_inj in E. rewrite E. exact R1.
Qed.
