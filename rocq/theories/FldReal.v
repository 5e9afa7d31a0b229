(** Grid points and grid sizes, in the reals and in binary64. *)
From Coq Require Import ZArith Reals Bool List Lra Lia Psatz.
From Flocq Require Import Core BinarySingleNaN.
From Verif Require Import Base Op XR XRFacts F64 F64Facts F64Arith F64Err Grid.
Import ListNotations.
Local Open Scope R_scope.

Section Real.
Context (P : xparam).
#[local] Hint Extern 0 (Scalar xr) => exact (XRScalar P) : typeclass_instances.

Lemma point_value lo hi r k : grid_point (XFin lo) (XFin hi) r k = XFin (lo + IZR k * (hi - lo) / IZR (Z.max 1 r)).
Proof.
  unfold grid_point. rewrite !x_int. cbn. destruct (Req_EM_T _ _) as [E|E]; [|reflexivity]. apply eq_IZR in E. lia.
Qed.
Lemma point_real lo hi r k : lo <= hi -> (0 <= k <= Z.max 0 r)%Z ->
  exists x, grid_point (XFin lo) (XFin hi) r k = XFin x /\ lo <= x <= hi /\ (k = 0%Z -> x = lo) /\ ((0 < r)%Z -> k = r -> x = hi) /\
    ((0 <= k + 1 <= r)%Z -> grid_point (XFin lo) (XFin hi) r (k + 1) = XFin (x + (hi - lo) / IZR r)).
Proof.
  intros L K. eexists. split; [apply point_value|].
  assert (0 < IZR (Z.max 1 r)) as Pm by (apply (IZR_lt 0); lia).
  assert (0 <= IZR k) by (apply (IZR_le 0); lia).
  assert (r = 0 \/ r < 0 \/ 0 < r)%Z as Hr by lia.
  split.
  - assert (0 <= IZR k / IZR (Z.max 1 r) <= 1) as [A1 A2].
    { split; [apply Rmult_le_pos; [assumption|left; apply Rinv_0_lt_compat; assumption]|]. apply Rmult_le_reg_r with (IZR (Z.max 1 r)); [assumption|].
      unfold Rdiv. rewrite Rmult_assoc, Rinv_l, Rmult_1_r, Rmult_1_l by lra. apply IZR_le. lia. }
    replace (IZR k * (hi - lo) / IZR (Z.max 1 r)) with (IZR k / IZR (Z.max 1 r) * (hi - lo)) by (field; lra).
    split; [|]; nra.
  - split; [intros ->; field; lra|]. split.
    + intros R0 ->. replace (Z.max 1 r) with r by lia. field. apply not_0_IZR. lia.
    + intros Hk. etransitivity; [apply point_value|]. f_equal. replace (Z.max 1 r) with r by lia. rewrite plus_IZR. field. apply not_0_IZR. lia.
Qed.

(** the number of values per variable is the largest one which does not exceed the number of values asked for *)
Lemma root_floor v n : (1 <= v)%Z -> (0 < n)%nat -> let k := Int_part (Rpower (IZR v) (1 / INR n)) in
  (1 <= k <= v)%Z /\ (k ^ Z.of_nat n <= v < (k + 1) ^ Z.of_nat n)%Z.
Proof.
  intros Hv Hn k. set (r := Rpower (IZR v) (1 / INR n)) in *.
  assert (0 < IZR v) as V0 by (apply (IZR_lt 0); lia). assert (1 <= IZR v) as V1 by (apply (IZR_le 1); lia).
  assert (0 < INR n) as N0 by (apply lt_0_INR; lia). assert (1 <= INR n) as N1 by (change 1 with (INR 1); apply le_INR; lia).
  assert (0 < r) as R0 by apply exp_pos.
  assert (r ^ n = IZR v) as Rn. { rewrite <- Rpower_pow by assumption. unfold r. rewrite Rpower_mult. replace (1 / INR n * INR n) with 1 by (field; lra). apply Rpower_1. assumption. }
  assert (1 <= r) as R1.
  { unfold r. rewrite <- (Rpower_O (IZR v)) at 1 by assumption. apply Rle_Rpower; [assumption|]. apply Rmult_le_pos; [lra|left; apply Rinv_0_lt_compat; assumption]. }
  assert (r <= IZR v) as R2.
  { unfold r. apply Rle_trans with (Rpower (IZR v) 1); [|right; apply Rpower_1; assumption]. apply Rle_Rpower; [assumption|]. apply Rmult_le_reg_r with (INR n); [assumption|].
    unfold Rdiv. rewrite Rmult_assoc, Rinv_l by lra. lra. }
  destruct (base_Int_part r) as [B1 B2]. fold k in B1, B2.
  assert (1 <= k)%Z as K1 by (assert (0 < k)%Z by (apply lt_IZR; lra); lia).
  split.
  - split; [exact K1|]. apply le_IZR. lra.
  - assert (forall m : Z, IZR (m ^ Z.of_nat n) = IZR m ^ n) as Pw by (intro m; rewrite <- pow_IZR; reflexivity).
    split.
    + apply le_IZR. rewrite Pw, <- Rn. apply pow_incr. split; [apply (IZR_le 0); lia|exact B1].
    + apply lt_IZR. rewrite Pw, <- Rn. rewrite plus_IZR.
      assert (forall m, (0 < m)%nat -> r ^ m < (IZR k + 1) ^ m) as Hp.
      { induction m as [|m IH]; [lia|]. intros _. destruct m; [simpl; lra|].
        change (r * r ^ (Datatypes.S m) < (IZR k + 1) * (IZR k + 1) ^ (Datatypes.S m)).
        apply Rmult_gt_0_lt_compat; [apply pow_lt; lra|lra|lra|apply IH; lia]. }
      apply Hp, Hn.
Qed.
Lemma resolution_real v n : (1 <= v <= 2147483647)%Z -> (0 < n)%nat -> exists k, @resolution_for xr (XRScalar P) v AllVariables n = Ok (k - 1)%Z /\
  (1 <= k)%Z /\ (k ^ Z.of_nat n <= v < (k + 1) ^ Z.of_nat n)%Z.
Proof.
  intros Hv Hn. destruct (root_floor v n ltac:(lia) Hn) as [K1 K2]. set (k := Int_part (Rpower (IZR v) (1 / INR n))) in *.
  exists k. split; [|split; [lia|exact K2]].
  assert (0 < IZR v) as V0 by (apply (IZR_lt 0); lia).
  assert (0 < INR n) as N0 by (apply lt_0_INR; lia).
  unfold resolution_for.
  replace (s_fn2 LPow (s_int v) (s_1 / s_int (Z.of_nat n))%S : xr) with (XFin (Rpower (IZR v) (1 / INR n))).
  2:{ rewrite !x_int, x_1. rewrite <- INR_IZR_INZ. change ((XFin 1 / XFin (INR n))%S : xr) with (xdiv (XFin 1) (XFin (INR n))). rewrite x_div by lra.
      cbn. rewrite Reqb_false by (apply Rgt_not_eq; apply Rmult_lt_0_compat; [lra|apply Rinv_0_lt_compat; assumption]). rewrite Rltb_true by assumption. reflexivity. }
  set (r := Rpower (IZR v) (1 / INR n)) in *.
  assert (s_trunc (std_max s_1 (XFin r) : xr) = Some k) as ->; [|f_equal; lia].
  destruct (base_Int_part r) as [B1 B2]. fold k in B1, B2. assert (1 <= IZR k) by (apply (IZR_le 1); lia).
  unfold std_max. rewrite x_1. cbn. destruct (Rltb_spec 1 r) as [H1|H1].
  - cbn. unfold Rtrunc. rewrite Rltb_false by lra. fold k. rewrite (proj2 (Z.leb_le _ _)) by lia. rewrite (proj2 (Z.leb_le _ _)) by lia. reflexivity.
  - assert (r = 1) as E by lra. cbn. unfold Rtrunc. rewrite Rltb_false by lra. rewrite <- E. fold k.
    rewrite (proj2 (Z.leb_le _ _)) by lia. rewrite (proj2 (Z.leb_le _ _)) by lia. reflexivity.
Qed.
(** without input variables the exponent is infinite and the conversion to int is undefined *)
Lemma resolution_empty v : (1 < v)%Z -> @resolution_for xr (XRScalar P) v AllVariables 0 = UB.
Proof.
  intros Hv. unfold resolution_for.
  replace (s_fn2 LPow (s_int v) (s_1 / s_int (Z.of_nat 0))%S : xr) with XPInf; [reflexivity|].
  rewrite !x_int, x_1. assert (1 < IZR v) by (apply (IZR_lt 1); lia).
  change ((XFin 1 / XFin (IZR (Z.of_nat 0)))%S : xr) with (xdiv (XFin 1) (XFin 0)). rewrite x_div0. unfold xinf_div, xinf_mul. rewrite Rltb_true by lra.
  cbn. rewrite Rabs_pos_eq by lra. rewrite Reqb_false by lra. rewrite Rltb_false by lra. reflexivity.
Qed.
End Real.

Section Float.
Context (P : fparam).
#[local] Hint Extern 0 (Scalar f64) => exact (F64Scalar P) : typeclass_instances.
Lemma leb_B2R (a b : f64) : is_finite a = true -> is_finite b = true -> B2R a <= B2R b -> Bleb a b = true.
Proof. intros A B L. rewrite f_leb, !f2x_finite by assumption. cbn. apply Rleb_true. exact L. Qed.
Lemma rnd_pos x : 0 <= x -> 0 <= rnd x.
Proof. intros H. rewrite <- rnd_0. now apply rnd_mono. Qed.
(** the points do not decrease and none is below the minimum *)
Lemma point_f64 (lo hi : f64) r j k : is_finite lo = true -> (0 <= j <= k)%Z -> (k <= r)%Z -> (1 <= r < 2 ^ 53)%Z ->
  is_finite (hi - lo)%S = true -> 0 <= B2R (hi - lo)%S -> is_finite (s_int r * (hi - lo))%S = true -> is_finite (grid_point lo hi r r) = true ->
  (lo <=? grid_point lo hi r j)%S = true /\ (grid_point lo hi r j <=? grid_point lo hi r k)%S = true.
Proof.
  intros Fl J K Hr Fd D Fp Ft. change ((hi - lo)%S : f64) with (Bminus mode_NE hi lo) in *.
  set (d := Bminus mode_NE hi lo) in *.
  assert (forall i, (0 <= i <= r)%Z -> B2R (f64_lit i 1) = IZR i /\ is_finite (f64_lit i 1) = true) as I by (intros; apply int_correct; lia).
  destruct (I r ltac:(lia)) as [Ir Fr].
  assert (0 < IZR r) as R0 by (apply (IZR_lt 0); lia).
  assert (Bmult_r : B2R (Bmult mode_NE (f64_lit r 1) d) = rnd (IZR r * B2R d)).
  { pose proof (Bmult_correct prec64 emax64 _ _ mode_NE (f64_lit r 1) d) as Km. simpl round_mode in Km. rewrite Ir in Km.
    destruct (Rlt_bool _ _); [tauto|]. change (is_finite (Bmult mode_NE (f64_lit r 1) d) = true) in Fp.
    rewrite <- is_finite_SF_B2SF in Fp. rewrite Km in Fp. discriminate. }
  set (z := f64_lit 0 1). destruct (I 0%Z ltac:(lia)) as [Iz Fz]. fold z in Iz, Fz.
  assert (Pm : forall i, (0 <= i <= r)%Z -> B2R (Bmult mode_NE (f64_lit i 1) d) = rnd (IZR i * B2R d) /\ is_finite (Bmult mode_NE (f64_lit i 1) d) = true).
  { intros i Hi. destruct (I i Hi) as [Ii Fi]. rewrite <- Ii. apply mult_gen; [assumption|assumption|].
    assert (0 <= IZR i <= IZR r) as Li by (split; [apply (IZR_le 0)|apply IZR_le]; lia).
    assert (Q := rnd_mono (IZR i * B2R d) (IZR r * B2R d) ltac:(nra)).
    assert (Q0 := rnd_mono 0 (IZR i * B2R d) ltac:(nra)). rewrite rnd_0 in Q0. rewrite Ii.
    apply Rlt_bool_true. rewrite Rabs_pos_eq by assumption. eapply Rle_lt_trans; [exact Q|]. rewrite <- Bmult_r.
    eapply Rle_lt_trans; [apply Rle_abs|]. apply abs_B2R_lt_emax. }
  set (prod i := Bmult mode_NE (f64_lit i 1) d). set (quot i := Bdiv mode_NE (prod i) (f64_lit r 1)).
  assert (Ep : forall i, grid_point lo hi r i = Bplus mode_NE lo (quot i)).
  { intros i. unfold grid_point. rewrite Z.max_r by lia. reflexivity. }
  assert (0 <= B2R (prod r)) as Pr0.
  { unfold prod. rewrite Bmult_r. apply rnd_pos. nra. }
  (* quotients *)
  assert (Qm : forall i, (0 <= i <= r)%Z -> B2R (quot i) = rnd (B2R (prod i) / IZR r) /\ is_finite (quot i) = true /\ 0 <= B2R (prod i) <= B2R (prod r)).
  { intros i Hi. destruct (Pm i Hi) as [M1 M2]. fold (prod i) in M1, M2.
    assert (0 <= IZR i <= IZR r) as Li by (split; [apply (IZR_le 0)|apply IZR_le]; lia).
    assert (0 <= B2R (prod i)) by (rewrite M1; apply rnd_pos; nra).
    assert (B2R (prod i) <= B2R (prod r)) by (rewrite M1; unfold prod at 1; rewrite Bmult_r; apply rnd_mono; nra).
    assert (0 <= B2R (prod i) / IZR r <= B2R (prod i)) as Dv.
    { assert (0 < / IZR r <= 1) as [U1 U2]. { split; [apply Rinv_0_lt_compat; assumption|]. rewrite <- Rinv_1. apply Rinv_le_contravar; [lra|]. apply (IZR_le 1); lia. }
      unfold Rdiv. split; nra. }
    destruct (div_gen (prod i) (f64_lit r 1) M2) as [G1 G2]; [rewrite Ir; lra| |].
    - rewrite Ir. apply (finite_between z (prod i)); [assumption|assumption|]. rewrite Iz. exact Dv.
    - fold (quot i) in G1, G2. rewrite Ir in G1. auto. }
  destruct (Qm r ltac:(lia)) as (Qr1 & Qr2 & _).
  assert (Sr : B2R (Bplus mode_NE lo (quot r)) = rnd (B2R lo + B2R (quot r))).
  { rewrite Ep in Ft. pose proof (Bplus_correct prec64 emax64 _ _ mode_NE lo (quot r) Fl Qr2) as Km. simpl round_mode in Km.
    destruct (Rlt_bool _ _); [tauto|]. rewrite <- is_finite_SF_B2SF in Ft. rewrite (proj1 Km) in Ft. discriminate. }
  rewrite Ep in Ft.
  assert (Sm : forall i, (0 <= i <= r)%Z -> 0 <= B2R (quot i) <= B2R (quot r) /\ B2R (Bplus mode_NE lo (quot i)) = rnd (B2R lo + B2R (quot i)) /\ is_finite (Bplus mode_NE lo (quot i)) = true).
  { intros i Hi. destruct (Qm i Hi) as (q1 & q2 & q3).
    assert (0 <= / IZR r) by (left; apply Rinv_0_lt_compat; assumption).
    assert (0 <= B2R (quot i)). { rewrite q1. apply rnd_pos. unfold Rdiv. nra. }
    assert (B2R (quot i) <= B2R (quot r)). { rewrite q1, Qr1. apply rnd_mono. unfold Rdiv. nra. }
    split; [auto|]. apply plus_gen; [assumption|assumption|].
    apply Rlt_bool_true.
    assert (A1 := rnd_mono (B2R lo) (B2R lo + B2R (quot i)) ltac:(lra)). rewrite (rnd_id _ (fmt_B2R lo)) in A1.
    assert (A2 := rnd_mono (B2R lo + B2R (quot i)) (B2R lo + B2R (quot r)) ltac:(lra)). rewrite <- Sr in A2.
    assert (B1 := abs_B2R_lt_emax prec64 emax64 lo). assert (B2 := abs_B2R_lt_emax prec64 emax64 (Bplus mode_NE lo (quot r))).
    unfold Rabs in *. repeat destruct Rcase_abs; lra. }
  rewrite !Ep. destruct (Sm j ltac:(lia)) as (s1 & s2 & s3). destruct (Sm k ltac:(lia)) as (t1 & t2 & t3).
  split; apply leb_B2R; try assumption.
  - rewrite s2. rewrite <- (rnd_id _ (fmt_B2R lo)) at 1. apply rnd_mono. lra.
  - rewrite s2, t2. apply rnd_mono. apply Rplus_le_compat_l.
    destruct (Qm j ltac:(lia)) as (q1 & _). destruct (Qm k ltac:(lia)) as (q2 & _). rewrite q1, q2. apply rnd_mono.
    unfold Rdiv. apply Rmult_le_compat_r; [left; apply Rinv_0_lt_compat; assumption|].
    destruct (Pm j ltac:(lia)) as [m1 _]. destruct (Pm k ltac:(lia)) as [m2 _]. unfold prod. rewrite m1, m2. apply rnd_mono.
    apply Rmult_le_compat_r; [assumption|]. apply IZR_le. lia.
Qed.

(** *** 1000 values for three variables *)
Definition below_ten : R := IZR 5629499534213119 * bpow radix2 (-49).
Lemma ulp_ten x : 8 <= x < 16 -> ulp radix2 fe64 x = bpow radix2 (-49).
Proof.
  intros H. rewrite ulp_neq_0 by lra. unfold cexp. rewrite (mag_unique radix2 x 4); [reflexivity|].
  rewrite Rabs_pos_eq by lra. simpl. lra.
Qed.
Lemma b49 : bpow radix2 (-49) = / 562949953421312.
Proof. simpl. f_equal. Qed.
Lemma below_value : below_ten = 10 - / 562949953421312.
Proof. unfold below_ten. rewrite b49. lra. Qed.
Lemma rnd_below x : 10 - 3 / 2 * / 562949953421312 < x < 10 - / 2 * / 562949953421312 -> rnd x = below_ten.
Proof.
  intros H. pose proof below_value as V.
  assert (F0 : fmt (below_ten - bpow radix2 (-49))).
  { replace (below_ten - bpow radix2 (-49)) with (IZR 5629499534213118 * bpow radix2 (-49)) by (unfold below_ten; rewrite b49; lra). apply fmt_int; lia. }
  assert (F1 : fmt below_ten) by (apply fmt_int; lia).
  assert (S1 : succ radix2 fe64 below_ten = 10).
  { rewrite succ_eq_pos by lra. rewrite ulp_ten by lra. rewrite b49. lra. }
  assert (S0 : succ radix2 fe64 (below_ten - bpow radix2 (-49)) = below_ten).
  { rewrite b49 in *. rewrite succ_eq_pos by lra. rewrite ulp_ten by lra. rewrite b49. lra. }
  apply Rle_antisym.
  - apply round_N_le_midp; [apply fexp_correct; reflexivity|assumption|]. rewrite S1. lra.
  - apply round_N_ge_midp; [apply fexp_correct; reflexivity|assumption|]. rewrite <- S0 at 2. rewrite pred_succ; [|apply fexp_correct; reflexivity|exact F0].
    rewrite b49. lra.
Qed.
Lemma ln_10_bounds : 17 / 10 < ln 10 < 4.
Proof.
  split.
  - rewrite <- (ln_exp (17/10)). apply ln_increasing; [apply exp_pos|].
    destruct (Rlt_le_dec (exp (17/10)) 10) as [|Hge]; [assumption|exfalso].
    assert (exp (17/10) ^ 10 = exp 1 ^ 17) as E. { simpl. rewrite !Rmult_1_r, <- !exp_plus. f_equal. lra. }
    assert (10 ^ 10 <= exp (17/10) ^ 10) as A by (apply pow_incr; lra).
    assert (exp 1 ^ 17 <= 3 ^ 17) as B by (apply pow_incr; split; [left; apply exp_pos|apply exp_le_3]). lra.
  - apply Rlt_trans with (ln 16); [apply ln_increasing; lra|]. replace 16 with (2 ^ 4) by lra. rewrite ln_pow by lra.
    assert (ln 2 < 1) as L. { rewrite <- (ln_exp 1). apply ln_increasing; [lra|]. assert (H := exp_ineq1 1). lra. }
    simpl INR. lra.
Qed.
Lemma power_1000 : let y := 6004799503160661 / 18014398509481984 in
  10 - 3 / 2 * / 562949953421312 < Rpower 1000 y < 10 - / 2 * / 562949953421312.
Proof.
  intros y. destruct ln_10_bounds as [L1 L2]. set (t := ln 10 / 18014398509481984).
  assert (Rpower 1000 y = 10 * exp (- t)) as ->.
  { unfold Rpower. replace (10 * exp (- t)) with (exp (ln 10) * exp (- t)) by (rewrite (exp_ln 10) by lra; reflexivity). rewrite <- exp_plus. f_equal.
    replace 1000 with (10 ^ 3) by lra. rewrite ln_pow by lra. simpl INR. unfold t, y. lra. }
  assert (0 < t < / 4503599627370496) as [T0 T1] by (unfold t; lra).
  assert (17 / 10 / 18014398509481984 < t < 4 / 18014398509481984) as [T2 T3] by (unfold t; lra).
  assert (1 - t < exp (- t)) as E1. { assert (H := exp_ineq1 (- t) ltac:(lra)). lra. }
  (* exp (-t) = 1 / exp t < 1 / (1 + t) *)
  assert (exp (- t) < / (1 + t)) as E2.
  { rewrite exp_Ropp. apply Rinv_lt_contravar; [apply Rmult_lt_0_compat; [lra|apply exp_pos]|apply exp_ineq1; lra]. }
  assert (/ (1 + t) < 1 - t + t * t) as E3.
  { apply Rmult_lt_reg_l with (1 + t); [lra|]. rewrite Rinv_r by lra. nra. }
  split; [lra|]. assert (t * t < t * / 4503599627370496) by (apply Rmult_lt_compat_l; lra). lra.
Qed.
Lemma third_value : B2R ((s_1 : f64) / s_int 3)%S = 6004799503160661 / 18014398509481984.
Proof.
  rewrite <- SF2R_B2SF. assert (B2SF ((s_1 : f64) / s_int 3)%S = SpecFloat.S754_finite false 6004799503160661 (-54)) as -> by (vm_compute; reflexivity).
  unfold SF2R, F2R. simpl. lra.
Qed.
Lemma thousand_value : B2R (s_int 1000 : f64) = 1000.
Proof. apply (int_correct 1000). lia. Qed.
Lemma cube_root_f64 : is_finite (fp_fn2 P LPow (s_int 1000) ((s_1 : f64) / s_int 3)%S) = true ->
  B2R (fp_fn2 P LPow (s_int 1000) ((s_1 : f64) / s_int 3)%S) = rnd (Rpower (B2R (s_int 1000 : f64)) (B2R ((s_1 : f64) / s_int 3)%S)) ->
  @resolution_for f64 (F64Scalar P) 1000 AllVariables 3 = Ok 8%Z.
Proof.
  intros F E. rewrite third_value, thousand_value, (rnd_below _ power_1000) in E.
  unfold resolution_for.
  change (s_fn2 LPow (s_int 1000) (s_1 / s_int (Z.of_nat 3))%S) with (fp_fn2 P LPow (s_int 1000) ((s_1 : f64) / s_int 3)%S).
  assert (fp_fn2 P LPow (s_int 1000) ((s_1 : f64) / s_int 3)%S = (@B754_finite prec64 emax64 false 5629499534213119 (-49) eq_refl)) as ->.
  { apply B2R_inj; [| |].
    - destruct (fp_fn2 P LPow (s_int 1000) ((s_1 : f64) / s_int 3)%S) as [?|?| |? ? ? ?]; try discriminate; [|reflexivity].
      exfalso. pose proof below_value. cbn in E. lra.
    - reflexivity.
    - etransitivity; [exact E|]. unfold B2R, SF2R, F2R, below_ten. cbn [Defs.Fnum Defs.Fexp cond_Zopp]. reflexivity. }
  vm_compute. reflexivity.
Qed.
End Float.
