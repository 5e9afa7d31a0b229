(** Membership functions made of straight lines in binary64: their distance from the documented formulas. *)
From Coq Require Import ZArith Reals Bool List Lra Lia.
From Flocq Require Import Core BinarySingleNaN.
From Verif Require Import Base Op XR XRFacts F64 F64Facts F64Arith F64Err F64Sum F64Quot Shape SpecTerm SpecRound OpProofs.
Import ListNotations.
Local Open Scope R_scope.

Lemma ltb_yes a b : Rltb a b = true -> a < b.
Proof. destruct (Rltb_spec a b); [auto|discriminate]. Qed.
Lemma ltb_no a b : Rltb a b = false -> b <= a.
Proof. destruct (Rltb_spec a b); [discriminate|lra]. Qed.
Lemma eqb_yes a b : Reqb a b = true -> a = b.
Proof. destruct (Reqb_spec a b); [auto|discriminate]. Qed.
Definition big : R := bpow radix2 310.
Lemma big_pos : 1 <= big.
Proof. change 1 with (bpow radix2 0). apply bpow_le. lia. Qed.
Lemma big_huge : 64 * big <= huge.
Proof. change 64 with (bpow radix2 6). unfold big, huge. rewrite <- bpow_plus. apply bpow_le. lia. Qed.
(** finite and of moderate size *)
Definition tame (x : f64) : Prop := is_finite x = true /\ Rabs (B2R x) <= big.
Lemma tame_sub (x a : f64) : tame x -> tame a -> is_finite (Bminus mode_NE x a) = true /\ Rabs (B2R (Bminus mode_NE x a) - (B2R x - B2R a)) <= u64 * Rabs (B2R x - B2R a) /\ B2R (Bminus mode_NE x a) = rnd (B2R x - B2R a) /\ Rabs (B2R x - B2R a) <= 2 * big.
Proof.
  intros [Fx Bx] [Fa Ba]. assert (H : Rabs (B2R x - B2R a) <= 2 * big) by (unfold Rminus; apply Rle_trans with (1 := Rabs_triang _ _); rewrite Rabs_Ropp; lra).
  assert (Q := big_huge). assert (Q2 := big_pos). destruct (minus_err x a Fx Fa ltac:(lra)) as [F E]. destruct (minus_gen x a Fx Fa (no_overflow (B2R x - B2R a) ltac:(lra))) as [G _]. auto.
Qed.

Section Tol.
Variable P : fparam.
#[local] Instance S64 : Scalar f64 := F64Scalar P.
Hypothesis eps_finite : is_finite (fp_eps P) = true.
Let eps : R := B2R (fp_eps P).
Lemma near_true (a b : f64) : tame a -> tame b -> isEq a b = true -> B2R a = B2R b \/ Rabs (B2R a - B2R b) < eps.
Proof.
  intros A B H. unfold isEq, isEq_tol in H. apply orb_prop in H. destruct H as [H|H]; [apply orb_prop in H; destruct H as [H|H]|].
  - left. change (Beqb a b = true) in H. rewrite f_eqb, !f2x_finite in H by apply A || apply B. cbn in H. now apply eqb_yes in H.
  - right. change (Bltb (Babs (Bminus mode_NE a b)) (fp_eps P) = true) in H. destruct (tame_sub a b A B) as (F & _ & E & _).
    rewrite f_ltb, !f2x_finite in H by (rewrite ?is_finite_Babs; assumption). cbn in H. rewrite B2R_Babs, E in H. apply ltb_yes in H. fold eps in H.
    destruct (Rlt_dec (Rabs (B2R a - B2R b)) eps) as [L|L]; [exact L|exfalso]. apply Rnot_lt_le in L. assert (FE : fmt eps) by apply fmt_B2R.
    assert (Q : eps <= Rabs (rnd (B2R a - B2R b))); [|lra]. apply abs_round_ge_generic; [typeclasses eauto|typeclasses eauto|exact FE|exact L].
  - apply andb_prop in H. destruct H as [H _]. unfold isNaN in H. change (negb (Beqb a a) = true) in H. rewrite f_eqb, f2x_finite in H by apply A. cbn in H. rewrite Reqb_refl in H. discriminate H.
Qed.
Lemma near_false (a b : f64) : tame a -> tame b -> isEq a b = false -> B2R a <> B2R b.
Proof.
  intros A B H E. unfold isEq, isEq_tol in H. apply orb_false_elim in H. destruct H as [H _]. apply orb_false_elim in H. destruct H as [H _]. change (Beqb a b = false) in H. rewrite f_eqb, !f2x_finite in H by apply A || apply B. cbn in H. rewrite E in H. rewrite Reqb_refl in H. discriminate H.
Qed.
Lemma ltb_true (a b : f64) : tame a -> tame b -> Bltb a b = true -> B2R a < B2R b.
Proof. intros A B H. rewrite f_ltb, !f2x_finite in H by apply A || apply B. cbn in H. now apply ltb_yes in H. Qed.
Lemma ltb_false (a b : f64) : tame a -> tame b -> Bltb a b = false -> B2R b <= B2R a.
Proof. intros A B H. rewrite f_ltb, !f2x_finite in H by apply A || apply B. cbn in H. apply ltb_no in H. lra. Qed.
Lemma lt_true (a b : f64) : tame a -> tame b -> isLt a b = true -> B2R a < B2R b.
Proof. intros A B H. apply andb_prop in H. destruct H as [_ H]. now apply ltb_true. Qed.
Lemma lt_false (a b : f64) : tame a -> tame b -> isLt a b = false -> B2R b <= B2R a \/ Rabs (B2R a - B2R b) < eps.
Proof.
  intros A B H. apply andb_false_elim in H. destruct H as [H|H]; [|left; now apply ltb_false]. apply negb_false_iff in H. destruct (near_true a b A B H) as [Q|Q]; [left; lra|now right].
Qed.
Lemma gt_true (a b : f64) : tame a -> tame b -> isGt a b = true -> B2R b < B2R a.
Proof. intros A B H. apply lt_true; [exact B|exact A|]. transitivity (isGt a b); [apply isLt_isGt|exact H]. Qed.
Lemma gt_false (a b : f64) : tame a -> tame b -> isGt a b = false -> B2R a <= B2R b \/ Rabs (B2R a - B2R b) < eps.
Proof. intros A B H. rewrite Rabs_minus_sym. apply lt_false; [exact B|exact A|]. transitivity (isGt a b); [apply isLt_isGt|exact H]. Qed.
Lemma le_true (a b : f64) : tame a -> tame b -> isLE a b = true -> B2R a <= B2R b \/ Rabs (B2R a - B2R b) < eps.
Proof. intros A B H. apply orb_prop in H. destruct H as [H|H]; [|left; apply ltb_true in H; [lra|exact A|exact B]]. destruct (near_true a b A B H) as [Q|Q]; [left; lra|now right]. Qed.
Lemma le_false (a b : f64) : tame a -> tame b -> isLE a b = false -> B2R b < B2R a.
Proof. intros A B H. apply orb_false_elim in H. destruct H as [H1 H2]. apply ltb_false in H2; [|exact A|exact B]. assert (Q := near_false a b A B H1). lra. Qed.
Lemma ge_true (a b : f64) : tame a -> tame b -> isGE a b = true -> B2R b <= B2R a \/ Rabs (B2R a - B2R b) < eps.
Proof. intros A B H. rewrite Rabs_minus_sym. apply le_true; [exact B|exact A|]. transitivity (isGE a b); [apply isLE_isGE|exact H]. Qed.
Lemma ge_false (a b : f64) : tame a -> tame b -> isGE a b = false -> B2R a < B2R b.
Proof. intros A B H. apply le_false; [exact B|exact A|]. transitivity (isGE a b); [apply isLE_isGE|exact H]. Qed.
(** numbers at least the tolerance apart are told apart *)
Lemma apart (a b : f64) : tame a -> tame b -> B2R a <> B2R b -> eps <= Rabs (B2R a - B2R b) -> isEq a b = false.
Proof. intros A B N H. destruct (isEq a b) eqn:E; [|reflexivity]. destruct (near_true a b A B E) as [Q|Q]; lra. Qed.
End Tol.

(** ** the values on the sides *)
Lemma times_0 (h : f64) : is_finite h = true -> is_finite (Bmult mode_NE h (f64_lit 0 1)) = true /\ B2R (Bmult mode_NE h (f64_lit 0 1)) = 0.
Proof.
  intro F. destruct f64_0_correct as [Z1 Z2]. destruct (mult_gen h (f64_lit 0 1) F Z2) as [E G].
  - rewrite Z1, Rmult_0_r, rnd_id by apply generic_format_0. rewrite Rabs_R0. apply Rlt_bool_true. apply bpow_gt_0.
  - split; [exact G|]. rewrite E, Z1, Rmult_0_r. apply rnd_id, generic_format_0.
Qed.
Lemma times_1 (h : f64) : tame h -> is_finite (Bmult mode_NE h (f64_lit 1 1)) = true /\ B2R (Bmult mode_NE h (f64_lit 1 1)) = B2R h.
Proof.
  intros [F B]. destruct f64_1_correct as [Z1 Z2]. assert (Q := big_huge). assert (Q2 := big_pos). destruct (mult_gen h (f64_lit 1 1) F Z2) as [E G].
  - rewrite Z1, Rmult_1_r. apply no_overflow. lra.
  - split; [exact G|]. rewrite E, Z1, Rmult_1_r. apply rnd_id, fmt_B2R.
Qed.

Lemma u_tiny : 0 < u64 <= 1 / 1000.
Proof. destruct u64_small as [U1 U2]. lra. Qed.
(** quotient of [m], within [k*q] + [t] of [v*q], by [q'], within [u*q] of [q] *)
Lemma quot_close (m v q q' k t w : R) : 0 < w <= q -> 0 <= k -> 0 <= t -> Rabs v <= 1 -> Rabs (m - v * q) <= k * q + t -> Rabs (q' - q) <= u64 * q ->
  0 < q' /\ Rabs (m / q' - v) <= 1001 / 999 * (k + u64 * Rabs v + t / w).
Proof.
  intros W K T V M Q. destruct u_tiny as [U1 U2]. assert (UQ : u64 * q <= 1 / 1000 * q) by (apply Rmult_le_compat_r; lra). assert (Q0 : 999 / 1000 * q <= q') by (unfold Rabs in Q; destruct Rcase_abs in Q; lra). split; [lra|].
  replace (m / q' - v) with ((m - v * q - v * (q' - q)) * / q') by (field; lra). rewrite Rabs_mult, (Rabs_pos_eq (/ q')) by (apply Rlt_le, Rinv_0_lt_compat; lra).
  assert (N : Rabs (m - v * q - v * (q' - q)) <= (k + u64 * Rabs v + t / w) * q). { unfold Rminus at 1. apply Rle_trans with (1 := Rabs_triang _ _). rewrite Rabs_Ropp, Rabs_mult. assert (Rabs v * Rabs (q' - q) <= Rabs v * (u64 * q)) by (apply Rmult_le_compat_l; [apply Rabs_pos|exact Q]). assert (t <= t / w * q); [|lra]. replace t with (t / w * w) at 1 by (field; lra). apply Rmult_le_compat_l; [|lra]. apply Rmult_le_pos; [exact T|]. apply Rlt_le, Rinv_0_lt_compat; lra. }
  assert (S0 : 0 <= k + u64 * Rabs v + t / w). { assert (0 <= u64 * Rabs v) by (apply Rmult_le_pos; [lra|apply Rabs_pos]). assert (0 <= t / w) by (apply Rmult_le_pos; [exact T|apply Rlt_le, Rinv_0_lt_compat; lra]). lra. }
  assert (I : q * / q' <= 1001 / 999). { apply (Rmult_le_reg_r q'); [lra|]. rewrite Rmult_assoc, Rinv_l by lra. lra. }
  apply Rle_trans with ((k + u64 * Rabs v + t / w) * q * / q'); [apply Rmult_le_compat_r; [apply Rlt_le, Rinv_0_lt_compat; lra|exact N]|]. rewrite Rmult_assoc, (Rmult_comm (1001 / 999)). apply Rmult_le_compat_l; assumption.
Qed.

Section Side.
Variables (h x a b c : f64) (w : R).
(** the line through [a] and of width [b - c], at [x] *)
Hypothesis (th : is_finite h = true /\ 0 <= B2R h <= 1) (tx : tame x) (ta : tame a) (tb : tame b) (tc : tame c).
Hypothesis w_pos : eta64 <= w.
Hypothesis wide : w <= B2R b - B2R c.
Hypothesis part : Rabs (B2R x - B2R a) <= B2R b - B2R c.
Let p := B2R x - B2R a.
Let q := B2R b - B2R c.
Lemma ratio_le : Rabs (p / q) <= 1.
Proof.
  destruct eta64_small as [T1 T2]. assert (0 < q) by (unfold q; lra). unfold Rdiv. rewrite Rabs_mult, (Rabs_pos_eq (/ q)) by (apply Rlt_le, Rinv_0_lt_compat; lra). apply (Rmult_le_reg_r q); [lra|]. rewrite Rmult_assoc, Rinv_l by lra. fold p q in part. lra.
Qed.
Lemma eta_w : 0 <= eta64 / w <= 1.
Proof. destruct eta64_small as [T1 T2]. split; [apply Rmult_le_pos; [lra|apply Rlt_le, Rinv_0_lt_compat; lra]|]. apply (Rmult_le_reg_r w); [lra|]. unfold Rdiv. rewrite Rmult_assoc, Rinv_l by lra. lra. Qed.
Lemma side_line : is_finite (Bdiv mode_NE (Bmult mode_NE h (Bminus mode_NE x a)) (Bminus mode_NE b c)) = true /\
  Rabs (B2R (Bdiv mode_NE (Bmult mode_NE h (Bminus mode_NE x a)) (Bminus mode_NE b c)) - B2R h * p / q) <= 5 * u64 * B2R h + 2 * eta64 / w + 2 * eta64.
Proof.
  destruct th as [Fh Bh]. destruct u_tiny as [U1 U2]. destruct eta64_small as [T1 T2]. assert (RL := ratio_le). assert (EW := eta_w). assert (BH := big_huge). assert (BP := big_pos).
  destruct (tame_sub x a tx ta) as (Fp & Ep & _ & Bp). destruct (tame_sub b c tb tc) as (Fq & Eq & _ & Bq). fold p in Ep, Bp, part. fold q in Eq, Bq, part, wide. set (p' := Bminus mode_NE x a) in *. set (q' := Bminus mode_NE b c) in *. set (H := B2R h) in *.
  assert (Q0 : 0 < q) by lra. assert (AQ : Rabs q = q) by (apply Rabs_pos_eq; lra). rewrite AQ in Eq. assert (Pp := Rabs_pos p).
  assert (UP : u64 * Rabs p <= 1 / 1000 * Rabs p) by (apply Rmult_le_compat_r; lra).
  assert (Bp' : Rabs (B2R p') <= 1001 / 1000 * Rabs p) by (assert (Z := Rabs_triang (B2R p' - p) p); replace (B2R p' - p + p) with (B2R p') in Z by ring; lra).
  assert (Bhp : Rabs (H * B2R p') <= H * (1001 / 1000 * Rabs p)) by (rewrite Rabs_mult, (Rabs_pos_eq H) by lra; apply Rmult_le_compat_l; lra).
  assert (HP : H * Rabs p <= 1 * Rabs p) by (apply Rmult_le_compat_r; lra). assert (HP0 : 0 <= H * Rabs p) by (apply Rmult_le_pos; lra).
  destruct (mult_err h p' Fh Fp) as [Fm Em]. { fold H. lra. } fold H in Em. set (m := Bmult mode_NE h p') in *.
  assert (Em1 : Rabs (H * B2R p' - H * p) <= u64 * (H * Rabs p)) by (replace (H * B2R p' - H * p) with (H * (B2R p' - p)) by ring; rewrite Rabs_mult, (Rabs_pos_eq H) by lra; apply Rle_trans with (H * (u64 * Rabs p)); [apply Rmult_le_compat_l; lra|lra]).
  assert (UHP : 0 <= u64 * (H * Rabs p)) by (apply Rmult_le_pos; lra).
  assert (Em2 : Rabs (B2R m - H * p) <= 2001 / 1000 * u64 * H * q + eta64). { assert (Z := Rabs_triang (B2R m - H * B2R p') (H * B2R p' - H * p)). replace (B2R m - H * B2R p' + (H * B2R p' - H * p)) with (B2R m - H * p) in Z by ring. assert (u64 * Rabs (H * B2R p') <= u64 * (H * (1001 / 1000 * Rabs p))) by (apply Rmult_le_compat_l; lra). assert (u64 * H * Rabs p <= u64 * H * q) by (apply Rmult_le_compat_l; [apply Rmult_le_pos; lra|lra]). lra. }
  set (v := H * p / q). assert (Ev : v * q = H * p) by (unfold v; field; lra). assert (Bv : Rabs v <= H) by (unfold v; replace (H * p / q) with (H * (p / q)) by (field; lra); rewrite Rabs_mult, (Rabs_pos_eq H) by lra; assert (H * Rabs (p / q) <= H * 1) by (apply Rmult_le_compat_l; lra); lra).
  destruct (quot_close (B2R m) v q (B2R q') (2001 / 1000 * u64 * H) eta64 w) as [Pq' D]; [lra|assert (0 <= u64 * H) by (apply Rmult_le_pos; lra); lra|lra|lra|rewrite Ev; exact Em2|exact Eq|].
  assert (UH : 0 <= u64 * H <= 1 / 1000) by (split; [apply Rmult_le_pos; lra|assert (u64 * H <= u64 * 1) by (apply Rmult_le_compat_l; lra); lra]). assert (UV : u64 * Rabs v <= u64 * H) by (apply Rmult_le_compat_l; lra).
  assert (D2 : Rabs (B2R m / B2R q' - v) <= 3010 / 1000 * (u64 * H) + 1003 / 1000 * (eta64 / w)) by lra.
  assert (Z := Rabs_triang (B2R m / B2R q' - v) v). replace (B2R m / B2R q' - v + v) with (B2R m / B2R q') in Z by ring.
  destruct (div_err m q' Fm ltac:(lra)) as [Fr Er]; [lra|]. split; [exact Fr|]. fold v.
  assert (Z2 := Rabs_triang (B2R (Bdiv mode_NE m q') - B2R m / B2R q') (B2R m / B2R q' - v)). replace (B2R (Bdiv mode_NE m q') - B2R m / B2R q' + (B2R m / B2R q' - v)) with (B2R (Bdiv mode_NE m q') - v) in Z2 by ring.
  assert (u64 * Rabs (B2R m / B2R q') <= u64 * (H + 3010 / 1000 * (u64 * H) + 1003 / 1000 * (eta64 / w))) by (apply Rmult_le_compat_l; lra).
  assert (u64 * (u64 * H) <= 1 / 1000 * (u64 * H)) by (apply Rmult_le_compat_r; lra). assert (u64 * (eta64 / w) <= 1 / 1000 * (eta64 / w)) by (apply Rmult_le_compat_r; lra).
  replace (2 * eta64 / w) with (2 * (eta64 / w)) by (unfold Rdiv; ring). lra.
Qed.
Lemma op_min_1 P (y : f64) : is_finite y = true -> is_finite (@op_min f64 (F64Scalar P) (f64_lit 1 1) y) = true /\ B2R (@op_min f64 (F64Scalar P) (f64_lit 1 1) y) = Rmin 1 (B2R y).
Proof.
  intro F. destruct f64_1_correct as [O1 O2]. unfold op_min. rewrite !f_isNaN. assert (N1 : is_nan (f64_lit 1 1) = false) by reflexivity. assert (N2 : is_nan y = false) by (destruct y; try reflexivity; discriminate F). change (@s_1 f64 (F64Scalar P)) with (f64_lit 1 1). rewrite N1, N2. cbn [orb]. unfold std_min. change (@s_ltb f64 (F64Scalar P) y (f64_lit 1 1)) with (Bltb y (f64_lit 1 1)).
  rewrite f_ltb, !f2x_finite by assumption. rewrite O1. cbn [xltb]. destruct (Rltb (B2R y) 1) eqn:E.
  - apply ltb_yes in E. split; [exact F|]. rewrite Rmin_right; lra.
  - apply ltb_no in E. split; [exact O2|]. rewrite O1, Rmin_left; lra.
Qed.
Lemma side_min P : let y := @op_min f64 (F64Scalar P) (f64_lit 1 1) (Bdiv mode_NE (Bminus mode_NE x a) (Bminus mode_NE b c)) in is_finite (Bmult mode_NE h y) = true /\
  Rabs (B2R (Bmult mode_NE h y) - B2R h * Rmin 1 (p / q)) <= 5 * u64 * B2R h + 2 * eta64 / w + 2 * eta64.
Proof.
  cbv zeta. destruct th as [Fh Bh]. destruct u_tiny as [U1 U2]. destruct eta64_small as [T1 T2]. assert (RL := ratio_le). assert (EW := eta_w). assert (BH := big_huge). assert (BP := big_pos).
  destruct (tame_sub x a tx ta) as (Fp & Ep & _ & Bp). destruct (tame_sub b c tb tc) as (Fq & Eq & _ & Bq). fold p in Ep, Bp, part. fold q in Eq, Bq, part, wide. set (p' := Bminus mode_NE x a) in *. set (q' := Bminus mode_NE b c) in *. set (H := B2R h) in *.
  assert (Q0 : 0 < q) by lra. assert (AQ : Rabs q = q) by (apply Rabs_pos_eq; lra). rewrite AQ in Eq. assert (Pp := Rabs_pos p).
  set (v := p / q) in *. assert (Ev : v * q = p) by (unfold v; field; lra). assert (UV : u64 * Rabs v <= u64) by (assert (u64 * Rabs v <= u64 * 1) by (apply Rmult_le_compat_l; lra); lra).
  destruct (quot_close (B2R p') v q (B2R q') u64 0 w) as [Pq' D]; [lra|lra|lra|lra| |exact Eq|]. { rewrite Ev. assert (u64 * Rabs p <= u64 * q) by (apply Rmult_le_compat_l; lra). lra. }
  replace (0 / w) with 0 in D by (unfold Rdiv; ring). assert (Z := Rabs_triang (B2R p' / B2R q' - v) v). replace (B2R p' / B2R q' - v + v) with (B2R p' / B2R q') in Z by ring.
  destruct (div_err p' q' Fp ltac:(lra)) as [Fr Er]; [lra|]. set (r := Bdiv mode_NE p' q') in *.
  assert (Er2 : Rabs (B2R r - v) <= 3020 / 1000 * u64 + eta64). { assert (Z2 := Rabs_triang (B2R r - B2R p' / B2R q') (B2R p' / B2R q' - v)). replace (B2R r - B2R p' / B2R q' + (B2R p' / B2R q' - v)) with (B2R r - v) in Z2 by ring. assert (u64 * Rabs (B2R p' / B2R q') <= u64 * (1003 / 1000)) by (apply Rmult_le_compat_l; lra). lra. }
  destruct (op_min_1 P r Fr) as [Fy Ey]. set (y := op_min (f64_lit 1 1) r) in *.
  assert (Ey2 : Rabs (B2R y - Rmin 1 v) <= 3020 / 1000 * u64 + eta64) by (rewrite Ey; unfold Rmin; repeat destruct Rle_dec; unfold Rabs in Er2 |- *; repeat destruct Rcase_abs in *; repeat destruct Rcase_abs; lra).
  assert (By : Rabs (B2R y) <= 1 + (3020 / 1000 * u64 + eta64)). { assert (Rabs (Rmin 1 v) <= 1) by (unfold Rmin; destruct Rle_dec; [rewrite Rabs_R1; lra|exact RL]). assert (Z2 := Rabs_triang (B2R y - Rmin 1 v) (Rmin 1 v)). replace (B2R y - Rmin 1 v + Rmin 1 v) with (B2R y) in Z2 by ring. lra. }
  assert (HY : Rabs (H * B2R y) <= H * (1 + (3020 / 1000 * u64 + eta64))) by (rewrite Rabs_mult, (Rabs_pos_eq H) by lra; apply Rmult_le_compat_l; lra).
  assert (HU : H * (1 + (3020 / 1000 * u64 + eta64)) <= H * (101 / 100)) by (apply Rmult_le_compat_l; lra).
  destruct (mult_err h y Fh Fy) as [Fm Em]; [fold H; lra|]. fold H in Em. split; [exact Fm|].
  assert (Z2 := Rabs_triang (B2R (Bmult mode_NE h y) - H * B2R y) (H * B2R y - H * Rmin 1 v)). replace (B2R (Bmult mode_NE h y) - H * B2R y + (H * B2R y - H * Rmin 1 v)) with (B2R (Bmult mode_NE h y) - H * Rmin 1 v) in Z2 by ring.
  assert (E3 : Rabs (H * B2R y - H * Rmin 1 v) <= H * (3020 / 1000 * u64 + eta64)) by (replace (H * B2R y - H * Rmin 1 v) with (H * (B2R y - Rmin 1 v)) by ring; rewrite Rabs_mult, (Rabs_pos_eq H) by lra; apply Rmult_le_compat_l; lra).
  assert (u64 * Rabs (H * B2R y) <= u64 * (H * (101 / 100))) by (apply Rmult_le_compat_l; lra). assert (H * eta64 <= 1 * eta64) by (apply Rmult_le_compat_r; lra). assert (0 <= u64 * H) by (apply Rmult_le_pos; lra).
  replace (2 * eta64 / w) with (2 * (eta64 / w)) by (unfold Rdiv; ring). lra.
Qed.
End Side.

(** ** the shapes *)
Lemma small_side h p q w e : 0 <= h -> 0 < w <= q -> Rabs p <= e -> Rabs (h * p / q) <= h * e / w.
Proof.
  intros H W P. unfold Rdiv. rewrite !Rabs_mult, (Rabs_pos_eq h), (Rabs_pos_eq (/ q)) by (try apply Rlt_le, Rinv_0_lt_compat; lra). assert (Q := Rabs_pos p).
  apply Rmult_le_compat; [apply Rmult_le_pos; lra|apply Rlt_le, Rinv_0_lt_compat; lra|apply Rmult_le_compat_l; lra|apply Rinv_le_contravar; lra].
Qed.
Lemma via (r v d x y : R) : Rabs (r - v) <= x -> Rabs (v - d) <= y -> Rabs (r - d) <= x + y.
Proof. intros A B. assert (Q := Rabs_triang (r - v) (v - d)). replace (r - v + (v - d)) with (r - d) in Q by ring. lra. Qed.
Lemma same (r d x : R) : r = d -> 0 <= x -> Rabs (r - d) <= x.
Proof. intros -> H. rewrite Rminus_eq_0, Rabs_R0. exact H. Qed.
Section Shapes.
Variable P : fparam.
#[local] Instance S64' : Scalar f64 := F64Scalar P.
Hypothesis eps_finite : is_finite (fp_eps P) = true.
Let eps : R := B2R (fp_eps P).
Variables (h x : f64) (w : R).
Hypothesis eps_pos : 0 <= eps <= w.
Hypothesis w_pos : eta64 <= w.
Hypothesis th : is_finite h = true /\ 0 <= B2R h <= 1.
Hypothesis tx : tame x.
Lemma th_tame : tame h.
Proof. destruct th as [F B]. split; [exact F|]. rewrite Rabs_pos_eq by lra. assert (Q := big_pos). lra. Qed.
Lemma error_parts : 0 <= 5 * u64 * B2R h /\ 0 <= 2 * eta64 / w /\ 0 <= 2 * eta64 /\ 0 <= B2R h * eps / w /\ 0 < w.
Proof.
  destruct th as [_ B]. destruct u_tiny as [U _]. destruct eta64_small as [T _]. assert (W : 0 < w) by lra. assert (I := Rinv_0_lt_compat w W). repeat split; try lra.
  - apply Rmult_le_pos; lra.
  - apply Rmult_le_pos; lra.
  - apply Rmult_le_pos; [apply Rmult_le_pos; lra|lra].
Qed.
Lemma no_inf (a : f64) : tame a -> (@s_eqb f64 _ a s_inf = false) /\ (@s_eqb f64 _ a (@s_neg f64 _ s_inf) = false).
Proof. intros [F _]. destruct a; try discriminate F; split; destruct s; reflexivity. Qed.
Lemma x_real : isNaN x = false.
Proof. transitivity (is_nan x); [apply f_isNaN|]. destruct tx as [F _]. destruct x; try reflexivity; discriminate F. Qed.
Lemma lt_near (a b : f64) : tame a -> tame b -> isEq a b = false -> isLt a b = false -> B2R b < B2R a.
Proof.
  intros A B N H. assert (Q := near_false P a b A B N). apply andb_false_elim in H. destruct H as [H|H]; [apply negb_false_iff in H; unfold isEq, isEq_tol in N; rewrite N in H; discriminate H|]. apply ltb_false in H; [lra|exact A|exact B].
Qed.
Let close (r : f64) (d : R) : Prop := is_finite r = true /\ Rabs (B2R r - d) <= shape_error (B2R h) w eps.
Lemma close_0 d : Rabs d <= B2R h * eps / w -> close (Bmult mode_NE h (f64_lit 0 1)) d.
Proof. intro D. destruct (times_0 h (proj1 th)) as [F E]. split; [exact F|]. rewrite E. destruct error_parts as (Q1 & Q2 & Q3 & Q4 & _). unfold shape_error. rewrite Rminus_0_l, Rabs_Ropp. lra. Qed.
Lemma close_1 d : Rabs (B2R h - d) <= B2R h * eps / w -> close (Bmult mode_NE h (f64_lit 1 1)) d.
Proof. intro D. destruct (times_1 h th_tame) as [F E]. split; [exact F|]. rewrite E. destruct error_parts as (Q1 & Q2 & Q3 & Q4 & _). unfold shape_error. lra. Qed.
Lemma close_line (y a b c : f64) d : tame y -> tame a -> tame b -> tame c -> w <= B2R b - B2R c -> Rabs (B2R y - B2R a) <= B2R b - B2R c ->
  Rabs (B2R h * (B2R y - B2R a) / (B2R b - B2R c) - d) <= B2R h * eps / w -> close (Bdiv mode_NE (Bmult mode_NE h (Bminus mode_NE y a)) (Bminus mode_NE b c)) d.
Proof. intros Y A B C W Q D. destruct (side_line h y a b c w th Y A B C w_pos W Q) as [F E]. split; [exact F|]. unfold shape_error. apply (via _ _ _ _ _ E D). Qed.
Lemma zero_ok : Rabs 0 <= B2R h * eps / w.
Proof. rewrite Rabs_R0. apply error_parts. Qed.
Lemma self_ok y : Rabs (y - y) <= B2R h * eps / w.
Proof. rewrite Rminus_eq_0. apply zero_ok. Qed.

Lemma triangle_close (a b c : f64) : tame a -> tame b -> tame c -> w <= B2R b - B2R a -> w <= B2R c - B2R b ->
  close (sh_membership (Triangle a b c) h x) (doc_membership (Triangle (B2R a) (B2R b) (B2R c)) (B2R h) (B2R x)).
Proof.
  intros A B C W1 W2. destruct error_parts as (_ & _ & _ & Q4 & W0). assert (H0 : 0 <= B2R h) by apply th. unfold sh_membership. rewrite x_real. rewrite (proj2 (no_inf a A)), (proj1 (no_inf c C)). cbn [doc_membership].
  set (X := B2R x). set (xa := B2R a) in *. set (xb := B2R b) in *. set (xc := B2R c) in *. set (H := B2R h) in *.
  destruct (isLt x a) eqn:E1; cbn [orb].
  { apply lt_true in E1; [|exact tx|exact A]. fold X xa in E1. destruct Rlt_dec; [|lra]. apply close_0, zero_ok. }
  apply (lt_false P eps_finite) in E1; [|exact tx|exact A]. fold X xa eps in E1.
  destruct (isGt x c) eqn:E2.
  { apply gt_true in E2; [|exact tx|exact C]. fold X xc in E2. destruct (Rlt_dec X xa); [apply close_0, zero_ok|]. destruct (Rlt_dec xc X); [|lra]. apply close_0, zero_ok. }
  apply (gt_false P eps_finite) in E2; [|exact tx|exact C]. fold X xc eps in E2.
  destruct (isEq x b) eqn:E3.
  { apply (near_true P eps_finite) in E3; [|exact tx|exact B]. fold X xb eps in E3. apply close_1. fold H. destruct Rlt_dec as [L|L].
    { exfalso. unfold Rabs in *. destruct E3 as [E3|E3]; [lra|]. destruct Rcase_abs in E3; lra. } destruct Rlt_dec as [L2|L2].
    { exfalso. unfold Rabs in *. destruct E3 as [E3|E3]; [lra|]. destruct Rcase_abs in E3; lra. } destruct Req_EM_T as [L3|L3]; [apply self_ok|]. destruct E3 as [E3|E3]; [lra|]. destruct Rlt_dec.
    - replace (H - H * (X - xa) / (xb - xa)) with (H * (xb - X) / (xb - xa)) by (field; lra). apply small_side; [exact H0|lra|]. rewrite Rabs_minus_sym. lra.
    - replace (H - H * (xc - X) / (xc - xb)) with (H * (X - xb) / (xc - xb)) by (field; lra). apply small_side; [exact H0|lra|lra]. }
  assert (N3 := near_false P x b tx B E3). fold X xb in N3.
  destruct (isLt x b) eqn:E4.
  - apply lt_true in E4; [|exact tx|exact B]. fold X xb in E4. apply (close_line x a b a); try assumption; fold X xa xb H.
    + destruct E1 as [E1|E1]; unfold Rabs in *; repeat destruct Rcase_abs; try destruct Rcase_abs in E1; lra.
    + destruct Rlt_dec as [L|L].
      * rewrite Rminus_0_r. apply small_side; [exact H0|lra|]. destruct E1 as [E1|E1]; lra.
      * destruct Rlt_dec as [L2|L2]; [lra|]. destruct Req_EM_T; [lra|]. destruct Rlt_dec; [|lra]. apply self_ok.
  - apply lt_near in E4; try assumption. fold X xb in E4. apply (close_line c x c b); try assumption; fold X xb xc H.
    + destruct E2 as [E2|E2]; unfold Rabs in *; repeat destruct Rcase_abs; try destruct Rcase_abs in E2; lra.
    + destruct Rlt_dec as [L|L]; [lra|]. destruct Rlt_dec as [L2|L2].
      * rewrite Rminus_0_r. apply small_side; [exact H0|lra|]. destruct E2 as [E2|E2]; [lra|]. rewrite Rabs_minus_sym. lra.
      * destruct Req_EM_T; [lra|]. destruct Rlt_dec; [lra|]. apply self_ok.
Qed.
Lemma trapezoid_close (a b c d : f64) : tame a -> tame b -> tame c -> tame d -> w <= B2R b - B2R a -> B2R b <= B2R c -> w <= B2R d - B2R c ->
  close (sh_membership (Trapezoid a b c d) h x) (doc_membership (Trapezoid (B2R a) (B2R b) (B2R c) (B2R d)) (B2R h) (B2R x)).
Proof.
  intros A B C D W1 BC W2. destruct error_parts as (_ & _ & _ & Q4 & W0). assert (H0 : 0 <= B2R h) by apply th. unfold sh_membership. rewrite x_real. rewrite (proj2 (no_inf a A)), (proj1 (no_inf d D)). cbn [doc_membership].
  set (X := B2R x). set (xa := B2R a) in *. set (xb := B2R b) in *. set (xc := B2R c) in *. set (xd := B2R d) in *. set (H := B2R h) in *.
  assert (RM : forall p q, 0 < q -> p <= q -> H * Rmin 1 (p / q) = H * p / q). { intros p q q0 pq. rewrite Rmin_right; [field; lra|]. apply (Rmult_le_reg_r q); [exact q0|]. unfold Rdiv. rewrite Rmult_assoc, Rinv_l by lra. lra. }
  destruct (isLt x a) eqn:E1; cbn [orb].
  { apply lt_true in E1; [|exact tx|exact A]. fold X xa in E1. destruct Rlt_dec; [|lra]. apply close_0, zero_ok. }
  apply (lt_false P eps_finite) in E1; [|exact tx|exact A]. fold X xa eps in E1.
  destruct (isGt x d) eqn:E2.
  { apply gt_true in E2; [|exact tx|exact D]. fold X xd in E2. destruct (Rlt_dec X xa); [apply close_0, zero_ok|]. destruct (Rlt_dec xd X); [|lra]. apply close_0, zero_ok. }
  apply (gt_false P eps_finite) in E2; [|exact tx|exact D]. fold X xd eps in E2.
  destruct (isLt x b) eqn:E4.
  { apply lt_true in E4; [|exact tx|exact B]. fold X xb in E4.
    assert (PT : Rabs (X - xa) <= xb - xa) by (destruct E1 as [E1|E1]; unfold Rabs in *; repeat destruct Rcase_abs; try destruct Rcase_abs in E1; lra).
    destruct (side_min h x a b a w th tx A B A w_pos W1 PT P) as [F E]. split; [exact F|]. unfold shape_error. apply (via _ _ _ _ _ E). fold X xa xb H.
    destruct Rlt_dec as [L|L].
    - rewrite Rminus_0_r, RM by lra. apply small_side; [exact H0|lra|]. destruct E1 as [E1|E1]; lra.
    - destruct Rlt_dec as [L2|L2]; [lra|]. destruct Rlt_dec; [|lra]. apply self_ok. }
  apply (lt_false P eps_finite) in E4; [|exact tx|exact B]. fold X xb eps in E4.
  destruct (isLE x c) eqn:E5.
  { apply (le_true P eps_finite) in E5; [|exact tx|exact C]. fold X xc eps in E5. apply close_1. fold H.
    assert (L1 : xa <= X) by (destruct E4 as [E4|E4]; [lra|]; unfold Rabs in E4; destruct Rcase_abs in E4; lra). assert (L2 : X <= xd) by (destruct E5 as [E5|E5]; [lra|]; unfold Rabs in E5; destruct Rcase_abs in E5; lra).
    destruct Rlt_dec; [lra|]. destruct Rlt_dec; [lra|]. destruct Rlt_dec as [L3|L3].
    - rewrite RM by lra. replace (H - H * (X - xa) / (xb - xa)) with (H * (xb - X) / (xb - xa)) by (field; lra). apply small_side; [exact H0|lra|]. rewrite Rabs_minus_sym. destruct E4 as [E4|E4]; lra.
    - destruct Rle_dec as [L4|L4]; [apply self_ok|]. destruct E5 as [E5|E5]; [lra|]. destruct Rlt_dec.
      + replace (H - H * (xd - X) / (xd - xc)) with (H * (X - xc) / (xd - xc)) by (field; lra). apply small_side; [exact H0|lra|lra].
      + exfalso. unfold Rabs in E5. destruct Rcase_abs in E5; lra. }
  apply le_false in E5; [|exact tx|exact C]. fold X xc in E5.
  destruct (isLt x d) eqn:E6.
  - apply lt_true in E6; [|exact tx|exact D]. fold X xd in E6. apply (close_line d x d c); try assumption; fold X xd xc H.
    + rewrite Rabs_pos_eq by lra. lra.
    + destruct Rlt_dec as [L|L]; [lra|]. destruct Rlt_dec as [L2|L2]; [lra|]. destruct Rlt_dec; [lra|]. destruct Rle_dec; [lra|]. destruct Rlt_dec; [|lra]. apply self_ok.
  - apply (lt_false P eps_finite) in E6; [|exact tx|exact D]. fold X xd eps in E6. apply close_0.
    destruct Rlt_dec as [L|L]; [lra|]. destruct Rlt_dec as [L2|L2]; [apply zero_ok|]. destruct Rlt_dec; [lra|]. destruct Rle_dec; [lra|]. destruct Rlt_dec; [|apply zero_ok]. apply small_side; [exact H0|lra|]. destruct E6 as [E6|E6]; [lra|]. rewrite Rabs_minus_sym. lra.
Qed.
Lemma ramp_close (s e : f64) : tame s -> tame e -> w <= Rabs (B2R e - B2R s) ->
  close (sh_membership (Ramp s e) h x) (doc_membership (Ramp (B2R s) (B2R e)) (B2R h) (B2R x)).
Proof.
  intros A B W1. destruct error_parts as (_ & _ & _ & Q4 & W0). assert (H0 : 0 <= B2R h) by apply th. unfold sh_membership. rewrite x_real. cbn [doc_membership].
  assert (N : B2R s <> B2R e) by (intro Z; rewrite Z, Rminus_eq_0, Rabs_R0 in W1; lra). assert (AP : isEq s e = false) by (apply (apart P eps_finite s e A B N); rewrite Rabs_minus_sym; fold eps; lra). rewrite AP.
  set (X := B2R x). set (xa := B2R s) in *. set (xb := B2R e) in *. set (H := B2R h) in *.
  destruct (isLt s e) eqn:E0.
  - apply lt_true in E0; [|exact A|exact B]. fold xa xb in E0. rewrite Rabs_pos_eq in W1 by lra. destruct (Rlt_dec xa xb); [|lra].
    destruct (isLE x s) eqn:E1.
    { apply (le_true P eps_finite) in E1; [|exact tx|exact A]. fold X xa eps in E1. apply close_0. destruct Rle_dec; [apply zero_ok|]. destruct Rle_dec.
      - exfalso. destruct E1 as [E1|E1]; [lra|]. unfold Rabs in E1. destruct Rcase_abs in E1; lra.
      - apply small_side; [exact H0|lra|]. destruct E1 as [E1|E1]; lra. }
    apply le_false in E1; [|exact tx|exact A]. fold X xa in E1. destruct (isGE x e) eqn:E2.
    { apply (ge_true P eps_finite) in E2; [|exact tx|exact B]. fold X xb eps in E2. apply close_1. fold H. destruct Rle_dec; [lra|]. destruct Rle_dec; [apply self_ok|].
      replace (H - H * (X - xa) / (xb - xa)) with (H * (xb - X) / (xb - xa)) by (field; lra). apply small_side; [exact H0|lra|]. rewrite Rabs_minus_sym. destruct E2 as [E2|E2]; lra. }
    apply ge_false in E2; [|exact tx|exact B]. fold X xb in E2. apply (close_line x s e s); try assumption; fold X xa xb H.
    + rewrite Rabs_pos_eq by lra. lra.
    + destruct Rle_dec; [lra|]. destruct Rle_dec; [lra|]. apply self_ok.
  - apply lt_near in E0; try assumption. fold xa xb in E0. rewrite Rabs_minus_sym, Rabs_pos_eq in W1 by lra. destruct (Rlt_dec xa xb); [lra|].
    destruct (isGE x s) eqn:E1.
    { apply (ge_true P eps_finite) in E1; [|exact tx|exact A]. fold X xa eps in E1. apply close_0. destruct Rle_dec; [apply zero_ok|]. destruct Rle_dec.
      - exfalso. destruct E1 as [E1|E1]; [lra|]. unfold Rabs in E1. destruct Rcase_abs in E1; lra.
      - apply small_side; [exact H0|lra|]. rewrite Rabs_minus_sym. destruct E1 as [E1|E1]; lra. }
    apply ge_false in E1; [|exact tx|exact A]. fold X xa in E1. destruct (isLE x e) eqn:E2.
    { apply (le_true P eps_finite) in E2; [|exact tx|exact B]. fold X xb eps in E2. apply close_1. fold H. destruct Rle_dec; [lra|]. destruct Rle_dec; [apply self_ok|].
      replace (H - H * (xa - X) / (xa - xb)) with (H * (X - xb) / (xa - xb)) by (field; lra). apply small_side; [exact H0|lra|]. destruct E2 as [E2|E2]; lra. }
    apply le_false in E2; [|exact tx|exact B]. fold X xb in E2. apply (close_line s x s e); try assumption; fold X xa xb H.
    + rewrite Rabs_pos_eq by lra. lra.
    + destruct Rle_dec; [lra|]. destruct Rle_dec; [lra|]. apply self_ok.
Qed.
End Shapes.
