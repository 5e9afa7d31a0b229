(** Rounding errors of the centroid in binary64, and its distance from the center of gravity. *)
From Coq Require Import ZArith Reals Bool List Lra Lia.
From Coquelicot Require Import Coquelicot.
From Flocq Require Import Core BinarySingleNaN.
From Verif Require Import Base Op XR XRFacts F64 F64Facts F64Arith F64Err F64Sum F64Quot Norm Defuzz SpecDefuzz SpecRound SpecLimit DefuzzReal LimitRiemann LimitProofs LimitMax LimitMamdani BenchProofs2.
Import ListNotations.
Local Open Scope R_scope.

Lemma tri (r m z x y : R) : Rabs (r - m) <= x -> Rabs (m - z) <= y -> Rabs (r - z) <= x + y.
Proof. intros A B. assert (Q := Rabs_triang (r - m) (m - z)). replace (r - m + (m - z)) with (r - z) in Q by ring. lra. Qed.
(** one rounding after an error *)
Lemma absorb (r x y e u v : R) : Rabs (r - x) <= u * Rabs x + v -> Rabs (x - y) <= e -> 0 <= u -> Rabs (r - y) <= u * (Rabs y + e) + v + e.
Proof.
  intros A B U. assert (Q := Rabs_triang (r - x) (x - y)). replace (r - x + (x - y)) with (r - y) in Q by ring. assert (Q2 := Rabs_triang (x - y) y). replace (x - y + y) with x in Q2 by ring. assert (u * Rabs x <= u * (Rabs y + e)) by (apply Rmult_le_compat_l; lra). lra.
Qed.
Lemma half_way i : (Z.of_nat i < 2 ^ 46)%Z -> is_finite (Bplus mode_NE (f64_lit (Z.of_nat i) 1) (f64_lit 1 2)) = true /\ B2R (Bplus mode_NE (f64_lit (Z.of_nat i) 1) (f64_lit 1 2)) = INR i + 1 / 2.
Proof.
  intro H. destruct (int_correct (Z.of_nat i) ltac:(lia)) as [A1 A2]. destruct f64_half_correct as [B1 B2].
  assert (F : fmt (INR i + 1 / 2)). { replace (INR i + 1 / 2) with (IZR (2 * Z.of_nat i + 1) * bpow radix2 (-1)) by (rewrite plus_IZR, mult_IZR, <- INR_IZR_INZ; cbn; lra). apply fmt_int; lia. }
  assert (E : B2R (f64_lit (Z.of_nat i) 1) + B2R (f64_lit 1 2) = INR i + 1 / 2) by (rewrite A1, B1, INR_IZR_INZ; reflexivity).
  destruct (plus_gen (f64_lit (Z.of_nat i) 1) (f64_lit 1 2) A2 B2) as [G1 G2].
  - rewrite E. apply no_overflow. rewrite Rabs_pos_eq by (assert (Q := pos_INR i); lra). destruct huge_parts as [H1 H2]. rewrite INR_IZR_INZ. assert (IZR (Z.of_nat i) <= 2 ^ 46). { replace (2 ^ 46) with (IZR (2 ^ 46)) by (rewrite <- pow_IZR with (n := 46%nat); reflexivity). apply IZR_le. lia. }
    assert (1 * 1 <= bpow radix2 400 * bpow radix2 400) by (apply Rmult_le_compat; lra). assert (1 * 2 ^ 46 <= bpow radix2 400 * bpow radix2 400 * 2 ^ 46) by (apply Rmult_le_compat_r; lra). assert (1 <= 2 ^ 46) by lra. lra.
  - split; [exact G2|]. rewrite G1, E. now apply rnd_id.
Qed.
Section Sample.
Variables (P : fparam) (a b : f64) (X : R) (n : nat).
#[local] Instance S64 : Scalar f64 := F64Scalar P.
Hypothesis a_ok : is_finite a = true /\ Rabs (B2R a) <= X.
Hypothesis b_ok : is_finite b = true /\ Rabs (B2R b) <= X.
Hypothesis X_small : X <= bpow radix2 300.
Hypothesis n_pos : (1 <= n)%nat.
Hypothesis n_small : (Z.of_nat n < 2 ^ 46)%Z.
Lemma sample_close i : (i < n)%nat -> is_finite (sample a b (Z.of_nat n) i) = true /\ Rabs (B2R (sample a b (Z.of_nat n) i) - mid (B2R a) (B2R b) n i) <= sample_error (INR n) X.
Proof.
  intro HI. unfold sample, midpoint. change (@s_sub f64 _ b a) with (Bminus mode_NE b a). change (@s_half f64 _) with (f64_lit 1 2). change (@s_int f64 _ (Z.of_nat n)) with (f64_lit (Z.of_nat n) 1). change (@s_int f64 _ (Z.of_nat i)) with (f64_lit (Z.of_nat i) 1).
  change (@s_add f64 _) with (Bplus (prec := prec64) (emax := emax64) mode_NE). change (@s_mul f64 _) with (Bmult (prec := prec64) (emax := emax64) mode_NE). change (@s_div f64 _) with (Bdiv (prec := prec64) (emax := emax64) mode_NE).
  destruct (half_way i ltac:(lia)) as [K1 K2]. set (kk := Bplus mode_NE (f64_lit (Z.of_nat i) 1) (f64_lit 1 2)) in *. destruct (int_correct (Z.of_nat n) ltac:(lia)) as [N1 N2]. rewrite <- INR_IZR_INZ in N1.
  destruct a_ok as [Fa Ba], b_ok as [Fb Bb]. set (A := B2R a) in *. set (B := B2R b) in *. assert (PN : 1 <= INR n) by (change 1 with (INR 1); now apply le_INR). assert (PI : 0 <= INR i) by apply pos_INR. assert (IN : INR i + 1 <= INR n) by (rewrite <- S_INR; apply le_INR; lia).
  destruct u64_small as [U _]. destruct eta64_small as [T T2]. assert (SC := small_count n n_small). rewrite S_INR in SC. assert (NU : u64 <= INR n * u64) by (assert (1 * u64 <= INR n * u64) by (apply Rmult_le_compat_r; lra); lra).
  destruct huge_parts as [H1 H2]. assert (XH : 100 * (X + 1) + 100 * 2 ^ 46 <= huge). { assert (Q1 : 1 <= bpow radix2 300) by (change 1 with (bpow radix2 0); apply bpow_le; lia). apply Rle_trans with (2 ^ 46 * bpow radix2 300 * 300); [|]. - assert (1 <= 2 ^ 46) by lra. assert (1 * bpow radix2 300 <= 2 ^ 46 * bpow radix2 300) by (apply Rmult_le_compat_r; lra). assert (2 ^ 46 * 1 <= 2 ^ 46 * bpow radix2 300) by (apply Rmult_le_compat_l; lra). lra. - rewrite pow_bpow. apply Rle_trans with (bpow radix2 (Z.of_nat 46) * bpow radix2 300 * bpow radix2 9); [apply Rmult_le_compat_l; [apply Rmult_le_pos; apply bpow_ge_0|change (bpow radix2 9) with 512; lra]|]. rewrite <- !bpow_plus. apply bpow_le. lia. }
  assert (NC : INR n <= 2 ^ 46). { rewrite INR_IZR_INZ. replace (2 ^ 46) with (IZR (2 ^ 46)) by (rewrite <- pow_IZR with (n := 46%nat); reflexivity). apply IZR_le. lia. } assert (X0 : 0 <= X) by (assert (Q := Rabs_pos A); lra). set (C := 2 ^ 46) in *.
  assert (AB : Rabs (B - A) <= 2 * X) by (unfold Rminus; apply Rle_trans with (1 := Rabs_triang _ _); rewrite Rabs_Ropp; lra). set (d := B - A) in *.
  (* the range *)
  destruct (minus_err b a Fb Fa ltac:(fold A B d; lra)) as [Fd Ed]. fold A B d in Ed. set (D := Bminus mode_NE b a) in *.
  assert (UX : u64 * Rabs d <= u64 * (2 * X)) by (apply Rmult_le_compat_l; lra). assert (UX0 : 0 <= u64 * X) by (apply Rmult_le_pos; lra). assert (UX1 : u64 * X <= 1 / 128 * X) by (apply Rmult_le_compat_r; lra).
  (* the step *)
  set (h := d / INR n) in *. assert (RN : 0 < / INR n <= 1). { split; [apply Rinv_0_lt_compat; lra|]. rewrite <- Rinv_1. apply Rinv_le_contravar; lra. }
  assert (Eh0 : Rabs (B2R D / INR n - h) <= u64 * Rabs h). { replace (B2R D / INR n - h) with ((B2R D - d) * / INR n) by (unfold h; field; lra). unfold h, Rdiv. rewrite !Rabs_mult, (Rabs_pos_eq (/ INR n)) by lra. rewrite <- Rmult_assoc. apply Rmult_le_compat_r; lra. }
  assert (Hh : Rabs h <= 2 * X) by (unfold h, Rdiv; rewrite Rabs_mult, (Rabs_pos_eq (/ INR n)) by lra; assert (Rabs d * / INR n <= Rabs d * 1) by (apply Rmult_le_compat_l; [apply Rabs_pos|lra]); lra).
  assert (Ph := Rabs_pos h). assert (Uh0 : 0 <= u64 * Rabs h) by (apply Rmult_le_pos; lra). assert (Uh : u64 * Rabs h <= 1 / 128 * Rabs h) by (apply Rmult_le_compat_r; lra).
  destruct (div_err D (f64_lit (Z.of_nat n) 1) Fd ltac:(rewrite N1; lra)) as [Fh Eh]. { rewrite N1. assert (Q := Rabs_triang (B2R D / INR n - h) h). replace (B2R D / INR n - h + h) with (B2R D / INR n) in Q by ring. assert (0 <= C) by (unfold C; lra). lra. }
  rewrite N1 in Eh. assert (Eh2 := absorb _ _ _ _ _ _ Eh Eh0 ltac:(lra)). clear Eh. set (H := Bdiv mode_NE D (f64_lit (Z.of_nat n) 1)) in *.
  assert (Uu : u64 * (u64 * Rabs h) <= u64 * (1 / 128 * Rabs h)) by (apply Rmult_le_compat_l; lra).
  assert (Eh3 : Rabs (B2R H - h) <= 202 / 100 * u64 * Rabs h + eta64) by lra. clear Eh2 Eh0 Uu.
  (* the product *)
  set (k := INR i + 1 / 2) in *. assert (K0 : 0 <= k <= INR n) by (unfold k; lra). set (t := k * h). assert (Kt : Rabs t <= Rabs d). { unfold t, h, Rdiv. rewrite !Rabs_mult, (Rabs_pos_eq (/ INR n)), (Rabs_pos_eq k) by lra. assert (k * / INR n <= 1) by (apply (Rmult_le_reg_r (INR n)); [lra|]; rewrite Rmult_assoc, Rinv_l by lra; lra). assert (Rabs d * (k * / INR n) <= Rabs d * 1) by (apply Rmult_le_compat_l; [apply Rabs_pos|lra]). lra. }
  assert (Et0 : Rabs (k * B2R H - t) <= 202 / 100 * u64 * Rabs d + INR n * eta64). { unfold t. replace (k * B2R H - k * h) with (k * (B2R H - h)) by ring. rewrite Rabs_mult, (Rabs_pos_eq k) by lra. apply Rle_trans with (k * (202 / 100 * u64 * Rabs h + eta64)); [apply Rmult_le_compat_l; lra|]. assert (Q : k * Rabs h <= Rabs d) by (unfold t in Kt; rewrite Rabs_mult, (Rabs_pos_eq k) in Kt by lra; exact Kt). assert (u64 * (k * Rabs h) <= u64 * Rabs d) by (apply Rmult_le_compat_l; lra). assert (k * eta64 <= INR n * eta64) by (apply Rmult_le_compat_r; lra). lra. }
  assert (NE : INR n * eta64 <= INR n * u64) by (apply Rmult_le_compat_l; lra). assert (NE0 : eta64 <= INR n * eta64) by (assert (1 * eta64 <= INR n * eta64) by (apply Rmult_le_compat_r; lra); lra).
  assert (TB : Rabs (k * B2R H) <= Rabs t + (202 / 100 * u64 * Rabs d + INR n * eta64)) by (assert (Q := Rabs_triang (k * B2R H - t) t); replace (k * B2R H - t + t) with (k * B2R H) in Q by ring; lra).
  destruct (mult_err kk H K1 Fh) as [Ft Et]; [rewrite K2; assert (0 <= C) by (unfold C; lra); lra|]. rewrite K2 in Et. assert (Et2 := absorb _ _ _ _ _ _ Et Et0 ltac:(lra)). clear Et. set (TT := Bmult mode_NE kk H) in *.
  assert (Ut : u64 * (Rabs t + (202 / 100 * u64 * Rabs d + INR n * eta64)) <= u64 * (2 * X + 1 / 10 * X) + 1 / 128 * (INR n * eta64)). { assert (u64 * (INR n * eta64) <= 1 / 128 * (INR n * eta64)) by (apply Rmult_le_compat_r; lra). assert (u64 * (Rabs t + 202 / 100 * u64 * Rabs d) <= u64 * (2 * X + 1 / 10 * X)) by (apply Rmult_le_compat_l; lra). lra. }
  assert (Et3 : Rabs (B2R TT - t) <= 615 / 100 * (u64 * X) + 102 / 100 * (INR n * eta64) + eta64) by lra. clear Et2 Ut.
  (* the point *)
  assert (MX : Rabs (A + t) <= X). { unfold t, h, k. replace (A + (INR i + 1 / 2) * (d / INR n)) with (A * (1 - (INR i + 1 / 2) * / INR n) + B * ((INR i + 1 / 2) * / INR n)) by (unfold d; field; lra). set (s := (INR i + 1 / 2) * / INR n). assert (S0 : 0 <= s <= 1). { unfold s. split; [apply Rmult_le_pos; lra|]. apply (Rmult_le_reg_r (INR n)); [lra|]. rewrite Rmult_assoc, Rinv_l by lra. lra. } apply Rle_trans with (1 := Rabs_triang _ _). rewrite !Rabs_mult, (Rabs_pos_eq s), (Rabs_pos_eq (1 - s)) by lra. assert (Rabs A * (1 - s) <= X * (1 - s)) by (apply Rmult_le_compat_r; lra). assert (Rabs B * s <= X * s) by (apply Rmult_le_compat_r; lra). lra. }
  assert (Ex0 : Rabs (A + B2R TT - (A + t)) <= 615 / 100 * (u64 * X) + 102 / 100 * (INR n * eta64) + eta64) by (replace (A + B2R TT - (A + t)) with (B2R TT - t) by ring; exact Et3).
  assert (XB : Rabs (A + B2R TT) <= Rabs (A + t) + (615 / 100 * (u64 * X) + 102 / 100 * (INR n * eta64) + eta64)) by (assert (Q := Rabs_triang (A + B2R TT - (A + t)) (A + t)); replace (A + B2R TT - (A + t) + (A + t)) with (A + B2R TT) in Q by ring; lra).
  destruct (plus_err a TT Fa Ft) as [Fx Ex]; [fold A; assert (0 <= C) by (unfold C; lra); lra|]. split; [exact Fx|]. fold A in Ex. assert (Ex1 : Rabs (B2R (Bplus mode_NE a TT) - (A + B2R TT)) <= u64 * Rabs (A + B2R TT) + 0) by lra. assert (Ex2 := absorb _ _ _ _ _ _ Ex1 Ex0 ltac:(lra)). unfold mid. fold d h k t. unfold sample_error.
  assert (u64 * (Rabs (A + t) + (615 / 100 * (u64 * X) + 102 / 100 * (INR n * eta64) + eta64)) <= u64 * (X + 1 / 10 * X) + 1 / 128 * (3 * (INR n * eta64))). { assert (u64 * (INR n * eta64) <= 1 / 128 * (INR n * eta64)) by (apply Rmult_le_compat_r; lra). assert (u64 * eta64 <= u64 * (INR n * eta64)) by (apply Rmult_le_compat_l; lra). assert (u64 * (Rabs (A + t) + 615 / 100 * (u64 * X)) <= u64 * (X + 1 / 10 * X)) by (apply Rmult_le_compat_l; lra). lra. }
  lra.
Qed.
End Sample.

(** ** weighted means of close points, and of close weights *)
Lemma rsum_map_plus {A} (f g : A -> R) l : rsum (map (fun x => f x + g x) l) = rsum (map f l) + rsum (map g l).
Proof. induction l as [|x l IH]; unfold rsum in *; cbn [map fold_right]; [lra|]. rewrite IH. ring. Qed.
Lemma rsum_map_times {A} (f : A -> R) c l : rsum (map (fun x => c * f x) l) = c * rsum (map f l).
Proof. induction l as [|x l IH]; unfold rsum in *; cbn [map fold_right]; [lra|]. rewrite IH. ring. Qed.
Lemma rsum_le {A} (f g : A -> R) l : (forall x, In x l -> f x <= g x) -> rsum (map f l) <= rsum (map g l).
Proof. induction l as [|x l IH]; intro H; unfold rsum in *; cbn [map fold_right]; [lra|]. assert (Q := H x (or_introl eq_refl)). specialize (IH (fun y Y => H y (or_intror Y))). lra. Qed.
Lemma rsum_abs {A} (f : A -> R) l : Rabs (rsum (map f l)) <= rsum (map (fun x => Rabs (f x)) l).
Proof. induction l as [|x l IH]; unfold rsum in *; cbn [map fold_right]; [rewrite Rabs_R0; lra|]. apply Rle_trans with (1 := Rabs_triang _ _). lra. Qed.
Lemma rsum_const {A} c (l : list A) : rsum (map (fun _ => c) l) = INR (length l) * c.
Proof. induction l as [|x l IH]; unfold rsum in *; cbn [map fold_right length]; [cbn [INR]; lra|]. rewrite S_INR, IH. ring. Qed.
Lemma close_points {A} (w p q : A -> R) l e : (forall x, In x l -> 0 <= w x /\ Rabs (p x - q x) <= e) -> rsum (map w l) <> 0 ->
  Rabs (rsum (map (fun x => w x * p x) l) / rsum (map w l) - rsum (map (fun x => w x * q x) l) / rsum (map w l)) <= e.
Proof.
  intros H N. set (W := rsum (map w l)) in *. assert (WP : 0 < W). { assert (0 <= W) by (unfold W; rewrite <- (Rmult_0_r (INR (length l))), <- (rsum_const 0 l); apply rsum_le; intros; now apply H). lra. }
  assert (E : rsum (map (fun x => w x * (p x - q x)) l) = rsum (map (fun x => w x * p x) l) - rsum (map (fun x => w x * q x) l)).
  { unfold Rminus at 2. rewrite <- (Rmult_1_l (- _)), <- Ropp_mult_distr_r, Ropp_mult_distr_l, <- (rsum_map_times (fun x => w x * q x)), <- rsum_map_plus. f_equal. apply map_ext. intro. ring. }
  replace (rsum (map (fun x => w x * p x) l) / W - rsum (map (fun x => w x * q x) l) / W) with (rsum (map (fun x => w x * (p x - q x)) l) / W) by (rewrite E; field; lra).
  unfold Rdiv. rewrite Rabs_mult, (Rabs_pos_eq (/ W)) by (left; now apply Rinv_0_lt_compat). apply (Rmult_le_reg_r W); [exact WP|]. rewrite Rmult_assoc, Rinv_l, Rmult_1_r by lra. apply Rle_trans with (1 := rsum_abs _ _).
  apply Rle_trans with (rsum (map (fun x => e * w x) l)); [|right; apply rsum_map_times]. apply rsum_le. intros x I. destruct (H x I) as [H1 H2]. rewrite Rabs_mult, (Rabs_pos_eq (w x)) by exact H1. rewrite Rmult_comm. apply Rmult_le_compat_r; assumption.
Qed.
Lemma close_weights {A} (w v p : A -> R) l d lo hi : (forall x, In x l -> 0 <= v x /\ Rabs (w x - v x) <= d /\ lo <= p x <= hi) -> 0 < rsum (map w l) -> rsum (map v l) <> 0 ->
  Rabs (rsum (map (fun x => w x * p x) l) / rsum (map w l) - rsum (map (fun x => v x * p x) l) / rsum (map v l)) <= INR (length l) * (d * (hi - lo)) / rsum (map w l).
Proof.
  intros H WP N. set (W := rsum (map w l)) in *. set (V := rsum (map v l)) in *. assert (VP : 0 < V). { assert (0 <= V) by (unfold V; rewrite <- (Rmult_0_r (INR (length l))), <- (rsum_const 0 l); apply rsum_le; intros; now apply H). lra. }
  set (c := rsum (map (fun x => v x * p x) l) / V).
  assert (CB : lo <= c <= hi). { unfold c. split; apply (Rmult_le_reg_r V); try exact VP; unfold Rdiv; rewrite Rmult_assoc, Rinv_l, Rmult_1_r by lra; unfold V; rewrite <- rsum_map_times; apply rsum_le; intros x I; destruct (H x I) as (H1 & _ & H2); rewrite (Rmult_comm _ (v x)); apply Rmult_le_compat_l; lra. }
  assert (E : rsum (map (fun x => (w x - v x) * (p x - c)) l) = rsum (map (fun x => w x * p x) l) - c * W).
  { transitivity (rsum (map (fun x => w x * p x + (- c * w x + (-1 * (v x * p x) + c * v x))) l)); [f_equal; apply map_ext; intro; ring|]. rewrite !rsum_map_plus, !rsum_map_times. fold W V. assert (rsum (map (fun x => v x * p x) l) = c * V) by (unfold c; field; lra). lra. }
  replace (rsum (map (fun x => w x * p x) l) / W - c) with (rsum (map (fun x => (w x - v x) * (p x - c)) l) / W) by (rewrite E; field; lra).
  unfold Rdiv at 1. rewrite Rabs_mult, (Rabs_pos_eq (/ W)) by (left; now apply Rinv_0_lt_compat). apply Rmult_le_compat_r; [left; now apply Rinv_0_lt_compat|]. apply Rle_trans with (1 := rsum_abs _ _). rewrite <- (rsum_const (d * (hi - lo)) l).
  apply rsum_le. intros x I. destruct (H x I) as (H1 & H2 & H3). rewrite Rabs_mult. apply Rmult_le_compat; try apply Rabs_pos; [exact H2|]. unfold Rabs. destruct Rcase_abs; lra.
Qed.

Section Centroid.
Variables (P : fparam) (mu : f64 -> res f64) (a b : f64) (X D : R) (n : nat) (y : nat -> f64).
#[local] Instance T64 : Scalar f64 := F64Scalar P.
Hypothesis a_ok : is_finite a = true /\ Rabs (B2R a) <= X.
Hypothesis b_ok : is_finite b = true /\ Rabs (B2R b) <= X.
Hypothesis X_small : X <= bpow radix2 300.
Hypothesis D_small : D <= bpow radix2 400.
Hypothesis n_pos : (1 <= n)%nat.
Hypothesis n_small : (Z.of_nat n < 2 ^ 46)%Z.
Hypothesis values : forall i, (i < n)%nat -> mu (sample a b (Z.of_nat n) i) = Ok (y i) /\ is_finite (y i) = true /\ 0 <= B2R (y i) <= D.
Let E := sample_error (INR n) X.
Let W := rsum (map (fun i => B2R (y i)) (seq 0 n)).
Let Z := rsum (map (fun i => B2R (y i) * mid (B2R a) (B2R b) n i) (seq 0 n)).
Lemma centroid_gen l : (forall i, In i l -> (i < n)%nat) -> forall u v, rfold (centroid_step mu a b (Z.of_nat n)) (u, v) l = Ok (fold_left sum_step (map (fun i => (y i, sample a b (Z.of_nat n) i)) l) (u, v)).
Proof.
  induction l as [|i l IH]; intros H u v; cbn [rfold map fold_left]; [reflexivity|].
  assert (Q : centroid_step mu a b (Z.of_nat n) (u, v) i = Ok (sum_step (u, v) (y i, sample a b (Z.of_nat n) i))) by (unfold centroid_step; rewrite (proj1 (values i (H i (or_introl eq_refl)))); reflexivity). rewrite Q. cbn [rbind]. unfold sum_step at 2. apply IH. intros j J. apply H. now right.
Qed.
Lemma centroid_round : W <> 0 -> exists r, centroid mu a b (Z.of_nat n) = Ok r /\ is_finite r = true /\ Rabs (B2R r - Z / W) <= centroid_rounding (INR n) X W.
Proof.
  intro NZ. destruct u64_small as [U _]. destruct eta64_small as [T T2]. assert (SC := small_count n n_small). rewrite S_INR in SC. assert (N1 : 1 <= INR n) by (change 1 with (INR 1); now apply le_INR). assert (X0 : 0 <= X) by (destruct a_ok; assert (Q := Rabs_pos (B2R a)); lra).
  assert (NE : INR n * eta64 <= INR n * u64) by (apply Rmult_le_compat_l; lra). assert (NU : 0 <= INR n * u64) by (apply Rmult_le_pos; lra). assert (UX : u64 * X <= 1 / 128 * X) by (apply Rmult_le_compat_r; lra). assert (UX0 : 0 <= u64 * X) by (apply Rmult_le_pos; lra). assert (NE0 : 0 <= INR n * eta64) by (apply Rmult_le_pos; lra).
  assert (E0 : 0 <= E <= X + 1) by (unfold E, sample_error; lra).
  assert (XB : bpow radix2 300 * 4 <= bpow radix2 400) by (change 4 with (bpow radix2 2); rewrite <- bpow_plus; apply bpow_le; lia). assert (X1 : 1 <= bpow radix2 300) by (change 1 with (bpow radix2 0); apply bpow_le; lia).
  set (ps := map (fun i => (y i, sample a b (Z.of_nat n) i)) (seq 0 n)).
  assert (ST : forall i, In i (seq 0 n) -> (i < n)%nat) by (intros i I; apply in_seq in I; lia).
  assert (MX : forall i, (i < n)%nat -> Rabs (mid (B2R a) (B2R b) n i) <= X).
  { intros i I. destruct a_ok as [_ Ba], b_ok as [_ Bb]. apply Rabs_le_between in Ba, Bb. apply Rabs_le. assert (IN : INR i + 1 <= INR n) by (rewrite <- S_INR; apply le_INR; lia). assert (PI := pos_INR i). unfold mid. set (s := (INR i + 1 / 2) * / INR n). assert (RN : 0 < / INR n) by (apply Rinv_0_lt_compat; lra). assert (S0 : 0 <= s <= 1). { unfold s. split; [apply Rmult_le_pos; lra|]. apply (Rmult_le_reg_r (INR n)); [lra|]. rewrite Rmult_assoc, Rinv_l by lra. lra. }
    replace (B2R a + (INR i + 1 / 2) * ((B2R b - B2R a) / INR n)) with (B2R a * (1 - s) + B2R b * s) by (unfold s; field; lra). assert (- X * (1 - s) <= B2R a * (1 - s) <= X * (1 - s)) by (split; apply Rmult_le_compat_r; lra). assert (- X * s <= B2R b * s <= X * s) by (split; apply Rmult_le_compat_r; lra). lra. }
  assert (PS : List.Forall (sane D (X + E)) ps).
  { apply Forall_forall. intros p I. unfold ps in I. apply in_map_iff in I. destruct I as (i & <- & I). apply ST in I. destruct (values i I) as (_ & H1 & H2). destruct (sample_close P a b X n a_ok b_ok X_small n_pos n_small i I) as [H3 H4]. unfold sane, wof, zof. cbn [fst snd]. split; [exact H1|]. split; [exact H3|]. split; [exact H2|].
    assert (Q := Rabs_triang (B2R (sample a b (Z.of_nat n) i) - mid (B2R a) (B2R b) n i) (mid (B2R a) (B2R b) n i)). replace (B2R (sample a b (Z.of_nat n) i) - mid (B2R a) (B2R b) n i + mid (B2R a) (B2R b) n i) with (B2R (sample a b (Z.of_nat n) i)) in Q by ring. specialize (MX i I). unfold E. change (F64Quot.S64 P) with (F64Scalar P) in *. unfold T64 in *. unfold S64 in *. lra. }
  assert (LP : length ps = n) by (unfold ps; rewrite map_length, seq_length; reflexivity).
  assert (WT : wtotal ps = W) by (unfold wtotal, ps, W; rewrite map_map; reflexivity).
  assert (ZT : ztotal ps = rsum (map (fun i => B2R (y i) * B2R (sample a b (Z.of_nat n) i)) (seq 0 n))) by (unfold ztotal, ps; rewrite map_map; reflexivity).
  assert (Q := mean_main D (X + E) ps D_small ltac:(lra) PS ltac:(rewrite LP; exact n_small) ltac:(rewrite WT; exact NZ)). rewrite LP, WT, ZT in Q. destruct Q as [F Q].
  exists (Bdiv mode_NE (snd (fold_left sum_step ps (f64_lit 0 1, f64_lit 0 1))) (fst (fold_left sum_step ps (f64_lit 0 1, f64_lit 0 1)))). split.
  - unfold centroid. assert (FS : isFinite (s_add a b) = true). { rewrite (f_isFinite P). destruct a_ok as [Fa Ba], b_ok as [Fb Bb]. apply (plus_err a b Fa Fb). apply Rle_trans with (1 := Rabs_triang _ _). apply Rle_trans with (2 * bpow radix2 300); [lra|]. change 2 with (bpow radix2 1). rewrite <- bpow_plus. apply bpow_le. lia. }
    rewrite FS. cbn [negb]. unfold steps. rewrite Nat2Z.id. change (@s_0 f64 T64) with (f64_lit 0 1). rewrite (centroid_gen _ ST). reflexivity.
  - split; [exact F|]. unfold centroid_rounding. fold E.
    assert (CP := close_points (fun i => B2R (y i)) (fun i => B2R (sample a b (Z.of_nat n) i)) (fun i => mid (B2R a) (B2R b) n i) (seq 0 n) E ltac:(intros i I; apply ST in I; split; [apply values; exact I|now apply (sample_close P a b X n a_ok b_ok X_small n_pos n_small)]) NZ). fold W Z in CP.
    exact (tri _ _ _ _ _ Q CP).
Qed.

(** all errors together *)
Variables (f : R -> R) (delta L B : R).
Hypothesis ab : B2R a < B2R b.
Hypothesis slope : lipschitz f (B2R a) (B2R b) L.
Hypothesis bounds : forall x, B2R a <= x <= B2R b -> 0 <= f x <= B.
Hypothesis close : forall i, (i < n)%nat -> Rabs (B2R (y i) - f (mid (B2R a) (B2R b) n i)) <= delta.
Let d := B2R b - B2R a.
Let A := area f (B2R a) (B2R b).
(** a lower bound of the mean membership *)
Let omega := A / d - L * d / (2 * INR n) - delta.
Lemma centroid_total : 0 < omega -> exists r, centroid mu a b (Z.of_nat n) = Ok r /\ is_finite r = true /\
  Rabs (B2R r - gravity f (B2R a) (B2R b)) <= (L * d + B) * d ^ 2 / (2 * INR n * A - L * d ^ 2) + delta * d / omega +
    (5 / 2 * (INR n + 1) * u64 * (X + sample_error (INR n) X) + 2 * eta64 / omega + eta64 + sample_error (INR n) X).
Proof.
  intro OM. assert (N1 : 1 <= INR n) by (change 1 with (INR 1); now apply le_INR). assert (DP : 0 < d) by (unfold d; lra). assert (S0 := slope_pos f _ _ ab L slope). destruct eta64_small as [T _].
  assert (DE : 0 <= delta) by (apply Rle_trans with (2 := close 0%nat ltac:(lia)); apply Rabs_pos).
  set (xs := mids (B2R a) (B2R b) n). set (V := rsum (map f xs)).
  assert (G : L * d ^ 2 < 2 * INR n * A). { assert (Q : 0 < (A / d - L * d / (2 * INR n)) * (2 * INR n * d)) by (apply Rmult_lt_0_compat; [unfold omega in OM; lra|]; apply Rmult_lt_0_compat; lra). replace ((A / d - L * d / (2 * INR n)) * (2 * INR n * d)) with (2 * INR n * A - L * d ^ 2) in Q by (field; lra). lra. }
  destruct (mass_error f _ _ L B n ab slope bounds n_pos G) as [NV ME]. fold xs V in NV, ME. fold d A in ME.
  assert (AE := area_error f _ _ ab L slope n n_pos). fold xs V d A in AE.
  assert (VL : INR n * (A / d - L * d / (2 * INR n)) <= V). { apply (Rmult_le_reg_l (d / INR n)); [apply Rdiv_lt_0_compat; lra|]. apply Rabs_le_between in AE. replace (d / INR n * (INR n * (A / d - L * d / (2 * INR n)))) with (A - L * d ^ 2 / (2 * INR n)) by (field; lra). lra. }
  assert (VE : V = rsum (map (fun i => f (mid (B2R a) (B2R b) n i)) (seq 0 n))) by (unfold V, xs, mids; rewrite map_map; reflexivity).
  assert (ST : forall i, In i (seq 0 n) -> (i < n)%nat) by (intros i I; apply in_seq in I; lia).
  assert (WL : INR n * omega <= W).
  { apply Rle_trans with (V - INR n * delta); [unfold omega; lra|]. rewrite VE. unfold W. assert (Q := rsum_le (fun i => f (mid (B2R a) (B2R b) n i)) (fun i => B2R (y i) + delta) (seq 0 n)). rewrite rsum_map_plus, rsum_const, seq_length in Q. cbv beta in Q. assert (rsum (map (fun i => f (mid (B2R a) (B2R b) n i)) (seq 0 n)) <= rsum (map (fun i => B2R (y i)) (seq 0 n)) + INR n * delta) by (apply Q; intros i I; assert (C := close i (ST i I)); apply Rabs_le_between in C; lra). lra. }
  assert (OW : 0 < INR n * omega) by (apply Rmult_lt_0_compat; lra). assert (WP : 0 < W) by lra.
  destruct centroid_round as (r & R1 & R2 & R3); [lra|]. exists r. split; [exact R1|]. split; [exact R2|].
  assert (CW := close_weights (fun i => B2R (y i)) (fun i => f (mid (B2R a) (B2R b) n i)) (fun i => mid (B2R a) (B2R b) n i) (seq 0 n) delta (B2R a) (B2R b)). fold W Z in CW. rewrite <- VE, seq_length in CW. fold d in CW.
  specialize (CW ltac:(intros i I; apply ST in I; assert (M := mid_in (B2R a) (B2R b) n i I ltac:(lra)); split; [now apply bounds|]; split; [now apply close|exact M]) WP NV).
  assert (CM : center_of_mass f xs = rsum (map (fun i => f (mid (B2R a) (B2R b) n i) * mid (B2R a) (B2R b) n i) (seq 0 n)) / V). { unfold center_of_mass. fold V. f_equal. unfold xs, mids. rewrite map_map. f_equal. apply map_ext. intro. ring. }
  rewrite <- CM in CW.
  assert (I1 : / W <= / (INR n * omega)) by (apply Rinv_le_contravar; lra).
  assert (B1 : INR n * (delta * d) / W <= delta * d / omega). { apply Rle_trans with (INR n * (delta * d) * / (INR n * omega)); [apply Rmult_le_compat_l; [apply Rmult_le_pos; [lra|apply Rmult_le_pos; lra]|exact I1]|]. right. field. lra. }
  assert (B2 : 2 * INR n * eta64 / W <= 2 * eta64 / omega). { apply Rle_trans with (2 * INR n * eta64 * / (INR n * omega)); [apply Rmult_le_compat_l; [apply Rmult_le_pos; lra|exact I1]|]. right. field. lra. }
  unfold centroid_rounding, mean_error in R3. rewrite (Rplus_comm (L * d) B).
  apply Rle_trans with (1 := tri _ _ _ _ _ (tri _ _ _ _ _ R3 CW) ME).
  lra.
Qed.
End Centroid.
