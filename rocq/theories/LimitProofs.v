(** Errors of the integral defuzzifiers against integrals and maximizers. *)
From Coq Require Import ZArith Reals Bool List Lia Lra Sorting.Sorted.
From Coquelicot Require Import Coquelicot.
From Verif Require Import Base Op XR Defuzz SpecDefuzz SpecLimit DefuzzReal DefuzzSelect DefuzzBisector DefuzzBundle LimitRiemann.
Import ListNotations.
Local Open Scope R_scope.

(** ** centroid *)
Lemma rsum_times (f : R -> R) c l : rsum (map (fun x => c * f x) l) = c * rsum (map f l).
Proof. induction l as [|x l IH]; unfold rsum in *; cbn [map fold_right]; [lra|]. rewrite IH. ring. Qed.
Lemma rsum_minus (f g : R -> R) l : rsum (map (fun x => f x - g x) l) = rsum (map f l) - rsum (map g l).
Proof. induction l as [|x l IH]; unfold rsum in *; cbn [map fold_right]; [lra|]. rewrite IH. ring. Qed.
Lemma quotient_in (a b A M : R) : 0 < A -> 0 <= M - a * A -> 0 <= - (M - b * A) -> a <= M / A <= b.
Proof.
  intros H E1 E2. split; apply (Rmult_le_reg_r A); try exact H; replace (M / A * A) with M by (field; lra); lra.
Qed.
Lemma quotient_zero (A M : R) : A <> 0 -> M - M / A * A = 0.
Proof. intro H. field. exact H. Qed.
Section Centroid.
Variables (P : xparam) (mu : xr -> res xr) (f : R -> R) (a b : R).
Hypothesis ab : a < b.
Hypothesis mu_f : forall x, a <= x <= b -> mu (XFin x) = Ok (XFin (f x)).

Lemma centroid_quotient n : (1 <= n)%nat -> (b - a) / INR n * rsum (map f (mids a b n)) <> 0 ->
  @centroid xr (XRScalar P) mu (XFin a) (XFin b) (Z.of_nat n) = Ok (XFin (((b - a) / INR n * rsum (map (fun x => x * f x) (mids a b n))) / ((b - a) / INR n * rsum (map f (mids a b n))))).
Proof.
  intros N H. assert (Q : rsum (map f (mids a b n)) <> 0) by (intro E; apply H; rewrite E; ring). assert (PN := lt_0_INR n ltac:(lia)).
  rewrite (centroid_mass P mu f a b (Z.of_nat n)); [|lia|lra|exact mu_f|rewrite Nat2Z.id; exact Q]. rewrite Nat2Z.id. unfold center_of_mass. do 2 f_equal. field. repeat split; try exact Q; lra.
Qed.
Lemma centroid_limit A M : is_RInt f a b A -> is_RInt (fun x => x * f x) a b M -> A <> 0 -> forall eps, 0 < eps -> exists N, forall n, (N <= n)%Z ->
  exists r, @centroid xr (XRScalar P) mu (XFin a) (XFin b) n = Ok (XFin r) /\ Rabs (r - M / A) < eps.
Proof.
  intros HA HM NA eps E.
  set (u := fun n => (b - a) / INR n * rsum (map f (mids a b n))). set (v := fun n => (b - a) / INR n * rsum (map (fun x => x * f x) (mids a b n))).
  assert (U : is_lim_seq u A).
  { apply is_lim_seq_spec. intros e. destruct (riemann_limit f a b A ab HA e (cond_pos e)) as (N & Q). exists (Nat.max N 1). intros n L. apply Q; lia. }
  assert (V : is_lim_seq v M).
  { apply is_lim_seq_spec. intros e. destruct (riemann_limit (fun x => x * f x) a b M ab HM e (cond_pos e)) as (N & Q). exists (Nat.max N 1). intros n L. apply Q; lia. }
  assert (W := is_lim_seq_div' v u M A V U NA). apply is_lim_seq_spec in W, U. destruct (W (mkposreal eps E)) as (N1 & W1). destruct (U (mkposreal (Rabs A) (Rabs_pos_lt _ NA))) as (N2 & U1). cbn in W1, U1.
  exists (Z.of_nat (Nat.max (Nat.max N1 N2) 1)). intros n L. set (k := Z.to_nat n). assert (K : n = Z.of_nat k) by (unfold k; lia). specialize (W1 k ltac:(lia)). specialize (U1 k ltac:(lia)). exists (v k / u k). split; [|exact W1].
  rewrite K. apply centroid_quotient; [lia|]. fold (u k). intro Z. rewrite Z in U1. unfold Rminus in U1. rewrite Rplus_0_l, Rabs_Ropp in U1. lra.
Qed.

Variables (L B : R).
Hypothesis slope : lipschitz f a b L.
Hypothesis bounds : forall x, a <= x <= b -> 0 <= f x <= B.
Lemma slope_pos : 0 <= L.
Proof. assert (H := slope a b ltac:(lra) ltac:(lra)). assert (P1 := Rabs_pos (f a - f b)). rewrite (Rabs_left (a - b)) in H by lra. nra. Qed.
Lemma times_lipschitz c : a <= c <= b -> lipschitz (fun x => (x - c) * f x) a b (B + L * (b - a)).
Proof.
  intros C x y X Y. replace ((x - c) * f x - (y - c) * f y) with ((x - y) * f x + (y - c) * (f x - f y)) by ring. apply Rle_trans with (1 := Rabs_triang _ _). rewrite !Rabs_mult.
  assert (H := slope x y X Y). destruct (bounds x X) as [B1 B2]. assert (S0 := slope_pos). rewrite (Rabs_pos_eq (f x)) by exact B1. assert (D := Rabs_pos (x - y)). assert (D1 := Rabs_pos (y - c)). assert (D2 : Rabs (y - c) <= b - a) by (unfold Rabs; destruct Rcase_abs; lra). assert (D3 := Rabs_pos (f x - f y)).
  assert (Rabs (x - y) * f x <= Rabs (x - y) * B) by (apply Rmult_le_compat_l; assumption).
  assert (Rabs (y - c) * Rabs (f x - f y) <= (b - a) * (L * Rabs (x - y))) by (apply Rmult_le_compat; assumption). nra.
Qed.
Lemma plain_lipschitz : lipschitz (fun x => x * f x) a b (B + L * (b - a) + Rabs a * L).
Proof.
  intros x y X Y. assert (H := times_lipschitz a ltac:(lra) x y X Y). assert (G := slope x y X Y). replace (x * f x - y * f y) with (((x - a) * f x - (y - a) * f y) + a * (f x - f y)) by ring. apply Rle_trans with (1 := Rabs_triang _ _). rewrite (Rabs_mult a).
  assert (Rabs a * Rabs (f x - f y) <= Rabs a * (L * Rabs (x - y))) by (apply Rmult_le_compat_l; [apply Rabs_pos|exact G]). nra.
Qed.
Lemma f_integrable : ex_RInt f a b.
Proof. apply (lipschitz_integrable f a b L); [lra|apply slope_pos|exact slope]. Qed.
Lemma bound_pos : 0 <= B.
Proof. destruct (bounds a ltac:(lra)). lra. Qed.
Lemma moment_integrable : ex_RInt (fun x => x * f x) a b.
Proof. apply (lipschitz_integrable _ a b (B + L * (b - a) + Rabs a * L)); [lra| |exact plain_lipschitz]. assert (X := slope_pos). assert (Y := bound_pos). assert (Z := Rabs_pos a). nra. Qed.
Lemma moment_at c : RInt (fun x => (x - c) * f x) a b = RInt (fun x => x * f x) a b - c * RInt f a b.
Proof.
  assert (I2 := ex_RInt_scal (V := R_NormedModule) f a b c f_integrable). change (ex_RInt (fun x => c * f x) a b) in I2.
  assert (Q := RInt_minus (V := R_CompleteNormedModule) (fun x => x * f x) (fun x => c * f x) a b moment_integrable I2). change (RInt (fun x => x * f x - c * f x) a b = RInt (fun x => x * f x) a b - RInt (fun x => c * f x) a b) in Q.
  assert (Q2 := RInt_scal (V := R_CompleteNormedModule) f a b c f_integrable). change (RInt (fun x => c * f x) a b = c * RInt f a b) in Q2. rewrite Q2 in Q. rewrite <- Q. apply RInt_ext. intros x _. change ((x - c) * f x = x * f x - c * f x). ring.
Qed.
Lemma gravity_in : 0 < area f a b -> a <= gravity f a b <= b.
Proof.
  unfold area, gravity. intro A. assert (E1 := moment_at a). assert (E2 := moment_at b).
  assert (I1 : 0 <= RInt (fun x => (x - a) * f x) a b).
  { apply RInt_ge_0; [lra| |intros x X; apply Rmult_le_pos; [lra|apply bounds; lra]]. apply (lipschitz_integrable _ a b (B + L * (b - a))); [lra| |apply times_lipschitz; lra]. assert (X := slope_pos). assert (Y := bound_pos). nra. }
  assert (I2 : 0 <= RInt (fun x => - ((x - b) * f x)) a b).
  { apply RInt_ge_0; [lra| |intros x X; destruct (bounds x ltac:(lra)); nra]. apply (ex_RInt_opp (V := R_NormedModule) (fun x => (x - b) * f x)). apply (lipschitz_integrable _ a b (B + L * (b - a))); [lra| |apply times_lipschitz; lra]. assert (X := slope_pos). assert (Y := bound_pos). nra. }
  assert (I3 : RInt (fun x => - ((x - b) * f x)) a b = - RInt (fun x => (x - b) * f x) a b).
  { apply (RInt_opp (V := R_CompleteNormedModule) (fun x => (x - b) * f x)). apply (lipschitz_integrable _ a b (B + L * (b - a))); [lra| |apply times_lipschitz; lra]. assert (X := slope_pos). assert (Y := bound_pos). nra. }
  rewrite I3, E2 in I2. rewrite E1 in I1. exact (quotient_in a b _ _ A I1 I2).
Qed.
Lemma area_error n : (1 <= n)%nat -> Rabs ((b - a) / INR n * rsum (map f (mids a b n)) - area f a b) <= L * (b - a) ^ 2 / (2 * INR n).
Proof. intro N. apply midpoint_rule; [lra|exact N|apply slope_pos|exact slope]. Qed.
Lemma centroid_error n : (1 <= n)%nat -> L * (b - a) ^ 2 < 2 * INR n * area f a b ->
  exists r, @centroid xr (XRScalar P) mu (XFin a) (XFin b) (Z.of_nat n) = Ok (XFin r) /\
    Rabs (r - gravity f a b) <= (B + L * (b - a)) * (b - a) ^ 2 / (2 * INR n * area f a b - L * (b - a) ^ 2).
Proof.
  intros N G. assert (PN := lt_0_INR n ltac:(lia)). assert (S0 := slope_pos). assert (B0 := bound_pos). assert (AP : 0 < area f a b) by (apply (Rmult_lt_reg_l (2 * INR n)); [lra|]; rewrite Rmult_0_r; apply Rle_lt_trans with (2 := G); apply Rmult_le_pos; [exact S0|apply pow2_ge_0]).
  assert (E1 := area_error n N). set (c := gravity f a b). assert (C := gravity_in AP). fold c in C.
  assert (E2 := midpoint_rule (fun x => (x - c) * f x) a b n (B + L * (b - a)) ltac:(lra) N ltac:(nra) (times_lipschitz c C)).
  assert (Z : RInt (fun x => (x - c) * f x) a b = 0) by (rewrite moment_at; exact (quotient_zero _ _ (Rgt_not_eq _ _ AP))). rewrite Z, Rminus_0_r in E2.
  assert (SM : rsum (map (fun x => (x - c) * f x) (mids a b n)) = rsum (map (fun x => x * f x) (mids a b n)) - c * rsum (map f (mids a b n))).
  { rewrite <- (rsum_times f c), <- (rsum_minus (fun x => x * f x) (fun x => c * f x)). f_equal. apply map_ext. intro x. ring. }
  rewrite SM in E2. set (h := (b - a) / INR n) in *. set (s := rsum (map f (mids a b n))) in *. set (m := rsum (map (fun x => x * f x) (mids a b n))) in *. set (A := area f a b) in *.
  assert (LB : A - L * (b - a) ^ 2 / (2 * INR n) <= h * s) by (assert (Q := Rle_abs (- (h * s - A))); rewrite Rabs_Ropp in Q; lra).
  assert (DP : 0 < A - L * (b - a) ^ 2 / (2 * INR n)) by (apply (Rmult_lt_reg_r (2 * INR n)); [lra|]; replace ((A - L * (b - a) ^ 2 / (2 * INR n)) * (2 * INR n)) with (2 * INR n * A - L * (b - a) ^ 2) by (field; lra); lra).
  exists (h * m / (h * s)). split; [apply (centroid_quotient n N); unfold h, s in LB, DP |- *; lra|].
  replace (h * m / (h * s) - c) with (h * (m - c * s) / (h * s)) by (field; split; intro X; rewrite X in LB; lra). unfold Rdiv at 1. rewrite Rabs_mult, (Rabs_pos_eq (/ (h * s))) by (left; apply Rinv_0_lt_compat; lra).
  apply Rle_trans with ((B + L * (b - a)) * (b - a) ^ 2 / (2 * INR n) * / (A - L * (b - a) ^ 2 / (2 * INR n))).
  - apply Rmult_le_compat; [apply Rabs_pos|left; apply Rinv_0_lt_compat; lra|exact E2|]. now apply Rinv_le_contravar.
  - right. field. split; [lra|]. lra.
Qed.
End Centroid.
