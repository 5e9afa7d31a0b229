(** C78: double precision agrees with exact arithmetic up to explicit errors. *)
From Coq Require Import ZArith String Reals Bool List Lia Lra.
From Coquelicot Require Import Coquelicot.
From Flocq Require Import Core BinarySingleNaN.
From Verif Require Import Base Op XR F64 F64Arith F64Err Norm Defuzz Aggregated SpecDefuzz SpecRound SpecLimit F64Sum F64Quot LimitProofs LimitMamdani F64Centroid.
Import ListNotations.
Local Open Scope R_scope.

(** * C78 *)
(** WeightedAverage: degrees w and values v of the grouped terms, as computed *)
Theorem C78_average : forall (P : fparam) A name z aggregation (terms : list (activated f64 A)) (v : activated f64 A -> f64) D M,
  let gs := @grouped_terms f64 (F64Scalar P) A name aggregation terms in
  D <= bpow radix2 400 -> 0 <= M <= bpow radix2 400 ->
  (forall a, In a gs -> z (ac_term a) (ac_degree a) = Ok (v a) /\ is_finite (ac_degree a) = true /\ is_finite (v a) = true /\ 0 <= B2R (ac_degree a) <= D /\ Rabs (B2R (v a)) <= M) ->
  (Z.of_nat (List.length gs) < 2 ^ 46)%Z ->
  let W := rsum (map (fun a => B2R (ac_degree a)) gs) in let Z := rsum (map (fun a => B2R (ac_degree a) * B2R (v a)) gs) in
  W <> 0 -> exists r, @weighted_with f64 (F64Scalar P) A WeightedAverage name z aggregation terms = Ok r /\ is_finite r = true /\ Rabs (B2R r - Z / W) <= mean_error (INR (List.length gs)) M W.
Proof. exact average_error. Qed.
Print Assumptions C78_average.
Theorem C78_sum : forall (P : fparam) A name z aggregation (terms : list (activated f64 A)) (v : activated f64 A -> f64) D M,
  let gs := @grouped_terms f64 (F64Scalar P) A name aggregation terms in
  D <= bpow radix2 400 -> 0 <= M <= bpow radix2 400 ->
  (forall a, In a gs -> z (ac_term a) (ac_degree a) = Ok (v a) /\ is_finite (ac_degree a) = true /\ is_finite (v a) = true /\ 0 <= B2R (ac_degree a) <= D /\ Rabs (B2R (v a)) <= M) ->
  (Z.of_nat (List.length gs) < 2 ^ 46)%Z ->
  let W := rsum (map (fun a => B2R (ac_degree a)) gs) in let Z := rsum (map (fun a => B2R (ac_degree a) * B2R (v a)) gs) in
  exists r, @weighted_with f64 (F64Scalar P) A WeightedSum name z aggregation terms = Ok r /\ is_finite r = true /\ Rabs (B2R r - Z) <= sum_error (INR (List.length gs)) M W.
Proof. exact weighted_sum_error. Qed.
Print Assumptions C78_sum.
(** the sample points of the integral defuzzifiers *)
Theorem C78_samples : forall (P : fparam) (a b : f64) X n, is_finite a = true /\ Rabs (B2R a) <= X -> is_finite b = true /\ Rabs (B2R b) <= X -> X <= bpow radix2 300 ->
  (1 <= n)%nat -> (Z.of_nat n < 2 ^ 46)%Z -> forall i, (i < n)%nat ->
  is_finite (@sample f64 (F64Scalar P) a b (Z.of_nat n) i) = true /\ Rabs (B2R (@sample f64 (F64Scalar P) a b (Z.of_nat n) i) - mid (B2R a) (B2R b) n i) <= sample_error (INR n) X.
Proof. exact sample_close. Qed.
Print Assumptions C78_samples.
(** Centroid: memberships y as computed *)
Theorem C78_centroid : forall (P : fparam) mu (a b : f64) X D n y, is_finite a = true /\ Rabs (B2R a) <= X -> is_finite b = true /\ Rabs (B2R b) <= X ->
  X <= bpow radix2 300 -> D <= bpow radix2 400 -> (1 <= n)%nat -> (Z.of_nat n < 2 ^ 46)%Z ->
  (forall i, (i < n)%nat -> mu (@sample f64 (F64Scalar P) a b (Z.of_nat n) i) = Ok (y i) /\ is_finite (y i) = true /\ 0 <= B2R (y i) <= D) ->
  let W := rsum (map (fun i => B2R (y i)) (seq 0 n)) in let Z := rsum (map (fun i => B2R (y i) * mid (B2R a) (B2R b) n i) (seq 0 n)) in
  W <> 0 -> exists r, @centroid f64 (F64Scalar P) mu a b (Z.of_nat n) = Ok r /\ is_finite r = true /\ Rabs (B2R r - Z / W) <= centroid_rounding (INR n) X W.
Proof. exact centroid_round. Qed.
Print Assumptions C78_centroid.
(** Centroid against the center of gravity of a function f to which the memberships as computed are within delta: resolution, memberships and rounding *)
Theorem C78_gravity : forall (P : fparam) mu (a b : f64) X D n y, is_finite a = true /\ Rabs (B2R a) <= X -> is_finite b = true /\ Rabs (B2R b) <= X ->
  X <= bpow radix2 300 -> D <= bpow radix2 400 -> (1 <= n)%nat -> (Z.of_nat n < 2 ^ 46)%Z ->
  (forall i, (i < n)%nat -> mu (@sample f64 (F64Scalar P) a b (Z.of_nat n) i) = Ok (y i) /\ is_finite (y i) = true /\ 0 <= B2R (y i) <= D) ->
  forall f delta L B, B2R a < B2R b -> lipschitz f (B2R a) (B2R b) L -> (forall x, B2R a <= x <= B2R b -> 0 <= f x <= B) ->
  (forall i, (i < n)%nat -> Rabs (B2R (y i) - f (mid (B2R a) (B2R b) n i)) <= delta) ->
  let d := B2R b - B2R a in let A := area f (B2R a) (B2R b) in let omega := A / d - L * d / (2 * INR n) - delta in
  0 < omega -> exists r, @centroid f64 (F64Scalar P) mu a b (Z.of_nat n) = Ok r /\ is_finite r = true /\
  Rabs (B2R r - gravity f (B2R a) (B2R b)) <= (L * d + B) * d ^ 2 / (2 * INR n * A - L * d ^ 2) + delta * d / omega +
    (5 / 2 * (INR n + 1) * u64 * (X + sample_error (INR n) X) + 2 * eta64 / omega + eta64 + sample_error (INR n) X).
Proof. exact centroid_total. Qed.
Print Assumptions C78_gravity.

Lemma eta_u : 0 < eta64 <= / 1000000000000000 /\ 0 < u64 <= / 1000000000000000.
Proof. destruct eta64_small as [T1 T2]. destruct u64_small as [U1 U2]. assert (U3 : u64 <= / 1000000000000000) by lra. lra. Qed.
Lemma spread n : 0 <= n <= 100 -> sample_error n 10 <= / 1000000000000 /\ 5 / 2 * (n + 1) * u64 * (10 + sample_error n 10) <= / 100000000000.
Proof.
  intro N. destruct eta_u as [E U]. unfold sample_error. assert (Q : 2 * (n + 1) * eta64 <= 202 * eta64) by (apply Rmult_le_compat_r; lra).
  assert (Q0 : 0 <= 2 * (n + 1) * eta64) by (apply Rmult_le_pos; lra). split; [lra|].
  assert (Q2 : 5 / 2 * (n + 1) * u64 <= 5 / 2 * 101 * u64) by (apply Rmult_le_compat_r; lra). assert (Q3 : 0 <= 5 / 2 * (n + 1) * u64) by (apply Rmult_le_pos; lra).
  apply Rle_trans with (5 / 2 * 101 * u64 * 11); [|lra]. apply Rmult_le_compat; [exact Q3 | lra | exact Q2 | lra].
Qed.
Lemma lit_int k : (Z.abs k < 2 ^ 53)%Z -> is_finite (f64_lit k 1) = true /\ B2R (f64_lit k 1) = IZR k.
Proof. intro H. now destruct (int_correct k H). Qed.
Lemma big300 x : x <= 100 -> x <= bpow radix2 300 /\ x <= bpow radix2 400.
Proof.
  intro H. assert (Q : bpow radix2 7 <= bpow radix2 300) by (apply bpow_le; lia). assert (Q2 : bpow radix2 7 <= bpow radix2 400) by (apply bpow_le; lia). change (bpow radix2 7) with 128 in Q, Q2. lra.
Qed.
(** degrees 1/2 and 1 of the values 3 and 5: 13/3 *)
Example C78_average_case : forall P, exists r, @weighted_with f64 (F64Scalar P) nat WeightedAverage (fun t => match t with O => "three"%string | _ => "five"%string end)
  (fun t _ => Ok (match t with O => f64_lit 3 1 | _ => f64_lit 5 1 end)) None [mkActivated 0%nat (f64_lit 1 2) None; mkActivated 1%nat (f64_lit 1 1) None] = Ok r /\ is_finite r = true /\ Rabs (B2R r - 13 / 3) <= / 1000000000000.
Proof.
  intro P. set (v := fun a : activated f64 nat => match ac_term a with O => f64_lit 3 1 | _ => f64_lit 5 1 end).
  destruct f64_half_correct as [H1 H2]. destruct f64_1_correct as [O1 O2]. destruct (lit_int 3 ltac:(lia)) as [T1 T2]. destruct (lit_int 5 ltac:(lia)) as [F1 F2]. destruct eta_u as [E U].
  destruct (C78_average P nat (fun t => match t with O => "three"%string | _ => "five"%string end) (fun t _ => Ok (match t with O => f64_lit 3 1 | _ => f64_lit 5 1 end)) None
    [mkActivated 0%nat (f64_lit 1 2) None; mkActivated 1%nat (f64_lit 1 1) None] v 1 5) as (r & A & B & C).
  - apply big300. lra.
  - split; [lra|]. apply big300. lra.
  - intros a [<- | [<- | []]]; cbn [ac_term ac_degree v]; rewrite ?H1, ?H2, ?O1, ?O2, ?T1, ?T2, ?F1, ?F2; repeat split; try lra; rewrite Rabs_pos_eq; lra.
  - cbn. lia.
  - unfold rsum. match goal with |- context [map _ ?l] => change l with [mkActivated 0%nat (f64_lit 1 2) None; mkActivated 1%nat (f64_lit 1 1) None : activated f64 nat] end. cbn [map fold_right ac_degree]. rewrite H1, O1. lra.
  - exists r. split; [exact A|]. split; [exact B|]. match type of C with context [grouped_terms ?n ?g ?l] => change (grouped_terms n g l) with [mkActivated 0%nat (f64_lit 1 2) None; mkActivated 1%nat (f64_lit 1 1) None : activated f64 nat] in C end. unfold rsum, v in C. cbn [map fold_right ac_degree ac_term List.length INR] in C. rewrite H1, O1, T2, F2 in C.
    replace ((1 / 2 * 3 + (1 * 5 + 0)) / (1 / 2 + (1 + 0))) with (13 / 3) in C by field. apply Rle_trans with (1 := C). unfold mean_error. lra.
Qed.
(** everything in [0, 10] to degree 1, at resolution 100: within 0.051 of 5 *)
Example C78_gravity_case : forall P, exists r, @centroid f64 (F64Scalar P) (fun _ => Ok (f64_lit 1 1)) (f64_lit 0 1) (f64_lit 10 1) 100 = Ok r /\ is_finite r = true /\ Rabs (B2R r - 5) <= 51 / 1000.
Proof.
  intro P. destruct f64_1_correct as [O1 O2]. destruct f64_0_correct as [Z1 Z2]. destruct (lit_int 10 ltac:(lia)) as [T1 T2]. destruct eta_u as [E U].
  assert (AR : is_RInt (fun x => 1) 0 10 10). { replace 10 with (0 * (10 ^ 2 - 0 ^ 2) / 2 + 1 * (10 - 0)) at 2 by lra. eapply is_RInt_ext; [|apply (int_line 0 1 0 10)]. intros x _. cbn. lra. }
  assert (MO : is_RInt (fun x => x * 1) 0 10 50). { replace 50 with (0 * (10 ^ 3 - 0 ^ 3) / 3 + 1 * (10 ^ 2 - 0 ^ 2) / 2) by lra. eapply is_RInt_ext; [|apply (int_moment 0 1 0 10)]. intros x _. cbn. lra. }
  assert (GA : area (fun _ => 1) 0 10 = 10) by (apply is_RInt_unique, AR).
  assert (GG : gravity (fun _ => 1) 0 10 = 5) by (unfold gravity; rewrite (is_RInt_unique _ _ _ _ AR), (is_RInt_unique _ _ _ _ MO); lra).
  assert (N : INR 100 = 100) by (rewrite INR_IZR_INZ; reflexivity).
  destruct (C78_gravity P (fun _ => Ok (f64_lit 1 1)) (f64_lit 0 1) (f64_lit 10 1) 10 1 100 (fun _ => f64_lit 1 1)) with (f := fun _ : R => 1) (delta := 0) (L := 0) (B := 1) as (r & R1 & R2 & R3).
  - split; [exact Z2|]. rewrite Z1, Rabs_R0. lra.
  - split; [exact T1|]. rewrite T2, Rabs_pos_eq; lra.
  - apply big300. lra.
  - apply big300. lra.
  - lia.
  - lia.
  - intros i _. rewrite O1, O2. repeat split; lra.
  - rewrite Z1, T2. lra.
  - intros x y _ _. rewrite Rminus_eq_0, Rabs_R0. lra.
  - intros x _. lra.
  - intros i _. rewrite O1, Rminus_eq_0, Rabs_R0. lra.
  - rewrite Z1, T2, N, GA. lra.
  - exists r. split; [exact R1|]. split; [exact R2|]. rewrite Z1, T2, N, GA, GG in R3. apply Rle_trans with (1 := R3). destruct (spread 100 ltac:(lra)) as [Q1 Q2].
    replace ((0 * (10 - 0) + 1) * (10 - 0) ^ 2 / (2 * 100 * 10 - 0 * (10 - 0) ^ 2)) with (1 / 20) by field.
    replace (10 / (10 - 0) - 0 * (10 - 0) / (2 * 100) - 0) with 1 by field.
    lra.
Qed.
(** degree 1/2 in [0, 5] and 1 in (5, 10], at resolution 4: 35/6, the mean of the points 1.25, 3.75, 6.25 and 8.75 with weights 1, 1, 2 and 2 *)
Example C78_centroid_case : forall P, exists r, @centroid f64 (F64Scalar P) (fun x => Ok (if Bleb x (f64_lit 5 1) then f64_lit 1 2 else f64_lit 1 1)) (f64_lit 0 1) (f64_lit 10 1) 4 = Ok r /\
  is_finite r = true /\ Rabs (B2R r - 35 / 6) <= / 10000000000.
Proof.
  intro P. destruct f64_1_correct as [O1 O2]. destruct f64_0_correct as [Z1 Z2]. destruct f64_half_correct as [H1 H2]. destruct (lit_int 10 ltac:(lia)) as [T1 T2].
  destruct (lit_int 5 ltac:(lia)) as [F1 F2]. destruct eta_u as [E U]. assert (N : INR 4 = 4) by (cbn; lra). destruct (big300 10 ltac:(lra)) as [B3 _]. destruct (big300 1 ltac:(lra)) as [_ B4].
  assert (A0 : is_finite (f64_lit 0 1) = true /\ Rabs (B2R (f64_lit 0 1)) <= 10) by (split; [exact Z2|]; rewrite Z1, Rabs_R0; lra).
  assert (A1 : is_finite (f64_lit 10 1) = true /\ Rabs (B2R (f64_lit 10 1)) <= 10) by (split; [exact T1|]; rewrite T2, Rabs_pos_eq; lra).
  set (y := fun i : nat => match i with 0%nat | 1%nat => f64_lit 1 2 | _ => f64_lit 1 1 end).
  destruct (C78_centroid P (fun x => Ok (if Bleb x (f64_lit 5 1) then f64_lit 1 2 else f64_lit 1 1)) (f64_lit 0 1) (f64_lit 10 1) 10 1 4 y A0 A1 B3 B4) as (r & R1 & R2 & R3).
  - lia.
  - lia.
  - intros i I. destruct (C78_samples P (f64_lit 0 1) (f64_lit 10 1) 10 4 A0 A1 B3 ltac:(lia) ltac:(lia) i I) as [K1 K2]. split.
    + f_equal. rewrite (Bleb_correct _ _ _ _ K1 F1), F2. set (x := sample (f64_lit 0 1) (f64_lit 10 1) (Z.of_nat 4) i) in *. unfold mid, sample_error in K2. rewrite Z1, T2, N in K2.
      apply Rabs_le_inv in K2. do 4 (destruct i as [|i]; [cbn [INR y] in *; destruct (Rle_bool_spec (B2R x) 5); [reflexivity || lra | reflexivity || lra]|]). lia.
    + do 4 (destruct i as [|i]; [cbn [y]; rewrite ?H1, ?H2, ?O1, ?O2; split; [reflexivity|lra]|]). lia.
  - unfold rsum. cbn [seq map fold_right y]. rewrite H1, O1. lra.
  - exists r. split; [exact R1|]. split; [exact R2|]. unfold rsum, mid in R3. cbn [seq map fold_right y] in R3. rewrite N, H1, O1, Z1, T2 in R3. cbn [INR] in R3.
    match type of R3 with Rabs (_ - ?q) <= _ => replace q with (35 / 6) in R3 by field end. apply Rle_trans with (1 := R3). unfold centroid_rounding, mean_error. destruct (spread 4 ltac:(lra)) as [Q1 Q2].
    assert (Q3 : 2 * 4 * eta64 / (1 / 2 + (1 / 2 + (1 + (1 + 0)))) = 8 / 3 * eta64) by field. lra.
Qed.
