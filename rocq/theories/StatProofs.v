(** Intervals, scaling and statistics. *)
From Coq Require Import ZArith Reals Bool List Lra Lia Permutation.
From Flocq Require Import Core BinarySingleNaN.
From Verif Require Import Base Op XR XRFacts F64 F64Facts F64Arith F64Err OpProofs OpProofs2 ShapeFacts SpecDefuzz DefuzzReal SpecStat.
Import ListNotations.
Local Open Scope R_scope.

Section Real.
Context (P : xparam).
#[local] Hint Extern 0 (Scalar xr) => exact (XRScalar P) : typeclass_instances.

Lemma in_real x lo hi g l : 0 <= xp_eps P -> op_in (XFin x) (XFin lo) (XFin hi) g l = true <-> from (xp_eps P) g lo x /\ upto (xp_eps P) l x hi.
Proof.
  intros E. unfold op_in, from, upto. rewrite andb_true_iff.
  destruct (C01_meaning P x lo E) as (_ & _ & A & _ & B). destruct (C01_meaning P x hi E) as (_ & C & _ & D & _).
  destruct g, l; rewrite ?A, ?B, ?C, ?D; tauto.
Qed.
Lemma scale_real x a b c d : a <> b -> scale (XFin x) (XFin a) (XFin b) (XFin c) (XFin d) = XFin (proportional_point a b c d x).
Proof.
  intros N. unfold scale, proportional_point. change (s_sub (XFin d) (XFin c)) with (XFin (d - c)). change (s_sub (XFin b) (XFin a)) with (XFin (b - a)).
  rewrite (xe_div P) by lra. cbn. f_equal. field. lra.
Qed.
Lemma bound_real x lo hi : bound (XFin x) (XFin lo) (XFin hi) = XFin (if Rltb hi x then hi else if Rltb x lo then lo else x).
Proof. unfold bound. cbn. destruct (Rltb hi x); [reflexivity|]. destruct (Rltb x lo); reflexivity. Qed.
Lemma point_between a b c d x : a < b -> c <= d -> (a <= x <= b -> c <= proportional_point a b c d x <= d) /\
  (x <= a -> proportional_point a b c d x <= c) /\ (b <= x -> d <= proportional_point a b c d x).
Proof.
  intros L M. unfold proportional_point. assert (0 < / (b - a)) as I by (apply Rinv_0_lt_compat; lra).
  assert ((b - a) * / (b - a) = 1) as J by (field; lra). unfold Rdiv. set (i := / (b - a)) in *.
  split; [|split].
  - intros [A B]. assert (0 <= (x - a) * i <= 1) as K by (split; nra). nra.
  - intros A. assert ((x - a) * i <= 0) by nra. nra.
  - intros A. assert (1 <= (x - a) * i) by nra. nra.
Qed.
Lemma scale_bounded_real x a b c d : a < b -> c <= d ->
  scale_bounded (XFin x) (XFin a) (XFin b) (XFin c) (XFin d) = XFin (proportional_point a b c d (Rmax a (Rmin x b))).
Proof.
  intros L M. unfold scale_bounded. rewrite scale_real by lra. rewrite bound_real. f_equal.
  destruct (point_between a b c d x L M) as (A & B & C).
  assert (proportional_point a b c d a = c) as Ea by (unfold proportional_point; field; lra).
  assert (proportional_point a b c d b = d) as Eb by (unfold proportional_point; field; lra).
  destruct (Rle_dec x a) as [H|H]; [|destruct (Rle_dec b x) as [H'|H']].
  - rewrite Rmin_left, Rmax_left by lra. rewrite Ea. specialize (B H). destruct (Rltb_spec d (proportional_point a b c d x)); [lra|].
    destruct (Rltb_spec (proportional_point a b c d x) c); lra.
  - rewrite Rmin_right, Rmax_right by lra. rewrite Eb. specialize (C H'). destruct (Rltb_spec d (proportional_point a b c d x)); [lra|].
    destruct (Rltb_spec (proportional_point a b c d x) c); lra.
  - rewrite Rmin_left, Rmax_right by lra. specialize (A ltac:(lra)). destruct (Rltb_spec d (proportional_point a b c d x)); [lra|].
    destruct (Rltb_spec (proportional_point a b c d x) c); lra.
Qed.
(** sums *)
Lemma total_rsum l : total l = rsum l.
Proof. induction l as [|x l IH]; [reflexivity|]. change (x + total l = x + rsum l). rewrite IH. reflexivity. Qed.
Lemma mean_average l : l <> [] -> op_mean (map XFin l) = XFin (average l).
Proof. intros N. rewrite (mean_real P) by exact N. reflexivity. Qed.
Lemma squares_fold m l : forall acc, fold_left (fun acc x => s_add acc (s_mul (s_sub x (XFin m)) (s_sub x (XFin m)))) (map XFin l) (XFin acc) =
  XFin (acc + total (map (fun x => (x - m) * (x - m)) l)).
Proof. induction l as [|x l IH]; intro acc; cbn [map fold_left total]. { f_equal; lra. } change (s_add (XFin acc) _) with (XFin (acc + (x - m) * (x - m))). rewrite IH. f_equal. lra. Qed.
Lemma variance_real l m : (2 <= length l)%nat -> variance (map XFin l) (XFin m) = XFin (sample_variance l m).
Proof.
  intros N. destruct l as [|x [|y l]]; cbn in N; try lia. unfold variance. cbn [map]. change (XFin x :: XFin y :: map XFin l) with (map XFin (x :: y :: l)).
  rewrite (x_0 P), squares_fold, (x_int P), map_length. unfold sample_variance. rewrite INR_IZR_INZ.
  rewrite (xe_div P). { rewrite minus_IZR, Rplus_0_l. reflexivity. } apply not_0_IZR. cbn [length]. lia.
Qed.
Lemma squares_nonneg m l : 0 <= total (map (fun x => (x - m) * (x - m)) l).
Proof. induction l as [|x l IH]; cbn [map total]; [lra|]. pose proof (Rle_0_sqr (x - m)) as Q. unfold Rsqr in Q. lra. Qed.
Lemma variance_nonneg l m : (2 <= length l)%nat -> 0 <= sample_variance l m.
Proof.
  intros N. unfold sample_variance. apply Rmult_le_pos; [apply squares_nonneg|]. left. apply Rinv_0_lt_compat.
  assert (2 <= INR (length l)) by (change 2 with (INR 2); apply le_INR; exact N). lra.
Qed.
Lemma sd_real l m : (2 <= length l)%nat -> standardDeviation (map XFin l) (XFin m) = XFin (sqrt (sample_variance l m)).
Proof.
  intros N. unfold standardDeviation. destruct l as [|x [|y l]]; cbn in N; try lia. cbn [map]. change (XFin x :: XFin y :: map XFin l) with (map XFin (x :: y :: l)).
  rewrite variance_real by (cbn; lia). cbn [xsqrt s_sqrt XRScalar]. rewrite Rltb_false; [reflexivity|]. apply variance_nonneg. cbn. lia.
Qed.
Lemma statistics l : (2 <= length l)%nat -> let m := op_mean (map XFin l) in
  m = XFin (average l) /\ variance (map XFin l) m = XFin (sample_variance l (average l)) /\
  standardDeviation (map XFin l) m = XFin (sqrt (sample_variance l (average l))) /\ 0 <= sample_variance l (average l).
Proof.
  intros N. cbv zeta. assert (l <> []) by (intros ->; cbn in N; lia). rewrite mean_average by assumption.
  rewrite variance_real, sd_real by exact N. repeat split. apply variance_nonneg; exact N.
Qed.
End Real.

(** ** what the statistics mean *)
Lemma average_between l lo hi : l <> [] -> Forall (fun x => lo <= x <= hi) l -> lo <= average l <= hi.
Proof.
  intros N F. assert (lo * INR (length l) <= total l <= hi * INR (length l)) as B.
  { rewrite total_rsum. apply rsum_bounds. exact F. }
  assert (0 < INR (length l)) by (apply lt_0_INR; destruct l; [congruence|cbn; lia]).
  unfold average. split; apply Rmult_le_reg_r with (INR (length l)); try assumption; unfold Rdiv; rewrite Rmult_assoc, Rinv_l by lra; lra.
Qed.
Lemma squares_zero m l : total (map (fun x => (x - m) * (x - m)) l) = 0 -> Forall (fun x => x = m) l.
Proof.
  induction l as [|x l IH]; intros E; constructor; cbn in E; pose proof (squares_nonneg m l); pose proof (Rle_0_sqr (x - m)) as Q; unfold Rsqr in Q.
  - assert ((x - m) * (x - m) = 0) as Z by lra. apply Rmult_integral in Z. lra.
  - apply IH. lra.
Qed.
Lemma squares_const m l : Forall (fun x => x = m) l -> total (map (fun x => (x - m) * (x - m)) l) = 0.
Proof. induction 1 as [|x l -> _ IH]; cbn; [reflexivity|]. rewrite IH. lra. Qed.
Lemma total_const m l : Forall (fun x => x = m) l -> total l = m * INR (length l).
Proof. induction 1 as [|x l -> _ IH]; [cbn; lra|]. cbn [total]. change (length (m :: l)) with (S (length l)). rewrite IH, S_INR. lra. Qed.
Lemma deviation_zero l : (2 <= length l)%nat -> sqrt (sample_variance l (average l)) = 0 <-> exists c, Forall (fun x => x = c) l.
Proof.
  intros N. assert (2 <= INR (length l)) as B by (change 2 with (INR 2); apply le_INR; exact N). split.
  - intros E. apply sqrt_eq_0 in E; [|apply variance_nonneg; exact N]. exists (average l). apply squares_zero.
    unfold sample_variance in E. apply Rmult_integral in E. destruct E as [E|E]; [exact E|].
    exfalso. assert (/ (INR (length l) - 1) <> 0) by (apply Rinv_neq_0_compat; lra). contradiction.
  - intros (c & F). assert (average l = c) as -> by (unfold average; rewrite (total_const c l F); field; lra).
    unfold sample_variance. rewrite squares_const by exact F. unfold Rdiv. rewrite Rmult_0_l. apply sqrt_0.
Qed.
Lemma total_affine k s l : total (map (fun x => k * x + s) l) = k * total l + s * INR (length l).
Proof. induction l as [|x l IH]; [cbn; lra|]. cbn [map total]. change (length (x :: l)) with (S (length l)). rewrite IH, S_INR. lra. Qed.
Lemma average_affine k s l : l <> [] -> average (map (fun x => k * x + s) l) = k * average l + s.
Proof. intros N. unfold average. rewrite total_affine, map_length. field. assert (0 < INR (length l)) by (apply lt_0_INR; destruct l; [congruence|cbn; lia]). lra. Qed.
Lemma squares_affine k s m l : total (map (fun x => (x - (k * m + s)) * (x - (k * m + s))) (map (fun x => k * x + s) l)) =
  k * k * total (map (fun x => (x - m) * (x - m)) l).
Proof. induction l as [|x l IH]; cbn [map total]; [lra|]. rewrite IH. lra. Qed.
Lemma deviation_affine k s l : (2 <= length l)%nat ->
  sqrt (sample_variance (map (fun x => k * x + s) l) (average (map (fun x => k * x + s) l))) = Rabs k * sqrt (sample_variance l (average l)).
Proof.
  intros N. assert (l <> []) by (intros ->; cbn in N; lia). rewrite average_affine by assumption.
  assert (sample_variance (map (fun x => k * x + s) l) (k * average l + s) = Rsqr k * sample_variance l (average l)) as ->.
  { unfold sample_variance. rewrite squares_affine, map_length. unfold Rsqr, Rdiv. lra. }
  rewrite sqrt_mult; [|apply Rle_0_sqr|apply variance_nonneg; exact N]. rewrite sqrt_Rsqr_abs. reflexivity.
Qed.
Lemma total_permutation l l' : Permutation l l' -> total l = total l'.
Proof. induction 1; cbn; lra. Qed.
Lemma average_permutation l l' : Permutation l l' -> average l = average l'.
Proof. intros E. unfold average. rewrite (total_permutation _ _ E), (Permutation_length E). reflexivity. Qed.
Lemma variance_permutation l l' m : Permutation l l' -> sample_variance l m = sample_variance l' m.
Proof. intros E. unfold sample_variance. rewrite (total_permutation _ _ (Permutation_map _ E)), (Permutation_length E). reflexivity. Qed.
Lemma statistics_meaning l : (2 <= length l)%nat ->
  (forall lo hi, Forall (fun x => lo <= x <= hi) l -> lo <= average l <= hi) /\
  (sqrt (sample_variance l (average l)) = 0 <-> exists c, Forall (fun x => x = c) l) /\
  (forall k s, let l' := map (fun x => k * x + s) l in average l' = k * average l + s /\
     sqrt (sample_variance l' (average l')) = Rabs k * sqrt (sample_variance l (average l))) /\
  (forall l', Permutation l l' -> average l' = average l /\ sample_variance l' (average l') = sample_variance l (average l)).
Proof.
  intros N. assert (l <> []) as N' by (intros ->; cbn in N; lia). split; [intros lo hi F; apply average_between; assumption|].
  split; [apply deviation_zero; exact N|]. split.
  - intros k s. cbv zeta. split; [apply average_affine; exact N'|apply deviation_affine; exact N].
  - intros l' E. rewrite <- (average_permutation _ _ E), <- (variance_permutation _ _ _ E). auto.
Qed.

(** ** binary64 *)
Section Float.
Context (P : fparam).
#[local] Hint Extern 0 (Scalar f64) => exact (F64Scalar P) : typeclass_instances.
(** not negative, or not a number *)
Definition plain (x : f64) : Prop := is_nan x = true \/ Bsign x = false.
Lemma square_plain (x : f64) : plain (Bmult mode_NE x x).
Proof.
  unfold plain. destruct x as [s|s| |s m e H]; try (destruct s; right; reflexivity); try (left; reflexivity).
  set (x := B754_finite s m e H). assert (is_finite x = true) as Fx by reflexivity. clearbody x. pose proof (Bmult_correct prec64 emax64 _ _ mode_NE x x) as K. destruct (Rlt_bool _ _).
  - destruct K as (_ & F & G). right. rewrite G; [apply xorb_nilpotent|]. rewrite Fx in F. destruct (Bmult mode_NE x x); try reflexivity; discriminate.
  - right. rewrite xorb_nilpotent in K. assert (Bmult mode_NE x x = B754_infinity false) as -> by (apply B2SF_inj; rewrite K; reflexivity). reflexivity.
Qed.
Lemma sign_real (x : f64) : is_finite x = true -> Bsign x = false -> 0 <= B2R x.
Proof.
  destruct x as [s|s| |s m e H]; cbn; intros F S; try discriminate; try lra. rewrite S.
  apply Rlt_le, F2R_gt_0. reflexivity.
Qed.
Lemma plus_plain a b : plain a -> plain b -> plain (Bplus mode_NE a b).
Proof.
  unfold plain. intros A B. destruct (is_finite a) eqn:Fa; [destruct (is_finite b) eqn:Fb|].
  - assert (Bsign a = false) as Sa by (destruct A as [A|A]; [destruct a; discriminate|exact A]).
    assert (Bsign b = false) as Sb by (destruct B as [B|B]; [destruct b; discriminate|exact B]).
    pose proof (Bplus_correct prec64 emax64 _ _ mode_NE a b Fa Fb) as K. destruct (Rlt_bool _ _).
    + destruct K as (_ & F & G). right. rewrite G. pose proof (sign_real a Fa Sa). pose proof (sign_real b Fb Sb).
      destruct (Rcompare_spec (B2R a + B2R b) 0); [lra| |reflexivity]. rewrite Sa, Sb. reflexivity.
    + destruct K as (K & _). rewrite Sa in K. right. assert (Bplus mode_NE a b = B754_infinity false) as -> by (apply B2SF_inj; rewrite K; reflexivity). reflexivity.
  - destruct b as [sb|sb| |sb mb eb Hb]; try discriminate; destruct a as [sa|sa| |sa ma ea Ha]; try discriminate; try (left; reflexivity);
    destruct B as [B|B]; try discriminate; cbn in B; subst; right; reflexivity.
  - destruct a as [sa|sa| |sa ma ea Ha]; try discriminate; [|left; destruct b; reflexivity].
    destruct A as [A|A]; try discriminate. cbn in A. subst. destruct b as [sb|[|]| |sb mb eb Hb]; try (left; reflexivity); right; reflexivity.
Qed.
Lemma div_plain a b : plain a -> plain b -> plain (Bdiv mode_NE a b).
Proof.
  unfold plain. intros A B. destruct b as [sb|sb| |sb mb eb Hb].
  - destruct B as [B|B]; try discriminate. cbn in B. subst. destruct a as [sa|sa| |sa ma ea Ha]; try (left; reflexivity);
    destruct A as [A|A]; try discriminate; cbn in A; subst; right; reflexivity.
  - destruct B as [B|B]; try discriminate. cbn in B. subst. destruct a as [sa|sa| |sa ma ea Ha]; try (left; reflexivity);
    destruct A as [A|A]; try discriminate; cbn in A; subst; right; reflexivity.
  - left. destruct a; reflexivity.
  - destruct B as [B|B]; try discriminate. set (b := B754_finite sb mb eb Hb) in *.
    destruct a as [sa|sa| |sa ma ea Ha]; try (left; reflexivity); destruct A as [A|A]; try discriminate; cbn in A; cbn in B; subst; try (right; reflexivity).
    set (a := B754_finite false ma ea Ha). assert (B2R b <> 0) as N.
    { unfold b. cbn. apply Rgt_not_eq, F2R_gt_0. reflexivity. }
    assert (is_finite a = true) as Fx by reflexivity. assert (Bsign a = false) as Ga by reflexivity. assert (Bsign b = false) as Gb by reflexivity. clearbody a b.
    pose proof (Bdiv_correct prec64 emax64 _ _ mode_NE a b N) as K. rewrite Ga, Gb in K. destruct (Rlt_bool _ _).
    + destruct K as (_ & F & G). right. rewrite G; [reflexivity|]. rewrite Fx in F. destruct (Bdiv mode_NE a b); try reflexivity; discriminate.
    + right. assert (Bdiv mode_NE a b = B754_infinity false) as -> by (apply B2SF_inj; rewrite K; reflexivity). reflexivity.
Qed.
Lemma of_Z_plain n : (0 < n)%Z -> plain (f64_of_Z n).
Proof.
  intros N. unfold f64_of_Z. pose proof (binary_normalize_correct prec64 emax64 Hprec64 Hemax64 mode_NE n 0 false) as K. cbv zeta in K.
  assert (0 < F2R (Float radix2 n 0)) as Q by (apply F2R_gt_0; exact N). destruct (Rlt_bool _ _).
  - destruct K as (_ & F & G). right. rewrite G. rewrite Rcompare_Gt by exact Q. reflexivity.
  - right. rewrite Rlt_bool_false in K by lra.
    match goal with |- Bsign ?x = _ => assert (x = B754_infinity false) as -> by (apply B2SF_inj; rewrite K; reflexivity) end. reflexivity.
Qed.
Lemma int_plain n : (0 < n)%Z -> plain (f64_lit n 1).
Proof. intros N. unfold f64_lit. apply div_plain; apply of_Z_plain; lia. Qed.
Lemma squares_plain m l : forall acc, plain acc -> plain (fold_left (fun acc x => s_add acc (s_mul (s_sub x m) (s_sub x m))) l acc).
Proof. induction l as [|x l IH]; intros acc A; [exact A|]. cbn [fold_left]. apply IH. apply plus_plain; [exact A|apply square_plain]. Qed.
Lemma sqrt_plain x : plain x -> plain (Bsqrt mode_NE x).
Proof.
  intros A. destruct (Bsqrt_correct prec64 emax64 _ _ mode_NE x) as (_ & F & G). unfold plain in *. destruct (is_nan (Bsqrt mode_NE x)) eqn:N; [auto|].
  right. rewrite (G eq_refl). destruct A as [A|A]; [|exact A]. destruct x; try discriminate. 
Qed.
(** the square root gives a number from anything that is one and not negative *)
Lemma sqrt_number x : plain x -> is_nan x = false -> is_nan (Bsqrt mode_NE x) = false.
Proof.
  intros A N. destruct A as [A|A]; [congruence|]. destruct x as [s|s| |s m e H]; try discriminate; cbn in A; subst; try reflexivity.
  set (x := B754_finite false m e H). destruct (Bsqrt_correct prec64 emax64 _ _ mode_NE x) as (_ & F & _). cbn [is_finite x] in F. destruct (Bsqrt mode_NE x); try reflexivity; discriminate.
Qed.
Lemma plain_ltb x : plain x <-> Bltb x (f64_lit 0 1) = false /\ (is_nan x = false -> Bsign x = false).
Proof.
  unfold plain. split.
  - intros A. split; [|intros N; destruct A; [congruence|assumption]]. destruct A as [A|A]; [destruct x; try discriminate; reflexivity|].
    rewrite f_ltb. change (f2x (f64_lit 0 1)) with (XFin 0). destruct x as [s|s| |s m e H]; cbn in A; subst; try reflexivity; cbn.
    + apply Rltb_false. lra.
    + apply Rltb_false. apply Rlt_le, F2R_gt_0. reflexivity.
  - intros [_ A]. destruct (is_nan x); auto.
Qed.
Lemma deviation_float (l : list f64) m :
  Bltb (variance l m) (f64_lit 0 1) = false /\ Bltb (standardDeviation l m) (f64_lit 0 1) = false /\
  is_nan (standardDeviation l m) = is_nan (variance l m).
Proof.
  assert (plain (variance l m)) as V.
  { destruct l as [|x [|y l]]; [left; reflexivity|right; reflexivity|]. unfold variance. apply div_plain.
    - apply squares_plain. right. reflexivity.
    - apply int_plain. cbn [length]. lia. }
  assert (plain (standardDeviation l m) /\ is_nan (standardDeviation l m) = is_nan (variance l m)) as [D E].
  { destruct l as [|x [|y l]]; [split; [left|]; reflexivity|split; [right|]; reflexivity|]. unfold standardDeviation. split; [apply sqrt_plain; exact V|].
    destruct (is_nan (variance (x :: y :: l) m)) eqn:N; [|apply sqrt_number; assumption].
    destruct (variance (x :: y :: l) m); try discriminate. reflexivity. }
  apply plain_ltb in V. apply plain_ltb in D. tauto.
Qed.
(** intervals and infinities, NaN *)
Lemma in_nan (x lo hi : f64) g l : is_nan x = true -> op_in x lo hi g l = (g && is_nan lo && l && is_nan hi)%bool.
Proof.
  intros X. destruct x; try discriminate. unfold op_in.
  assert (forall b : f64, isGE (B754_nan : f64) b = is_nan b /\ isLE (B754_nan : f64) b = is_nan b /\ isGt (B754_nan : f64) b = false /\ isLt (B754_nan : f64) b = false) as Q.
  { intros b. destruct (is_nan b) eqn:N. { destruct b; try discriminate. repeat split; reflexivity. }
    destruct (C01_main P s_eps (B754_nan : f64) b) as (_ & _ & _ & R & _). destruct R as (R1 & R2 & R3 & R4 & R5); [cbn; rewrite N; discriminate|].
    unfold isGE, isLE, isGt, isLt. rewrite R1, R3, R4, R5. auto. }
  pose proof (fun b => proj1 (Q b)) as A. pose proof (fun b => proj1 (proj2 (Q b))) as B. pose proof (fun b => proj1 (proj2 (proj2 (Q b)))) as C. pose proof (fun b => proj2 (proj2 (proj2 (Q b)))) as D.
  destruct g, l; rewrite ?A, ?B, ?C, ?D, ?andb_false_r, ?andb_true_l, ?andb_true_r; try reflexivity.
Qed.
(** scaling with bounds stays within them *)
Lemma scale_bounded_float (x a b c d : f64) : Bleb c d = true ->
  let y := scale_bounded x a b c d in is_nan y = is_nan (scale x a b c d) /\ (is_nan y = false -> Bleb c y = true /\ Bleb y d = true) /\
  (Bleb c (scale x a b c d) = true -> Bleb (scale x a b c d) d = true -> y = scale x a b c d).
Proof.
  intros L. cbv zeta. unfold scale_bounded. destruct (C02_bound_main P (scale x a b c d) c d L) as (A & B & C & _).
  split; [|split; [|exact C]].
  - destruct (is_nan (scale x a b c d)) eqn:N; [auto|]. destruct (B eq_refl) as [Q _]. destruct (bound _ c d); try reflexivity. destruct c; discriminate.
  - intros N. apply B. destruct (is_nan (scale x a b c d)) eqn:M; [|reflexivity]. rewrite A in N; [discriminate|reflexivity].
Qed.
End Float.
