(** The numbers which stand for propositions in the Fuzzy Inference System format, in binary64. *)
From Coq Require Import ZArith Reals Bool List String Ascii Lra Lia.
From Flocq Require Import Core BinarySingleNaN.
From Verif Require Import Base Op XR XRFacts F64 F64Facts F64Arith F64Err Text TextProofs TextProofs2 TextF64 Hedge Rule SpecRule Fis Fll SpecFll FllF64 SpecFis.
Import ListNotations.
Local Open Scope R_scope.

Lemma no_overflow x : Rabs x <= bpow radix2 22 -> Rlt_bool (Rabs (rnd x)) (bpow radix2 emax64) = true.
Proof.
  intro H. apply Rlt_bool_true. assert (A : - bpow radix2 22 <= x <= bpow radix2 22) by (revert H; unfold Rabs; destruct Rcase_abs; lra).
  assert (B := rnd_between (- bpow radix2 22) (bpow radix2 22) x (fmt_opp _ (fmt_bpow 22 ltac:(lia))) (fmt_bpow 22 ltac:(lia)) A).
  apply Rle_lt_trans with (bpow radix2 22); [apply Rabs_le; lra|apply bpow_lt; unfold emax64; lia].
Qed.
Lemma rnd_close x b : Rabs x <= b -> bpow radix2 (-1022) <= b -> Rabs (rnd x - x) <= b * bpow radix2 (-53).
Proof.
  intros H B. destruct (Rle_lt_dec (bpow radix2 (-1022)) (Rabs x)) as [L|L].
  - destruct (rnd_rel x L) as (e & E & ->). replace (x * (1 + e) - x) with (x * e) by ring. rewrite Rabs_mult.
    apply Rmult_le_compat; auto using Rabs_pos.
  - (* below the normal numbers the error is that of the smallest normal number *)
    assert (N := error_le_half_ulp radix2 fe64 (fun z => negb (Z.even z)) x).
    assert (U : ulp radix2 fe64 x <= bpow radix2 (-1074)).
    { destruct (Req_dec x 0) as [->|X0].
      - change fe64 with (FLT_exp (-1074) 53). rewrite (@ulp_FLT_0 radix2 (-1074) 53 Hprec64). lra.
      - rewrite ulp_neq_0 by auto. apply bpow_le. unfold cexp. assert (M : (mag radix2 x <= -1022)%Z) by (apply mag_le_bpow; auto).
        unfold SpecFloat.fexp, SpecFloat.emin, prec64, emax64. lia. }
    apply Rle_trans with (/ 2 * bpow radix2 (-1074)); [lra|]. change (/2) with (bpow radix2 (-1)). rewrite <- bpow_plus.
    apply Rle_trans with (bpow radix2 (-1022) * bpow radix2 (-53)); [rewrite <- bpow_plus; apply bpow_le; lia|].
    apply Rmult_le_compat_r; [apply bpow_ge_0|auto].
Qed.
Lemma lit_close n d : (0 <= n <= Z.pos d)%Z -> (Z.pos d < 2 ^ 53)%Z ->
  is_finite (f64_lit n d) = true /\ Rabs (B2R (f64_lit n d) - IZR n / IZR (Z.pos d)) <= bpow radix2 (-53).
Proof.
  intros N D. destruct (of_Z_correct n ltac:(lia)) as [A FA]. destruct (of_Z_correct (Z.pos d) ltac:(lia)) as [B FB].
  assert (D0 : 0 < IZR (Z.pos d)) by (apply IZR_lt; lia).
  assert (Q : 0 <= IZR n / IZR (Z.pos d) <= 1).
  { assert (0 <= IZR n <= IZR (Z.pos d)) by (split; apply IZR_le; lia). split.
    - apply Rmult_le_pos; [lra|]. apply Rlt_le, Rinv_0_lt_compat; auto.
    - apply (Rmult_le_reg_r (IZR (Z.pos d))); auto. unfold Rdiv. rewrite Rmult_assoc, Rinv_l; lra. }
  unfold f64_lit. destruct (div_ok (f64_of_Z n) (f64_of_Z (Z.pos d))) as [E F]; auto; rewrite ?A, ?B; try lra.
  split; auto. rewrite E, A, B. rewrite <- (Rmult_1_l (bpow radix2 (-53))). apply rnd_close.
  - rewrite Rabs_pos_eq; lra.
  - change 1 with (bpow radix2 0). apply bpow_le. lia.
Qed.

Section Codes.
Variable P : fparam.
Variable d : nat.
Hypothesis settings : fis_settings P d.
Local Notation FS := (F64Scalar P).

Lemma isEq_close (a b : f64) : is_finite a = true -> is_finite b = true -> Rabs (B2R a - B2R b) <= bpow radix2 (-30) -> @isEq f64 FS a b = true.
Proof.
  intros FA FB H. destruct settings as (_ & FE & [E _] & _). unfold isEq, isEq_tol. rewrite !orb_true_iff. left; right.
  change (Bltb (Babs (Bminus mode_NE a b)) (fp_eps P) = true).
  assert (B30 : bpow radix2 (-30) < bpow radix2 (-29)) by (apply bpow_lt; lia).
  destruct (minus_gen a b FA FB) as [M MF]. { apply no_overflow. eapply Rle_trans; [exact H|]. apply bpow_le. lia. }
  assert (AF : is_finite (Babs (Bminus mode_NE a b)) = true) by now rewrite is_finite_Babs.
  rewrite f_ltb, (f2x_finite _ AF), (f2x_finite _ FE), B2R_Babs, M. simpl.
  assert (A : - bpow radix2 (-30) <= B2R a - B2R b <= bpow radix2 (-30)) by (revert H; unfold Rabs; destruct Rcase_abs; lra).
  assert (B := rnd_between _ _ _ (fmt_opp _ (fmt_bpow (-30) ltac:(lia))) (fmt_bpow (-30) ltac:(lia)) A).
  assert (C : Rabs (rnd (B2R a - B2R b)) <= bpow radix2 (-30)) by (apply Rabs_le; lra).
  match goal with |- Rltb ?x ?y = true => destruct (Rltb_spec x y); auto; lra end.
Qed.
Lemma isEq_far (a b : f64) : is_finite a = true -> is_finite b = true -> bpow radix2 (-7) <= Rabs (B2R a - B2R b) -> Rabs (B2R a - B2R b) <= bpow radix2 22 ->
  @isEq f64 FS a b = false.
Proof.
  intros FA FB H O. destruct settings as (_ & FE & [_ E] & _). assert (B7 := bpow_gt_0 radix2 (-7)). destruct (finite_kind P a FA) as [NA _].
  unfold isEq, isEq_tol. rewrite NA, andb_false_l, orb_false_r.
  change ((Beqb a b || Bltb (Babs (Bminus mode_NE a b)) (fp_eps P))%bool = false).
  destruct (minus_gen a b FA FB) as [M MF]; [now apply no_overflow|].
  assert (AF : is_finite (Babs (Bminus mode_NE a b)) = true) by now rewrite is_finite_Babs.
  rewrite f_eqb, f_ltb, (f2x_finite _ AF), (f2x_finite _ FE), (f2x_finite _ FA), (f2x_finite _ FB), B2R_Babs, M. simpl.
  apply orb_false_iff. split.
  - destruct (Reqb_spec (B2R a) (B2R b)) as [Q|]; auto. rewrite Q, Rminus_diag_eq, Rabs_R0 in H by auto. lra.
  - assert (C : bpow radix2 (-7) <= Rabs (rnd (B2R a - B2R b))).
    { rewrite <- round_NE_abs by auto with typeclass_instances. rewrite <- (rnd_id (bpow radix2 (-7))) by (apply fmt_bpow; lia). now apply rnd_mono. }
    match goal with |- Rltb ?x ?y = false => destruct (Rltb_spec x y); auto; lra end.
Qed.

(** ** writing and reading *)
Definition near (x V eps : R) : Prop := Rabs (x - V) <= eps.
Section Number.
Variables (n c : Z) (x : f64).
Hypothesis Hn : (0 <= n <= 2 ^ 20)%Z.
Hypothesis Hc : (0 <= c <= 99)%Z.
Hypothesis Hpos : (1 <= n \/ c = 99)%Z.
Let V := IZR n + IZR c / 100.
Hypothesis Fx : is_finite x = true.
Hypothesis Hx : Rabs (B2R x - V) <= bpow radix2 (-32).
Hypothesis H0 : c = 0%Z -> B2R x = V.

Lemma V_bounds : 99/100 <= V <= IZR (2 ^ 20) + 99/100.
Proof.
  assert (0 <= IZR n <= IZR (2 ^ 20)) by (split; apply IZR_le; lia). assert (0 <= IZR c <= 99) by (split; apply IZR_le; lia). unfold V.
  split; [|lra]. destruct Hpos as [L| ->]; [|lra]. apply IZR_le in L. lra.
Qed.
Lemma B32 : 0 < bpow radix2 (-32) < 1/1000000000.
Proof. split; [apply bpow_gt_0|]. change (bpow radix2 (-32)) with (/ IZR (2 ^ 32)). replace (1/1000000000) with (/ 1000000000) by lra. apply Rinv_lt_contravar; [apply Rmult_lt_0_compat; lra|]. apply IZR_lt. reflexivity. Qed.
Lemma x_pos : 98/100 <= B2R x.
Proof. assert (A := V_bounds). assert (B := B32). revert Hx. unfold Rabs. destruct Rcase_abs; lra. Qed.
Lemma tenth_small : tenth d <= 1/100.
Proof.
  destruct settings as (D & _). unfold tenth. replace (1/100) with (/ 100) by lra. apply Rinv_le_contravar; [lra|]. apply IZR_le.
  change 100%Z with (10 ^ 2)%Z. apply Z.pow_le_mono_r; lia.
Qed.
Lemma rnd_tenth : rnd (tenth d) <= 1/2.
Proof. rewrite <- (rnd_id (1/2) fmt_half). apply rnd_mono. assert (T := tenth_small). lra. Qed.
Lemma V_whole : exists m, V * IZR (10 ^ Z.of_nat d) = IZR m.
Proof.
  destruct settings as (D & _). exists ((100 * n + c) * 10 ^ (Z.of_nat d - 2))%Z. replace (Z.of_nat d) with (Z.of_nat d - 2 + 2)%Z at 1 by lia.
  rewrite Z.pow_add_r by lia. rewrite !mult_IZR, plus_IZR, mult_IZR. change (IZR (10 ^ 2)) with 100. unfold V. field.
Qed.
Let k := ZnearestE (B2R x * IZR (10 ^ Z.of_nat d)).
Lemma k_near : Rabs (IZR k * tenth d - B2R x) <= Rabs (B2R x - V).
Proof.
  destruct V_whole as (m & M). assert (T := ten_pos d).
  assert (C : Rabs (IZR k - B2R x * IZR (10 ^ Z.of_nat d)) <= Rabs (IZR m - B2R x * IZR (10 ^ Z.of_nat d))).
  { destruct (Rlt_le_dec (Rabs (B2R x * IZR (10 ^ Z.of_nat d) - IZR m)) (/2)) as [L|L].
    - assert (K : k = m) by (unfold k; apply near_unique; lra). rewrite K. lra.
    - assert (H := near_half (B2R x * IZR (10 ^ Z.of_nat d))). fold k in H. rewrite (Rabs_minus_sym (IZR k)), (Rabs_minus_sym (IZR m)). lra. }
  rewrite <- M in C. replace (IZR k * tenth d - B2R x) with ((IZR k - B2R x * IZR (10 ^ Z.of_nat d)) * tenth d) by (unfold tenth; field; lra).
  replace (V * IZR (10 ^ Z.of_nat d) - B2R x * IZR (10 ^ Z.of_nat d)) with ((V - B2R x) * IZR (10 ^ Z.of_nat d)) in C by ring.
  rewrite Rabs_mult in *. rewrite (Rabs_pos_eq (tenth d)) by (apply Rlt_le, tenth_pos). rewrite (Rabs_pos_eq (IZR (10 ^ _))) in C by lra.
  rewrite (Rabs_minus_sym (B2R x)). apply (Rmult_le_compat_r (tenth d)) in C; [|apply Rlt_le, tenth_pos].
  rewrite (Rmult_assoc (Rabs (V - B2R x))) in C. replace (IZR (10 ^ Z.of_nat d) * tenth d) with 1 in C by (unfold tenth; field; lra). lra.
Qed.
Lemma y_close : Rabs (rnd (IZR k * tenth d) - V) <= 3 * Rabs (B2R x - V).
Proof.
  assert (K := k_near). assert (N := rnd_nearest (IZR k * tenth d) (B2R x) (fmt_B2R x)).
  rewrite (Rabs_minus_sym (B2R x)) in N.
  replace (rnd (IZR k * tenth d) - V) with ((rnd (IZR k * tenth d) - IZR k * tenth d) + ((IZR k * tenth d - B2R x) + (B2R x - V))) by ring.
  eapply Rle_trans; [apply Rabs_triang|]. assert (Q := Rabs_triang (IZR k * tenth d - B2R x) (B2R x - V)). lra.
Qed.
Lemma number_text : @str f64 FS d x = fixed_text d k.
Proof.
  assert (X := x_pos). rewrite (str_large P d x Fx); [|lra|rewrite Rabs_pos_eq by lra; assert (T := rnd_tenth); lra].
  rewrite Rlt_bool_false by lra. rewrite Rabs_pos_eq by lra. reflexivity.
Qed.
(** the value read, and that of its negation *)
Lemma number_read : exists y, is_finite y = true /\ Rabs (B2R y - V) <= 3 * bpow radix2 (-32) /\ (c = 0%Z -> B2R y = IZR n) /\
  forall neg : bool, @to_scalar f64 FS ((if neg then "-" else "") ++ @str f64 FS d x) = Ok (if neg then Bopp y else y).
Proof.
  assert (Y := y_close). assert (Vb := V_bounds). assert (B := B32). assert (KN := k_near). assert (X := x_pos).
  assert (K0 : (0 <= k)%Z). { apply le_IZR. apply (Rmult_le_reg_r (tenth d)); [apply tenth_pos|]. rewrite Rmult_0_l. revert KN Hx. unfold Rabs. repeat destruct Rcase_abs; lra. }
  destruct (dec_correct k d) as [E F].
  { apply Rlt_bool_true. assert (U : Rabs (rnd (IZR k * tenth d)) <= IZR (2 ^ 21)).
    { assert (IZR (2 ^ 20) + 1 <= IZR (2 ^ 21)) by (rewrite <- plus_IZR; apply IZR_le; lia). revert Y Hx. unfold Rabs. repeat destruct Rcase_abs; lra. }
    eapply Rle_lt_trans; [exact U|]. change (IZR (2 ^ 21)) with (bpow radix2 21). apply bpow_lt. reflexivity. }
  exists (f64_dec k (- Z.of_nat d)). split; [exact F|]. rewrite E. split; [lra|]. split.
  - intro C0. specialize (H0 C0). rewrite H0 in Y. replace (V - V) with 0 in Y by ring. rewrite Rabs_R0 in Y.
    assert (VN : V = IZR n) by (unfold V; rewrite C0; lra). rewrite <- VN. revert Y. unfold Rabs. destruct Rcase_abs; lra.
  - intro neg. rewrite number_text. destruct (read_fixed d k K0) as [RP RN]. destruct (finite_kind P _ F) as [_ IF]. unfold to_scalar.
    destruct neg; [rewrite RN|cbn [append]; rewrite RP]; change (@s_dec f64 FS k (- Z.of_nat d)) with (f64_dec k (- Z.of_nat d)); rewrite IF; reflexivity.
Qed.
End Number.

(** ** taking the number apart *)
Section Decode.
Variables (n c : Z) (y : f64).
Hypothesis Hn : (0 <= n <= 2 ^ 20)%Z.
Hypothesis Hc : (0 <= c <= 99)%Z.
Hypothesis Fy : is_finite y = true.
Hypothesis Hy : Rabs (B2R y - (IZR n + IZR c / 100)) <= 3 * bpow radix2 (-32).
Hypothesis Hy0 : c = 0%Z -> B2R y = IZR n.

Lemma y_floor : Zfloor (B2R y) = n.
Proof.
  apply Zfloor_imp. rewrite plus_IZR. assert (B := B32). destruct (Z.eq_dec c 0) as [Z0|NZ]; [rewrite Hy0 by auto; lra|].
  assert (1 <= IZR c <= 99) by (split; apply IZR_le; lia). revert Hy. unfold Rabs. destruct Rcase_abs; lra.
Qed.
Lemma y_ge : 0 <= B2R y.
Proof. assert (F := Zfloor_lb (B2R y)). rewrite y_floor in F. assert (0 <= IZR n) by (apply IZR_le; lia). lra. Qed.
Lemma floor_read : f64_trunc (f64_floor y) = Some n.
Proof.
  unfold f64_floor. destruct (Bnearbyint_correct prec64 emax64 Hemax64 mode_DN y) as (A & B & _). apply trunc_value.
  - now rewrite B.
  - rewrite A. unfold round, scaled_mantissa, cexp, FIX_exp, F2R; simpl. rewrite !Rmult_1_r. f_equal. exact y_floor.
  - unfold int_range. lia.
Qed.
Lemma frac_read : let f := fp_fn2 P LFmod y (f64_lit 1 1) in is_finite f = true /\ Rabs (B2R f - IZR c / 100) <= 3 * bpow radix2 (-32).
Proof.
  destruct settings as (_ & _ & _ & X). destruct (X y Fy y_ge) as [A B]. split; [exact A|]. rewrite B, y_floor.
  replace (B2R y - IZR n - IZR c / 100) with (B2R y - (IZR n + IZR c / 100)) by ring. exact Hy.
Qed.
(** the fraction is equal to the constant of its own code and to no other *)
Lemma frac_is a b : (0 <= a <= Z.pos b)%Z -> (Z.pos b < 2 ^ 53)%Z -> IZR a / IZR (Z.pos b) = IZR c / 100 ->
  @isEq f64 FS (fp_fn2 P LFmod y (f64_lit 1 1)) (f64_lit a b) = true.
Proof.
  intros A Bd E. destruct frac_read as [F N]. destruct (lit_close a b A Bd) as [LF L]. apply isEq_close; auto. rewrite E in L.
  assert (S1 : 3 * bpow radix2 (-32) + bpow radix2 (-53) <= bpow radix2 (-30)).
  { change (-30)%Z with (-32 + 2)%Z. rewrite bpow_plus. change (bpow radix2 2) with 4. assert (bpow radix2 (-53) <= bpow radix2 (-32)) by (apply bpow_le; lia). lra. }
  revert N L. unfold Rabs. repeat destruct Rcase_abs; lra.
Qed.
Lemma frac_not a b : (0 <= a <= Z.pos b)%Z -> (Z.pos b < 2 ^ 53)%Z -> 1 / 100 <= Rabs (IZR a / IZR (Z.pos b) - IZR c / 100) ->
  @isEq f64 FS (fp_fn2 P LFmod y (f64_lit 1 1)) (f64_lit a b) = false.
Proof.
  intros A Bd E. destruct frac_read as [F N]. destruct (lit_close a b A Bd) as [LF L].
  assert (B := B32). assert (B53 : bpow radix2 (-53) <= bpow radix2 (-32)) by (apply bpow_le; lia).
  assert (B7 : bpow radix2 (-7) < 9/1000). { change (bpow radix2 (-7)) with (/ 128). lra. }
  assert (B22 : 4 < bpow radix2 22). { change 4 with (bpow radix2 2). apply bpow_lt. lia. }
  assert (C1 : 0 <= IZR c <= 99) by (split; apply IZR_le; lia).
  assert (Q : 0 <= IZR a / IZR (Z.pos b) <= 1).
  { assert (D0 : 0 < IZR (Z.pos b)) by (apply IZR_lt; lia). assert (0 <= IZR a <= IZR (Z.pos b)) by (split; apply IZR_le; lia). split.
    - apply Rmult_le_pos; [lra|]. apply Rlt_le, Rinv_0_lt_compat; auto.
    - apply (Rmult_le_reg_r (IZR (Z.pos b))); auto. unfold Rdiv. rewrite Rmult_assoc, Rinv_l; lra. }
  apply isEq_far; auto; revert N L E; unfold Rabs; repeat destruct Rcase_abs; lra.
Qed.
End Decode.

(** ** hedges as fractions *)
Definition hedge_sum (b : bool) (hs : list hedge) : bool * f64 := fold_left (@hedge_code f64 FS) hs (b, @s_0 f64 FS).
Lemma plus_zero (a : f64) : is_finite a = true -> -4 <= B2R a <= 4 -> B2R (Bplus mode_NE (@s_0 f64 FS) a) = B2R a /\ is_finite (Bplus mode_NE (@s_0 f64 FS) a) = true.
Proof.
  intros F H. destruct f64_0_correct as [Z0 F0]. assert (E : B2R (@s_0 f64 FS) + B2R a = B2R a) by (change (@s_0 f64 FS) with (f64_lit 0 1); rewrite Z0; ring).
  destruct (plus_ok (@s_0 f64 FS) a F0 F) as [A B]; [rewrite E; auto|]. split; [|exact B]. rewrite A, E. apply rnd_id, fmt_B2R.
Qed.
Lemma one_hedge a b c : (0 <= a <= Z.pos b)%Z -> (Z.pos b < 2 ^ 53)%Z -> IZR a / IZR (Z.pos b) = IZR c / 100 -> (0 <= c <= 99)%Z ->
  let p := Bplus mode_NE (@s_0 f64 FS) (f64_lit a b) in is_finite p = true /\ Rabs (B2R p - IZR c / 100) <= bpow radix2 (-53).
Proof.
  intros A B E C p. destruct (lit_close a b A B) as [F L]. rewrite E in L. assert (0 <= IZR c <= 99) by (split; apply IZR_le; lia).
  assert (B53 : bpow radix2 (-53) <= 1) by (change 1 with (bpow radix2 0); apply bpow_le; lia).
  destruct (plus_zero (f64_lit a b) F) as [V G]. { revert L. unfold Rabs. destruct Rcase_abs; lra. }
  split; [exact G|]. unfold p. rewrite V. exact L.
Qed.
Lemma hedges_sum hs c b : hedges_code hs c -> fst (hedge_sum b hs) = b /\ is_finite (snd (hedge_sum b hs)) = true /\
  Rabs (B2R (snd (hedge_sum b hs)) - IZR c / 100) <= bpow radix2 (-50) /\ (c = 0%Z -> B2R (snd (hedge_sum b hs)) = 0).
Proof.
  assert (B53 : bpow radix2 (-53) <= bpow radix2 (-50)) by (apply bpow_le; lia).
  intro H. destruct H; unfold hedge_sum; cbn [fold_left hedge_code fst snd]; (split; [reflexivity|]).
  1: { split; [exact (proj2 f64_0_correct)|]. rewrite (proj1 f64_0_correct : B2R (@s_0 f64 FS) = 0). split; [|auto]. replace (0 - 0 / 100) with 0 by lra. rewrite Rabs_R0. apply bpow_ge_0. }
  all: cbn [s_add s_lit F64Scalar].
  1,2,3,4,6: match goal with |- is_finite (Bplus _ _ (f64_lit ?a ?b)) = true /\ Rabs (_ - IZR ?c / 100) <= _ /\ _ =>
    destruct (one_hedge a b c) as [F L]; [lia|lia|lra|lia|]; split; [exact F|]; split; [eapply Rle_trans; [exact L|exact B53]|discriminate] end.
  destruct (one_hedge 2 10 20) as [F L]; [lia|lia|lra|lia|]. destruct (lit_close 2 10) as [F2 L2]; [lia|lia|].
  set (p := Bplus mode_NE (@s_0 f64 FS) (f64_lit 2 10)) in *. assert (U : bpow radix2 (-53) <= 1/100) by (change (bpow radix2 (-53)) with (/ IZR (2 ^ 53)); replace (1/100) with (/100) by lra; apply Rinv_le_contravar; [lra|]; apply IZR_le; lia).
  assert (S0 : Rabs (B2R p + B2R (f64_lit 2 10) - 40 / 100) <= 2 * bpow radix2 (-53)) by (revert L L2; unfold Rabs; repeat destruct Rcase_abs; lra).
  destruct (plus_ok p (f64_lit 2 10) F F2) as [A B]; [revert S0; unfold Rabs; repeat destruct Rcase_abs; lra|].
  split; [exact B|]. split; [|discriminate]. rewrite A.
  assert (R := rnd_close (B2R p + B2R (f64_lit 2 10)) 1). rewrite Rmult_1_l in R.
  assert (R1 : Rabs (rnd (B2R p + B2R (f64_lit 2 10)) - (B2R p + B2R (f64_lit 2 10))) <= bpow radix2 (-53)).
  { apply R; [revert S0; unfold Rabs; repeat destruct Rcase_abs; lra|]. change 1 with (bpow radix2 0). apply bpow_le. lia. }
  assert (B50 : 3 * bpow radix2 (-53) <= bpow radix2 (-50)) by (change (-50)%Z with (-53 + 3)%Z; rewrite bpow_plus; change (bpow radix2 3) with 8; assert (0 < bpow radix2 (-53)) by apply bpow_gt_0; lra).
  revert S0 R1. unfold Rabs. repeat destruct Rcase_abs; lra.
Qed.
Lemma code_value n c (plus : f64) : (0 <= n <= 2 ^ 20)%Z -> (0 <= c <= 99)%Z -> is_finite plus = true ->
  Rabs (B2R plus - IZR c / 100) <= bpow radix2 (-50) -> (c = 0%Z -> B2R plus = 0) ->
  let x := Bplus mode_NE (f64_lit n 1) plus in
  is_finite x = true /\ Rabs (B2R x - (IZR n + IZR c / 100)) <= bpow radix2 (-32) /\ (c = 0%Z -> B2R x = IZR n + IZR c / 100).
Proof.
  intros N C F H Z0 x. destruct (int_correct n ltac:(lia)) as [A FA].
  assert (N1 : 0 <= IZR n <= IZR (2 ^ 20)) by (split; apply IZR_le; lia). assert (C1 : 0 <= IZR c <= 99) by (split; apply IZR_le; lia).
  assert (B50 : bpow radix2 (-50) <= 1/100) by (change (bpow radix2 (-50)) with (/ IZR (2 ^ 50)); replace (1/100) with (/100) by lra; apply Rinv_le_contravar; [lra|]; apply IZR_le; lia).
  assert (B50' := bpow_gt_0 radix2 (-50)).
  assert (S0 : Rabs (B2R (f64_lit n 1) + B2R plus) <= IZR (2 ^ 20) + 1) by (rewrite A; revert H; unfold Rabs; repeat destruct Rcase_abs; lra).
  assert (S1 : IZR (2 ^ 20) + 1 <= bpow radix2 21) by (change (bpow radix2 21) with (IZR (2 ^ 21)); rewrite <- plus_IZR; apply IZR_le; lia).
  destruct (plus_gen (f64_lit n 1) plus FA F) as [E G]. { apply no_overflow. eapply Rle_trans; [exact S0|]. eapply Rle_trans; [exact S1|apply bpow_le; lia]. }
  split; [exact G|]. unfold x. rewrite E. split.
  - assert (R := rnd_close _ _ S0). assert (Q : bpow radix2 (-1022) <= IZR (2 ^ 20) + 1).
    { apply Rle_trans with 1; [change 1 with (bpow radix2 0); apply bpow_le; lia|]. assert (0 <= IZR (2 ^ 20)) by (apply IZR_le; lia). lra. }
    specialize (R Q). rewrite Rmult_plus_distr_r, Rmult_1_l in R. change (IZR (2 ^ 20)) with (bpow radix2 20) in R. rewrite <- bpow_plus in R. change (20 + -53)%Z with (-33)%Z in R.
    assert (U : bpow radix2 (-33) + bpow radix2 (-53) + bpow radix2 (-50) <= bpow radix2 (-32)).
    { change (-32)%Z with (-33 + 1)%Z. rewrite (bpow_plus radix2 (-33) 1). change (bpow radix2 1) with 2. change (-33)%Z with (-50 + 17)%Z. rewrite bpow_plus. change (bpow radix2 17) with 131072.
      assert (bpow radix2 (-53) <= bpow radix2 (-50)) by (apply bpow_le; lia). lra. }
    rewrite A in R. rewrite A. revert R H. unfold Rabs. repeat destruct Rcase_abs; lra.
  - intro C0. rewrite A, (Z0 C0), C0. replace (IZR n + 0) with (IZR n) by ring. replace (IZR n + 0 / 100) with (IZR n) by lra. rewrite <- A. apply rnd_id, fmt_B2R.
Qed.

(** ** propositions *)
Lemma abs_signed (y : f64) (neg : bool) : 0 <= B2R y -> B2R y <> 0 -> is_finite y = true -> Babs (if neg then Bopp y else y) = y.
Proof.
  intros H N F. assert (E : Babs (if neg then Bopp y else y) = Babs y) by (destruct neg; [apply Babs_Bopp|reflexivity]). rewrite E.
  destruct y as [s|s| |s m e Hb]; try discriminate; [simpl in N; lra|]. destruct s; [|reflexivity]. exfalso. apply Rle_not_lt in H. apply H. apply F2R_lt_0. simpl. lia.
Qed.
Lemma code_bounds hs c : hedges_code hs c -> (0 <= c <= 99)%Z.
Proof. intro H. destruct H; lia. Qed.
Lemma translate_code hs c (neg : bool) n (y : f64) terms : hedges_code hs c -> (0 <= n <= 2 ^ 20)%Z -> (1 <= n \/ c = 99)%Z -> (n <= Z.of_nat (List.length terms))%Z -> is_finite y = true ->
  Rabs (B2R y - (IZR n + IZR c / 100)) <= 3 * bpow radix2 (-32) -> (c = 0%Z -> B2R y = IZR n) ->
  let code := if neg then Bopp y else y in
  @isEq f64 FS code (@s_0 f64 FS) = false /\
  @translate_proposition f64 FS code terms =
    Ok (SpecRule.words (map hedge_name ((if neg then [Not] else []) ++ hs)%list) ++ (if (n =? 0)%Z then "" else nth (Z.to_nat (n - 1)) terms ""))%string.
Proof.
  intros HC N Pos Len F Y Y0 code. assert (C := code_bounds _ _ HC). assert (B := B32).
  assert (C1 : 0 <= IZR c <= 99) by (split; apply IZR_le; lia). assert (N1 : 0 <= IZR n <= IZR (2 ^ 20)) by (split; apply IZR_le; lia).
  assert (Y1 : 9/10 <= B2R y <= IZR (2 ^ 20) + 1).
  { assert (99/100 <= IZR n + IZR c / 100) by (destruct Pos as [L| ->]; [apply IZR_le in L|]; lra). revert Y. unfold Rabs. destruct Rcase_abs; lra. }
  assert (AB : Babs code = y) by (apply abs_signed; [lra|lra|exact F]).
  assert (FC : is_finite code = true) by (unfold code; destruct neg; [rewrite is_finite_Bopp|]; exact F).
  assert (VC : B2R code = if neg then - B2R y else B2R y) by (unfold code; destruct neg; [apply B2R_Bopp|reflexivity]).
  split.
  - destruct f64_0_correct as [Z0 F0]. apply isEq_far; [exact FC|exact F0| |]; change (@s_0 f64 FS) with (f64_lit 0 1); rewrite Z0, Rminus_0_r, VC.
    + assert (B7 : bpow radix2 (-7) < 9/1000) by (change (bpow radix2 (-7)) with (/ 128); lra). destruct neg; rewrite ?Rabs_Ropp, Rabs_pos_eq; lra.
    + assert (IZR (2 ^ 20) + 1 <= bpow radix2 22) by (change (bpow radix2 22) with (IZR (2 ^ 22)); rewrite <- plus_IZR; apply IZR_le; lia).
      destruct neg; rewrite ?Rabs_Ropp, Rabs_pos_eq; lra.
  - unfold translate_proposition. change (@s_abs f64 FS code) with (Babs code). rewrite AB.
    change (@s_trunc f64 FS (@s_floor f64 FS y)) with (f64_trunc (f64_floor y)). rewrite (floor_read n c y N C F Y Y0).
    change (@s_fn2 f64 FS LFmod y (@s_1 f64 FS)) with (fp_fn2 P LFmod y (f64_lit 1 1)).
    destruct (Z.leb_spec (Z.of_nat (List.length terms)) (n - 1)) as [L|_]; [lia|].
    assert (SG : @s_ltb f64 FS code (@s_0 f64 FS) = neg).
    { destruct (@s_ltb f64 FS code (@s_0 f64 FS)) eqn:G.
      - apply (neg_iff P code FC) in G. rewrite VC in G. destruct neg; [reflexivity|lra].
      - destruct neg; [|reflexivity]. assert (@s_ltb f64 FS code (@s_0 f64 FS) = true) by (apply (neg_iff P code FC); rewrite VC; lra). congruence. }
    rewrite SG. assert (TN : (if (n - 1 <? 0)%Z then "" else nth (Z.to_nat (n - 1)) terms "")%string = (if (n =? 0)%Z then "" else nth (Z.to_nat (n - 1)) terms "")%string).
    { destruct (Z.ltb_spec (n - 1) 0), (Z.eqb_spec n 0); auto; lia. }
    rewrite TN. generalize (if (n =? 0)%Z then "" else nth (Z.to_nat (n - 1)) terms "")%string. intro name.
    assert (IS := frac_is n c y N C F Y Y0). assert (NO := frac_not n c y N C F Y Y0).
    assert (Z0 : (c <> 0)%Z \/ c = 0%Z) by lia. change (@s_0 f64 FS) with (f64_lit 0 1).
    change (@s_lit f64 FS) with f64_lit.
    Ltac yes IS a b := rewrite (IS a b) by (first [lia | lra]).
    Ltac no NO a b := rewrite (NO a b) by (first [lia | unfold Rabs; destruct Rcase_abs; lra]).
    destruct HC.
    + no NO 1%Z 100%positive. no NO 5%Z 100%positive. no NO 2%Z 10%positive. no NO 3%Z 10%positive. no NO 4%Z 10%positive. no NO 99%Z 100%positive.
      rewrite (IS 0%Z 1%positive) by (first [lia | lra]). destruct neg; reflexivity.
    + yes IS 1%Z 100%positive. destruct neg; reflexivity.
    + no NO 1%Z 100%positive. yes IS 5%Z 100%positive. destruct neg; reflexivity.
    + no NO 1%Z 100%positive. no NO 5%Z 100%positive. yes IS 2%Z 10%positive. destruct neg; reflexivity.
    + no NO 1%Z 100%positive. no NO 5%Z 100%positive. no NO 2%Z 10%positive. yes IS 3%Z 10%positive. destruct neg; reflexivity.
    + no NO 1%Z 100%positive. no NO 5%Z 100%positive. no NO 2%Z 10%positive. no NO 3%Z 10%positive. yes IS 4%Z 10%positive. destruct neg; reflexivity.
    + no NO 1%Z 100%positive. no NO 5%Z 100%positive. no NO 2%Z 10%positive. no NO 3%Z 10%positive. no NO 4%Z 10%positive. yes IS 99%Z 100%positive. destruct neg; reflexivity.
Qed.
End Codes.
