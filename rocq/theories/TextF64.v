(** Decimal conversions in binary64: correct rounding of [f64_dec] and [f64_fixed], and reading back printed values. *)
From Coq Require Import ZArith Reals Bool List String Lra Lia.
From Flocq Require Import Core BinarySingleNaN Round_odd Div_sqrt_error.
From Verif Require Import Base Op XR XRFacts F64 F64Facts F64Arith F64Err Text TextProofs TextProofs2.
Local Open Scope R_scope.

Lemma zfloor_div a b : (0 < b)%Z -> Zfloor (IZR a / IZR b) = (a / b)%Z.
Proof. intro H. apply Zfloor_div. lia. Qed.
Lemma exact_div a b : (0 < b)%Z -> IZR a / IZR b = IZR (a / b) <-> (a mod b = 0)%Z.
Proof.
  intro H. assert (B : IZR b <> 0) by (apply not_0_IZR; lia). assert (D := Z.div_mod a b ltac:(lia)). split.
  - intro E. assert (IZR a = IZR (b * (a / b))). { rewrite mult_IZR, <- E. field. auto. } apply eq_IZR in H0. lia.
  - intro M. rewrite M in D. rewrite D at 1. rewrite plus_IZR, mult_IZR. field. auto.
Qed.
Lemma odd_div_spec a b : (0 < b)%Z -> Zrnd_odd (IZR a / IZR b) = odd_div a b.
Proof.
  intro H. unfold Zrnd_odd, odd_div. rewrite zfloor_div by auto. destruct (Req_EM_T _ _) as [E|N].
  - apply exact_div in E; auto. rewrite E. reflexivity.
  - destruct (Z.eqb_spec (a mod b) 0) as [E|E]; [apply exact_div in E; auto; congruence|].
    destruct (Z.even (a / b)); auto. rewrite Zceil_floor_neq; rewrite zfloor_div by auto; auto.
Qed.
Lemma near_div_spec a b : (0 < b)%Z -> ZnearestE (IZR a / IZR b) = near_div a b.
Proof.
  intro H. unfold Znearest, near_div. rewrite zfloor_div by auto. assert (B : 0 < IZR b) by now apply IZR_lt.
  assert (D := Z.div_mod a b ltac:(lia)). assert (M := Z.mod_pos_bound a b H).
  assert (E : IZR a / IZR b - IZR (a / b) = IZR (a mod b) / IZR b).
  { rewrite D at 1. rewrite plus_IZR, mult_IZR. field. lra. }
  rewrite E. assert (C : Rcompare (IZR (a mod b) / IZR b) (/2) = Z.compare (2 * (a mod b)) b).
  { rewrite <- Rcompare_IZR, mult_IZR. rewrite <- (Rcompare_mult_r (2 * IZR b) (_ / _)) by lra. f_equal; field; lra. }
  rewrite C. assert (CL : (a mod b <> 0)%Z -> Zceil (IZR a / IZR b) = (a / b + 1)%Z).
  { intro N. rewrite Zceil_floor_neq; rewrite zfloor_div by auto; auto. intro X. apply N. apply exact_div; auto. }
  destruct (Z.compare_spec (2 * (a mod b)) b) as [Q|Q|Q]; auto.
  - rewrite CL by lia. destruct (Z.even (a / b)); auto.
  - apply CL. lia.
Qed.

Lemma fe64_odd e : (FIX_exp (-1100) e <= fe64 e - 2)%Z.
Proof. unfold FIX_exp, SpecFloat.fexp, SpecFloat.emin, prec64, emax64. lia. Qed.
Lemma round_odd_dec m b : (0 < b)%Z ->
  round radix2 (FIX_exp (-1100)) Zrnd_odd (IZR m / IZR b) = F2R (Float radix2 (odd_div (m * 2 ^ 1100) b) (-1100)).
Proof.
  intro H. unfold round, scaled_mantissa, cexp, FIX_exp. f_equal. f_equal. rewrite <- odd_div_spec by auto. f_equal.
  change (- -1100)%Z with 1100%Z. rewrite <- (IZR_Zpower radix2 1100) by lia. change (Zpower radix2 1100) with (2 ^ 1100)%Z. rewrite mult_IZR.
  assert (IZR b <> 0) by (apply not_0_IZR; lia). field. auto.
Qed.
Lemma rnd_odd x : rnd (round radix2 (FIX_exp (-1100)) Zrnd_odd x) = rnd x.
Proof.
  assert (I : Exists_NE radix2 fe64) by (apply (exists_NE_FLT radix2 (-1074) 53); right; lia).
  exact (round_N_odd radix2 eq_refl fe64 (FIX_exp (-1100)) (fun z => negb (Z.even z)) fe64_odd x).
Qed.
Definition tenth (d : nat) : R := / IZR (10 ^ Z.of_nat d).
Lemma ten_pos d : 0 < IZR (10 ^ Z.of_nat d).
Proof. apply IZR_lt. apply Z.pow_pos_nonneg; lia. Qed.
Lemma ten_ge1 d : 1 <= IZR (10 ^ Z.of_nat d).
Proof. apply IZR_le. assert (0 < 10 ^ Z.of_nat d)%Z by (apply Z.pow_pos_nonneg; lia). lia. Qed.
Lemma tenth_pos d : 0 < tenth d.
Proof. apply Rinv_0_lt_compat, ten_pos. Qed.
Lemma tenth_le1 d : tenth d <= 1.
Proof. unfold tenth. rewrite <- Rinv_1. apply Rinv_le_contravar; [lra|apply ten_ge1]. Qed.

Lemma dec_correct m d : Rlt_bool (Rabs (rnd (IZR m * tenth d))) (bpow radix2 emax64) = true ->
  B2R (f64_dec m (- Z.of_nat d)) = rnd (IZR m * tenth d) /\ is_finite (f64_dec m (- Z.of_nat d)) = true.
Proof.
  intro OV. unfold f64_dec. assert (P : (0 < 10 ^ Z.of_nat d)%Z) by (apply Z.pow_pos_nonneg; lia). destruct (Z.leb_spec 0 (- Z.of_nat d)) as [L|L].
  - assert (d = 0%nat) by lia. subst d. simpl Z.of_nat in *. simpl Z.opp. rewrite Z.pow_0_r, Z.mul_1_r.
    unfold tenth in *. simpl Z.of_nat in *. rewrite Z.pow_0_r in *. rewrite Rinv_1, Rmult_1_r in *.
    unfold f64_of_Z. pose proof (binary_normalize_correct prec64 emax64 Hprec64 Hemax64 mode_NE m 0 false) as K. cbv zeta in K. simpl round_mode in K.
    assert (E : F2R (Float radix2 m 0) = IZR m) by (unfold F2R; simpl; ring). rewrite E in K. rewrite OV in K. tauto.
  - rewrite Z.opp_involutive. pose proof (binary_normalize_correct prec64 emax64 Hprec64 Hemax64 mode_NE (odd_div (m * 2 ^ 1100) (10 ^ Z.of_nat d)) (-1100) false) as K. cbv zeta in K.
    simpl round_mode in K. rewrite <- round_odd_dec in K by auto.
    assert (E : rnd (round radix2 (FIX_exp (-1100)) Zrnd_odd (IZR m / IZR (10 ^ Z.of_nat d))) = rnd (IZR m * tenth d)) by apply rnd_odd.
    rewrite E in K. rewrite OV in K. tauto.
Qed.

Lemma fixed_correct d (x : f64) : is_finite x = true -> f64_fixed d x = ZnearestE (Rabs (B2R x) * IZR (10 ^ Z.of_nat d)).
Proof.
  intro F. destruct x as [s| | |s m e H]; try discriminate.
  - simpl. rewrite Rabs_R0, Rmult_0_l. symmetry. apply (@Zrnd_IZR ZnearestE _ 0).
  - unfold f64_fixed, B2R. rewrite F2R_cond_Zopp, abs_cond_Ropp. rewrite Rabs_pos_eq by (apply F2R_ge_0; simpl; lia). unfold F2R; simpl Fnum; simpl Fexp.
    destruct (Z.leb_spec 0 e) as [L|L].
    + rewrite <- (IZR_Zpower radix2 e) by auto. change (Zpower radix2 e) with (2 ^ e)%Z. rewrite <- !mult_IZR. symmetry. apply (@Zrnd_IZR ZnearestE _).
    + assert (P : (0 < 2 ^ (- e))%Z) by (apply Z.pow_pos_nonneg; lia). rewrite <- near_div_spec by auto. f_equal. rewrite mult_IZR.
      change (2 ^ (- e))%Z with (Zpower radix2 (- e)). rewrite IZR_Zpower by lia. rewrite bpow_opp. unfold Rdiv. rewrite Rinv_inv. ring.
Qed.

(** nearest integers *)
Lemma near_half y : Rabs (y - IZR (ZnearestE y)) <= / 2.
Proof. apply Znearest_half. Qed.
Lemma near_tie y : Rabs (y - IZR (ZnearestE y)) = / 2 -> Z.even (ZnearestE y) = true.
Proof.
  intro H. unfold Znearest in *. assert (F := Zfloor_lb y). assert (G := Zfloor_ub y).
  destruct (Rcompare_spec (y - IZR (Zfloor y)) (/2)) as [C|C|C].
  - rewrite Rabs_pos_eq in H by lra. lra.
  - destruct (Z.even (Zfloor y)) eqn:E; simpl in *; auto.
    rewrite Zceil_floor_neq by lra. rewrite Z.even_add, E. reflexivity.
  - rewrite Zceil_floor_neq in H by lra. rewrite plus_IZR in H. rewrite Rabs_left1 in H by lra. lra.
Qed.
Lemma near_unique y n : Rabs (y - IZR n) <= / 2 -> (Rabs (y - IZR n) = / 2 -> Z.even n = true) -> ZnearestE y = n.
Proof.
  intros H T. destruct (Rle_lt_or_eq_dec _ _ H) as [L|E].
  - apply Znearest_imp. apply Rlt_le_trans with (/2); auto. lra.
  - specialize (T E). assert (C : y = IZR n + /2 \/ y = IZR n - /2) by (unfold Rabs in E; destruct Rcase_abs; lra).
    unfold Znearest. destruct C as [-> | ->].
    + assert (FL : Zfloor (IZR n + / 2) = n) by (apply Zfloor_imp; rewrite plus_IZR; lra). rewrite FL. rewrite Rcompare_Eq by lra. now rewrite T.
    + assert (FL : Zfloor (IZR n - / 2) = (n - 1)%Z) by (apply Zfloor_imp; rewrite plus_IZR, minus_IZR; lra). rewrite FL. rewrite minus_IZR. rewrite Rcompare_Eq by lra.
      replace (Z.even (n - 1)) with false by (rewrite Z.even_sub, T; reflexivity). simpl.
      rewrite Zceil_floor_neq; rewrite FL; [lia|]. rewrite minus_IZR. lra.
Qed.

(** [rnd] is nearest among the format *)
Lemma rnd_nearest v g : fmt g -> Rabs (rnd v - v) <= Rabs (g - v).
Proof. intro G. apply (round_N_pt radix2 fe64 (fun z => negb (Z.even z)) v). exact G. Qed.
Lemma abs_fmt x : fmt x -> fmt (Rabs x).
Proof. apply generic_format_abs. Qed.

Section One.
Variable d : nat.
Variable a : R.
Hypothesis Fa : fmt a.
Hypothesis Pa : 0 < a.
Hypothesis Big : rnd (tenth d) <= a.
Let n := ZnearestE (a * IZR (10 ^ Z.of_nat d)).

Lemma double_fmt : fmt (2 * a).
Proof.
  destruct (FLT_format_generic radix2 (-1074) 53 a Fa) as [f E M X]. apply (generic_format_FLT radix2 (-1074) 53).
  exists (Float radix2 (Fnum f) (Fexp f + 1)); simpl; auto; [|lia]. rewrite E. unfold F2R; simpl Fnum; simpl Fexp. rewrite bpow_plus. change (bpow radix2 1) with 2. ring.
Qed.
Lemma n_pos : (1 <= n)%Z.
Proof.
  assert (H : tenth d / 2 < a).
  { destruct (Rlt_le_dec (tenth d / 2) a) as [|L]; auto. exfalso. assert (T := tenth_pos d). assert (T1 := tenth_le1 d).
    assert (N := rnd_nearest (tenth d) (2 * a) double_fmt). assert (N0 := rnd_nearest (tenth d) a Fa).
    revert N N0. unfold Rabs. repeat destruct Rcase_abs; lra. }
  assert (Z := near_half (a * IZR (10 ^ Z.of_nat d))). fold n in Z. assert (T := ten_pos d).
  assert (HH : / 2 < a * IZR (10 ^ Z.of_nat d)).
  { apply (Rmult_lt_compat_r _ _ _ T) in H. unfold tenth in H. replace (/ IZR (10 ^ Z.of_nat d) / 2 * IZR (10 ^ Z.of_nat d)) with (/2) in H; [auto|]. field. lra. }
  assert (0 < IZR n). { revert Z. unfold Rabs. destruct Rcase_abs; lra. }
  apply lt_IZR in H0. lia.
Qed.
Lemma v_near : Rabs (IZR n * tenth d - a) <= tenth d / 2.
Proof.
  assert (Z := near_half (a * IZR (10 ^ Z.of_nat d))). fold n in Z. assert (T := tenth_pos d). assert (T' := ten_pos d).
  replace (IZR n * tenth d - a) with (- (a * IZR (10 ^ Z.of_nat d) - IZR n) * tenth d) by (unfold tenth; field; lra).
  rewrite Rabs_mult, Rabs_Ropp, (Rabs_pos_eq (tenth d)) by lra. nra.
Qed.
Let v := IZR n * tenth d.
Lemma y_near : Rabs (rnd v - v) <= tenth d / 2 /\ Rabs (rnd v - a) <= tenth d.
Proof.
  assert (N := rnd_nearest v a Fa). assert (V := v_near). fold v in V. rewrite Rabs_minus_sym in N.
  split. { rewrite (Rabs_minus_sym a) in N. rewrite Rabs_minus_sym in N. lra. }
  revert N V. unfold Rabs. repeat destruct Rcase_abs; lra.
Qed.
Lemma v_ge : tenth d <= v.
Proof. unfold v. assert (N := n_pos). apply IZR_le in N. assert (T := tenth_pos d). nra. Qed.
Lemma y_pos : 0 < rnd v /\ rnd (tenth d) <= rnd v.
Proof.
  split; [|apply rnd_mono, v_ge]. destruct y_near as [H _]. assert (V := v_ge). assert (T := tenth_pos d). revert H. unfold Rabs. destruct Rcase_abs; lra.
Qed.
Lemma y_stable : ZnearestE (rnd v * IZR (10 ^ Z.of_nat d)) = n.
Proof.
  assert (T := tenth_pos d). assert (T' := ten_pos d).
  assert (S : forall y, y * IZR (10 ^ Z.of_nat d) - IZR n = (y - v) * IZR (10 ^ Z.of_nat d)) by (intro y; unfold v, tenth; field; lra).
  assert (I : tenth d * IZR (10 ^ Z.of_nat d) = 1) by (unfold tenth; field; lra).
  destruct y_near as [H _]. assert (N := rnd_nearest v a Fa).
  assert (HA : Rabs (a * IZR (10 ^ Z.of_nat d) - IZR n) = Rabs (a - v) * IZR (10 ^ Z.of_nat d)) by (rewrite S, Rabs_mult, (Rabs_pos_eq (IZR _)) by lra; auto).
  assert (HY : Rabs (rnd v * IZR (10 ^ Z.of_nat d) - IZR n) = Rabs (rnd v - v) * IZR (10 ^ Z.of_nat d)) by (rewrite S, Rabs_mult, (Rabs_pos_eq (IZR _)) by lra; auto).
  apply near_unique.
  - rewrite HY. nra.
  - rewrite HY. intro E. apply (near_tie (a * IZR (10 ^ Z.of_nat d))). fold n. assert (ZA := near_half (a * IZR (10 ^ Z.of_nat d))). fold n in ZA. rewrite HA in *. nra.
Qed.
Lemma y_finite : a < bpow radix2 emax64 -> Rabs (rnd v) < bpow radix2 emax64.
Proof.
  intro B. assert (Y := proj1 y_pos). rewrite Rabs_pos_eq by lra. destruct (Rle_lt_dec (bpow radix2 53) a) as [L|L].
  - (* an integer: printed exactly *)
    assert (exists k, a = IZR k) as (k & K).
    { exists (Ztrunc a). symmetry.
      destruct (fmt_mult a Fa) as (m & Em).
      assert (C : (0 <= cexp radix2 fe64 a)%Z). { unfold cexp. assert (M : (53 < mag radix2 a)%Z) by (apply mag_gt_bpow; rewrite Rabs_pos_eq; lra). unfold SpecFloat.fexp, SpecFloat.emin, prec64, emax64. lia. }
      rewrite Em. rewrite <- (IZR_Zpower radix2) by auto. rewrite <- mult_IZR. now rewrite Ztrunc_IZR. }
    assert (E : v = a). { unfold v, n. rewrite K, <- mult_IZR. rewrite (@Zrnd_IZR ZnearestE _). rewrite mult_IZR. unfold tenth. field. assert (T := ten_pos d). lra. }
    rewrite E, rnd_id; auto.
  - destruct y_near as [_ H]. assert (T := tenth_le1 d). assert (rnd v < bpow radix2 53 + 1) by (revert H; unfold Rabs; destruct Rcase_abs; lra).
    eapply Rlt_trans; [eassumption|]. replace (bpow radix2 53 + 1) with (IZR (2 ^ 53 + 1)) by (rewrite plus_IZR; reflexivity).
    change (bpow radix2 emax64) with (IZR (2 ^ 1024)). apply IZR_lt. reflexivity.
Qed.
End One.

Section RoundTrip.
Context (P : fparam).
#[local] Hint Extern 0 (Scalar f64) => exact (F64Scalar P) : typeclass_instances.
#[local] Hint Extern 0 (Scalar (binary_float _ _)) => exact (F64Scalar P) : typeclass_instances.

Lemma tol_correct d : B2R (f64_dec 1 (- Z.of_nat d)) = rnd (tenth d) /\ is_finite (f64_dec 1 (- Z.of_nat d)) = true.
Proof.
  destruct (dec_correct 1 d) as [A B]. { rewrite Rmult_1_l. apply rnd_no_overflow. assert (T := tenth_pos d). assert (T1 := tenth_le1 d). lra. }
  rewrite Rmult_1_l in A. auto.
Qed.
Lemma zero_f : B2R (@s_0 f64 (F64Scalar P)) = 0 /\ is_finite (@s_0 f64 (F64Scalar P)) = true.
Proof. exact f64_0_correct. Qed.
Lemma finite_kind (x : f64) : is_finite x = true -> @isNaN f64 (F64Scalar P) x = false /\ @isInf f64 (F64Scalar P) x = false.
Proof.
  intro F. unfold isNaN, isInf. cbn [s_eqb s_neg s_inf F64Scalar]. rewrite !f_eqb. rewrite (f2x_finite x F). simpl. split; auto.
  destruct (Reqb_spec (B2R x) (B2R x)); auto; lra.
Qed.
Lemma tiny_iff d (x : f64) : is_finite x = true -> @isEq_tol f64 (F64Scalar P) (f64_dec 1 (- Z.of_nat d)) x s_0 = true <->
  (B2R x = 0 \/ Rabs (B2R x) < rnd (tenth d)).
Proof.
  intro F. destruct (tol_correct d) as [T TF]. destruct zero_f as [Z ZF]. destruct (finite_kind x F) as [N _].
  unfold isEq_tol. rewrite N. rewrite andb_false_l, orb_false_r. cbn [s_eqb s_abs s_sub s_ltb F64Scalar]. rewrite f_eqb, f_ltb.
  assert (M : B2R (Bminus mode_NE x (@s_0 f64 (F64Scalar P))) = B2R x /\ is_finite (Bminus mode_NE x (@s_0 f64 (F64Scalar P))) = true).
  { assert (X : B2R x - B2R (@s_0 f64 (F64Scalar P)) = B2R x) by (rewrite Z; ring). destruct (minus_gen x (@s_0 f64 (F64Scalar P)) F ZF) as [A B].
    - replace (B2R x - _) with (B2R x) by (symmetry; exact X). rewrite rnd_id by apply fmt_B2R. apply Rlt_bool_true, abs_B2R_lt_emax.
    - split; [|exact B]. etransitivity; [exact A|]. etransitivity; [|exact (rnd_id _ (fmt_B2R x))]. f_equal. exact X. }
  destruct M as [M MF]. rewrite (f2x_finite _ F), (f2x_finite _ ZF), (f2x_finite _ TF).
  assert (AF : is_finite (Babs (Bminus mode_NE x (@s_0 f64 (F64Scalar P)))) = true) by (etransitivity; [exact (is_finite_Babs _ _ _)|exact MF]).
  rewrite (f2x_finite _ AF), B2R_Babs, M, Z, T. simpl.
  destruct (Reqb_spec (B2R x) 0), (Rltb_spec (Rabs (B2R x)) (rnd (tenth d))); simpl; split; auto; try tauto; try discriminate.
Qed.
Lemma neg_iff (x : f64) : is_finite x = true -> @s_ltb f64 (F64Scalar P) x s_0 = true <-> B2R x < 0.
Proof.
  intro F. destruct zero_f as [Z ZF]. cbn [s_ltb F64Scalar]. rewrite f_ltb, (f2x_finite _ F), (f2x_finite _ ZF), Z. simpl.
  destruct (Rltb_spec (B2R x) 0); split; auto; try discriminate; lra.
Qed.
Lemma tiny_small d (x : f64) : Rabs (B2R x) < rnd (tenth d) -> Rabs (B2R x) <= tenth d.
Proof.
  intro H. destruct (Rle_lt_dec (Rabs (B2R x)) (tenth d)) as [|L]; auto. exfalso.
  assert (N := rnd_nearest (tenth d) _ (abs_fmt _ (fmt_B2R x))). revert N. revert H L. generalize (Rabs (B2R x)). intros r H L. unfold Rabs. repeat destruct Rcase_abs; lra.
Qed.

Lemma str_tiny d (x : f64) : is_finite x = true -> (B2R x = 0 \/ Rabs (B2R x) < rnd (tenth d)) -> @str f64 (F64Scalar P) d x = fixed_text d 0.
Proof.
  intros F H. apply tiny_iff in H; auto. destruct (finite_kind x F) as [N I]. unfold str. rewrite N, I.
  change (@s_dec f64 (F64Scalar P) 1 (- Z.of_nat d)) with (f64_dec 1 (- Z.of_nat d)). now rewrite H.
Qed.
Lemma str_large d (x : f64) : is_finite x = true -> B2R x <> 0 -> rnd (tenth d) <= Rabs (B2R x) ->
  @str f64 (F64Scalar P) d x = ((if Rlt_bool (B2R x) 0 then "-" else "") ++ fixed_text d (ZnearestE (Rabs (B2R x) * IZR (10 ^ Z.of_nat d))))%string.
Proof.
  intros F N0 H. destruct (finite_kind x F) as [N I]. unfold str. rewrite N, I.
  change (@s_dec f64 (F64Scalar P) 1 (- Z.of_nat d)) with (f64_dec 1 (- Z.of_nat d)).
  destruct (isEq_tol (f64_dec 1 (- Z.of_nat d)) x s_0) eqn:E. { apply tiny_iff in E; auto. destruct E; [tauto|lra]. }
  change (@s_fixed f64 (F64Scalar P) d x) with (f64_fixed d x). rewrite fixed_correct by auto. f_equal.
  destruct (Rlt_bool_spec (B2R x) 0) as [L|L].
  - apply neg_iff in L; auto. now rewrite L.
  - destruct (@s_ltb f64 (F64Scalar P) x s_0) eqn:G; auto. apply neg_iff in G; auto. lra.
Qed.

(** the decimal that is printed, and the value read back *)
Theorem round_trip d (x : f64) : is_finite x = true -> exists y : f64,
  @to_scalar f64 (F64Scalar P) (@str f64 (F64Scalar P) d x) = Ok y /\ is_finite y = true /\
  Rabs (B2R y - B2R x) <= tenth d /\ @str f64 (F64Scalar P) d y = @str f64 (F64Scalar P) d x.
Proof.
  intro F. destruct (Req_dec (B2R x) 0) as [Z|NZ]; [|destruct (Rlt_le_dec (Rabs (B2R x)) (rnd (tenth d))) as [L|L]].
  1,2: assert (TI : B2R x = 0 \/ Rabs (B2R x) < rnd (tenth d)) by auto;
    rewrite (str_tiny d x F TI); destruct (read_fixed d 0 ltac:(lia)) as [R0 _];
    destruct (dec_correct 0 d) as [V VF]; [rewrite Rmult_0_l, rnd_0, Rabs_R0; apply Rlt_bool_true, bpow_gt_0|]; rewrite Rmult_0_l, rnd_0 in V;
    exists (f64_dec 0 (- Z.of_nat d)); repeat split; auto;
    [ unfold to_scalar; rewrite R0; change (@s_dec f64 (F64Scalar P) 0 (- Z.of_nat d)) with (f64_dec 0 (- Z.of_nat d)); destruct (finite_kind _ VF) as [_ ->]; reflexivity
    | rewrite V; unfold Rminus; rewrite Rplus_0_l, Rabs_Ropp; assert (T := tenth_pos d); try (rewrite Z, Rabs_R0; lra); now apply tiny_small
    | apply str_tiny; auto ].
  set (a := Rabs (B2R x)) in *. assert (Fa : fmt a) by apply abs_fmt, fmt_B2R. assert (Pa : 0 < a) by (unfold a; now apply Rabs_pos_lt).
  set (n := ZnearestE (a * IZR (10 ^ Z.of_nat d))). assert (Np := n_pos d a Fa Pa L). fold n in Np.
  assert (OV := y_finite d a Fa Pa L (abs_B2R_lt_emax prec64 emax64 x)). fold n in OV.
  destruct (dec_correct n d) as [V VF]; [now apply Rlt_bool_true|].
  destruct (y_near d a Fa) as [_ YN]. fold n in YN. destruct (y_pos d a Fa Pa L) as [YP YL]. fold n in YP, YL.
  assert (YS := y_stable d a Fa). fold n in YS.
  set (v := f64_dec n (- Z.of_nat d)) in *. rewrite <- V in YN, YP, YL, YS.
  rewrite (str_large d x F NZ L). fold a n. destruct (read_fixed d n ltac:(lia)) as [RP RN]. unfold to_scalar.
  destruct (finite_kind v VF) as [_ VI].
  destruct (Rlt_bool_spec (B2R x) 0) as [Sg|Sg].
  - rewrite RN. change (@s_dec f64 (F64Scalar P) n (- Z.of_nat d)) with v. rewrite VI. exists (Bopp v). change (@s_neg f64 (F64Scalar P) v) with (Bopp v).
    assert (OF : is_finite (Bopp v) = true) by now rewrite is_finite_Bopp.
    assert (AX : a = - B2R x) by (unfold a; now apply Rabs_left).
    repeat split; auto.
    + rewrite B2R_Bopp. replace (- B2R v - B2R x) with (- (B2R v - a)) by (rewrite AX; ring). now rewrite Rabs_Ropp.
    + rewrite str_large; auto; rewrite B2R_Bopp, ?Rabs_Ropp, ?(Rabs_pos_eq (B2R v)) by lra; [|lra|lra]. rewrite YS, Rlt_bool_true by lra. reflexivity.
  - cbn [append]. rewrite RP. change (@s_dec f64 (F64Scalar P) n (- Z.of_nat d)) with v. rewrite VI. exists v.
    assert (AX : a = B2R x) by (unfold a; now apply Rabs_pos_eq).
    repeat split; auto.
    + now rewrite <- AX.
    + rewrite str_large; auto; rewrite ?(Rabs_pos_eq (B2R v)) by lra; [|lra|lra]. rewrite YS, Rlt_bool_false by lra. reflexivity.
Qed.
(** numbers written with at most [d] decimals survive being printed and read *)
Lemma tenth_normal d : (d <= 300)%nat -> bpow radix2 (-1022) <= tenth d.
Proof.
  intro H. unfold tenth. change (bpow radix2 (-1022)) with (/ IZR (2 ^ 1022)). apply Rinv_le_contravar; [apply ten_pos|]. apply IZR_le.
  transitivity (10 ^ 300)%Z; [apply Z.pow_le_mono_r; lia|]. vm_compute. discriminate.
Qed.
Theorem decimal_trip d k (neg : bool) : (d <= 300)%nat -> (0 < k < 2 ^ 52)%Z ->
  let x := if neg then Bopp (f64_dec k (- Z.of_nat d)) else f64_dec k (- Z.of_nat d) in
  @str f64 (F64Scalar P) d x = ((if neg then "-" else "") ++ fixed_text d k)%string /\
  @to_scalar f64 (F64Scalar P) (@str f64 (F64Scalar P) d x) = Ok x.
Proof.
  intros Hd Hk x. set (v := IZR k * tenth d). assert (T := tenth_pos d). assert (T1 := tenth_le1 d). assert (TP := ten_pos d).
  assert (K1 : 1 <= IZR k) by (apply IZR_le; lia). assert (K2 : IZR k < IZR (2 ^ 52)) by (apply IZR_lt; lia).
  assert (V1 : tenth d <= v) by (unfold v; nra). assert (V2 : v <= IZR (2 ^ 52)) by (unfold v; nra).
  destruct (rnd_rel v) as (e & E1 & E2). { assert (N := tenth_normal d Hd). rewrite Rabs_pos_eq; lra. }
  assert (B53 : bpow radix2 (-53) = / 2 * / IZR (2 ^ 52)). { change (-53)%Z with (- (53))%Z. rewrite bpow_opp. change (bpow radix2 53) with (IZR (2 * 2 ^ 52)). rewrite mult_IZR, Rinv_mult. reflexivity. }
  assert (Q : Rabs (rnd v - v) < tenth d / 2).
  { rewrite E2. replace (v * (1 + e) - v) with (v * e) by ring. rewrite Rabs_mult, Rabs_pos_eq by lra.
    apply Rle_lt_trans with (v * bpow radix2 (-53)); [apply Rmult_le_compat_l; lra|]. rewrite B53. unfold v.
    assert (IZR k * / IZR (2 ^ 52) < 1). { apply (Rmult_lt_reg_r (IZR (2 ^ 52))); [apply IZR_lt; lia|]. rewrite Rmult_assoc, Rinv_l by (apply not_0_IZR; lia). lra. }
    nra. }
  assert (OV : Rlt_bool (Rabs (rnd v)) (bpow radix2 emax64) = true).
  { apply Rlt_bool_true. rewrite Rabs_pos_eq by (revert Q; unfold Rabs; destruct Rcase_abs; lra).
    apply Rle_lt_trans with (IZR (2 ^ 52 + 1)); [rewrite plus_IZR; revert Q; unfold Rabs; destruct Rcase_abs; lra|]. change (bpow radix2 emax64) with (IZR (2 ^ 1024)). apply IZR_lt. reflexivity. }
  destruct (dec_correct k d OV) as [W WF]. fold v in W. set (w := f64_dec k (- Z.of_nat d)) in *.
  assert (RV : 0 < rnd v) by (revert Q; unfold Rabs; destruct Rcase_abs; lra).
  assert (RT : rnd (tenth d) <= rnd v) by (apply rnd_mono; lra).
  assert (NE : ZnearestE (rnd v * IZR (10 ^ Z.of_nat d)) = k).
  { assert (S : rnd v * IZR (10 ^ Z.of_nat d) - IZR k = (rnd v - v) * IZR (10 ^ Z.of_nat d)) by (unfold v, tenth; field; lra).
    assert (I : tenth d * IZR (10 ^ Z.of_nat d) = 1) by (unfold tenth; field; lra).
    assert (L : Rabs (rnd v * IZR (10 ^ Z.of_nat d) - IZR k) < / 2). { rewrite S, Rabs_mult, (Rabs_pos_eq (IZR _)) by lra. nra. }
    apply near_unique; lra. }
  assert (AB : Rabs (B2R x) = rnd v). { unfold x. destruct neg; rewrite ?B2R_Bopp, ?Rabs_Ropp, W; apply Rabs_pos_eq; lra. }
  assert (XF : is_finite x = true). { unfold x. destruct neg; rewrite ?is_finite_Bopp; auto. }
  assert (X0 : B2R x <> 0). { intro Z. rewrite Z, Rabs_R0 in AB. lra. }
  assert (SX : @str f64 (F64Scalar P) d x = ((if neg then "-" else "") ++ fixed_text d k)%string).
  { rewrite str_large; auto; [|now rewrite AB]. rewrite AB, NE. f_equal. unfold x. destruct neg; rewrite ?B2R_Bopp, W; [rewrite Rlt_bool_true|rewrite Rlt_bool_false]; auto; lra. }
  split; auto. rewrite SX. destruct (read_fixed d k ltac:(lia)) as [RP RN]. destruct (finite_kind w WF) as [_ WI]. unfold to_scalar.
  unfold x. destruct neg; cbn [append].
  - assert (RN' := RN). cbn [append] in RN'. rewrite RN'. change (@s_dec f64 (F64Scalar P) k (- Z.of_nat d)) with w. rewrite WI. reflexivity.
  - rewrite RP. change (@s_dec f64 (F64Scalar P) k (- Z.of_nat d)) with w. rewrite WI. reflexivity.
Qed.
Lemma special_trip d : (forall x : f64, is_nan x = true -> @str f64 (F64Scalar P) d x = "nan"%string) /\
  @to_scalar f64 (F64Scalar P) "nan" = Ok B754_nan /\
  (forall s, @to_scalar f64 (F64Scalar P) (@str f64 (F64Scalar P) d (B754_infinity s)) = Ok (B754_infinity s)).
Proof.
  split; [|split]; [intros x H; destruct x; try discriminate; reflexivity|reflexivity|intros []; reflexivity].
Qed.
End RoundTrip.
Lemma read_correct m d : Rabs (round radix2 (SpecFloat.fexp 53 1024) ZnearestE (IZR m * / IZR (10 ^ Z.of_nat d))) < bpow radix2 1024 ->
  B2R (f64_dec m (- Z.of_nat d)) = round radix2 (SpecFloat.fexp 53 1024) ZnearestE (IZR m * / IZR (10 ^ Z.of_nat d)).
Proof. intro H. apply (dec_correct m d). now apply Rlt_bool_true. Qed.
Lemma value_lost : exists x y : f64, is_finite x = true /\
  @to_scalar f64 (F64Scalar fp_default) (@str f64 (F64Scalar fp_default) 3 x) = Ok y /\ Beqb x y = false.
Proof. exists (f64_dec 9 (-4)), (f64_dec 0 (-3)). split; [|split]; vm_compute; reflexivity. Qed.
