(** Printing and reading binary64 numbers in the FuzzyLite Language. *)
From Coq Require Import ZArith Reals Bool List String Ascii Lra Lia.
From Flocq Require Import Core BinarySingleNaN Sterbenz.
From Verif Require Import Base Op XR XRFacts F64 F64Facts F64Arith F64Err Text TextProofs TextProofs2 TextF64 OpProofs
  Fll SpecFll FllText FllExport FllRound.
Local Open Scope R_scope.

Section Numbers.
Variable P : fparam.
Variable d : nat.
Hypothesis eps_finite : is_finite (fp_eps P) = true.
Hypothesis eps_small : B2R (fp_eps P) <= tenth d / 2.
Local Notation FS := (F64Scalar P).

Lemma frac_solid : forall k n, sforall solid (frac_digits k n) = true.
Proof.
  induction k as [|k IH]; intro n; [reflexivity|]. cbn [frac_digits]. rewrite sforall_app, IH. cbn [andb].
  assert (H := Z.mod_pos_bound n 10 ltac:(lia)). set (m := (n mod 10)%Z) in *. clearbody m.
  assert (C : exists i, (i < 10)%nat /\ m = Z.of_nat i) by (exists (Z.to_nat m); lia). destruct C as (i & K & ->). unfold digit_char. rewrite Nat2Z.id.
  do 10 (destruct i as [|i]; [reflexivity|]). lia.
Qed.
Lemma fixed_solid k n : sforall solid (fixed_text k n) = true.
Proof. unfold fixed_text, nat_text. rewrite sforall_app, digits_solid. destruct (Nat.eqb k 0); [reflexivity|]. cbn [append sforall]. rewrite frac_solid. reflexivity. Qed.
Lemma str_solid_f64 (x : f64) : @str f64 FS d x <> ""%string /\ sforall solid (@str f64 FS d x) = true.
Proof.
  assert (NE : forall a n, (a ++ fixed_text d n)%string <> ""%string).
  { intros a n. unfold fixed_text, nat_text. assert (Q := digits_some (Z.to_nat (Z.log2 (n / 10 ^ Z.of_nat d))) (n / 10 ^ Z.of_nat d)). destruct (int_digits _ _); [congruence|]. destruct a; discriminate. }
  unfold str. destruct (isNaN x); [split; [discriminate|reflexivity]|]. destruct (isInf x); [destruct (s_ltb x s_0); split; discriminate || reflexivity|].
  destruct (isEq_tol _ x s_0); [split; [apply (NE ""%string)|apply fixed_solid]|]. split; [apply NE|]. rewrite sforall_app, fixed_solid. destruct (s_ltb x s_0); reflexivity.
Qed.
Lemma read_any (x : f64) : exists y, @to_scalar f64 FS (@str f64 FS d x) = Ok y /\ @str f64 FS d y = @str f64 FS d x.
Proof.
  destruct (special_trip P d) as (A & B & C). destruct (is_finite x) eqn:F.
  - destruct (round_trip P d x F) as (y & E & _ & _ & Q). eauto.
  - destruct x as [s|s| |s m e H]; try discriminate.
    + exists (B754_infinity s). auto.
    + exists B754_nan. rewrite (A B754_nan eq_refl). auto.
Qed.
Lemma int_value n : (0 <= n <= 2147483648)%Z -> B2R (f64_dec n 0) = IZR n /\ is_finite (f64_dec n 0) = true.
Proof.
  intro H. assert (R1 : rnd (IZR n * tenth 0) = IZR n).
  { unfold tenth. simpl Z.of_nat. rewrite Z.pow_0_r, Rinv_1, Rmult_1_r. apply rnd_id. apply (generic_format_FLT radix2 (-1074) 53).
    exists (Float radix2 n 0); [unfold F2R; simpl; ring|simpl; change (Z.pow_pos 2 53) with (2 ^ 53)%Z; lia|simpl; lia]. }
  destruct (dec_correct n 0) as [A B].
  - rewrite R1. apply Rlt_bool_true. rewrite Rabs_pos_eq by (apply IZR_le; lia). apply Rle_lt_trans with (bpow radix2 31); [|apply bpow_lt; reflexivity].
    change (bpow radix2 31) with (IZR 2147483648). apply IZR_le. lia.
  - simpl Z.of_nat in *. simpl Z.opp in *. rewrite R1 in A. auto.
Qed.
Lemma trunc_value (x : f64) n : is_finite x = true -> B2R x = IZR n -> int_range n -> f64_trunc x = Some n.
Proof.
  intros F V H. unfold f64_trunc. rewrite F. assert (E : Btrunc x = n).
  { apply eq_IZR. rewrite (Btrunc_correct prec64 emax64 Hemax64), V. apply round_generic; [apply valid_rnd_ZR|]. apply (generic_format_FIX radix2 0). exists (Float radix2 n 0); [unfold F2R; simpl; ring|reflexivity]. }
  rewrite E. unfold int_range in H. destruct (Z.leb_spec (-2147483648) n); [|lia]. destruct (Z.leb_spec n 2147483647); [reflexivity|lia].
Qed.
Lemma read_whole n : int_range n -> exists y, @to_scalar f64 FS (str_int n) = Ok y /\ @s_trunc f64 FS y = Some n.
Proof.
  intro H. unfold int_range in H. destruct (read_fixed 0 (Z.abs n) ltac:(lia)) as [RP RN]. assert (E : fixed_text 0 (Z.abs n) = nat_text (Z.abs n)).
  { unfold fixed_text. simpl Z.of_nat. rewrite Z.pow_0_r, Z.div_1_r. cbn [Nat.eqb]. apply sapp_nil_r. }
  rewrite E in RP, RN. destruct (int_value (Z.abs n)) as [V F]; [lia|]. destruct (finite_kind P _ F) as [_ IF]. simpl Z.of_nat in RP, RN. simpl Z.opp in RP, RN.
  unfold str_int, to_scalar. destruct (Z.ltb_spec n 0) as [L|L].
  - rewrite RN. change (@s_dec f64 FS (Z.abs n) 0) with (f64_dec (Z.abs n) 0). rewrite IF. exists (Bopp (f64_dec (Z.abs n) 0)). split; [reflexivity|].
    apply trunc_value; [now rewrite is_finite_Bopp| |exact H]. rewrite B2R_Bopp, V, <- opp_IZR. f_equal. lia.
  - cbn [append]. rewrite RP. change (@s_dec f64 FS (Z.abs n) 0) with (f64_dec (Z.abs n) 0). rewrite IF. exists (f64_dec (Z.abs n) 0). split; [reflexivity|].
    apply trunc_value; [exact F| |exact H]. rewrite V. f_equal. lia.
Qed.
Lemma trunc_range (x : f64) n : @s_trunc f64 FS x = Some n -> int_range n.
Proof.
  change (@s_trunc f64 FS x) with (f64_trunc x). unfold f64_trunc, int_range. destruct (is_finite x); [|discriminate]. destruct (Z.leb_spec (-2147483648) (Btrunc x)); [|discriminate].
  destruct (Z.leb_spec (Btrunc x) 2147483647); [|discriminate]. cbn [andb]. intro Q. injection Q as <-. lia.
Qed.

(** ** heights *)
Definition one : f64 := @s_1 f64 FS.
Lemma one_value : B2R one = 1 /\ is_finite one = true.
Proof. destruct (int_value 1) as [A B]; [lia|]. assert (E : one = f64_dec 1 0) by (apply B2SF_inj; vm_compute; reflexivity). rewrite E. auto. Qed.
Lemma close_iff (y : f64) : @isEq f64 FS y one = true -> y = one \/ (is_finite y = true /\ Rabs (B2R y - 1) < tenth d / 2).
Proof.
  destruct one_value as [V1 F1]. assert (T1 := tenth_le1 d). assert (T0 := tenth_pos d). unfold isEq, isEq_tol. rewrite !orb_true_iff, andb_true_iff. intros [[E|L]|[_ E]].
  - (* equal *)
    left. change (Beqb y one = true) in E. rewrite f_eqb, (f2x_finite _ F1), V1 in E. destruct y as [s|s| |s m e H] eqn:Y.
    + exfalso. simpl in E. destruct (Reqb_spec 0 1); [lra|discriminate].
    + destruct s; discriminate.
    + discriminate.
    + rewrite <- Y in *. assert (FY : is_finite y = true) by (rewrite Y; reflexivity). rewrite (f2x_finite _ FY) in E. simpl in E. destruct (Reqb_spec (B2R y) 1) as [Q|]; [|discriminate].
      apply B2R_inj; [rewrite Y; reflexivity|destruct one; try discriminate; auto; simpl in V1; lra|now rewrite V1].
  - (* close *)
    right. change (Bltb (Babs (Bminus mode_NE y one)) (fp_eps P) = true) in L. destruct (is_finite y) eqn:FY.
    2: { exfalso. destruct y as [s|s| |s m e H]; try discriminate.
         assert (Q : Bminus mode_NE (B754_infinity s) one = B754_infinity s) by (destruct one as [s1|s1| |s1 m1 e1 H1]; try discriminate; reflexivity). rewrite Q in L. destruct (fp_eps P) as [[]|[]| |[]]; discriminate. }
    split; auto. pose proof (Bminus_correct prec64 emax64 _ _ mode_NE y one FY F1) as K. simpl round_mode in K. destruct (Rlt_bool (Rabs (round radix2 _ _ (B2R y - B2R one))) (bpow radix2 emax64)) eqn:OV.
    + destruct K as (K & KF & _). assert (AF : is_finite (Babs (Bminus mode_NE y one)) = true) by (etransitivity; [exact (is_finite_Babs _ _ _)|exact KF]).
      rewrite f_ltb, (f2x_finite _ AF), (f2x_finite _ eps_finite) in L. simpl in L. destruct (Rltb_spec (B2R (Babs (Bminus mode_NE y one))) (B2R (fp_eps P))) as [Q|]; [|discriminate].
      rewrite B2R_Babs, K, V1 in Q. clear K KF AF L OV. change (Rabs (rnd (B2R y - 1)) < B2R (fp_eps P)) in Q.
      destruct (Rle_lt_dec (B2R y) (1 / 2)) as [C|C].
      * exfalso. assert (M : rnd (B2R y - 1) <= rnd (- (1 / 2))) by (apply rnd_mono; lra). rewrite (rnd_id (- (1/2))) in M by (apply fmt_opp, fmt_half). revert Q. unfold Rabs. destruct Rcase_abs; lra.
      * destruct (Rle_lt_dec (B2R y) 2) as [D|D].
        -- rewrite rnd_id in Q; [lra|]. apply sterbenz; try exact (fmt_B2R y); try exact fmt_1; try exact _. lra.
        -- exfalso. assert (M : rnd 1 <= rnd (B2R y - 1)) by (apply rnd_mono; lra). rewrite (rnd_id 1) in M by apply fmt_1. revert Q. unfold Rabs. destruct Rcase_abs; lra.
    + exfalso. destruct K as [K _]. destruct (Bminus mode_NE y one) as [s|s| |s m e H]; try discriminate. destruct s, (fp_eps P) as [[]|[]| |[]]; discriminate.
  - exfalso. destruct (finite_kind P one F1) as [Q _]. change (@isNaN f64 FS one = true) in E. congruence.
Qed.
Lemma text_of_one (y : f64) : is_finite y = true -> Rabs (B2R y - 1) < tenth d / 2 -> rnd (tenth d) <= Rabs (B2R y) -> @str f64 FS d y = fixed_text d (10 ^ Z.of_nat d).
Proof.
  intros F C L. assert (T1 := tenth_le1 d). assert (T0 := tenth_pos d). assert (TP := ten_pos d). assert (Y : 1 / 2 < B2R y) by (revert C; unfold Rabs; destruct Rcase_abs; lra).
  rewrite str_large; auto; [|apply Rgt_not_eq; lra]. rewrite Rlt_bool_false by lra. cbn [append]. f_equal. apply near_unique.
  - rewrite (Rabs_pos_eq (B2R y)) by lra. replace (B2R y * IZR (10 ^ Z.of_nat d) - IZR (10 ^ Z.of_nat d)) with ((B2R y - 1) * IZR (10 ^ Z.of_nat d)) by ring. rewrite Rabs_mult, (Rabs_pos_eq (IZR _)) by lra.
    apply Rlt_le. apply Rlt_le_trans with (tenth d / 2 * IZR (10 ^ Z.of_nat d)); [apply Rmult_lt_compat_r; auto|]. unfold tenth. right. field. lra.
  - intro E. exfalso. rewrite (Rabs_pos_eq (B2R y)) in E by lra. replace (B2R y * IZR (10 ^ Z.of_nat d) - IZR (10 ^ Z.of_nat d)) with ((B2R y - 1) * IZR (10 ^ Z.of_nat d)) in E by ring. rewrite Rabs_mult, (Rabs_pos_eq (IZR _)) in E by lra.
    assert (Q : Rabs (B2R y - 1) * IZR (10 ^ Z.of_nat d) < tenth d / 2 * IZR (10 ^ Z.of_nat d)) by (apply Rmult_lt_compat_r; auto). rewrite E in Q. unfold tenth in Q.
    replace (/ IZR (10 ^ Z.of_nat d) / 2 * IZR (10 ^ Z.of_nat d)) with (/ 2) in Q by (field; lra). lra.
Qed.
Lemma read_ten : @to_scalar f64 FS (fixed_text d (10 ^ Z.of_nat d)) = Ok one.
Proof.
  destruct (read_fixed d (10 ^ Z.of_nat d)) as [R0 _]; [apply Z.pow_nonneg; lia|]. unfold to_scalar. rewrite R0. change (@s_dec f64 FS (10 ^ Z.of_nat d) (- Z.of_nat d)) with (f64_dec (10 ^ Z.of_nat d) (- Z.of_nat d)).
  assert (E : IZR (10 ^ Z.of_nat d) * tenth d = 1) by (unfold tenth; field; assert (TP := ten_pos d); lra).
  destruct (dec_correct (10 ^ Z.of_nat d) d) as [V F]; [rewrite E; apply rnd_no_overflow; lra|]. rewrite E, (rnd_id 1) in V by apply fmt_1.
  destruct (finite_kind P _ F) as [_ ->]. f_equal. destruct one_value as [V1 F1]. apply B2R_inj; try congruence.
  - destruct (f64_dec (10 ^ Z.of_nat d) (- Z.of_nat d)); try discriminate; auto. simpl in V. lra.
  - destruct one; try discriminate; auto. simpl in V1. lra.
Qed.
Lemma read_zero : exists z, @to_scalar f64 FS (fixed_text d 0) = Ok z /\ B2R z = 0.
Proof.
  destruct (read_fixed d 0 ltac:(lia)) as [R0 _]. destruct (dec_correct 0 d) as [V VF]; [rewrite Rmult_0_l, rnd_0, Rabs_R0; apply Rlt_bool_true, bpow_gt_0|]. rewrite Rmult_0_l, rnd_0 in V.
  exists (f64_dec 0 (- Z.of_nat d)). split; auto. unfold to_scalar. rewrite R0. change (@s_dec f64 FS 0 (- Z.of_nat d)) with (f64_dec 0 (- Z.of_nat d)). destruct (finite_kind P _ VF) as [_ ->]. reflexivity.
Qed.
Lemma read_height (x y : f64) : @to_scalar f64 FS (@str f64 FS d x) = Ok y -> @isEq f64 FS y one = true -> y = one.
Proof.
  intros R1 E. destruct (close_iff y E) as [|[F C]]; auto. destruct (read_any x) as (y' & R2 & Q). assert (y' = y) by congruence. subst y'. assert (T1 := tenth_le1 d).
  destruct (Rle_lt_dec (rnd (tenth d)) (Rabs (B2R y))) as [L|L].
  - rewrite (text_of_one y F C L) in Q. rewrite <- Q, read_ten in R1. congruence.
  - exfalso. rewrite (str_tiny P d y F) in Q by auto. rewrite <- Q in R1. destruct read_zero as (z & RZ & V). assert (z = y) by congruence. subst z. rewrite V in C. revert C. unfold Rabs. destruct Rcase_abs; lra.
Qed.
Theorem printable_f64 : @printable f64 FS d.
Proof.
  constructor.
  - exact read_any.
  - exact str_solid_f64.
  - exact read_whole.
  - exact trunc_range.
  - apply isEq_refl.
  - exact read_height.
Qed.
End Numbers.
(** the default settings: fuzzylite::decimals() is 3, fuzzylite::macheps() 1e-6 (/repo/src/fuzzylite.cpp:22-24) *)
Lemma default_settings : is_finite (fp_eps fp_default) = true /\ B2R (fp_eps fp_default) <= tenth 3 / 2.
Proof.
  split; [vm_compute; reflexivity|]. assert (E : fp_eps fp_default = f64_dec 1 (- Z.of_nat 6)) by (apply B2SF_inj; vm_compute; reflexivity). rewrite E.
  destruct (tol_correct 6) as [-> _]. unfold tenth. apply Rle_trans with (rnd (bpow radix2 (-15))).
  - apply rnd_mono. simpl. lra.
  - rewrite rnd_id by (apply fmt_bpow; lia). simpl. lra.
Qed.

Lemma reread_kept P d x : number_kept P d x (@reread f64 (F64Scalar P) d x).
Proof.
  unfold number_kept, reread. destruct (special_trip P d) as (A & B & C). destruct (is_finite x) eqn:F.
  - destruct (round_trip P d x F) as (y & -> & G & E & Q). auto.
  - destruct x as [s|s| |s m e H]; try discriminate.
    + rewrite C. auto.
    + rewrite (A B754_nan eq_refl), B. auto.
Qed.
Lemma fine_printable P d : fine_tolerance P d -> @printable f64 (F64Scalar P) d.
Proof. intros [A B]. now apply printable_f64. Qed.
Lemma default_fine : fine_tolerance fp_default 3.
Proof. exact default_settings. Qed.
