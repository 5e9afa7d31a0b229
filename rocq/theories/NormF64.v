(** Norms and hedges in rounded binary64 arithmetic: range and commutativity. *)
From Coq Require Import ZArith Reals Bool Lra Lia Psatz.
From Flocq Require Import Core BinarySingleNaN.
From Verif Require Import Base Op XR XRFacts F64 F64Facts F64Arith OpProofs Norm Hedge.
Local Open Scope R_scope.

Lemma Bplus_comm (a b : f64) : Bplus mode_NE a b = Bplus mode_NE b a.
Proof.
  destruct (is_finite a) eqn:Fa, (is_finite b) eqn:Fb.
  - pose proof (Bplus_correct prec64 emax64 _ _ mode_NE a b Fa Fb) as H1.
    pose proof (Bplus_correct prec64 emax64 _ _ mode_NE b a Fb Fa) as H2.
    rewrite (Rplus_comm (B2R b)) in H2.
    destruct (Rlt_bool _ _).
    + destruct H1 as (R1 & F1 & S1), H2 as (R2 & F2 & S2).
      apply B2R_Bsign_inj; auto; [congruence|]. rewrite S1, S2.
      destruct (Rcompare _ _); auto. simpl. apply andb_comm.
    + destruct H1 as (O1 & E1), H2 as (O2 & E2). apply B2SF_inj. rewrite O1, O2. now rewrite E1.
  - destruct a as [s|[|]| |[|] m e H], b as [s'|[|]| |[|] m' e' H']; simpl in *; try discriminate; auto.
  - destruct a as [s|[|]| |[|] m e H], b as [s'|[|]| |[|] m' e' H']; simpl in *; try discriminate; auto.
  - destruct a as [s|[|]| |[|] m e H], b as [s'|[|]| |[|] m' e' H']; simpl in *; try discriminate; auto.
Qed.
Lemma Bmult_comm (a b : f64) : Bmult mode_NE a b = Bmult mode_NE b a.
Proof.
  destruct (is_finite a) eqn:Fa, (is_finite b) eqn:Fb.
  - pose proof (Bmult_correct prec64 emax64 _ _ mode_NE a b) as H1.
    pose proof (Bmult_correct prec64 emax64 _ _ mode_NE b a) as H2.
    rewrite (Rmult_comm (B2R b)) in H2. rewrite Fa, Fb in *.
    destruct (Rlt_bool _ _).
    + destruct H1 as (R1 & F1 & S1), H2 as (R2 & F2 & S2).
      apply B2R_Bsign_inj; auto; [congruence|]. rewrite S1, S2; [apply xorb_comm| |];
      [destruct (Bmult mode_NE b a)|destruct (Bmult mode_NE a b)]; simpl in *; auto; discriminate.
    + apply B2SF_inj. rewrite H1, H2. now rewrite xorb_comm.
  - destruct a as [s|[|]| |[|] m e H], b as [s'|[|]| |[|] m' e' H']; simpl in *; try discriminate; auto.
  - destruct a as [s|[|]| |[|] m e H], b as [s'|[|]| |[|] m' e' H']; simpl in *; try discriminate; auto.
  - destruct a as [s|[|]| |[|] m e H], b as [s'|[|]| |[|] m' e' H']; simpl in *; try discriminate; auto.
Qed.

Section NormF.
Context (P : fparam).
#[local] Hint Extern 0 (Scalar f64) => exact (F64Scalar P) : typeclass_instances.
#[local] Hint Extern 0 (Scalar (binary_float _ _)) => exact (F64Scalar P) : typeclass_instances.

(** equality of values: C++ == except that NaN equals NaN; +0 and -0 are identified *)
Definition same (a b : f64) : Prop := f2x a = f2x b.

Lemma isEq_same a b c : same a b -> isEq a c = isEq b c.
Proof.
  unfold same. intros H.
  destruct (is_finite a) eqn:Fa.
  2:{ assert (a = b); [|now subst].
      destruct a as [s|[|]| |[|] m e Ha], b as [s'|[|]| |[|] m' e' Hb]; simpl in *; try discriminate; auto. }
  assert (Fb : is_finite b = true).
  { rewrite f2x_finite in H by auto. destruct b as [s'|[|]| |[|] m' e' Hb]; simpl in *; try discriminate; auto. }
  assert (HR : B2R a = B2R b).
  { rewrite !f2x_finite in H by auto. congruence. }
  unfold isEq, isEq_tol. rewrite !f_isNaN, !is_nan_f2x, H. simpl. rewrite !f_eqb, H. f_equal. f_equal. f_equal.
  destruct (is_finite c) eqn:Fc.
  - pose proof (Bminus_correct prec64 emax64 _ _ mode_NE a c Fa Fc) as H1.
    pose proof (Bminus_correct prec64 emax64 _ _ mode_NE b c Fb Fc) as H2.
    rewrite HR in H1. destruct (Rlt_bool _ _).
    + destruct H1 as (R1 & F1 & _), H2 as (R2 & F2 & _). apply Babs_ext; try congruence.
      destruct (Bminus mode_NE a c), (Bminus mode_NE b c); simpl in *; try discriminate; auto.
    + destruct H1 as (O1 & E1), H2 as (O2 & E2). apply Babs_ext.
      * rewrite <- !is_nan_SF_B2SF, O1, O2. reflexivity.
      * rewrite <- !is_finite_SF_B2SF, O1, O2. reflexivity.
      * rewrite <- !SF2R_B2SF, O1, O2. destruct (Bsign a), (Bsign b); reflexivity.
  - destruct a as [s|[|]| |[|] m e Ha], b as [s'|[|]| |[|] m' e' Hb], c as [s''|[|]| |[|] m'' e'' Hc];
      simpl in *; try discriminate; auto.
Qed.

Lemma same_refl a : same a a. Proof. reflexivity. Qed.
Lemma op_min_comm a b : same (op_min a b) (op_min b a).
Proof. unfold same. rewrite !f_op_min. apply xmin_comm. Qed.
Lemma op_max_comm a b : same (op_max a b) (op_max b a).
Proof. unfold same. rewrite !f_op_max. apply xmax_comm. Qed.

Lemma add_comm (a b : f64) : (a + b = b + a)%S. Proof. exact (Bplus_comm a b). Qed.
Lemma mul_comm (a b : f64) : (a * b = b * a)%S. Proof. exact (Bmult_comm a b). Qed.

Lemma tnorm_comm_f64 n a b : same (tnorm_compute n a b) (tnorm_compute n b a).
Proof.
  destruct n; unfold tnorm_compute; rewrite ?(add_comm b a), ?(mul_comm b a); auto using same_refl, op_min_comm.
  - rewrite (isEq_same (op_max b a) (op_max a b)) by apply op_max_comm.
    destruct (isEq _ _); auto using same_refl, op_min_comm.
  - destruct (isGt _ _); auto using same_refl, op_min_comm.
Qed.
End NormF.

(** the two-argument scaling 2*a*b of HamacherSum is not symmetric bit for bit in its intermediate
    results, but doubling is exact on degrees *)
Lemma fmt_double x : fmt x -> fmt (2 * x).
Proof.
  intros H. apply generic_format_FLT. apply FLT_format_generic in H; [|auto with typeclass_instances].
  destruct H as [f H1 H2 H3]. exists (Float radix2 (Fnum f) (Fexp f + 1)).
  - rewrite H1. unfold F2R. simpl. rewrite bpow_plus. change (bpow radix2 1) with 2. ring.
  - exact H2.
  - simpl. eapply Z.le_trans; [exact H3|lia].
Qed.

(** * Range *)
Lemma B2R_fin_f2x (x : f64) r : f2x x = XFin r -> is_finite x = true /\ B2R x = r.
Proof. destruct x as [s|[|]| |s m e H]; simpl; intros E; inversion E; auto. Qed.

Section Range.
Context (P : fparam).
#[local] Hint Extern 0 (Scalar f64) => exact (F64Scalar P) : typeclass_instances.
#[local] Hint Extern 0 (Scalar (binary_float _ _)) => exact (F64Scalar P) : typeclass_instances.

Lemma op_min_fin (a b : f64) : is_finite a = true -> is_finite b = true ->
  is_finite (op_min a b) = true /\ B2R (op_min a b) = Rmin (B2R a) (B2R b).
Proof.
  intros Fa Fb. apply B2R_fin_f2x. rewrite f_op_min, !f2x_finite by auto. simpl.
  unfold Rmin. destruct (Rltb_spec (B2R b) (B2R a)), (Rle_dec (B2R a) (B2R b)); auto; f_equal; lra.
Qed.
Lemma op_max_fin (a b : f64) : is_finite a = true -> is_finite b = true ->
  is_finite (op_max a b) = true /\ B2R (op_max a b) = Rmax (B2R a) (B2R b).
Proof.
  intros Fa Fb. apply B2R_fin_f2x. rewrite f_op_max, !f2x_finite by auto. simpl.
  unfold Rmax. destruct (Rltb_spec (B2R a) (B2R b)), (Rle_dec (B2R a) (B2R b)); auto; f_equal; lra.
Qed.
Lemma fd_min a b : fdegree a -> fdegree b -> fdegree (op_min a b).
Proof.
  intros [Fa Ha] [Fb Hb]. destruct (op_min_fin a b Fa Fb) as [F E]. split; auto. rewrite E.
  unfold Rmin. destruct Rle_dec; lra.
Qed.
Lemma fd_max a b : fdegree a -> fdegree b -> fdegree (op_max a b).
Proof.
  intros [Fa Ha] [Fb Hb]. destruct (op_max_fin a b Fa Fb) as [F E]. split; auto. rewrite E.
  unfold Rmax. destruct Rle_dec; lra.
Qed.

Lemma fd_0 : fdegree (s_0 : f64).
Proof. destruct f64_0_correct as [E F]. split; auto. change (0 <= B2R (f64_lit 0 1) <= 1). rewrite E; lra. Qed.
Lemma fd_1 : fdegree (s_1 : f64).
Proof. destruct f64_1_correct as [E F]. split; auto. change (0 <= B2R (f64_lit 1 1) <= 1). rewrite E; lra. Qed.
Lemma B2R_0 : B2R (s_0 : f64) = 0. Proof. exact (proj1 f64_0_correct). Qed.
Lemma B2R_1 : B2R (s_1 : f64) = 1. Proof. exact (proj1 f64_1_correct). Qed.
Lemma B2R_2 : B2R (s_2 : f64) = 2. Proof. exact (proj1 f64_2_correct). Qed.
Lemma B2R_half : B2R (s_half : f64) = 1/2. Proof. exact (proj1 f64_half_correct). Qed.
Lemma fin_2 : is_finite (s_2 : f64) = true. Proof. exact (proj2 f64_2_correct). Qed.

Context (a b : f64) (Da : fdegree a) (Db : fdegree b).
Let ra := B2R a. Let rb := B2R b.
Let Ha : 0 <= ra <= 1 := proj2 Da.
Let Hb : 0 <= rb <= 1 := proj2 Db.

Lemma ab_bounds : 0 <= ra * rb /\ ra * rb <= ra /\ ra * rb <= rb.
Proof using P Ha Hb. repeat split; nra. Qed.

Lemma sum_fin : is_finite (a + b)%S = true /\ B2R (a + b)%S = rnd (ra + rb) /\ 0 <= rnd (ra + rb) <= 2.
Proof using P Da Db Ha Hb.
  destruct (plus_ok a b (proj1 Da) (proj1 Db)) as [E F]; [fold ra rb; lra|].
  repeat split; auto; apply (rnd_between 0 2); auto using fmt_0, fmt_2; lra.
Qed.
Lemma prod_fin : is_finite (a * b)%S = true /\ B2R (a * b)%S = rnd (ra * rb) /\
  0 <= rnd (ra * rb) <= 1 /\ rnd (ra * rb) <= ra /\ rnd (ra * rb) <= rb.
Proof using P Da Db Ha Hb.
  pose proof ab_bounds as (B0 & B1 & B2).
  destruct (mult_ok a b (proj1 Da) (proj1 Db)) as [E F]; [fold ra rb; lra|].
  assert (rnd (ra * rb) <= ra) by (rewrite <- (rnd_id ra) by apply fmt_B2R; apply rnd_mono; rewrite rnd_id by apply fmt_B2R; lra).
  assert (rnd (ra * rb) <= rb) by (rewrite <- (rnd_id rb) by apply fmt_B2R; apply rnd_mono; rewrite rnd_id by apply fmt_B2R; lra).
  repeat split; auto; try lra. apply (rnd_between 0 1); auto using fmt_0, fmt_1; lra.
Qed.

Let s := rnd (ra + rb).
Let p := rnd (ra * rb).

(** the rounded product is at least a + b - 1 *)
Lemma p_ge : ra + rb - 1 <= p.
Proof using P Da Db Ha Hb.
  pose proof prod_fin as (_ & _ & (Hp0 & _) & _). fold p in Hp0.
  destruct (Rle_dec (ra + rb) 1); [lra|].
  rewrite <- (rnd_id (ra + rb - 1)).
  - apply rnd_mono. nra.
  - apply fmt_sum_minus_1; try apply fmt_B2R; auto; lra.
Qed.
Lemma s_ge_p : p <= s.
Proof using P Ha Hb. unfold s, p. apply rnd_mono. nra. Qed.

(** a + b - a*b *)
Lemma asum_ok : is_finite (a + b - a * b)%S = true /\ B2R (a + b - a * b)%S = rnd (s - p) /\ 0 <= rnd (s - p) <= 1.
Proof using P Da Db Ha Hb.
  pose proof sum_fin as (Fs & Es & Bs). pose proof prod_fin as (Fp & Ep & Bp & _).
  pose proof s_ge_p as Hsp. pose proof p_ge as Hp. fold s in Es, Bs. fold p in Ep, Bp.
  destruct (minus_ok (a + b)%S (a * b)%S Fs Fp) as [E F]; [rewrite Es, Ep; lra|].
  rewrite Es, Ep in E. repeat split; auto.
  - rewrite <- rnd_0 at 1. apply rnd_mono. lra.
  - destruct (Rle_dec (ra + rb) 1) as [L|L].
    + apply (rnd_between 0 1); auto using fmt_0, fmt_1. split; [lra|].
      assert (s <= 1); [|lra]. unfold s. apply (rnd_between 0 1); auto using fmt_0, fmt_1; lra.
    + rewrite <- rnd_tie_1. apply rnd_mono.
      pose proof (rnd_err_2 (ra + rb) ltac:(lra)). fold s in H. lra.
Qed.

Ltac frame := pose proof sum_fin as (Fs & Es & Bs); pose proof prod_fin as (Fp & Ep & Bp & Bpa & Bpb);
  pose proof asum_ok as (Fas & Eas & Bas); pose proof s_ge_p as Hsp; pose proof p_ge as Hpg; fold s in Es, Bs; fold p in Ep, Bp, Bpa, Bpb.

Lemma div_range x y : 0 <= x -> x <= y -> 0 < y -> 0 <= x / y <= 1.
Proof. clear. intros. split; [apply Rmult_le_pos; [lra|left; now apply Rinv_0_lt_compat]|].
  apply Rmult_le_reg_r with y; auto. unfold Rdiv. rewrite Rmult_assoc, Rinv_l by lra. lra. Qed.

Lemma div_degree (u v : f64) : is_finite u = true -> 0 <= B2R u -> B2R u <= B2R v -> 0 < B2R v -> fdegree (u / v)%S.
Proof.
  clear. intros Fu H1 H2 H3. pose proof (div_range _ _ H1 H2 H3) as D.
  destruct (div_ok u v Fu) as [E F]; [lra|lra|]. split; [exact F|].
  change (B2R (u / v)%S) with (B2R (Bdiv mode_NE u v)). rewrite E.
  apply rnd_between; auto using fmt_0, fmt_1.
Qed.

Lemma tnorm_range_f64 n : fdegree (tnorm_compute n a b).
Proof using P Da Db Ha Hb.
  frame. destruct n; unfold tnorm_compute.
  - split; auto. rewrite Ep; lra.
  - assert (K : is_finite (a + b - s_1)%S = true /\ B2R (a + b - s_1)%S = rnd (s - 1)).
    { destruct (minus_ok (a+b)%S s_1 Fs (proj1 fd_1)) as [E F]; [rewrite Es, B2R_1; lra|]. split; auto.
      rewrite Es, B2R_1 in E. exact E. }
    destruct K as [F E]. destruct (op_max_fin s_0 (a + b - s_1)%S (proj1 fd_0) F) as [F' E'].
    split; auto. rewrite E', E, B2R_0.
    assert (-1 <= rnd (s - 1) <= 1) by (apply rnd_between; [exact (fmt_opp 1 fmt_1)|apply fmt_1|lra]).
    unfold Rmax. destruct Rle_dec; lra.
  - destruct (isEq _ _); auto using fd_min, fd_0.
  - assert (K : is_finite (s_2 - (a + b - a * b))%S = true /\ B2R (s_2 - (a + b - a * b))%S = rnd (2 - rnd (s - p))).
    { destruct (minus_ok s_2 (a+b-a*b)%S fin_2 Fas) as [E F]; [rewrite Eas, B2R_2; lra|]. split; auto.
      rewrite Eas, B2R_2 in E. exact E. }
    destruct K as [F E].
    assert (1 <= rnd (2 - rnd (s - p)) <= 2) by (apply rnd_between; [apply fmt_1|apply fmt_2|lra]).
    apply div_degree; auto; rewrite ?Ep, ?E; lra.
  - destruct (isEq (a + b)%S s_0) eqn:Q; [apply fd_0|].
    assert (Hs : 0 < s).
    { destruct (Req_dec s 0) as [Z|]; [|lra]. exfalso.
      assert (E0 : ((a + b)%S =? s_0)%S = true).
      { change (Beqb (a + b)%S (s_0 : f64) = true).
        rewrite f_eqb, (f2x_finite (a+b)%S Fs), Es, Z. simpl. apply Reqb_refl. }
      revert Q. unfold isEq, isEq_tol. rewrite E0. discriminate. }
    assert (Hd : p <= rnd (s - p)).
    { rewrite <- (rnd_id p) at 1 by (unfold p; apply generic_format_round; auto with typeclass_instances).
      apply rnd_mono. assert (2 * p <= s); [|lra].
      rewrite <- (rnd_id (2 * p)).
      - apply rnd_mono. lra.
      - apply fmt_double. unfold p; apply generic_format_round; auto with typeclass_instances. }
    assert (Hpos : 0 < rnd (s - p)).
    { destruct (Req_dec p 0) as [Z|]; [|lra]. rewrite Z, Rminus_0_r, rnd_id; auto.
      unfold s; apply generic_format_round; auto with typeclass_instances. }
    apply div_degree; auto; rewrite ?Ep, ?Eas; lra.
  - auto using fd_min.
  - destruct (isGt _ _); auto using fd_min, fd_0.
Qed.

Lemma snorm_range_f64 n : n <> UnboundedSum -> n <> HamacherSum -> fdegree (snorm_compute n a b).
Proof using P Da Db Ha Hb.
  frame. intros N1 N2. destruct n; unfold snorm_compute; try contradiction.
  - split; auto. rewrite Eas; lra.
  - destruct (op_min_fin s_1 (a + b)%S (proj1 fd_1) Fs) as [F E]. split; auto.
    rewrite E, Es, B2R_1. unfold Rmin. destruct Rle_dec; lra.
  - destruct (isEq _ _); auto using fd_max, fd_1.
  - assert (K : is_finite (s_1 + a * b)%S = true /\ B2R (s_1 + a * b)%S = rnd (1 + p)).
    { destruct (plus_ok s_1 (a*b)%S (proj1 fd_1) Fp) as [E F]; [rewrite Ep, B2R_1; lra|]. split; auto.
      rewrite Ep, B2R_1 in E. exact E. }
    destruct K as [F E].
    assert (1 <= rnd (1 + p) <= 2) by (apply rnd_between; auto using fmt_1, fmt_2; lra).
    apply div_degree; auto; rewrite ?Es, ?E; try lra. unfold s. apply rnd_mono. lra.
  - auto using fd_max.
  - destruct (isLt _ _); auto using fd_max, fd_1.
  - destruct (op_max_fin s_1 (a + b)%S (proj1 fd_1) Fs) as [F E].
    rewrite Es, B2R_1 in E.
    apply div_degree; auto; rewrite ?Es, ?E; try lra; unfold Rmax; destruct Rle_dec; lra.
Qed.

(** the unbounded sum: finite, at most 2 *)
Lemma unbounded_range_f64 : is_finite (snorm_compute UnboundedSum a b) = true /\
  0 <= B2R (snorm_compute UnboundedSum a b) <= 2.
Proof using P Da Db Ha Hb. frame. split; [exact Fs|]. change (0 <= B2R (a + b)%S <= 2). rewrite Es; lra. Qed.
End Range.

(** commutativity of S-norms on degrees *)
Section Comm.
Context (P : fparam).
#[local] Hint Extern 0 (Scalar f64) => exact (F64Scalar P) : typeclass_instances.
#[local] Hint Extern 0 (Scalar (binary_float _ _)) => exact (F64Scalar P) : typeclass_instances.

Lemma two_ab (a b : f64) : fdegree a -> fdegree b ->
  is_finite (s_2 * a * b)%S = true /\ B2R (s_2 * a * b)%S = rnd (2 * B2R a * B2R b).
Proof.
  intros [Fa Ha] [Fb Hb].
  destruct (mult_ok s_2 a (fin_2 P) Fa) as [E F]; [rewrite B2R_2; lra|].
  rewrite B2R_2, (rnd_id (2 * B2R a)) in E by (apply fmt_double, fmt_B2R).
  set (t := (s_2 * a)%S). assert (Et : B2R t = 2 * B2R a) by exact E.
  destruct (mult_ok t b F Fb) as [E' F']; [rewrite Et; nra|].
  rewrite Et in E'. split; auto.
Qed.

Lemma same_fin (a b : f64) : is_finite a = true -> is_finite b = true -> B2R a = B2R b -> same a b.
Proof. intros Fa Fb E. unfold same. rewrite !f2x_finite, E; auto. Qed.

Lemma fin_strict (z : f64) : is_finite z = true -> B2R z <> 0 -> is_finite_strict z = true.
Proof. destruct z; simpl; auto. Qed.

Lemma snorm_comm_f64 n a b : fdegree a -> fdegree b -> same (snorm_compute n a b) (snorm_compute n b a).
Proof.
  intros Da Db.
  destruct n; unfold snorm_compute; rewrite ?(add_comm P b a), ?(mul_comm P b a); try reflexivity; try apply op_max_comm.
  - rewrite (isEq_same P (op_min b a) (op_min a b)) by apply op_min_comm.
    destruct (isEq _ _); [apply op_max_comm|reflexivity].
  - destruct (isEq _ _); [reflexivity|].
    destruct (two_ab a b Da Db) as [F1 E1]. destruct (two_ab b a Db Da) as [F2 E2].
    assert (E : B2R (s_2 * a * b)%S = B2R (s_2 * b * a)%S).
    { rewrite E1, E2. f_equal. ring. }
    assert (Sg : (s_2 * a * b)%S = (s_2 * b * a)%S \/ B2R (s_2 * a * b)%S = 0).
    { destruct (Req_dec (B2R (s_2 * a * b)%S) 0) as [Z|NZ]; [auto|left].
      apply B2R_inj; auto.
      - apply fin_strict; [exact F1|exact NZ].
      - apply fin_strict; [exact F2|congruence]. }
    destruct Sg as [->|Z]; [reflexivity|].
    (* both doubled products are zero: the numerator has the value of the sum *)
    pose proof (sum_fin P a b Da Db) as (Fs & Es & Bs).
    assert (Fs' : fmt (rnd (B2R a + B2R b))) by (apply generic_format_round; auto with typeclass_instances).
    assert (N : forall z : f64, is_finite z = true -> B2R z = 0 ->
       is_finite (a + b - z)%S = true /\ B2R (a + b - z)%S = rnd (B2R a + B2R b)).
    { intros z Fz Ez. destruct (minus_ok (a+b)%S z Fs Fz) as [EE FF]; [rewrite Es, Ez; lra|].
      split; auto. change (B2R (Bminus mode_NE (a+b)%S z) = rnd (B2R a + B2R b)).
      rewrite EE, Es, Ez, Rminus_0_r. apply rnd_id; auto. }
    destruct (N _ F1 Z) as [G1 V1]. destruct (N _ F2 (eq_trans (eq_sym E) Z)) as [G2 V2].
    pose proof (prod_fin P a b Da Db) as (Fp & Ep & Bp & _).
    (* the denominator is exactly 1 *)
    assert (P0 : rnd (B2R a * B2R b) = 0).
    { rewrite Z in E1. destruct Da as [_ Ha], Db as [_ Hb].
      apply Rle_antisym; [|lra]. rewrite E1. apply rnd_mono. nra. }
    destruct (minus_ok s_1 (a * b)%S (proj1 (fd_1 P)) Fp) as [ED FD]; [rewrite Ep, B2R_1; lra|].
    rewrite B2R_1, Ep, P0, Rminus_0_r, (rnd_id 1 fmt_1) in ED.
    set (d := (s_1 - a * b)%S). assert (Ed : B2R d = 1) by exact ED.
    destruct (div_ok (a + b - s_2 * a * b)%S d G1) as [X1 Y1]; [lra|rewrite V1, Ed; lra|].
    destruct (div_ok (a + b - s_2 * b * a)%S d G2) as [X2 Y2]; [lra|rewrite V2, Ed; lra|].
    apply same_fin; auto. etransitivity; [exact X1|]. etransitivity; [|symmetry; exact X2]. now rewrite V1, V2.
  - destruct (isLt _ _); [apply op_max_comm|reflexivity].
Qed.
End Comm.

(** HamacherSum leaves [0,1]: a = 1 - 2^-53, b = 1/2, default tolerance *)
Definition h_a : f64 := SF2B (prec:=prec64) (emax:=emax64) (SpecFloat.S754_finite false 9007199254740991 (-53)) eq_refl.
Definition h_b : f64 := f64_lit 1 2.
Lemma hamacher_sum_exceeds_one : fdegree h_a /\ fdegree h_b /\
  Bltb (f64_lit 1 1) (snorm_compute (S := F64Scalar fp_default) HamacherSum h_a h_b) = true.
Proof.
  assert (B2R h_a = IZR 9007199254740991 * bpow radix2 (-53)).
  { unfold h_a. rewrite B2R_SF2B. reflexivity. }
  split; [|split].
  - split; [reflexivity|]. rewrite H. simpl. lra.
  - split; [reflexivity|]. unfold h_b. rewrite (proj1 f64_half_correct). lra.
  - vm_compute. reflexivity.
Qed.

(** * Hedges *)
Section HedgeF.
Context (P : fparam).
#[local] Hint Extern 0 (Scalar f64) => exact (F64Scalar P) : typeclass_instances.
#[local] Hint Extern 0 (Scalar (binary_float _ _)) => exact (F64Scalar P) : typeclass_instances.

Lemma mul_r (x y : f64) hx hy : is_finite x = true -> is_finite y = true -> 0 <= B2R x <= hx -> 0 <= B2R y <= hy ->
  hx * hy <= 4 -> fmt (hx * hy) -> is_finite (x * y)%S = true /\ 0 <= B2R (x * y)%S <= hx * hy.
Proof.
  intros Fx Fy Hx Hy H F4. assert (0 <= B2R x * B2R y <= hx * hy) by nra.
  destruct (mult_ok x y Fx Fy) as [E F]; [lra|]. split; [exact F|].
  change (0 <= B2R (Bmult mode_NE x y) <= hx * hy). rewrite E. apply rnd_between; auto using fmt_0.
Qed.
Lemma sub1_r (x : f64) lo : is_finite x = true -> lo <= B2R x <= 1 -> 0 <= lo -> fmt (1 - lo) ->
  is_finite (s_1 - x)%S = true /\ 0 <= B2R (s_1 - x)%S <= 1 - lo.
Proof.
  intros Fx Hx Hl Fl. destruct (minus_ok s_1 x (proj1 (fd_1 P)) Fx) as [E F]; [rewrite B2R_1; lra|].
  rewrite B2R_1 in E.
  split; [exact F|]. change (0 <= B2R (s_1 - x)%S <= 1 - lo).
  assert (E' : B2R (s_1 - x)%S = rnd (1 - B2R x)) by exact E. rewrite E'.
  apply rnd_between; auto using fmt_0. lra.
Qed.
Lemma sqrt_r (x : f64) : fdegree x -> fdegree (s_sqrt x).
Proof.
  intros [Fx Hx]. destruct (sqrt_ok0 x Fx) as [E F]; [lra|]. split; [exact F|].
  change (0 <= B2R (Bsqrt mode_NE x) <= 1). rewrite E. apply rnd_between; auto using fmt_0, fmt_1.
  split; [apply sqrt_pos|]. rewrite <- sqrt_1. apply sqrt_le_1; lra.
Qed.
Lemma fin_half : is_finite (s_half : f64) = true. Proof. exact (proj2 f64_half_correct). Qed.
Lemma half_mul (x : f64) : fdegree x -> fdegree (s_half * x)%S.
Proof.
  intros [Fx Hx].
  destruct (mul_r s_half x (1/2) 1 fin_half Fx) as [F B]; auto; try lra.
  - rewrite B2R_half. lra.
  - rewrite Rmult_1_r. apply fmt_half.
  - split; auto. lra.
Qed.
Lemma sub1_d (x : f64) : fdegree x -> fdegree (s_1 - x)%S.
Proof.
  intros [Fx Hx]. destruct (sub1_r x 0 Fx Hx) as [F B]; try lra; [rewrite Rminus_0_r; apply fmt_1|].
  split; auto. lra.
Qed.

Lemma isLE_half_bound (x : f64) : is_finite (fp_eps P) = true -> B2R (fp_eps P) <= 1/8 ->
  fdegree x -> (if isLE x s_half then B2R x <= 5/8 else 1/2 < B2R x).
Proof.
  intros Fe He [Fx Hx]. unfold isLE, isLE_tol.
  assert (Fh : is_finite (s_half : f64) = true) by exact (proj2 f64_half_correct).
  set (hf := (s_half : f64)) in *. assert (Eh : B2R hf = 1/2) by apply B2R_half. clearbody hf.
  change (s_eqb x hf) with (Beqb x hf).
  change (s_ltb (s_abs (x - hf)%S) s_eps) with (Bltb (Babs (Bminus mode_NE x hf)) (fp_eps P)).
  change (s_ltb x hf) with (Bltb x hf).
  assert (Nx : isNaN x = false) by (rewrite f_isNaN; destruct x; auto; discriminate).
  rewrite Nx. simpl andb. rewrite orb_false_r.
  rewrite Beqb_correct, (Bltb_correct prec64 emax64 x) by auto. rewrite Eh.
  destruct (minus_ok x hf Fx Fh) as [E F]; [rewrite Eh; lra|]. rewrite Eh in E.
  rewrite Bltb_correct by (rewrite ?is_finite_Babs; auto). rewrite B2R_Babs, E.
  destruct (Req_bool_spec (B2R x) (1/2)); simpl; [lra|].
  destruct (Rlt_bool_spec (Rabs (rnd (B2R x - 1/2))) (B2R (fp_eps P))) as [L|L]; simpl.
  - destruct (Rle_dec (B2R x) (5/8)); auto. exfalso.
    assert (1/8 <= rnd (B2R x - 1/2)).
    { rewrite <- (rnd_id (1/8)). apply rnd_mono; lra.
      replace (1/8) with (bpow radix2 (-3)) by (simpl; lra). apply fmt_bpow; lia. }
    rewrite Rabs_pos_eq in L by lra. lra.
  - destruct (Rlt_bool_spec (B2R x) (1/2)); lra.
Qed.

Lemma hedge_range_f64 h (x : f64) : is_finite (fp_eps P) = true -> B2R (fp_eps P) <= 1/8 ->
  fdegree x -> fdegree (hedge_apply h x).
Proof.
  intros Fe He D. pose proof D as [Fx Hx]. pose proof (isLE_half_bound x Fe He D) as K.
  destruct h; unfold hedge_apply.
  - apply fd_1.
  - destruct (isLE x s_half).
    + destruct (mul_r s_2 x 2 (5/8) (fin_2 P) Fx) as [F B].
      * rewrite B2R_2; lra.
      * lra.
      * lra.
      * replace (2 * (5/8)) with (5 * bpow radix2 (-2)) by (simpl; lra).
        change (fmt (F2R (Float radix2 5 (-2)))). apply generic_format_FLT.
        exists (Float radix2 5 (-2)); [reflexivity|reflexivity|discriminate].
      * destruct (mul_r (s_2 * x)%S x (5/4) (4/5) F Fx) as [F' B']; try lra.
        -- replace (5/4 * (4/5)) with 1 by lra. apply fmt_1.
        -- split; auto; lra.
    + destruct (sub1_r x (1/2) Fx) as [F B]; try lra.
      { replace (1 - 1/2) with (1/2) by lra. apply fmt_half. }
      replace (1 - 1/2) with (1/2) in B by lra.
      destruct (mul_r s_2 (s_1 - x)%S 2 (1/2) (fin_2 P) F) as [F1 B1]; try lra.
      { rewrite B2R_2; lra. }
      { replace (2 * (1/2)) with 1 by lra. apply fmt_1. }
      replace (2 * (1/2)) with 1 in B1 by lra.
      destruct (mul_r (s_2 * (s_1 - x))%S (s_1 - x)%S 1 (1/2) F1 F) as [F2 B2]; try lra.
      { rewrite Rmult_1_l. apply fmt_half. }
      apply sub1_d. split; auto. lra.
  - now apply sub1_d.
  - destruct (isLE x s_half).
    + now apply sqrt_r, half_mul.
    + now apply sub1_d, sqrt_r, half_mul, sub1_d.
  - now apply sqrt_r.
  - destruct (mul_r x x 1 1 Fx Fx) as [F B]; try lra; [rewrite Rmult_1_l; apply fmt_1|].
    split; auto. lra.
Qed.
Lemma hedges_range_f64 hs (x : f64) : is_finite (fp_eps P) = true -> B2R (fp_eps P) <= 1/8 ->
  fdegree x -> fdegree (hedges_apply hs x).
Proof. intros Fe He D. unfold hedges_apply. induction hs; simpl; auto. apply hedge_range_f64; auto. Qed.
End HedgeF.

Lemma macheps_small : is_finite f64_macheps = true /\ 0 < B2R f64_macheps <= 1/8.
Proof.
  split; [reflexivity|].
  assert (E : exists m e, B2SF f64_macheps = SpecFloat.S754_finite false m e /\ m = 4722366482869645%positive /\ e = (-72)%Z)
   by (eexists; eexists; split; [vm_compute; reflexivity|auto]).
  destruct E as (m & e & E & -> & ->).
  rewrite <- SF2R_B2SF, E. unfold SF2R, F2R. simpl. lra.
Qed.
