(** Triangles, Trapezoids and Ramps in binary64: memberships are degrees except within the tolerance outside of the feet. *)
From Coq Require Import ZArith Reals String Bool List Lra Lia.
From Coquelicot Require Import Coquelicot.
From Flocq Require Import Core BinarySingleNaN.
From Verif Require Import Base Op XR XRFacts F64 F64Facts F64Arith F64Err F64Sum F64Quot Shape Norm Hedge Defuzz Aggregated Rule Var Activation Engine SpecTerm SpecNorm SpecEngine SpecDefuzz SpecRound SpecMamdani
  SpecLimit DefuzzReal LimitRiemann LimitProofs LimitMamdani SpecNormErr SpecGrade NormSpec NormF64 NormErr OpProofs F64Centroid ShapeF64 MamdaniF64.
Import ListNotations.
Local Open Scope R_scope.

Section Lines.
Variables (P : fparam) (w : R) (h x : f64).
#[local] Instance S64l : Scalar f64 := F64Scalar P.
Let eps := B2R (fp_eps P).
Hypothesis eps_fin : is_finite (fp_eps P) = true.
Hypothesis eps_ok : 0 <= eps <= w.
Hypothesis w_pos : eta64 <= w.
Hypothesis th : fdegree h.
Hypothesis tx : tame x.
Lemma scale (y : f64) : fdegree y -> fdegree (Bmult mode_NE h y).
Proof.
  intro Dy. destruct (prod_fin P h y th Dy) as (F & E & _). change (@s_mul f64 (F64Scalar P) h y) with (Bmult mode_NE h y) in F, E. split; [exact F|]. rewrite E. destruct th as [_ H]. destruct Dy as [_ Y]. apply rnd_between; [apply fmt_0|apply fmt_1|]. split; [apply Rmult_le_pos; lra|]. replace 1 with (1 * 1) by ring. apply Rmult_le_compat; lra.
Qed.
Lemma zero_d : fdegree (f64_lit 0 1). Proof. destruct f64_0_correct as [E F]. split; [exact F|rewrite E; lra]. Qed.
Lemma one_d : fdegree (f64_lit 1 1). Proof. destruct f64_1_correct as [E F]. split; [exact F|rewrite E; lra]. Qed.
Lemma apart_pos (b c : f64) : tame b -> tame c -> B2R c < B2R b -> 0 < B2R (Bminus mode_NE b c) /\ B2R (Bminus mode_NE b c) = rnd (B2R b - B2R c).
Proof.
  intros B C H. destruct (tame_sub b c B C) as (_ & E & R & _). split; [|exact R]. rewrite (Rabs_pos_eq (B2R b - B2R c)) in E by lra. destruct u_tiny as [U1 U2]. assert (u64 * (B2R b - B2R c) <= 1 / 1000 * (B2R b - B2R c)) by (apply Rmult_le_compat_r; lra). unfold Rabs in E. repeat destruct Rcase_abs in E; lra.
Qed.
Lemma between (y a b c : f64) : tame y -> tame a -> tame b -> tame c -> B2R c < B2R b -> 0 <= B2R y - B2R a <= B2R b - B2R c ->
  is_finite (Bminus mode_NE y a) = true /\ 0 <= B2R (Bminus mode_NE y a) <= B2R (Bminus mode_NE b c) /\ Rabs (B2R (Bminus mode_NE y a)) <= 3 * big.
Proof.
  intros Y A B C BC H. destruct (tame_sub y a Y A) as (F & E & R & Z). destruct (apart_pos b c B C BC) as [_ R2]. split; [exact F|]. rewrite R2, R. split; [split; [rewrite <- rnd_0; apply rnd_mono; lra|apply rnd_mono; lra]|]. rewrite <- R.
  destruct u_tiny as [U1 U2]. assert (BP := big_pos). assert (u64 * Rabs (B2R y - B2R a) <= 1 / 1000 * (2 * big)) by (apply Rmult_le_compat; try lra; apply Rabs_pos). assert (Q := Rabs_triang (B2R (Bminus mode_NE y a) - (B2R y - B2R a)) (B2R y - B2R a)). replace (B2R (Bminus mode_NE y a) - (B2R y - B2R a) + (B2R y - B2R a)) with (B2R (Bminus mode_NE y a)) in Q by ring. lra.
Qed.
Lemma degree_line (y a b c : f64) : tame y -> tame a -> tame b -> tame c -> B2R c < B2R b -> 0 <= B2R y - B2R a <= B2R b - B2R c ->
  fdegree (Bdiv mode_NE (Bmult mode_NE h (Bminus mode_NE y a)) (Bminus mode_NE b c)).
Proof.
  intros Y A B C BC H. destruct (between y a b c Y A B C BC H) as (F & R & Z). destruct (apart_pos b c B C BC) as [V0 _]. set (u := Bminus mode_NE y a) in *. set (v := Bminus mode_NE b c) in *. destruct th as [Fh Hh]. assert (BH := big_huge). assert (BP := big_pos).
  assert (HU : 0 <= B2R h * B2R u <= B2R u) by (split; [apply Rmult_le_pos; lra|]; rewrite <- (Rmult_1_l (B2R u)) at 2; apply Rmult_le_compat_r; lra). rewrite (Rabs_pos_eq (B2R u)) in Z by lra.
  destruct (mult_gen h u Fh F) as [E G]; [apply no_overflow; rewrite Rabs_pos_eq; lra|]. apply (div_degree P); [exact G| | |exact V0].
  - rewrite E. rewrite <- rnd_0. apply rnd_mono. lra.
  - rewrite E. apply Rle_trans with (2 := proj2 R). apply Rle_trans with (rnd (B2R u)); [apply rnd_mono; lra|]. rewrite rnd_id by apply fmt_B2R. lra.
Qed.
Lemma degree_min (y a b c : f64) : tame y -> tame a -> tame b -> tame c -> B2R c < B2R b -> 0 <= B2R y - B2R a <= B2R b - B2R c ->
  fdegree (Bmult mode_NE h (@op_min f64 S64l (f64_lit 1 1) (Bdiv mode_NE (Bminus mode_NE y a) (Bminus mode_NE b c)))).
Proof.
  intros Y A B C BC H. destruct (between y a b c Y A B C BC H) as (F & R & _). destruct (apart_pos b c B C BC) as [V0 _]. apply scale. apply (fd_min P); [apply one_d|]. apply (div_degree P); [exact F|lra|lra|exact V0].
Qed.
Theorem line_degree t vw : line_term w t -> tm_height t = h -> clear eps t (B2R x) -> forall m, @term_membership f64 S64l vw t x = Ok m -> fdegree m.
Proof.
  intros (H1 & H2 & H3) HH CL m. unfold term_membership, clear in *. rewrite HH. clear HH. destruct (tm_body t) as [sh| | | |]; try contradiction. destruct H3 as [Sl Pa]. destruct eta64_small as [T1 _]. assert (B0 : bpow radix2 300 <= big) by (apply bpow_le; lia).
  assert (NX : @isNaN f64 S64l x = false) by (transitivity (is_nan x); [apply f_isNaN|]; destruct tx as [F _]; destruct x; try reflexivity; discriminate F).
  intro M. assert (M2 : @sh_membership f64 S64l sh h x = m) by congruence. rewrite <- M2. clear M M2. unfold sh_membership. rewrite NX. set (X := B2R x) in *.
  destruct sh as [| | | | | | |s0 f0| | | | | | |a b c d|a b c|]; try contradiction; cbn [sloped shape_map] in Sl; repeat match goal with H : List.Forall _ (_ :: _) |- _ => inversion H; clear H; subst end;
    repeat match goal with H : within _ _ |- _ => apply (tame_within _ _ B0) in H end; change (@s_0 f64 S64l) with (f64_lit 0 1); change (@s_1 f64 S64l) with (f64_lit 1 1).
  - assert (AP : @isEq f64 S64l s0 f0 = false). { apply (apart P eps_fin); [assumption|assumption| |]; [intro Z; rewrite Z, Rminus_eq_0, Rabs_R0 in Sl; lra|]. rewrite Rabs_minus_sym. fold eps. lra. }
    rewrite AP. destruct (isLt s0 f0) eqn:E0.
    + apply lt_true in E0; [|assumption|assumption]. destruct (isLE x s0) eqn:E1; [apply scale, zero_d|]. apply le_false in E1; [|assumption|assumption]. destruct (isGE x f0) eqn:E2; [apply scale, one_d|]. apply ge_false in E2; [|assumption|assumption]. fold X in E1, E2. apply degree_line; try assumption. fold X. lra.
    + apply (lt_near P) in E0; [|assumption|assumption|exact AP]. destruct (isGE x s0) eqn:E1; [apply scale, zero_d|]. apply ge_false in E1; [|assumption|assumption]. destruct (isLE x f0) eqn:E2; [apply scale, one_d|]. apply le_false in E2; [|assumption|assumption]. fold X in E1, E2. apply degree_line; try assumption. fold X. lra.
  - destruct Sl as (S1 & S2 & S3). assert (I1 : @s_eqb f64 S64l a (@s_neg f64 S64l (@s_inf f64 S64l)) = false) by (apply (no_inf P); assumption). assert (I2 : @s_eqb f64 S64l d (@s_inf f64 S64l) = false) by (apply (no_inf P); assumption). rewrite I1, I2. destruct CL as [CL1 CL2].
    destruct (isLt x a) eqn:E1; cbn [orb]; [apply scale, zero_d|]. apply (lt_false P eps_fin) in E1; [|assumption|assumption]. destruct (isGt x d) eqn:E2; [apply scale, zero_d|]. apply (gt_false P eps_fin) in E2; [|assumption|assumption]. fold X in E1, E2. fold eps in E1, E2.
    assert (XA : B2R a <= X) by (destruct E1 as [E1|E1]; [exact E1|]; unfold Rabs in E1; destruct Rcase_abs in E1; [apply Rnot_lt_le; intro; apply CL1; lra|lra]).
    destruct (isLt x b) eqn:E4; [apply lt_true in E4; [|assumption|assumption]; fold X in E4; apply degree_min; try assumption; fold X; lra|].
    destruct (isLE x c) eqn:E5; [apply scale, one_d|]. apply le_false in E5; [|assumption|assumption]. fold X in E5. destruct (isLt x d) eqn:E6; [|apply scale, zero_d]. apply lt_true in E6; [|assumption|assumption]. fold X in E6. apply degree_line; try assumption; fold X; lra.
  - destruct Sl as (S1 & S2). assert (I1 : @s_eqb f64 S64l a (@s_neg f64 S64l (@s_inf f64 S64l)) = false) by (apply (no_inf P); assumption). assert (I2 : @s_eqb f64 S64l c (@s_inf f64 S64l) = false) by (apply (no_inf P); assumption). rewrite I1, I2. destruct CL as [CL1 CL2].
    destruct (isLt x a) eqn:E1; cbn [orb]; [apply scale, zero_d|]. apply (lt_false P eps_fin) in E1; [|assumption|assumption]. destruct (isGt x c) eqn:E2; [apply scale, zero_d|]. apply (gt_false P eps_fin) in E2; [|assumption|assumption]. fold X in E1, E2. fold eps in E1, E2.
    assert (XA : B2R a <= X) by (destruct E1 as [E1|E1]; [exact E1|]; unfold Rabs in E1; destruct Rcase_abs in E1; [apply Rnot_lt_le; intro; apply CL1; lra|lra]).
    assert (XC : X <= B2R c) by (destruct E2 as [E2|E2]; [exact E2|]; unfold Rabs in E2; destruct Rcase_abs in E2; [lra|apply Rnot_lt_le; intro; apply CL2; lra]).
    destruct (isEq x b) eqn:E3; [apply scale, one_d|]. destruct (isLt x b) eqn:E4.
    + apply lt_true in E4; [|assumption|assumption]. fold X in E4. apply degree_line; try assumption; fold X; lra.
    + apply (lt_near P) in E4; [|assumption|assumption|assumption]. fold X in E4. apply degree_line; try assumption; fold X; lra.
Qed.
End Lines.
