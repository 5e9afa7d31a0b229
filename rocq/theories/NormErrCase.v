(** Summary and examples of the errors of norms and hedges. *)
From Coq Require Import ZArith Reals Bool Lra Lia.
From Flocq Require Import Core BinarySingleNaN.
From Verif Require Import Base Op XR XRFacts F64 F64Facts F64Arith Norm Hedge SpecNorm SpecRound SpecNormErr NormSpec NormErr HedgeErr NormF64 FisF64 MamdaniCase ShapeF64.
Local Open Scope R_scope.

Lemma jumps (P : fparam) (a b : f64) : fdegree a -> fdegree b -> is_finite (fp_eps P) = true -> 0 <= B2R (fp_eps P) ->
  (forall n, off_jump_t n (B2R (fp_eps P)) (B2R a) (B2R b) -> B2R (@tnorm_compute f64 (F64Scalar P) n a b) = t_formula (tname_of n) (B2R a) (B2R b)) /\
  (forall n, off_jump_s n (B2R (fp_eps P)) (B2R a) (B2R b) -> B2R (@snorm_compute f64 (F64Scalar P) n a b) = s_formula (sname_of n) (B2R a) (B2R b)).
Proof. intros A B F E. split; intros n H; [now apply t_jump|now apply s_jump]. Qed.
Lemma steady a b a' b' : 0 <= a <= 1 -> 0 <= b <= 1 -> 0 <= a' <= 1 -> 0 <= b' <= 1 ->
  (forall n, even_tnorm n -> Rabs (t_formula (tname_of n) a b - t_formula (tname_of n) a' b') <= Rabs (a - a') + Rabs (b - b')) /\
  (forall n, even_snorm n -> Rabs (s_formula (sname_of n) a b - s_formula (sname_of n) a' b') <= Rabs (a - a') + Rabs (b - b')).
Proof. intros. split; intros; [now apply t_steady|now apply s_steady]. Qed.
Definition nearly_one : f64 := f64_lit 9999999 10000000.
Lemma nearly_one_ok : is_finite nearly_one = true /\ Rabs (B2R nearly_one - 9999999 / 10000000) <= u64.
Proof. apply (lit_close 9999999 10000000); lia. Qed.
Lemma jump_computed : Beqb (@tnorm_compute f64 (F64Scalar fp_default) DrasticProduct nearly_one (f64_lit 1 2)) (f64_lit 1 2) = true.
Proof. vm_compute. reflexivity. Qed.
Lemma jump_refuted : exists a b : f64, fdegree a /\ fdegree b /\ Rabs (B2R (@tnorm_compute f64 (F64Scalar fp_default) DrasticProduct a b) - t_formula TDrasticProduct (B2R a) (B2R b)) >= 1 / 2.
Proof.
  exists nearly_one, (f64_lit 1 2). destruct nearly_one_ok as [F E]. destruct tiny as [_ U]. destruct f64_half_correct as [H1 H2]. assert (B : 999 / 1000 <= B2R nearly_one < 1) by (unfold Rabs in E; destruct Rcase_abs in E; lra).
  assert (D1 : fdegree nearly_one) by (split; [exact F|lra]). assert (D2 : fdegree (f64_lit 1 2)) by (split; [exact H2|rewrite H1; lra]). split; [exact D1|]. split; [exact D2|].
  assert (C := jump_computed). assert (R1 := tnorm_range_f64 fp_default nearly_one (f64_lit 1 2) D1 D2 DrasticProduct). set (y := @tnorm_compute f64 (F64Scalar fp_default) DrasticProduct nearly_one (f64_lit 1 2)) in *. clearbody y.
  rewrite (Beqb_correct prec64 emax64 y _ (proj1 R1) H2), H1 in C. apply Req_bool_true_iff in C || (destruct (Req_bool_spec (B2R y) (1 / 2)) as [C'|C']; [clear C; rename C' into C|discriminate C]). rewrite C, H1. unfold t_formula.
  destruct Req_EM_T as [Q|Q]; [exfalso; unfold Rmax in Q; destruct Rle_dec in Q; lra|]. rewrite Rminus_0_r, Rabs_pos_eq; lra.
Qed.
Lemma err_case : let a := f64_lit 1 10 in let b := f64_lit 7 10 in fdegree a /\ fdegree b /\
  Rabs (B2R (@tnorm_compute f64 (F64Scalar fp_default) EinsteinProduct a b) - 7 / 127) <= / 1000000 /\ off_jump_s NilpotentMaximum (B2R (fp_eps fp_default)) (B2R a) (B2R b) /\
  Rabs (B2R (@hedge_apply f64 (F64Scalar fp_default) Seldom a) - sqrt (B2R a / 2)) <= / 100000.
Proof.
  intros a b. destruct (lit_close 1 10 ltac:(lia) ltac:(lia)) as [Fa Ea]. destruct (lit_close 7 10 ltac:(lia) ltac:(lia)) as [Fb Eb]. fold a in Fa, Ea. fold b in Fb, Eb. clearbody a b. destruct tiny as [_ U]. fold u64 in Ea, Eb. destruct eps_case as [EF EE].
  assert (A : Rabs (B2R a - 1 / 10) <= / 1000000000000000) by lra. assert (B : Rabs (B2R b - 7 / 10) <= / 1000000000000000) by lra. clear Ea Eb.
  assert (A2 : 9 / 100 <= B2R a <= 11 / 100) by (unfold Rabs in A; destruct Rcase_abs in A; lra). assert (B2 : 69 / 100 <= B2R b <= 71 / 100) by (unfold Rabs in B; destruct Rcase_abs in B; lra).
  assert (D1 : fdegree a) by (split; [exact Fa|lra]). assert (D2 : fdegree b) by (split; [exact Fb|lra]). split; [exact D1|]. split; [exact D2|]. split; [|split].
  - destruct (t_round fp_default a b D1 D2 EinsteinProduct ltac:(split; discriminate) EF (proj1 EE)) as [_ R1]. assert (R2 := t_steady EinsteinProduct (B2R a) (B2R b) (1 / 10) (7 / 10) ltac:(split; discriminate) ltac:(lra) ltac:(lra) ltac:(lra) ltac:(lra)).
    assert (R3 := via _ _ _ _ _ R1 R2). cbn [tname_of tnorm_error] in R3. replace (t_formula TEinsteinProduct (1 / 10) (7 / 10)) with (7 / 127) in R3 by (unfold t_formula; field). lra.
  - unfold off_jump_s. unfold Rabs. destruct Rcase_abs; lra.
  - destruct (hedge_round fp_default EF ltac:(lra) a D1 Seldom) as [_ R1]. cbn [hname_of h_formula hedge_error] in R1. destruct Rle_dec in R1; lra.
Qed.
