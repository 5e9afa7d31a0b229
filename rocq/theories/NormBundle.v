(** Bundled forms used by the property file. *)
From Coq Require Import ZArith Reals Bool Lra List.
From Flocq Require Import Core BinarySingleNaN.
From Verif Require Import Base Op XR XRFacts F64 F64Facts F64Arith Norm NormFacts NormAlg SpecNorm NormProofs NormF64 NormSpec Hedge.
Local Open Scope R_scope.

Lemma deg_intro r : 0 <= r <= 1 -> degree (XFin r).
Proof. intros; exists r; auto. Qed.

Lemma nilpotent_min_refuted :
  exists a, degree a /\ @tnorm_compute xr (XRScalar xp_default) NilpotentMinimum a (XFin 1) <> a.
Proof.
  exists (XFin (/ 2000000)). split; [apply deg_intro; lra|]. rewrite nilpotent_min_identity_fails.
  intro E; injection E as E; lra.
Qed.
Lemma nilpotent_max_refuted :
  exists a, degree a /\ @snorm_compute xr (XRScalar xp_default) NilpotentMaximum a (XFin 0) <> a.
Proof.
  exists (XFin (1 - / 2000000)). split; [apply deg_intro; lra|]. rewrite nilpotent_max_identity_fails.
  intro E; injection E as E; lra.
Qed.
Lemma hamacher_assoc_refuted :
  exists a b c, degree a /\ degree b /\ degree c /\
    @tnorm_compute xr (XRScalar xp_default) HamacherProduct (@tnorm_compute xr (XRScalar xp_default) HamacherProduct a b) c
    <> @tnorm_compute xr (XRScalar xp_default) HamacherProduct a (@tnorm_compute xr (XRScalar xp_default) HamacherProduct b c).
Proof.
  exists (XFin (6/10000000)), (XFin (6/10000000)), (XFin (8/10000000)).
  repeat split; try (apply deg_intro; lra). exact hamacher_assoc_fails.
Qed.
Lemma demorgan_pairs : forall (P : xparam) t s a b,
  In (t, s) ((AlgebraicProduct, AlgebraicSum) :: (BoundedDifference, BoundedSum) :: (DrasticProduct, DrasticSum) ::
   (EinsteinProduct, EinsteinSum) :: (HamacherProduct, HamacherSum) :: (Minimum, Maximum) ::
   (NilpotentMinimum, NilpotentMaximum) :: nil) -> (t = HamacherProduct -> xp_eps P = 0) -> degree a -> degree b ->
  @snorm_compute xr (XRScalar P) s a b = compl (@tnorm_compute xr (XRScalar P) t (compl a) (compl b)).
Proof.
  intros P t s a b Hin He Ha Hb. rewrite <- demorgan by auto. f_equal. simpl in Hin.
  repeat (destruct Hin as [Hin|Hin]; [injection Hin as <- <-; reflexivity|]). contradiction.
Qed.
Lemma hamacher_duality_refuted : exists a b, degree a /\ degree b /\
  @snorm_compute xr (XRScalar xp_default) HamacherSum a b
  <> compl (@tnorm_compute xr (XRScalar xp_default) HamacherProduct (compl a) (compl b)).
Proof.
  exists (XFin (1 - 5/10000000)), (XFin (1 - 5/10000000)). repeat split; try (apply deg_intro; lra).
  exact hamacher_duality_fails.
Qed.
Lemma lattice_bounds : forall (P : xparam) a b, degree a -> degree b ->
  (forall n, fle (@tnorm_compute xr (XRScalar P) n a b) (@tnorm_compute xr (XRScalar P) Minimum a b)) /\
  (forall n, fle (@snorm_compute xr (XRScalar P) Maximum a b) (@snorm_compute xr (XRScalar P) n a b)).
Proof. intros; split; intros; [apply tnorm_below_minimum|apply snorm_above_maximum]; auto. Qed.
Lemma drastic_bounds : forall (P : xparam) a b, xp_eps P = 0 -> degree a -> degree b ->
  (forall n, fle (@tnorm_compute xr (XRScalar P) DrasticProduct a b) (@tnorm_compute xr (XRScalar P) n a b)) /\
  (forall n, n <> UnboundedSum ->
     fle (@snorm_compute xr (XRScalar P) n a b) (@snorm_compute xr (XRScalar P) DrasticSum a b)).
Proof. intros; split; intros; [apply tnorm_above_drastic|apply snorm_below_drastic]; auto. Qed.
Lemma drastic_order_refuted : exists a b, degree a /\ degree b /\
  ~ fle (@tnorm_compute xr (XRScalar xp_default) DrasticProduct a b)
        (@tnorm_compute xr (XRScalar xp_default) AlgebraicProduct a b).
Proof.
  exists (XFin (1 - / 2000000)), (XFin (1/2)). repeat split; try (apply deg_intro; lra). exact drastic_order_fails.
Qed.
Lemma C07_t : forall (P : fparam) n (a b : f64), fdegree a -> fdegree b ->
  fdegree (@tnorm_compute f64 (F64Scalar P) n a b) /\
  same (@tnorm_compute f64 (F64Scalar P) n a b) (@tnorm_compute f64 (F64Scalar P) n b a).
Proof. intros; split; [apply tnorm_range_f64|apply tnorm_comm_f64]; auto. Qed.
Lemma C07_s : forall (P : fparam) n (a b : f64), fdegree a -> fdegree b ->
  (n <> UnboundedSum -> n <> HamacherSum -> fdegree (@snorm_compute f64 (F64Scalar P) n a b)) /\
  same (@snorm_compute f64 (F64Scalar P) n a b) (@snorm_compute f64 (F64Scalar P) n b a).
Proof. intros; split; intros; [apply snorm_range_f64|apply snorm_comm_f64]; auto. Qed.
Lemma C07_refuted : exists a b : f64, fdegree a /\ fdegree b /\
  Bltb (f64_lit 1 1) (@snorm_compute f64 (F64Scalar fp_default) HamacherSum a b) = true.
Proof. exists h_a, h_b. exact hamacher_sum_exceeds_one. Qed.
Lemma norm_formulas : forall (P : xparam) a b, 0 <= a <= 1 -> 0 <= b <= 1 ->
  (forall n, ~ t_band (xp_eps P) (tname_of n) a b ->
     @tnorm_compute xr (XRScalar P) n (XFin a) (XFin b) = XFin (t_formula (tname_of n) a b)) /\
  (forall n, ~ s_band (xp_eps P) (sname_of n) a b ->
     @snorm_compute xr (XRScalar P) n (XFin a) (XFin b) = XFin (s_formula (sname_of n) a b)).
Proof. intros; split; intros; [apply tnorm_formula|apply snorm_formula]; auto. Qed.
