(** Bridges from the real algebra to the statements about [tnorm_compute] and [snorm_compute]. *)
From Coq Require Import ZArith Reals Bool Lra Psatz.
From Verif Require Import Base Op XR XRFacts Norm NormFacts NormAlg SpecNorm.
Local Open Scope R_scope.

Section NP.
Context (P : xparam).
#[local] Hint Extern 0 (Scalar xr) => exact (XRScalar P) : typeclass_instances.
Notation eps := (xp_eps P).
Notation T := (fun n => @tnorm_compute xr (XRScalar P) n).
Notation S := (fun n => @snorm_compute xr (XRScalar P) n).

Ltac deg := repeat match goal with
  | H : degree _ |- _ => let r := fresh "r" in let Hr := fresh "Hr" in
      let E := fresh "E" in destruct H as (r & E & Hr); subst
  | H : fle _ _ |- _ => let r := fresh "r" in let s := fresh "s" in let E1 := fresh "E" in
      let E2 := fresh "E" in let Hr := fresh "Hle" in
      destruct H as (r & s & E1 & E2 & Hr); inversion E1; inversion E2; subst; clear E1 E2
  end.

Lemma T_closed n a b : degree a -> degree b -> degree (T n a b).
Proof. intros. deg. rewrite tcompute_fin by auto. eexists; split; eauto. apply rT_range; auto. Qed.
Lemma S_closed n a b : n <> UnboundedSum -> degree a -> degree b -> degree (S n a b).
Proof. intros. deg. rewrite scompute_fin by auto. eexists; split; eauto. apply rS_range; auto. Qed.
Lemma T_comm n a b : degree a -> degree b -> T n a b = T n b a.
Proof. intros. deg. rewrite !tcompute_fin by auto. now rewrite rT_comm. Qed.
Lemma S_comm n a b : degree a -> degree b -> S n a b = S n b a.
Proof. intros. deg. rewrite !scompute_fin by auto. now rewrite rS_comm. Qed.
Lemma T_mono n a a' b b' : 0 <= eps -> degree a -> degree a' -> degree b -> degree b' ->
  fle a a' -> fle b b' -> fle (T n a b) (T n a' b').
Proof.
  intros He (x & -> & Hx) (x' & -> & Hx') (y & -> & Hy) (y' & -> & Hy')
    (p & q & E1 & E2 & H1) (p2 & q2 & E3 & E4 & H2).
  injection E1 as <-. injection E2 as <-. injection E3 as <-. injection E4 as <-.
  rewrite !tcompute_fin by auto. do 2 eexists; repeat split; eauto.
  apply Rle_trans with (rT P n x' y); [apply rT_mono_l; auto|].
  rewrite (rT_comm P n x' y), (rT_comm P n x' y'). apply rT_mono_l; auto.
Qed.
Lemma S_mono n a a' b b' : 0 <= eps -> degree a -> degree a' -> degree b -> degree b' ->
  fle a a' -> fle b b' -> fle (S n a b) (S n a' b').
Proof.
  intros He (x & -> & Hx) (x' & -> & Hx') (y & -> & Hy) (y' & -> & Hy')
    (p & q & E1 & E2 & H1) (p2 & q2 & E3 & E4 & H2).
  injection E1 as <-. injection E2 as <-. injection E3 as <-. injection E4 as <-.
  rewrite !scompute_fin by auto. do 2 eexists; repeat split; eauto.
  apply Rle_trans with (rS P n x' y); [apply rS_mono_l; auto|].
  rewrite (rS_comm P n x' y), (rS_comm P n x' y'). apply rS_mono_l; auto.
Qed.
Lemma unit0 : unit 0. Proof. unfold unit; lra. Qed.
Lemma unit1 : unit 1. Proof. unfold unit; lra. Qed.
Lemma T_zero n a : degree a -> T n a (XFin 0) = XFin 0.
Proof. intros. deg. rewrite tcompute_fin by auto using unit0. now rewrite rT_zero. Qed.
Lemma S_one n a : n <> UnboundedSum -> degree a -> S n a (XFin 1) = XFin 1.
Proof. intros. deg. rewrite scompute_fin by auto using unit1. now rewrite rS_one. Qed.
Lemma T_one n a : eps <= 1 -> n <> NilpotentMinimum -> degree a -> T n a (XFin 1) = a.
Proof. intros. deg. rewrite tcompute_fin by auto using unit1. now rewrite rT_identity. Qed.
Lemma S_zero n a : eps <= 1 -> n <> NilpotentMaximum -> degree a -> S n a (XFin 0) = a.
Proof. intros. deg. rewrite scompute_fin by auto using unit0. now rewrite rS_identity. Qed.
Lemma T_one_nilpotent r : 0 <= r <= 1 -> r = 0 \/ eps <= r -> T NilpotentMinimum (XFin r) (XFin 1) = XFin r.
Proof. intros. rewrite tcompute_fin by auto using unit1. now rewrite rT_identity_nilpotent. Qed.
Lemma S_zero_nilpotent r : 0 <= r <= 1 -> r = 1 \/ r + eps <= 1 -> S NilpotentMaximum (XFin r) (XFin 0) = XFin r.
Proof. intros. rewrite scompute_fin by auto using unit0. now rewrite rS_identity_nilpotent. Qed.
Lemma T_assoc n a b c : 0 <= eps -> (n = HamacherProduct -> eps = 0) -> degree a -> degree b -> degree c ->
  T n (T n a b) c = T n a (T n b c).
Proof.
  intros He Hh (x & -> & Hx) (y & -> & Hy) (z & -> & Hz).
  rewrite (tcompute_fin P n x y), (tcompute_fin P n y z) by auto.
  rewrite !tcompute_fin by (auto; apply rT_range; auto). now rewrite rT_assoc.
Qed.
Lemma S_assoc n a b c : 0 <= eps -> n <> UnboundedSum -> (n = HamacherSum -> eps = 0) -> degree a -> degree b -> degree c ->
  S n (S n a b) c = S n a (S n b c).
Proof.
  intros He Hu Hh (x & -> & Hx) (y & -> & Hy) (z & -> & Hz).
  rewrite (scompute_fin P n x y), (scompute_fin P n y z) by auto.
  rewrite !scompute_fin by (auto; apply rS_range; auto). now rewrite rS_assoc.
Qed.

Lemma tnorm_axioms n : 0 <= eps <= 1 -> (eps = 0 \/ (n <> NilpotentMinimum /\ n <> HamacherProduct)) ->
  is_tnorm (T n).
Proof.
  intros He Hn. constructor; intros.
  - apply T_closed; auto.
  - apply T_comm; auto.
  - apply T_mono; auto; lra.
  - apply T_zero; auto.
  - destruct n; try (apply T_one; auto; try lra; discriminate).
    deg. apply T_one_nilpotent; auto. destruct Hn as [->|[K _]]; [lra|contradiction].
  - apply T_assoc; auto; try lra. intros ->. destruct Hn as [E|[_ K]]; [auto|contradiction].
Qed.
Lemma snorm_axioms n : 0 <= eps <= 1 -> n <> UnboundedSum ->
  (eps = 0 \/ (n <> NilpotentMaximum /\ n <> HamacherSum)) -> is_snorm (S n).
Proof.
  intros He Hu Hn. constructor; intros.
  - apply S_closed; auto.
  - apply S_comm; auto.
  - apply S_mono; auto; lra.
  - apply S_one; auto.
  - destruct n; try (apply S_zero; auto; try lra; discriminate).
    deg. apply S_zero_nilpotent; auto. destruct Hn as [->|[K _]]; [lra|contradiction].
  - apply S_assoc; auto; try lra. intros ->. destruct Hn as [E|[_ K]]; [auto|contradiction].
Qed.

(** what remains true of the two sensitive norms under a positive tolerance *)
Lemma tnorm_weak n : 0 <= eps <= 1 ->
  (forall a b, degree a -> degree b -> degree (T n a b)) /\
  (forall a b, degree a -> degree b -> T n a b = T n b a) /\
  (forall a a' b b', degree a -> degree a' -> degree b -> degree b' ->
     fle a a' -> fle b b' -> fle (T n a b) (T n a' b')) /\
  (forall a, degree a -> T n a (XFin 0) = XFin 0) /\
  (forall r, 0 <= r <= 1 -> r = 0 \/ eps <= r -> T n (XFin r) (XFin 1) = XFin r) /\
  (n <> HamacherProduct -> forall a b c, degree a -> degree b -> degree c -> T n (T n a b) c = T n a (T n b c)).
Proof.
  intros He. split; [|split; [|split; [|split; [|split]]]]; intros.
  - apply T_closed; auto.
  - apply T_comm; auto.
  - apply T_mono; auto; lra.
  - apply T_zero; auto.
  - destruct n; try (apply T_one; auto; try lra; try discriminate; eexists; eauto; fail).
    apply T_one_nilpotent; auto.
  - apply T_assoc; auto; try lra. intros; contradiction.
Qed.
Lemma snorm_weak n : 0 <= eps <= 1 -> n <> UnboundedSum ->
  (forall a b, degree a -> degree b -> degree (S n a b)) /\
  (forall a b, degree a -> degree b -> S n a b = S n b a) /\
  (forall a a' b b', degree a -> degree a' -> degree b -> degree b' ->
     fle a a' -> fle b b' -> fle (S n a b) (S n a' b')) /\
  (forall a, degree a -> S n a (XFin 1) = XFin 1) /\
  (forall r, 0 <= r <= 1 -> r = 1 \/ r + eps <= 1 -> S n (XFin r) (XFin 0) = XFin r) /\
  (n <> HamacherSum -> forall a b c, degree a -> degree b -> degree c -> S n (S n a b) c = S n a (S n b c)).
Proof.
  intros He Hu. split; [|split; [|split; [|split; [|split]]]]; intros.
  - apply S_closed; auto.
  - apply S_comm; auto.
  - apply S_mono; auto; lra.
  - apply S_one; auto.
  - destruct n; try (apply S_zero; auto; try lra; try discriminate; eexists; eauto; fail).
    apply S_zero_nilpotent; auto.
  - apply S_assoc; auto; try lra. intros; contradiction.
Qed.

Lemma unbounded_sum_axioms :
  (forall a b, S UnboundedSum a b = S UnboundedSum b a) /\
  (forall a b c, 0 <= a -> 0 <= b -> 0 <= c ->
     S UnboundedSum (S UnboundedSum (XFin a) (XFin b)) (XFin c) = S UnboundedSum (XFin a) (S UnboundedSum (XFin b) (XFin c))) /\
  (forall r, S UnboundedSum (XFin r) (XFin 0) = XFin r) /\
  (forall a a' b b', a <= a' -> b <= b' -> fle (S UnboundedSum (XFin a) (XFin b)) (S UnboundedSum (XFin a') (XFin b'))).
Proof.
  split; [|split; [|split]]; intros; simpl.
  - destruct a, b; simpl; auto. f_equal; ring.
  - f_equal; ring.
  - f_equal; ring.
  - do 2 eexists; repeat split; eauto. lra.
Qed.

Lemma demorgan n a b : (n = HamacherProduct -> eps = 0) -> degree a -> degree b ->
  S (dual n) a b = compl (T n (compl a) (compl b)).
Proof.
  intros Hn Ha Hb. deg. unfold compl. simpl xsub. rewrite tcompute_fin, scompute_fin by (auto; apply unit_compl; auto).
  simpl. f_equal. apply r_duality; auto.
Qed.

Lemma tnorm_below_minimum n a b : degree a -> degree b -> fle (T n a b) (T Minimum a b).
Proof.
  intros. deg. rewrite !tcompute_fin by auto. do 2 eexists; repeat split; eauto. apply rT_le_min; auto.
Qed.
Lemma snorm_above_maximum n a b : degree a -> degree b -> fle (S Maximum a b) (S n a b).
Proof.
  intros. deg. rewrite !scompute_fin by auto. do 2 eexists; repeat split; eauto. apply rS_ge_max; auto.
Qed.
Lemma tnorm_above_drastic n a b : eps = 0 -> degree a -> degree b -> fle (T DrasticProduct a b) (T n a b).
Proof.
  intros. deg. rewrite !tcompute_fin by auto. do 2 eexists; repeat split; eauto. apply drastic_le; auto; lra.
Qed.
Lemma snorm_below_drastic n a b : eps = 0 -> n <> UnboundedSum -> degree a -> degree b ->
  fle (S n a b) (S DrasticSum a b).
Proof.
  intros. deg. rewrite !scompute_fin by auto. do 2 eexists; repeat split; eauto. apply drastic_ge; auto; lra.
Qed.
Lemma normalized_bounded a b : degree a -> degree b -> S NormalizedSum a b = S BoundedSum a b.
Proof. intros. deg. rewrite !scompute_fin by auto. now rewrite normalized_is_bounded. Qed.
End NP.

(** counterexamples at the default tolerance *)
Notation Td := (@tnorm_compute xr (XRScalar xp_default)).
Notation Sd := (@snorm_compute xr (XRScalar xp_default)).

Lemma nilpotent_min_identity_fails : Td NilpotentMinimum (XFin (/ 2000000)) (XFin 1) = XFin 0.
Proof.
  rewrite tcompute_fin by (unfold unit; lra). f_equal. unfold rT. simpl. rdec; lra.
Qed.
Lemma nilpotent_max_identity_fails : Sd NilpotentMaximum (XFin (1 - / 2000000)) (XFin 0) = XFin 1.
Proof.
  rewrite scompute_fin by (unfold unit; lra). f_equal. unfold rS. simpl. rdec; lra.
Qed.
(** a = b = 6e-7, c = 8e-7: (a b) c is positive, a (b c) is 0 *)
Lemma hamacher_assoc_fails :
  let a := XFin (6/10000000) in let c := XFin (8/10000000) in
  Td HamacherProduct (Td HamacherProduct a a) c <> Td HamacherProduct a (Td HamacherProduct a c).
Proof.
  intros a c. unfold a, c. clear a c.
  set (a := 6/10000000). set (c := 8/10000000).
  rewrite (tcompute_fin xp_default HamacherProduct a a) by (unfold unit, a; lra).
  rewrite (tcompute_fin xp_default HamacherProduct a c) by (unfold unit, a, c; lra).
  assert (H1 : 29/100000000 <= rT xp_default HamacherProduct a a <= 31/100000000).
  { unfold rT; simpl. rdec; try (exfalso; rabs; unfold a in *; lra). split.
    - apply div_ge_iff; unfold a; lra.
    - apply div_le_iff; unfold a; lra. }
  assert (H2 : 0 <= rT xp_default HamacherProduct a c <= 35/100000000).
  { unfold rT; simpl. rdec; try (exfalso; rabs; unfold a, c in *; lra). split.
    - apply div_ge_iff; unfold a, c; lra.
    - apply div_le_iff; unfold a, c; lra. }
  rewrite !tcompute_fin by (unfold unit, a, c in *; lra).
  set (x := rT xp_default HamacherProduct a a) in *.
  set (y := rT xp_default HamacherProduct a c) in *.
  intro E. injection E as E. unfold rT in E. simpl in E.
  destruct (Req_EM_T (a + y) 0); [unfold a in *; lra|].
  destruct (Rlt_dec (Rabs (a + y)) (/ 1000000)) as [_|Hn]; [|apply Hn; rabs; unfold a in *; lra].
  destruct (Req_EM_T (x + c) 0); [unfold c in *; lra|].
  destruct (Rlt_dec (Rabs (x + c)) (/ 1000000)) as [Hn|_]; [rabs; unfold c in *; lra|].
  assert (0 < x * c / (x + c - x * c)).
  { apply Rdiv_lt_0_compat; unfold c; nra. }
  lra.
Qed.
(** the drastic product may exceed another T-norm inside the tolerance band *)
Lemma drastic_order_fails :
  ~ fle (Td DrasticProduct (XFin (1 - / 2000000)) (XFin (1/2))) (Td AlgebraicProduct (XFin (1 - / 2000000)) (XFin (1/2))).
Proof.
  rewrite !tcompute_fin by (unfold unit; lra). intros (r & s & E1 & E2 & H).
  injection E1 as E1. injection E2 as E2. unfold rT in *. simpl in *.
  replace (Rmax (1 - / 2000000) (1 / 2)) with (1 - / 2000000) in E1 by minmax.
  replace (Rmin (1 - / 2000000) (1 / 2)) with (1 / 2) in E1 by minmax.
  destruct Req_EM_T; [lra|]. destruct Rlt_dec as [_|Hn]; [lra|]. apply Hn. rabs; lra.
Qed.
(** Hamacher duality fails inside the tolerance band: the sum is cut to 1, the product is not cut to 0 *)
Lemma hamacher_duality_fails :
  let a := XFin (1 - 5/10000000) in
  Sd HamacherSum a a <> compl (Td HamacherProduct (compl a) (compl a)).
Proof.
  intros a. unfold a. clear a.
  assert (C : compl (XFin (1 - 5/10000000)) = XFin (5/10000000)) by (unfold compl; simpl; f_equal; lra).
  rewrite C, tcompute_fin, scompute_fin by (unfold unit; lra). unfold compl. simpl. intro E. injection E as E.
  destruct (Req_EM_T _ _) in E; [lra|].
  destruct (Rlt_dec _ _) as [_|Hn] in E; [|apply Hn; rabs; lra].
  destruct (Req_EM_T _ _) in E; [lra|].
  destruct (Rlt_dec _ _) as [Hn|_] in E; [rabs; lra|].
  set (q := 5/10000000) in *.
  assert (0 < q * q / (q + q - q * q)) by (apply Rdiv_lt_0_compat; unfold q; lra).
  lra.
Qed.
