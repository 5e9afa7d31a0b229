(** Proportional activation on numbers: the shares add up to one (exactly), and lie between zero and one (in binary64). *)
From Coq Require Import ZArith String List Bool Lia Reals Lra.
From Flocq Require Import Core IEEE754.BinarySingleNaN.
From Verif Require Import Base Op XR XRFacts F64 F64Facts F64Arith F64Err OpProofs Norm Aggregated Function Rule Var Activation SpecActivation ActivationProofs ActivationProofs2 ActivationProofs3.
Import ListNotations.
Local Open Scope R_scope.

Definition Rsum (l : list R) : R := fold_right Rplus 0 l.
Lemma Rsum_nonneg l : Forall (fun d => 0 <= d) l -> 0 <= Rsum l.
Proof. induction 1; cbn; [lra|]. unfold Rsum in *. lra. Qed.
Lemma Rsum_zero l : Forall (fun d => 0 <= d) l -> Rsum l = 0 -> Forall (fun d => d = 0) l.
Proof.
  induction 1 as [|d l H K IH]; intros E; constructor; cbn in E; pose proof (Rsum_nonneg _ K); unfold Rsum in *; [lra|]. apply IH. lra.
Qed.
Lemma Rsum_div l t : Rsum (map (fun d => d / t) l) = Rsum l / t.
Proof. induction l as [|d l IH]; cbn; [unfold Rdiv; ring|]. unfold Rsum in *. rewrite IH. unfold Rdiv. ring. Qed.

Section Exact.
Context (P : xparam).
#[local] Hint Extern 0 (Scalar xr) => exact (XRScalar P) : typeclass_instances.
Variable enabled : varref -> bool.
Variable degree : fuzzy xr -> varref -> nat -> res xr.
Variables (conjunction : option tnorm) (disjunction : option snorm) (implication : option tnorm).

(** the degree of a rule is the number [d], not negative; an unloaded rule counts as zero *)
Definition weighs (f : fuzzy xr) (r : rule xr) (d : R) : Prop :=
  0 <= d /\
  if rule_loaded r then exists w a, rl_weight r = XFin w /\
    antecedent_degree enabled (degree f) conjunction disjunction (rl_antecedent r) = Ok (XFin a) /\ d = w * a
  else d = 0.

Lemma weighs_degree f r m d : activated_rule enabled degree conjunction disjunction f r m -> weighs f r d -> rl_degree m = XFin d.
Proof.
  intros (h1 & h2 & h3 & h4) [_ K]. destruct (rule_loaded r) eqn:L.
  - destruct K as (w & a & Hw & Ha & ->). destruct (h4 eq_refl) as (v & Hv & ->). rewrite Ha in Hv. inversion Hv; subst. rewrite Hw. reflexivity.
  - subst. rewrite h3 by reflexivity. apply (x_0 P).
Qed.
Lemma total_exact f rules mids ds : Forall2 (activated_rule enabled degree conjunction disjunction f) rules mids ->
  Forall2 (weighs f) rules ds -> total_degree mids = XFin (Rsum ds).
Proof.
  intros A W. unfold total_degree.
  assert (forall a, fold_left s_add (map (@rl_degree xr) (filter rule_loaded mids)) (XFin a) = XFin (a + Rsum ds)) as K.
  { revert ds W. induction A as [|r m rules mids H A IH]; intros ds W a; inversion W as [|? d ? ds' Hd W']; subst; cbn.
    - f_equal. lra.
    - pose proof (weighs_degree _ _ _ _ H Hd) as E. destruct H as (h1 & _). rewrite (same_loaded _ _ h1).
      destruct Hd as [_ Hd]. destruct (rule_loaded r); cbn.
      + rewrite E. cbn. rewrite (IH _ W'). unfold Rsum. f_equal. lra.
      + subst d. rewrite (IH _ W'). unfold Rsum. f_equal. lra. }
  specialize (K 0). etransitivity; [|etransitivity; [exact K|f_equal; lra]]. f_equal. apply (x_0 P).
Qed.
Lemma proportional_exact rules f rules' f' ds :
  proportional enabled degree conjunction disjunction implication rules f = (rules', f', Ok tt) ->
  Forall2 (weighs f) rules ds ->
  exists shares : list R, Forall2 (fun r' s => rl_degree r' = XFin s) rules' shares /\
    (0 < Rsum ds -> Rsum shares = 1 /\ Forall2 (fun s d => s * Rsum ds = d) shares ds) /\
    (Rsum ds = 0 -> Forall (fun s => s = 0) shares).
Proof.
  intros H W. apply proportional_ok in H. destruct H as (L & mids & A & states & S1 & S2 & S3 & S4).
  pose proof (total_exact _ _ _ _ A W) as TE.
  assert (Forall (fun d => 0 <= d) ds) as ND by (clear - W; induction W as [|r d rules ds Hd W IH]; constructor; [apply Hd|exact IH]).
  pose proof (Rsum_nonneg _ ND) as NS.
  exists (map (fun d => if Req_EM_T (Rsum ds) 0 then 0 else d / Rsum ds) ds).
  split; [|split].
  - pose proof (Forall2_len _ _ _ A) as LA. pose proof (Forall2_len _ _ _ W) as LW.
    assert (forall i r' d, nth_error rules' i = Some r' -> nth_error ds i = Some d ->
      rl_degree r' = XFin (if Req_EM_T (Rsum ds) 0 then 0 else d / Rsum ds)) as K.
    { intros i r' d Hr' Hd.
      assert (i < length ds)%nat as Li by (apply nth_error_Some; congruence).
      destruct (nth_error rules i) as [r|] eqn:Er; [|apply nth_error_None in Er; lia].
      destruct (nth_error mids i) as [m|] eqn:Em; [|apply nth_error_None in Em; lia].
      destruct (nth_error states i) as [g|] eqn:E1; [|apply nth_error_None in E1; lia].
      destruct (nth_error states (Datatypes.S i)) as [g'|] eqn:E2; [|apply nth_error_None in E2; lia].
      destruct (S4 i r m r' g g' Er Em Hr' E1 E2) as (h1 & _ & h2 & h3).
      pose proof (nth_error_Forall2 _ _ _ _ _ _ W Er Hd) as Wd.
      pose proof (weighs_degree _ _ _ _ (nth_error_Forall2 _ _ _ _ _ _ A Er Em) Wd) as Dm.
      destruct (rule_loaded r) eqn:Lr.
      - destruct (h3 eq_refl) as [E _]. cbv zeta in E. rewrite Dm in E. 
        assert ((XFin d / total_degree mids)%S = xdiv (XFin d) (XFin (Rsum ds))) as Q by (rewrite TE; reflexivity).
        rewrite Q in E. cbn [xdiv] in E. rewrite E. destruct (Req_EM_T (Rsum ds) 0) as [Z|Z].
        + assert (d = 0) as ->. { pose proof (Rsum_zero _ ND Z) as F. rewrite Forall_forall in F. apply F. eapply nth_error_In; exact Hd. }
          assert (xinf_div 0 = XNaN) as Zn by (unfold xinf_div, xinf_mul, Rltb; destruct (Rlt_dec 0 0) as [O|O]; [exfalso; revert O; apply Rlt_irrefl|reflexivity]).
          rewrite Zn, (x_isNaN P). apply (x_0 P).
        + rewrite (x_isNaN P). reflexivity.
      - destruct (h2 eq_refl) as [E _]. rewrite E. destruct Wd as [_ Wd]. rewrite Lr in Wd. subst d.
        etransitivity; [apply (x_0 P)|]. f_equal. destruct (Req_EM_T (Rsum ds) 0); [reflexivity|]. unfold Rdiv. ring. }
    clear - K L LW. assert (length rules' = length ds) as E by lia. clear L LW. revert K.
    generalize (Rsum ds). intros t. revert ds E. induction rules' as [|r l IH]; intros [|d ds] E K; cbn in E; try discriminate; constructor.
    + apply (K 0%nat); reflexivity.
    + apply IH; [lia|]. intros i. apply (K (Datatypes.S i)).
  - intros Pos. destruct (Req_EM_T (Rsum ds) 0) as [Z|Z]; [exfalso; lra|]. split.
    + rewrite Rsum_div. field. exact Z.
    + clear - Z. revert Z. generalize (Rsum ds). intros t Z. induction ds as [|d ds IH]; cbn; constructor; [field; exact Z|exact IH].
  - intros Z. destruct (Req_EM_T (Rsum ds) 0) as [_|N]; [|exfalso; lra]. clear. induction ds; cbn; constructor; auto.
Qed.
End Exact.

Section Binary.
Context (P : fparam).
#[local] Hint Extern 0 (Scalar _) => exact (F64Scalar P) : typeclass_instances.
Definition nonneg64 (x : f64) : Prop := is_finite x = true /\ 0 <= B2R x.
(** a sum of numbers which are not negative is not below any of them, or has overflown *)
Definition above64 (s : f64) (x : R) : Prop := s = B754_infinity false \/ is_finite s = true /\ x <= B2R s.

Lemma plus_above s d x : above64 s x -> 0 <= x -> nonneg64 d -> above64 (Bplus mode_NE s d) x /\ above64 (Bplus mode_NE s d) (B2R d).
Proof.
  intros [-> | [Fs Hs]] X [Fd Hd].
  - destruct d as [?|?| |? ? ? ?]; try discriminate; split; left; reflexivity.
  - destruct (Rlt_bool (Rabs (rnd (B2R s + B2R d))) (bpow radix2 emax64)) eqn:E.
    + destruct (plus_gen s d Fs Fd E) as [V F]. split; right; (split; [exact F|]); rewrite V.
      * apply Rle_trans with (B2R s); [exact Hs|]. rewrite <- (rnd_id _ (fmt_B2R s)) at 1. apply rnd_mono. lra.
      * rewrite <- (rnd_id _ (fmt_B2R d)) at 1. apply rnd_mono. lra.
    + pose proof (Bplus_correct prec64 emax64 _ _ mode_NE s d Fs Fd) as K. simpl round_mode in K.
      rewrite E in K. destruct K as [K1 K2].
      assert (Bsign s = false \/ Bsign d = false \/ (B2R s = 0 /\ B2R d = 0)) as Sg.
      { destruct s as [[|]|?| |[|] m e Hb], d as [[|]|?| |[|] m' e' Hb']; try discriminate; auto; exfalso; cbn in *;
        pose proof (F2R_lt_0 radix2 (Float radix2 (Z.neg m) e) ltac:(reflexivity)) as NN; unfold F2R in *; cbn in *; try lra.
        all: try (pose proof (F2R_lt_0 radix2 (Float radix2 (Z.neg m') e') ltac:(reflexivity)) as NN'; unfold F2R in *; cbn in *; lra). }
      assert (Bsign s = false \/ (B2R s = 0 /\ B2R d = 0)) as Sg'.
      { destruct Sg as [Sg | [Sg | Sg]]; auto. left. congruence. }
      destruct Sg' as [Sg' | [Z1 Z2]].
      * rewrite Sg' in K1. assert (Bplus mode_NE s d = B754_infinity false) as ->.
        { apply B2SF_inj. rewrite K1. reflexivity. }
        split; left; reflexivity.
      * exfalso. rewrite Z1, Z2 in E. replace (0 + 0) with 0 in E by lra. rewrite rnd_0, Rabs_R0 in E.
        pose proof (Rlt_bool_true 0 (bpow radix2 emax64) (bpow_gt_0 _ _)) as B. congruence.
Qed.
Lemma fold_above : forall l s, Forall nonneg64 l -> above64 s 0 ->
  above64 (fold_left (Bplus mode_NE) l s) 0 /\ (forall x, 0 <= x -> above64 s x -> above64 (fold_left (Bplus mode_NE) l s) x) /\
  forall d, In d l -> above64 (fold_left (Bplus mode_NE) l s) (B2R d).
Proof.
  induction l as [|y l IH]; intros s F A; cbn [fold_left].
  - split; [exact A|]. split; [auto|]. intros d [].
  - inversion F as [|? ? Hy F']; subst. destruct (plus_above s y 0 A (Rle_refl 0) Hy) as [A1 _].
    destruct (IH _ F' A1) as (h1 & h2 & h3). split; [exact h1|]. split.
    + intros x Hx Ax. apply h2; [exact Hx|]. eapply proj1, plus_above; eassumption.
    + intros d [<- | Hd]; [|auto]. apply h2; [apply Hy|]. eapply proj2, (plus_above s y 0); auto. lra.
Qed.
Lemma share_unit d s : nonneg64 d -> above64 s (B2R d) ->
  let q := Bdiv mode_NE d s in let v := if isNaN q then s_0 else q in is_finite v = true /\ 0 <= B2R v <= 1.
Proof.
  intros [Fd Hd] A. cbv zeta.
  assert (is_finite (s_0 : f64) = true /\ 0 <= B2R (s_0 : f64) <= 1) as Z0 by (split; [reflexivity|change (B2R (s_0 : f64)) with (B2R (f64_lit 0 1)); rewrite (proj1 f64_0_correct); lra]).
  destruct A as [-> | [Fs Hs]].
  - assert (is_finite (Bdiv mode_NE d (B754_infinity false)) = true /\ B2R (Bdiv mode_NE d (B754_infinity false)) = 0) as [E1 E2].
    { destruct d as [?|?| |? ? ? ?]; try discriminate; split; reflexivity. }
    match goal with |- context [if ?b then _ else _] => destruct b end; [exact Z0|]. rewrite E1, E2. split; [reflexivity|lra].
  - destruct (Req_dec (B2R s) 0) as [Z|Z].
    + assert (B2R d = 0) as Dz by lra.
      assert (Bdiv mode_NE d s = B754_nan) as ->.
      { destruct d as [?|?| |[|] ? ? ?]; try discriminate; try (cbn in Dz; apply eq_0_F2R in Dz; discriminate).
        destruct s as [?|?| |[|] ? ? ?]; try discriminate; try (cbn in Z; apply eq_0_F2R in Z; discriminate). reflexivity. }
      match goal with |- context [if ?b then _ else _] => change b with true end. exact Z0.
    + assert (0 <= B2R d / B2R s <= 1) as Q.
      { assert (0 < B2R s) by lra. split; [apply Rmult_le_pos; [lra|]; left; apply Rinv_0_lt_compat; lra|].
        apply Rmult_le_reg_r with (B2R s); [lra|]. unfold Rdiv. rewrite Rmult_assoc, Rinv_l by lra. lra. }
      destruct (div_ok d s Fd Z ltac:(lra)) as [V F].
      match goal with |- context [if ?b then _ else _] => destruct b end; [exact Z0|]. split; [exact F|]. rewrite V.
      apply rnd_between; [apply fmt_0|apply fmt_1|exact Q].
Qed.
Variable enabled : varref -> bool.
Variable degree : fuzzy f64 -> varref -> nat -> res f64.
Variables (conjunction : option tnorm) (disjunction : option snorm) (implication : option tnorm).
Lemma proportional_unit rules f rules' f' :
  proportional enabled degree conjunction disjunction implication rules f = (rules', f', Ok tt) ->
  (forall r d, In r rules -> rule_loaded r = true -> antecedent_degree enabled (degree f) conjunction disjunction (rl_antecedent r) = Ok d ->
     nonneg64 (rl_weight r * d)%S) ->
  Forall (fun r' => is_finite (rl_degree r') = true /\ 0 <= B2R (rl_degree r') <= 1) rules'.
Proof.
  intros H W. apply proportional_ok in H. destruct H as (L & mids & A & states & S1 & S2 & S3 & S4).
  assert (Forall nonneg64 (map (@rl_degree f64) (filter rule_loaded mids))) as NN.
  { clear S4 S3 S2 S1 L. induction A as [|r m rules mids Hm A IH]; cbn; [constructor|].
    assert (Forall nonneg64 (map (@rl_degree f64) (filter rule_loaded mids))) as IH' by (apply IH; intros; eapply W; eauto; now right).
    destruct Hm as (h1 & h2 & h3 & h4). destruct (rule_loaded m) eqn:Lm; [|exact IH']. rewrite (same_loaded _ _ h1) in Lm.
    constructor; [|exact IH']. destruct (h4 Lm) as (d & Hd & E). rewrite E. apply W; auto. now left. }
  assert (above64 (s_0 : f64) 0) as A0 by (right; split; [reflexivity|]; change (B2R (s_0 : f64)) with (B2R (f64_lit 0 1)); rewrite (proj1 f64_0_correct); lra).
  destruct (fold_above _ _ NN A0) as (_ & _ & K). pose proof (Forall2_len _ _ _ A) as LA.
  apply Forall_forall. intros r' Hr'. apply In_nth_error in Hr'. destruct Hr' as [i Hi].
  assert (i < length rules')%nat as Li by (apply nth_error_Some; intros X; pose proof (eq_trans (eq_sym Hi) X); discriminate).
  destruct (nth_error rules i) as [r|] eqn:Er; [|apply nth_error_None in Er; lia].
  destruct (nth_error mids i) as [m|] eqn:Em; [|apply nth_error_None in Em; lia].
  destruct (nth_error states i) as [g|] eqn:E1; [|apply nth_error_None in E1; lia].
  destruct (nth_error states (Datatypes.S i)) as [g'|] eqn:E2; [|apply nth_error_None in E2; lia].
  destruct (S4 i r m r' g g' Er Em Hi E1 E2) as (h1 & _ & h2 & h3).
  destruct (nth_error_Forall2 _ _ _ _ _ _ A Er Em) as (a1 & _ & _).
  pose (Q := fun v : f64 => is_finite v = true /\ 0 <= B2R v <= 1). change (Q (rl_degree r')).
  destruct (rule_loaded r) eqn:Lr.
  - destruct (h3 eq_refl) as [E _]. refine (eq_ind_r Q _ E). unfold Q.
    assert (In (rl_degree m) (map (@rl_degree f64) (filter rule_loaded mids))) as IN.
    { apply in_map, filter_In. split; [eapply nth_error_In; exact Em|]. rewrite (same_loaded _ _ a1). exact Lr. }
    apply share_unit; [|apply K; exact IN]. rewrite Forall_forall in NN. apply NN. exact IN.
  - destruct (h2 eq_refl) as [E _]. refine (eq_ind_r Q _ E). split; [reflexivity|]. change (B2R (s_0 : f64)) with (B2R (f64_lit 0 1)). rewrite (proj1 f64_0_correct). lra.
Qed.
End Binary.
