(** The defuzzification of version 6.0. *)
From Coq Require Import ZArith List Bool String Relations.
From Verif Require Import Base Op Norm Shape Defuzz Aggregated Var Legacy SpecLegacy.
Import ListNotations.
Local Open Scope scalar_scope.

Section Proofs.
Context {T : Type} `{S : Scalar T}.
Lemma set_kept x (v : variable T) : kept_by v x -> v_value (set_value x v) = x.
Proof. intro K. unfold set_value. cbn [v_value]. destruct (v_lock_range v) eqn:L; [|reflexivity]. destruct (K L) as [K1 K2]. unfold bound. change (s_ltb (v_maximum v) x = false) in K2. now rewrite K2, K1. Qed.
Lemma finite_number x : isFinite x = true -> isNaN x = false.
Proof. unfold isFinite. destruct (isNaN x); [discriminate|reflexivity]. Qed.
(** variables out of use *)
Theorem v6_disabled vw o : v_enabled (o_var o) = false -> defuzzify_v6 vw o = (o, Ok tt).
Proof. intro H. unfold defuzzify_v6. now rewrite H. Qed.
Lemma attempt_none vw o : no_result vw o -> exists failure, attempt_v6 vw o = Ok (None, failure) /\ (o_fuzzy o = [] -> failure = None) /\
  (o_fuzzy o <> [] -> o_defuzzifier o = None -> failure = Some EDefuzzify) /\ (forall d e, o_fuzzy o <> [] -> o_defuzzifier o = Some d -> defuzzified vw d o = Throw e -> failure = Some e).
Proof.
  intro N. unfold attempt_v6. destruct (o_fuzzy o) as [|c cs] eqn:F; [exists None; repeat split; intros; congruence|]. destruct N as [N|[N|(d & e & N & D)]]; [congruence| |].
  - rewrite N. exists (Some EDefuzzify). repeat split; intros; congruence.
  - rewrite N, D. exists (Some e). repeat split; intros; try congruence.
Qed.
Lemma defuzzified_previous vw d (o : output T) p : defuzzified vw d (set_previous p o) = defuzzified vw d o. Proof. reflexivity. Qed.
Lemma attempt_previous vw (o : output T) p : attempt_v6 vw (set_previous p o) = attempt_v6 vw o. Proof. reflexivity. Qed.
(** with a result the two versions agree, up to NaN *)
Theorem v6_result vw o d x : v_enabled (o_var o) = true -> o_fuzzy o <> [] -> o_defuzzifier o = Some d -> defuzzified vw d o = Ok x ->
  snd (defuzzify_v6 vw o) = Ok tt /\ o_var (fst (defuzzify_v6 vw o)) = set_value x (o_var o) /\ (isNaN x = false -> o_var (fst (defuzzify_v6 vw o)) = o_var (fst (defuzzify vw o)) /\ snd (defuzzify vw o) = Ok tt).
Proof.
  intros E F D X. assert (A : attempt_v6 vw o = Ok (Some x, None)) by (unfold attempt_v6; destruct (o_fuzzy o); [congruence|]; now rewrite D, X).
  assert (Q : defuzzify_v6 vw o = (set_output_value x (if isFinite (v_value (o_var o)) then set_previous (v_value (o_var o)) o else o), Ok tt)) by (unfold defuzzify_v6; rewrite E; cbn [negb]; destruct (isFinite _); rewrite ?attempt_previous, A; reflexivity).
  assert (V : o_var (fst (defuzzify_v6 vw o)) = set_value x (o_var o)) by (rewrite Q; destruct (isFinite _); reflexivity). rewrite V. split; [rewrite Q; reflexivity|]. split; [reflexivity|]. intro N. unfold defuzzify. rewrite E, D, X. cbn [negb fst snd]. unfold settle. rewrite N, andb_false_r, N. split; reflexivity.
Qed.
(** without a result *)
Definition held (o : output T) : T := let p := if isFinite (v_value (o_var o)) then v_value (o_var o) else o_previous o in if (o_lock_previous o && negb (isNaN p))%bool then p else o_default o.
Lemma v6_none vw o : v_enabled (o_var o) = true -> no_result vw o -> exists failure, defuzzify_v6 vw o = (set_output_value (held o) (if isFinite (v_value (o_var o)) then set_previous (v_value (o_var o)) o else o), match failure with Some e => Throw e | None => Ok tt end) /\
  (o_fuzzy o = [] -> failure = None) /\ (o_fuzzy o <> [] -> o_defuzzifier o = None -> failure = Some EDefuzzify) /\ (forall d e, o_fuzzy o <> [] -> o_defuzzifier o = Some d -> defuzzified vw d o = Throw e -> failure = Some e).
Proof.
  intros E N. destruct (attempt_none vw o N) as (failure & A & R). exists failure. split; [|exact R]. unfold defuzzify_v6, held. rewrite E. cbn [negb]. destruct (isFinite _); rewrite ?attempt_previous, A; reflexivity.
Qed.
Lemma v6_settings vw l o p r : defuzzify_v6 vw (set_fuzzy l o) = (p, r) -> same_settings o p.
Proof.
  unfold defuzzify_v6. intro H. destruct (negb _); [injection H as <- <-; repeat split|].
  destruct (isFinite _); (destruct (attempt_v6 vw _) as [[[x|] f]| | |]; injection H as <- <-; repeat split).
Qed.
Lemma settings_trans (o p q : output T) : same_settings o p -> same_settings p q -> same_settings o q.
Proof. intros (A1 & A2 & A3) (B1 & B2 & B3). repeat split; congruence. Qed.
Lemma settings_refl (o : output T) : same_settings o o. Proof. repeat split. Qed.
Lemma run_settings o p : Run defuzzify_v6 o p -> same_settings o p.
Proof. induction 1 as [o p (vw & l & r & H)| |o p q _ IH1 _ IH2]; [exact (v6_settings vw l o p r H)|apply settings_refl|exact (settings_trans _ _ _ IH1 IH2)]. Qed.
Lemma kept_settings (o p : output T) x : same_settings o p -> kept_by (o_var o) x -> kept_by (o_var p) x.
Proof. intros (A1 & A2 & A3) K L. injection A1 as _ _ M1 M2. injection A2 as _ L2 _. rewrite M1, M2. apply K. congruence. Qed.
(** a locked value stays the same while there is no result *)
Theorem v6_held o p : Gaps defuzzify_v6 o p -> v_enabled (o_var o) = true -> o_lock_previous o = true -> isFinite (v_value (o_var o)) = true -> kept_by (o_var o) (v_value (o_var o)) ->
  v_value (o_var p) = v_value (o_var o) /\ same_settings o p.
Proof.
  induction 1 as [o p (vw & l & r & N & H)|o|o p q _ IH1 _ IH2]; intros E L F K.
  - assert (SS := v6_settings vw l o p r H). split; [|exact SS]. destruct (v6_none vw (set_fuzzy l o) E N) as (failure & Q & _). rewrite H in Q. injection Q as -> _. cbn [set_fuzzy o_var]. rewrite F. cbn [set_output_value set_var o_var set_previous].
    unfold held. cbn [set_fuzzy o_var o_lock_previous o_previous o_default]. rewrite F, L, (finite_number _ F). cbn [negb andb]. now apply set_kept.
  - split; [reflexivity|apply settings_refl].
  - destruct (IH1 E L F K) as [V1 S1]. assert (S1' := S1). destruct S1' as (A1 & A2 & A3). injection A2 as E' L' _. injection A3 as _ _ _ P'.
    destruct IH2 as [V2 S2]; [congruence|congruence|rewrite V1; exact F|rewrite V1; exact (kept_settings _ _ _ S1 K)|]. split; [congruence|exact (settings_trans _ _ _ S1 S2)].
Qed.
(** without the lock it is the default *)
Theorem v6_default o p : Gap defuzzify_v6 o p -> v_enabled (o_var o) = true -> o_lock_previous o = false -> kept_by (o_var o) (o_default o) -> v_value (o_var p) = o_default o.
Proof.
  intros (vw & l & r & N & H) E L K. destruct (v6_none vw (set_fuzzy l o) E N) as (failure & Q & _). rewrite H in Q. injection Q as -> _. unfold held. cbn [set_fuzzy o_var o_lock_previous o_previous o_default]. rewrite L. cbn [andb]. destruct (isFinite _); cbn [set_output_value set_var o_var set_previous set_fuzzy]; now apply set_kept.
Qed.
(** what is remembered is the last finite value *)
Theorem v6_memory o p : Run defuzzify_v6 o p -> o_previous p = o_previous o \/ isFinite (o_previous p) = true.
Proof.
  induction 1 as [o p (vw & l & r & H)|o|o p q _ IH1 _ IH2]; [|now left|destruct IH2 as [-> | ->]; auto].
  unfold defuzzify_v6 in H. destruct (negb _); [injection H as <- <-; now left|]. cbn [set_fuzzy o_var] in H. destruct (isFinite (v_value (o_var o))) eqn:F; (destruct (attempt_v6 vw _) as [[[x|] f]| | |]; injection H as <- <-); cbn; auto.
Qed.
Theorem v6_remembers vw l o p r : v_enabled (o_var o) = true -> isFinite (v_value (o_var o)) = true -> defuzzify_v6 vw (set_fuzzy l o) = (p, r) -> o_previous p = v_value (o_var o).
Proof.
  intros E F H. unfold defuzzify_v6 in H. cbn [set_fuzzy o_var] in H. rewrite E in H. cbn [negb] in H. rewrite F in H. destruct (attempt_v6 vw _) as [[[x|] f]| | |]; injection H as <- <-; reflexivity.
Qed.
(** what it throws; the value is set nevertheless *)
Theorem v6_throws vw o : v_enabled (o_var o) = true -> no_result vw o ->
  (o_fuzzy o = [] -> snd (defuzzify_v6 vw o) = Ok tt) /\ (o_fuzzy o <> [] -> o_defuzzifier o = None -> snd (defuzzify_v6 vw o) = Throw EDefuzzify) /\
  (forall d e, o_fuzzy o <> [] -> o_defuzzifier o = Some d -> defuzzified vw d o = Throw e -> snd (defuzzify_v6 vw o) = Throw e).
Proof.
  intros E N. destruct (v6_none vw o E N) as (failure & Q & R1 & R2 & R3). rewrite Q. cbn [snd]. split; [intro H; now rewrite (R1 H)|]. split; [intros H D; now rewrite (R2 H D)|intros d e H D X; now rewrite (R3 d e H D X)].
Qed.
End Proofs.
