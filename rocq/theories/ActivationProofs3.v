(** Proofs about the activation methods, continued: independence of stale state; queues; normalisation. *)
From Coq Require Import ZArith String List Bool Permutation Lia Reals Lra.
From Flocq Require Import IEEE754.BinarySingleNaN.
From Verif Require Import Base Op XR XRFacts F64 F64Facts OpProofs Norm Aggregated Function Rule Var Activation SpecActivation ActivationProofs ActivationProofs2.
Import ListNotations.

Section Proofs.
Context {T : Type} `{S : Scalar T}.
Notation rule := (rule T).

Lemma same_sym (a b : rule) : same_rule a b -> same_rule b a.
Proof. unfold same_rule. intuition congruence. Qed.
Lemma same_deact (a b : rule) : same_rule a b -> rule_deactivate b = rule_deactivate a.
Proof. intros (h1 & h2 & h3 & h4 & h5 & h6 & h7). destruct a, b. cbn in *. subst. reflexivity. Qed.
Lemma sames_refl (l : list rule) : same_rules l l.
Proof. induction l; constructor; [apply same_refl|assumption]. Qed.
Lemma sames_sym (l l' : list rule) : same_rules l l' -> same_rules l' l.
Proof. induction 1; constructor; [now apply same_sym|assumption]. Qed.
Lemma sames_trans (a b c : list rule) : same_rules a b -> same_rules b c -> same_rules a c.
Proof.
  intros H. revert c. induction H as [|x y a b E H IH]; intros c K; inversion K; subst; constructor; [|now apply IH].
  eapply same_trans; eassumption.
Qed.
Lemma sames_rev (l l' : list rule) : same_rules l l' -> same_rules (rev l) (rev l').
Proof.
  induction 1; cbn; [constructor|]. apply Forall2_app; [assumption|]. constructor; [assumption|constructor].
Qed.
Lemma sames_set_nth i (r q : rule) : forall l, nth_error l i = Some r -> same_rule r q -> same_rules l (set_nth i q l).
Proof.
  intros l. revert i. induction l as [|x l IH]; intros [|i]; cbn; intros E H; try discriminate.
  - inversion E; subst. constructor; [exact H|apply sames_refl].
  - constructor; [apply same_refl|]. exact (IH _ E H).
Qed.

(** two runs with the same effect, up to rules not reached because of an exception *)
Definition agree (x y : list rule * fuzzy T * res unit) : Prop :=
  snd (fst x) = snd (fst y) /\ snd x = snd y /\ (snd x = Ok tt -> fst (fst x) = fst (fst y)).
Lemma agree_refl x : agree x x.
Proof. repeat split. Qed.

Section Methods.
Variable enabled : varref -> bool.
Variable degree : fuzzy T -> varref -> nat -> res T.
Variables (conjunction : option tnorm) (disjunction : option snorm) (implication : option tnorm).
Variable drain : drainer T.
Notation act := (activate_with enabled degree conjunction disjunction).
Notation trig := (trigger enabled implication).
Notation pas := (pass enabled degree conjunction disjunction implication).
Notation dpass := (degrees_pass enabled degree conjunction disjunction).

Lemma act_same f (r r1 : rule) : act f r = Ok r1 -> same_rule r r1.
Proof.
  unfold activate_with, rule_activate. destruct (rule_loaded r); cbn [negb]; [|discriminate].
  destruct (antecedent_degree _ _ _ _ _) as [d|x| |]; cbn [rbind]; try discriminate. intros H. inversion H; subst. apply same_degree.
Qed.
Lemma trig_same f (r r1 : rule) f1 : trig f r = Ok (r1, f1) -> same_rule r r1.
Proof.
  unfold trigger, rule_trigger. destruct (rule_loaded r); cbn [negb rbind]; [|discriminate].
  destruct (rl_enabled r && isGt (rl_degree r) s_0)%bool.
  - destruct (consequent_modify _ _ _) as [d|x| |]; cbn [rbind]; try discriminate.
    destruct (add_terms _ _ _) as [d'|x| |]; cbn [rbind]; try discriminate. intros H. inversion H; subst. apply same_triggered.
  - cbn [rbind]. destruct (add_terms _ _ _) as [d'|x| |]; cbn [rbind]; try discriminate. intros H. inversion H; subst. apply same_refl.
Qed.

(** ** every method keeps everything but degrees and flags, even when it throws *)
Lemma pass_keeps choose : forall rules k f rules' f' e, pas choose k rules f = (rules', f', e) -> same_rules rules rules'.
Proof.
  induction rules as [|r rules IH]; intros k f rules' f' e H; cbn [pass] in H.
  - inversion H. constructor.
  - destruct (rule_loaded (rule_deactivate r)).
    + destruct (act f (rule_deactivate r)) as [r1|x| |] eqn:A;
        try (inversion H; subst; constructor; [apply same_deactivate|apply sames_refl]).
      apply act_same in A. pose proof (same_trans _ _ _ (same_deactivate r) A) as A'.
      destruct (choose k (rl_degree r1)).
      * destruct (trig f r1) as [[r2 f1]|x| |] eqn:G; try (inversion H; subst; constructor; [exact A'|apply sames_refl]).
        apply trig_same in G. destruct (pas choose (k + 1)%Z rules f1) as [[rs g] e'] eqn:E. inversion H; subst.
        constructor; [eapply same_trans; eassumption|eapply IH; exact E].
      * destruct (pas choose k rules f) as [[rs g] e'] eqn:E. inversion H; subst. constructor; [exact A'|eapply IH; exact E].
    + destruct (pas choose k rules f) as [[rs g] e'] eqn:E. inversion H; subst. constructor; [apply same_deactivate|eapply IH; exact E].
Qed.
Lemma dpass_keeps f : forall rules rules' e, dpass f rules = (rules', e) -> same_rules rules rules'.
Proof.
  induction rules as [|r rules IH]; intros rules' e H; cbn [degrees_pass] in H.
  - inversion H. constructor.
  - destruct (rule_loaded (rule_deactivate r)).
    + destruct (act f (rule_deactivate r)) as [r1|x| |] eqn:A;
        try (inversion H; subst; constructor; [apply same_deactivate|apply sames_refl]).
      apply act_same in A. destruct (dpass f rules) as [rs e'] eqn:E. inversion H; subst.
      constructor; [eapply same_trans; [apply same_deactivate|exact A]|eapply IH; reflexivity].
    + destruct (dpass f rules) as [rs e'] eqn:E. inversion H; subst. constructor; [apply same_deactivate|eapply IH; reflexivity].
Qed.
Lemma trigger_at_keeps : forall order rules f rules' f' e,
  trigger_at enabled implication order rules f = (rules', f', e) -> same_rules rules rules'.
Proof.
  induction order as [|i order IH]; intros rules f rules' f' e H; cbn [trigger_at] in H.
  - inversion H. apply sames_refl.
  - destruct (nth_error rules i) as [r|] eqn:E; [|inversion H; apply sames_refl].
    destruct (trig f r) as [[r1 f1]|x| |] eqn:G; try (inversion H; apply sames_refl).
    apply trig_same in G. apply IH in H. eapply sames_trans; [|exact H]. eapply sames_set_nth; eassumption.
Qed.
Lemma share_keeps sum : forall rules f rules' f' e,
  share_pass enabled implication sum rules f = (rules', f', e) -> same_rules rules rules'.
Proof.
  induction rules as [|r rules IH]; intros f rules' f' e H; cbn [share_pass] in H.
  - inversion H. constructor.
  - destruct (rule_loaded r).
    + destruct (trig f (set_degree _ r)) as [[r2 f1]|x| |] eqn:G;
        try (inversion H; subst; constructor; [apply same_degree|apply sames_refl]).
      apply trig_same in G. destruct (share_pass enabled implication sum rules f1) as [[rs g] e'] eqn:E. inversion H; subst.
      constructor; [eapply same_trans; [apply same_degree|exact G]|eapply IH; exact E].
    + destruct (share_pass enabled implication sum rules f) as [[rs g] e'] eqn:E. inversion H; subst. constructor; [apply same_refl|eapply IH; exact E].
Qed.
Notation activ := (activate enabled degree conjunction disjunction implication drain).
Lemma queue_keeps less n rules f rules' f' e :
  queue_rules enabled degree conjunction disjunction implication drain less n rules f = (rules', f', e) -> same_rules rules rules'.
Proof.
  unfold queue_rules. destruct (dpass f rules) as [r1 e1] eqn:D. apply dpass_keeps in D. intros H.
  destruct e1; try (inversion H; subst; exact D). apply trigger_at_keeps in H. eapply sames_trans; eassumption.
Qed.
Lemma activate_keeps a rules f rules' f' e : activ a rules f = (rules', f', e) -> same_rules rules rules'.
Proof.
  destruct a; cbn [activate]; intros H.
  - eapply pass_keeps; exact H.
  - eapply pass_keeps; exact H.
  - unfold last_rules in H. destruct (pas _ _ (rev rules) f) as [[rs g] e'] eqn:E. inversion H; subst.
    apply pass_keeps in E. apply sames_rev in E. rewrite rev_involutive in E. exact E.
  - eapply queue_keeps; exact H.
  - eapply queue_keeps; exact H.
  - unfold proportional in H. destruct (dpass f rules) as [r1 e1] eqn:D. apply dpass_keeps in D.
    destruct e1; try (inversion H; subst; exact D). apply share_keeps in H. eapply sames_trans; eassumption.
  - eapply pass_keeps; exact H.
Qed.

(** ** no method looks at the degrees and flags left by earlier runs *)
Lemma pass_same choose : forall rules rules2, same_rules rules rules2 -> forall k f, agree (pas choose k rules f) (pas choose k rules2 f).
Proof.
  induction 1 as [|r q rules rules2 E H IH]; intros k f; [apply agree_refl|].
  cbn [pass]. rewrite (same_deact _ _ E).
  assert (forall r0 k f, agree (let '(rs, fz, e) := pas choose k rules f in (r0 :: rs, fz, e))
                               (let '(rs, fz, e) := pas choose k rules2 f in (r0 :: rs, fz, e))) as K.
  { intros r0 k0 f0. specialize (IH k0 f0). destruct (pas choose k0 rules f0) as [[a b] c], (pas choose k0 rules2 f0) as [[a' b'] c'].
    destruct IH as (h1 & h2 & h3). cbn in *. repeat split; cbn; auto. intros X. f_equal. auto. }
  destruct (rule_loaded (rule_deactivate r)); [|apply K].
  destruct (act f (rule_deactivate r)) as [r1|x| |]; try (repeat split; cbn; discriminate).
  destruct (choose k (rl_degree r1)); [|apply K].
  destruct (trig f r1) as [[r2 f1]|x| |]; try (repeat split; cbn; discriminate). apply K.
Qed.
Lemma dpass_same f : forall rules rules2, same_rules rules rules2 ->
  snd (dpass f rules) = snd (dpass f rules2) /\ (snd (dpass f rules) = Ok tt -> dpass f rules = dpass f rules2).
Proof.
  induction 1 as [|r q rules rules2 E H IH]; [now split|].
  cbn [degrees_pass]. rewrite (same_deact _ _ E).
  assert (forall r0 : rule, let x := (let '(rs, e) := dpass f rules in (r0 :: rs, e)) in let y := (let '(rs, e) := dpass f rules2 in (r0 :: rs, e)) in
     snd x = snd y /\ (snd x = Ok tt -> x = y)) as K.
  { intros r0. destruct (dpass f rules) as [a b], (dpass f rules2) as [a' b']. cbn in *. destruct IH as [h1 h2].
    split; [exact h1|]. intros X. specialize (h2 X). inversion h2. reflexivity. }
  destruct (rule_loaded (rule_deactivate r)); [|apply K].
  destruct (act f (rule_deactivate r)) as [r1|x| |]; try (split; cbn; [reflexivity|discriminate]). apply K.
Qed.
Lemma after_dpass rules rules2 f (k : list rule -> list rule * fuzzy T * res unit) : same_rules rules rules2 ->
  agree (let '(rs, e) := dpass f rules in match e with Ok _ => k rs | _ => (rs, f, e) end)
        (let '(rs, e) := dpass f rules2 in match e with Ok _ => k rs | _ => (rs, f, e) end).
Proof.
  intros H. destruct (dpass_same f _ _ H) as [h1 h2]. destruct (dpass f rules) as [a b], (dpass f rules2) as [a' b']. cbn in *. subst b'.
  destruct b as [[]|x| |]; try (repeat split; cbn; discriminate). specialize (h2 eq_refl). inversion h2. apply agree_refl.
Qed.
Lemma activate_same a rules rules2 f : same_rules rules rules2 -> agree (activ a rules f) (activ a rules2 f).
Proof.
  intros H. destruct a; cbn [activate]; try (apply pass_same; exact H); try (apply (after_dpass _ _ f _ H)).
  unfold last_rules. pose proof (pass_same (first_choice n threshold) _ _ (sames_rev _ _ H) 0%Z f) as K.
  destruct (pas _ _ (rev rules) f) as [[a b] c], (pas _ _ (rev rules2) f) as [[a' b'] c']. destruct K as (h1 & h2 & h3). cbn in *.
  repeat split; cbn; auto. intros X. now rewrite h3.
Qed.

(** ** what every method leaves *)
Definition quiet (r : rule) : Prop := rl_triggered r = false /\ (rule_loaded r = false -> rl_degree r = s_0).
Lemma quiet_settled r : quiet r -> settled r.
Proof. intros [h1 h2]. split; [now split; auto|congruence]. Qed.
Lemma act_quiet f (r r1 : rule) : act f (rule_deactivate r) = Ok r1 -> quiet r1.
Proof.
  unfold activate_with, rule_activate. destruct (rule_loaded (rule_deactivate r)) eqn:L; cbn [negb]; [|discriminate].
  destruct (antecedent_degree _ _ _ _ _) as [d|x| |]; cbn [rbind]; try discriminate. intros H. inversion H; subst. split; [reflexivity|].
  change (rule_loaded (rule_deactivate r) = false -> rl_degree (set_degree (rl_weight (rule_deactivate r) * d)%S (rule_deactivate r)) = s_0).
  intros X. congruence.
Qed.
Lemma trig_settled f (r r1 : rule) f1 : settled r -> trig f r = Ok (r1, f1) -> settled r1.
Proof.
  intros Hs. unfold trigger, rule_trigger. destruct (rule_loaded r) eqn:L; cbn [negb rbind]; [|discriminate].
  destruct (rl_enabled r) eqn:En; cbn [andb]; [destruct (isGt (rl_degree r) s_0) eqn:G|].
  - destruct (consequent_modify _ _ _) as [d|x| |]; cbn [rbind]; try discriminate.
    destruct (add_terms _ _ _) as [d'|x| |]; cbn [rbind]; try discriminate. intros H. inversion H; subst.
    split; [intros X; change (rule_loaded r = false) in X; congruence|]. intros _. split; [exact En|]. split; [exact L|exact G].
  - cbn [rbind]. destruct (add_terms _ _ _) as [d'|x| |]; cbn [rbind]; try discriminate. intros H. inversion H; subst. exact Hs.
  - cbn [rbind]. destruct (add_terms _ _ _) as [d'|x| |]; cbn [rbind]; try discriminate. intros H. inversion H; subst. exact Hs.
Qed.
Lemma pass_settled choose : forall rules k f rules' f', pas choose k rules f = (rules', f', Ok tt) -> Forall settled rules'.
Proof.
  induction rules as [|r rules IH]; intros k f rules' f' H; cbn [pass] in H.
  - inversion H. constructor.
  - destruct (rule_loaded (rule_deactivate r)).
    + destruct (act f (rule_deactivate r)) as [r1|x| |] eqn:A; try (inversion H; fail).
      apply act_quiet, quiet_settled in A. destruct (choose k (rl_degree r1)).
      * destruct (trig f r1) as [[r2 f1]|x| |] eqn:G; try (inversion H; fail).
        apply trig_settled in G; [|exact A]. destruct (pas choose (k + 1)%Z rules f1) as [[rs g] e'] eqn:E. inversion H; subst.
        constructor; [exact G|eapply IH; exact E].
      * destruct (pas choose k rules f) as [[rs g] e'] eqn:E. inversion H; subst. constructor; [exact A|eapply IH; exact E].
    + destruct (pas choose k rules f) as [[rs g] e'] eqn:E. inversion H; subst. constructor; [|eapply IH; exact E].
      apply quiet_settled. split; reflexivity.
Qed.
Lemma dpass_quiet f : forall rules rules', dpass f rules = (rules', Ok tt) -> Forall quiet rules'.
Proof.
  induction rules as [|r rules IH]; intros rules' H; cbn [degrees_pass] in H.
  - inversion H. constructor.
  - destruct (rule_loaded (rule_deactivate r)).
    + destruct (act f (rule_deactivate r)) as [r1|x| |] eqn:A; try (inversion H; fail).
      apply act_quiet in A. destruct (dpass f rules) as [rs e'] eqn:E. inversion H; subst. constructor; [exact A|eapply IH; reflexivity].
    + destruct (dpass f rules) as [rs e'] eqn:E. inversion H; subst. constructor; [|eapply IH; reflexivity]. split; reflexivity.
Qed.
Lemma set_nth_Forall {A} (Q : A -> Prop) i x l : Forall Q l -> Q x -> Forall Q (set_nth i x l).
Proof. intros H. revert i. induction H; intros [|i] Hx; cbn; constructor; auto. Qed.
Lemma trigger_at_settled : forall order rules f rules' f' e, Forall settled rules ->
  trigger_at enabled implication order rules f = (rules', f', e) -> Forall settled rules'.
Proof.
  induction order as [|i order IH]; intros rules f rules' f' e F H; cbn [trigger_at] in H.
  - inversion H. congruence.
  - destruct (nth_error rules i) as [r|] eqn:E; [|inversion H; congruence].
    destruct (trig f r) as [[r1 f1]|x| |] eqn:G; try (inversion H; congruence).
    apply IH in H; [exact H|]. apply set_nth_Forall; [exact F|]. apply nth_error_In in E. rewrite Forall_forall in F.
    eapply trig_settled; [apply F; exact E|exact G].
Qed.
Lemma share_settled sum : forall rules f rules' f', Forall quiet rules ->
  share_pass enabled implication sum rules f = (rules', f', Ok tt) -> Forall settled rules'.
Proof.
  induction rules as [|r rules IH]; intros f rules' f' F H; cbn [share_pass] in H.
  - inversion H. constructor.
  - inversion F as [|? ? [Q1 Q2] F']; subst. destruct (rule_loaded r) eqn:L.
    + destruct (trig f (set_degree _ r)) as [[r2 f1]|x| |] eqn:G; try (inversion H; fail).
      apply trig_settled in G; [|apply quiet_settled; split; [exact Q1|intros X; change (rule_loaded r = false) in X; congruence]].
      destruct (share_pass enabled implication sum rules f1) as [[rs g] e'] eqn:E. inversion H; subst.
      constructor; [exact G|eapply IH; [exact F'|exact E]].
    + destruct (share_pass enabled implication sum rules f) as [[rs g] e'] eqn:E. inversion H; subst.
      constructor; [apply quiet_settled; now split; auto|eapply IH; [exact F'|exact E]].
Qed.
Lemma quiets_settled l : Forall quiet l -> Forall settled l.
Proof. intros H. eapply Forall_impl; [|exact H]. exact quiet_settled. Qed.
Lemma queue_settled less n rules f rules' f' :
  queue_rules enabled degree conjunction disjunction implication drain less n rules f = (rules', f', Ok tt) -> Forall settled rules'.
Proof.
  unfold queue_rules. destruct (dpass f rules) as [r1 e1] eqn:D. intros H. destruct e1 as [[]|x| |]; try (inversion H; fail).
  apply dpass_quiet, quiets_settled in D. eapply trigger_at_settled; eassumption.
Qed.
Lemma activate_settled a rules f rules' f' : activ a rules f = (rules', f', Ok tt) -> Forall settled rules'.
Proof.
  destruct a; cbn [activate]; intros H; try (eapply pass_settled; exact H); try (eapply queue_settled; exact H).
  - unfold last_rules in H. destruct (pas _ _ (rev rules) f) as [[rs g] e'] eqn:E. inversion H; subst.
    apply pass_settled in E. now apply Forall_rev.
  - unfold proportional in H. destruct (dpass f rules) as [r1 e1] eqn:D. destruct e1 as [[]|x| |]; try (inversion H; fail).
    apply dpass_quiet in D. eapply share_settled; eassumption.
Qed.
End Methods.

(** ** pointwise equal variables and degrees give the same run *)
Section Ext.
Variables enabled enabled2 : varref -> bool.
Variables degree degree2 : fuzzy T -> varref -> nat -> res T.
Hypothesis Ee : forall v, enabled v = enabled2 v.
Hypothesis Ed : forall f v t, degree f v t = degree2 f v t.
Variables (conjunction : option tnorm) (disjunction : option snorm) (implication : option tnorm).
Variable drain : drainer T.

Lemma expression_ext f e : expression_degree enabled (degree f) conjunction disjunction e = expression_degree enabled2 (degree2 f) conjunction disjunction e.
Proof.
  induction e as [p|n l IHl r IHr]; cbn [expression_degree].
  - unfold proposition_degree. rewrite Ee. destruct (pr_term p); [rewrite Ed|]; reflexivity.
  - rewrite IHl, IHr. reflexivity.
Qed.
Lemma act_ext f r : activate_with enabled degree conjunction disjunction f r = activate_with enabled2 degree2 conjunction disjunction f r.
Proof.
  unfold activate_with, rule_activate, antecedent_degree. destruct (rl_antecedent r); [rewrite expression_ext|]; reflexivity.
Qed.
Lemma modify_ext : forall cs (d : T), conclusions_modify enabled d cs = conclusions_modify enabled2 d cs.
Proof. induction cs as [|p cs IH]; intros d; cbn [conclusions_modify]; [reflexivity|]. rewrite Ee, !IH. reflexivity. Qed.
Lemma trig_ext f r : trigger enabled implication f r = trigger enabled2 implication f r.
Proof.
  unfold trigger, rule_trigger, consequent_modify. destruct (rl_consequent r); [reflexivity|]. rewrite modify_ext. reflexivity.
Qed.
Lemma pass_ext choose : forall rules k f, pass enabled degree conjunction disjunction implication choose k rules f =
  pass enabled2 degree2 conjunction disjunction implication choose k rules f.
Proof.
  induction rules as [|r rules IH]; intros k f; cbn [pass]; [reflexivity|]. rewrite act_ext, IH.
  destruct (activate_with _ _ _ _ _ _) as [r1|x| |]; try reflexivity. rewrite trig_ext.
  destruct (trigger _ _ _ _) as [[r2 f1]|x| |]; try reflexivity. rewrite IH. reflexivity.
Qed.
Lemma dpass_ext f : forall rules, degrees_pass enabled degree conjunction disjunction f rules = degrees_pass enabled2 degree2 conjunction disjunction f rules.
Proof. induction rules as [|r rules IH]; cbn [degrees_pass]; [reflexivity|]. rewrite act_ext, IH. reflexivity. Qed.
Lemma trigger_at_ext : forall order rules f, trigger_at enabled implication order rules f = trigger_at enabled2 implication order rules f.
Proof.
  induction order as [|i order IH]; intros rules f; cbn [trigger_at]; [reflexivity|]. destruct (nth_error rules i); [|reflexivity].
  rewrite trig_ext. destruct (trigger _ _ _ _) as [[r2 f1]|x| |]; try reflexivity. apply IH.
Qed.
Lemma share_ext sum : forall rules f, share_pass enabled implication sum rules f = share_pass enabled2 implication sum rules f.
Proof.
  induction rules as [|r rules IH]; intros f; cbn [share_pass]; [reflexivity|]. rewrite trig_ext, IH.
  destruct (trigger _ _ _ _) as [[r2 f1]|x| |]; try reflexivity. rewrite IH. reflexivity.
Qed.
Lemma activate_ext a rules f : activate enabled degree conjunction disjunction implication drain a rules f =
  activate enabled2 degree2 conjunction disjunction implication drain a rules f.
Proof.
  destruct a; cbn [activate]; unfold general, first, last_rules, threshold_rules, highest, lowest, queue_rules, proportional;
    rewrite ?pass_ext, ?dpass_ext; try reflexivity.
  - destruct (degrees_pass _ _ _ _ _ _) as [r e]. destruct e; try reflexivity. apply trigger_at_ext.
  - destruct (degrees_pass _ _ _ _ _ _) as [r e]. destruct e; try reflexivity. apply trigger_at_ext.
  - destruct (degrees_pass _ _ _ _ _ _) as [r e]. destruct e; try reflexivity. apply share_ext.
Qed.
End Ext.

(** ** a queue *)
Fixpoint queue_insert (less : T -> T -> bool) (x : nat * T) (l : list (nat * T)) : list (nat * T) :=
  match l with
  | [] => [x]
  | y :: l => if less (snd x) (snd y) then y :: queue_insert less x l else x :: y :: l
  end.
Definition stable_drain : drainer T := fun less keys =>
  map fst (fold_right (queue_insert less) [] (combine (seq 0 (length keys)) keys)).
Lemma insert_perm less x l : Permutation (queue_insert less x l) (x :: l).
Proof.
  induction l as [|y l IH]; cbn; [constructor; constructor|]. destruct (less (snd x) (snd y)); [|reflexivity].
  etransitivity; [apply perm_skip; exact IH|]. apply perm_swap.
Qed.
Lemma sort_perm less l : Permutation (fold_right (queue_insert less) [] l) l.
Proof. induction l as [|x l IH]; cbn; [constructor|]. etransitivity; [apply insert_perm|]. now constructor. Qed.
Lemma negative_trans less (keys : list T) a b c : strict_weak less keys -> In a keys -> In b keys -> In c keys ->
  less a b = false -> less b c = false -> less a c = false.
Proof.
  intros (_ & As & Tr & Ic) Ha Hb Hc H1 H2. destruct (less a c) eqn:E; [|reflexivity].
  destruct (less b a) eqn:E1.
  - rewrite (Tr b a c) in H2; auto.
  - destruct (less c b) eqn:E2; [rewrite (Tr a c b) in H1; auto|]. destruct (Ic a b c); auto. congruence.
Qed.
Fixpoint Sorted2 (less : T -> T -> bool) (l : list (nat * T)) : Prop :=
  match l with [] => True | x :: l => (forall y, In y l -> less (snd x) (snd y) = false) /\ Sorted2 less l end.
Lemma sort_sorted less keys : strict_weak less keys -> forall l, (forall p, In p l -> In (snd p) keys) ->
  Sorted2 less (fold_right (queue_insert less) [] l).
Proof.
  intros W. induction l as [|x l IH]; intros Hl; cbn [fold_right]; [exact I|].
  assert (forall p, In p (fold_right (queue_insert less) [] l) -> In (snd p) keys) as Hs.
  { intros p Hp. apply Hl. right. eapply Permutation_in; [apply sort_perm|exact Hp]. }
  specialize (IH (fun p Hp => Hl p (or_intror Hp))). specialize (Hl x (or_introl eq_refl)).
  revert Hs IH. generalize (fold_right (queue_insert less) [] l). intros s. induction s as [|y s IHs]; intros Hs IH; cbn [queue_insert].
  - split; [intros y []|exact I].
  - destruct IH as [I1 I2]. pose proof W as (_ & As & _). destruct (less (snd x) (snd y)) eqn:E.
    + split.
      * intros z Hz. apply (Permutation_in _ (insert_perm less x s)) in Hz. destruct Hz as [<- | Hz]; [|auto].
        apply As; auto. apply Hs. now left.
      * apply IHs; auto. intros p Hp. apply Hs. now right.
    + split; [|now split]. intros z [<- | Hz]; [exact E|].
      eapply negative_trans with (b := snd y); eauto; apply Hs; [now left|now right].
Qed.
Lemma stable_drain_ok : drain_spec stable_drain.
Proof.
  intros less keys W. unfold stable_drain. set (ps := combine (seq 0 (length keys)) keys).
  assert (forall p, In p ps -> nth_error keys (fst p) = Some (snd p)) as Hp.
  { intros [i x] Hi. apply combine_seq_nth in Hi. rewrite Nat.sub_0_r in Hi. exact (proj2 Hi). }
  assert (forall p, In p ps -> In (snd p) keys) as Hk by (intros p H; eapply nth_error_In; apply Hp; exact H).
  split.
  - etransitivity; [apply Permutation_map, sort_perm|]. unfold ps.
    assert (forall (l : list T) s, map fst (combine (seq s (length l)) l) = seq s (length l)) as E.
    { induction l as [|x l IH]; intros s; cbn; [reflexivity|]. now rewrite IH. }
    rewrite E. reflexivity.
  - pose proof (sort_sorted less keys W ps Hk) as HS. pose proof (sort_perm less ps) as HP.
    assert (forall p, In p (fold_right (queue_insert less) [] ps) -> nth_error keys (fst p) = Some (snd p)) as Hq.
    { intros p H. apply Hp. eapply Permutation_in; eassumption. }
    revert HS Hq. generalize (fold_right (queue_insert less) [] ps). intros l HS Hq. clear - HS Hq.
    induction l as [|p l IH]; intros i j a b x y L Ha Hb Hx Hy; [destruct i; discriminate|].
    destruct HS as [H1 H2]. destruct j as [|j]; [lia|]. cbn in Hb.
    destruct i as [|i].
    + cbn in Ha. inversion Ha; subst a. rewrite Hq in Hx by now left. inversion Hx; subst x.
      apply nth_error_map_iff in Hb. destruct Hb as (q & Hj & <-). apply nth_error_In in Hj.
      rewrite Hq in Hy by now right. inversion Hy; subst y. apply H1. exact Hj.
    + cbn in Ha. apply (IH H2 (fun p Hp => Hq p (or_intror Hp)) i j a b x y); auto. lia.
Qed.
End Proofs.

(** ** Highest and Lowest over numbers which are not NaN *)
Lemma xlt_iff a b : xltb a b = true <->
  match a, b with XNaN, _ | _, XNaN => False | XNInf, XNInf => False | XNInf, _ => True | _, XNInf => False | XPInf, _ => False | XFin _, XPInf => True
  | XFin a, XFin b => (a < b)%R end.
Proof.
  unfold xltb, Rltb. destruct a, b; split; intros H; try tauto; try discriminate; try reflexivity; destruct (Rlt_dec _ _); auto; discriminate.
Qed.

Lemma x_strict keys : (forall a, In a keys -> a <> XNaN) -> strict_weak xltb keys.
Proof.
  intros N. assert (forall a b, xltb a b = false <-> ~ xltb a b = true) as B by (intros a b; destruct (xltb a b); intuition congruence).
  repeat split; intros.
  - apply B. rewrite xlt_iff. destruct a; auto. lra.
  - apply B. apply xlt_iff in H1. rewrite xlt_iff. destruct a, b; auto. lra.
  - apply xlt_iff in H2, H3. apply xlt_iff. destruct a, b, c; try tauto. lra.
  - apply N in H, H0, H1. apply B in H2, H3, H4, H5. apply B. rewrite xlt_iff in *. destruct a, b, c; try tauto. lra.
  - apply N in H, H0, H1. apply B in H2, H3, H4, H5. apply B. rewrite xlt_iff in *. destruct a, b, c; try tauto. lra.
Qed.
Lemma strict_flip {T} (less : T -> T -> bool) keys : strict_weak less keys -> strict_weak (fun a b => less b a) keys.
Proof.
  intros (h1 & h2 & h3 & h4). split; [exact h1|]. split; [intros; apply h2; auto|]. split; [intros a b c **; apply (h3 c b a); auto|].
  intros a b c **. destruct (h4 a b c); auto.
Qed.
Lemma strict_map {A B} (g : A -> B) (less : A -> A -> bool) (lessB : B -> B -> bool) keys :
  (forall a b, less a b = lessB (g a) (g b)) -> strict_weak lessB (map g keys) -> strict_weak less keys.
Proof.
  intros E (h1 & h2 & h3 & h4). assert (forall a, In a keys -> In (g a) (map g keys)) as M by (intros; now apply in_map).
  split; [intros; rewrite E; auto|]. split; [intros a b Ha Hb; rewrite !E; auto|].
  split; [intros a b c Ha Hb Hc; rewrite !E; apply h3; auto|]. intros a b c Ha Hb Hc; rewrite !E; apply h4; auto.
Qed.
Lemma f_strict (keys : list f64) : (forall a, In a keys -> f2x a <> XNaN) -> strict_weak Bltb keys.
Proof.
  intros N. eapply strict_map; [exact f_ltb|]. apply x_strict. intros x H. apply in_map_iff in H. destruct H as (a & <- & H). auto.
Qed.
Lemma candidate_positive {T} `{S : Scalar T} (rules : list (rule T)) d : In d (map (degree_at rules) (candidates rules)) -> (d >? s_0)%S = true.
Proof.
  intros H. apply in_map_iff in H. destruct H as (i & <- & H). apply candidates_in in H. destruct H as (r & E & P).
  unfold degree_at. rewrite E. unfold positive_rule in P. apply andb_true_iff in P. destruct P as [_ P].
  unfold isGt, isGt_tol in P. apply andb_true_iff in P. apply P.
Qed.
Section Exact.
Context (P : xparam).
#[local] Hint Extern 0 (Scalar xr) => exact (XRScalar P) : typeclass_instances.
Lemma x_candidates (rules : list (rule xr)) : strict_weak (fun a b => a <? b)%S (map (degree_at rules) (candidates rules)).
Proof.
  apply x_strict. intros a H. apply candidate_positive in H. intros ->. change (xltb s_0 XNaN = true) in H. apply xlt_iff in H. destruct s_0; exact H.
Qed.
Lemma x_candidates_gt (rules : list (rule xr)) : strict_weak (fun a b => a >? b)%S (map (degree_at rules) (candidates rules)).
Proof. exact (strict_flip _ _ (x_candidates rules)). Qed.
End Exact.
Section Binary.
Context (P : fparam).
#[local] Hint Extern 0 (Scalar _) => exact (F64Scalar P) : typeclass_instances.
Lemma f_candidates (rules : list (rule f64)) : strict_weak (fun a b => a <? b)%S (map (degree_at rules) (candidates rules)).
Proof.
  apply f_strict. intros a H. apply candidate_positive in H. intros N. change (Bltb s_0 a = true) in H. rewrite f_ltb, N in H.
  apply xlt_iff in H. destruct (f2x s_0); exact H.
Qed.
Lemma f_candidates_gt (rules : list (rule f64)) : strict_weak (fun a b => a >? b)%S (map (degree_at rules) (candidates rules)).
Proof. exact (strict_flip _ _ (f_candidates rules)). Qed.
End Binary.
