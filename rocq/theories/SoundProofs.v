(** Degrees stay within the unit interval. *)
From Coq Require Import ZArith String List Bool Lia Reals Lra.
From Flocq Require Import Core IEEE754.BinarySingleNaN.
From Verif Require Import Base Op XR XRFacts F64 F64Facts F64Arith F64Err Norm Hedge Shape Discrete Defuzz Aggregated Text Function Rule Var Activation Engine
  SpecNorm SpecDegree SpecActivation SpecSound ActivationProofs ActivationProofs2 ActivationProofs3 DegreeProofs EngineProofs3.
Import ListNotations.

Section Generic.
Context {T : Type} `{S : Scalar T}.
Variables (D : T -> Prop) (fit : snorm -> Prop).
Hypothesis dg : degrees D fit.
Notation good := (Forall (fuzzy_degrees D)).

Lemma add_term_good j a : D (ac_degree a) -> forall f f', add_term j a f = Ok f' -> good f -> good f'.
Proof.
  intro Ha. revert j. intros j f; revert j. induction f as [|l f IH]; intros [|j] f' H G; cbn [add_term] in H; try discriminate.
  - inversion H; subst. inversion G; subst. constructor; [|assumption]. apply Forall_app. split; [assumption|]. constructor; [exact Ha|constructor].
  - destruct (add_term j a f) as [f1|?| |] eqn:E; cbn [rbind] in H; try discriminate. inversion H; subst. inversion G; subst. constructor; [assumption|]. eapply IH; eassumption.
Qed.
Lemma add_terms_good imp : forall added f f', Forall (fun a => D (snd a)) added -> add_terms imp added f = Ok f' -> good f -> good f'.
Proof.
  induction added as [|[[j t] d] added IH]; intros f f' F H G; cbn [add_terms] in H; [inversion H; subst; exact G|].
  inversion F as [|? ? Fd F']; subst. destruct (add_term _ _ f) as [f1|?| |] eqn:E; cbn [rbind] in H; try discriminate.
  apply add_term_good in E; [|exact Fd|exact G]. eapply IH; eassumption.
Qed.
Lemma modify_good enabled : forall cs d added, D d -> conclusions_modify enabled d cs = Ok added -> Forall (fun a => D (snd a)) added.
Proof.
  induction cs as [|p cs IH]; intros d added Hd H; cbn [conclusions_modify] in H; [inversion H; constructor|].
  destruct (enabled (pr_var p)); [|eapply IH; eassumption]. cbv zeta in H. destruct (pr_var p); [discriminate|]. destruct (pr_term p); [|discriminate].
  assert (D (hedges_apply (pr_hedges p) d)) as Hh by (apply (dg_hedges _ _ dg); exact Hd).
  destruct (conclusions_modify enabled _ cs) as [rest|?| |] eqn:E; cbn [rbind] in H; try discriminate. inversion H; subst. constructor; [exact Hh|]. eapply IH; eassumption.
Qed.
Lemma trigger_good enabled imp f r r1 f1 : D (rl_degree r) -> trigger enabled imp f r = Ok (r1, f1) -> good f -> good f1 /\ rl_degree r1 = rl_degree r.
Proof.
  intros Hd H G. unfold trigger, rule_trigger in H. destruct (rule_loaded r); cbn [negb rbind] in H; [|discriminate].
  destruct (rl_enabled r && isGt (rl_degree r) s_0)%bool.
  - destruct (consequent_modify enabled (rl_degree r) (rl_consequent r)) as [added|?| |] eqn:E; cbn [rbind] in H; try discriminate.
    destruct (add_terms imp added f) as [g|?| |] eqn:A; cbn [rbind] in H; try discriminate. inversion H; subst. split; [|reflexivity].
    eapply add_terms_good; [|exact A|exact G]. unfold consequent_modify in E. destruct (rl_consequent r); [discriminate|]. eapply modify_good; eassumption.
  - cbn [rbind add_terms] in H. inversion H; subst. auto.
Qed.
Lemma agg_good s (same : nat -> bool) : fit s -> forall l, fuzzy_degrees D l -> D (agg_degree same (Some s) l).
Proof.
  intros Fs l. unfold agg_degree. assert (D s_0) as H0 by apply (dg_0 _ _ dg). revert H0. generalize (@s_0 T S) as x. induction l as [|a l IH]; intros x Hx F; [exact Hx|]. cbn [fold_left].
  inversion F; subst. apply IH; [|assumption]. destruct (same (ac_term a)); [|exact Hx]. apply (dg_snorm _ _ dg); assumption.
Qed.

Section Block.
Variable enabled : varref -> bool.
Variable degree : fuzzy T -> varref -> nat -> res T.
Variables (conjunction : option tnorm) (disjunction : option snorm) (implication : option tnorm).
Variable drain : drainer T.
Hypothesis fits : forall n, disjunction = Some n -> fit n.
(** rules whose degree is a degree while the fuzzy outputs are good *)
Definition fine_rule (r : rule T) : Prop := D (rl_weight r) /\
  forall ex v t m f, rl_antecedent r = Some ex -> Uses v t ex -> enabled v = true -> good f -> degree f v t = Ok m -> D m.
Notation act := (activate_with enabled degree conjunction disjunction).
Notation pas := (pass enabled degree conjunction disjunction implication).
Notation dpass := (degrees_pass enabled degree conjunction disjunction).

Lemma fine_deactivate r : fine_rule r -> fine_rule (rule_deactivate r).
Proof. exact (fun H => H). Qed.
Lemma act_good f r r1 : fine_rule r -> good f -> act f r = Ok r1 -> D (rl_degree r1).
Proof.
  intros [Hw Hm] G H. unfold activate_with, rule_activate in H. destruct (rule_loaded r); cbn [negb] in H; [|discriminate].
  destruct (antecedent_degree _ _ _ _ _) as [d|?| |] eqn:E; cbn [rbind] in H; try discriminate. inversion H; subst. cbn [set_degree rl_degree].
  apply (dg_weight _ _ dg); [exact Hw|]. unfold antecedent_degree in E. destruct (rl_antecedent r) as [ex|] eqn:A; [|discriminate]. apply degree_iff in E.
  eapply (degree_closed _ _ _ _ D); [apply (dg_0 _ _ dg)|apply (dg_1 _ _ dg)|apply (dg_hedges _ _ dg)| | | |exact E].
  - intros n a b _. apply (dg_tnorm _ _ dg).
  - intros n a b Dn. apply (dg_snorm _ _ dg). auto.
  - intros v t m U En M. eapply Hm; eauto.
Qed.
Lemma pass_good choose : forall rules k f rules' f' e, Forall fine_rule rules -> good f -> pas choose k rules f = (rules', f', e) ->
  good f' /\ (e = Ok tt -> Forall (fun r => D (rl_degree r)) rules').
Proof.
  induction rules as [|r rules IH]; intros k f rules' f' e F G H; cbn [pass] in H; [inversion H; subst; split; [exact G|constructor]|].
  inversion F as [|? ? Fr F']; subst. apply fine_deactivate in Fr. destruct (rule_loaded (rule_deactivate r)).
  - destruct (act f (rule_deactivate r)) as [r1|?| |] eqn:A.
    + apply act_good in A; [|exact Fr|exact G]. destruct (choose k (rl_degree r1)).
      * destruct (trigger enabled implication f r1) as [[r2 f2]|?| |] eqn:Tr; try (inversion H; subst; split; [exact G|discriminate]).
        destruct (trigger_good _ _ _ _ _ _ A Tr G) as [G2 E2]. destruct (pas choose (k + 1)%Z rules f2) as [[rs f3] e3] eqn:P0.
        destruct (IH _ _ _ _ _ F' G2 P0) as [G3 R3]. inversion H; subst. split; [exact G3|]. intro E. constructor; [rewrite E2; exact A|exact (R3 E)].
      * destruct (pas choose k rules f) as [[rs f3] e3] eqn:P0. destruct (IH _ _ _ _ _ F' G P0) as [G3 R3]. inversion H; subst. split; [exact G3|].
        intro E. constructor; [exact A|exact (R3 E)].
    + inversion H; subst. split; [exact G|discriminate].
    + inversion H; subst. split; [exact G|discriminate].
    + inversion H; subst. split; [exact G|discriminate].
  - destruct (pas choose k rules f) as [[rs f3] e3] eqn:P0. destruct (IH _ _ _ _ _ F' G P0) as [G3 R3]. inversion H; subst. split; [exact G3|].
    intro E. constructor; [apply (dg_0 _ _ dg)|exact (R3 E)].
Qed.
Lemma dpass_good f : good f -> forall rules rules' e, Forall fine_rule rules -> dpass f rules = (rules', e) -> e = Ok tt -> Forall (fun r => D (rl_degree r)) rules'.
Proof.
  intro G. induction rules as [|r rules IH]; intros rules' e F H E; cbn [degrees_pass] in H; [inversion H; constructor|].
  inversion F as [|? ? Fr F']; subst. apply fine_deactivate in Fr. destruct (rule_loaded (rule_deactivate r)).
  - destruct (act f (rule_deactivate r)) as [r1|?| |] eqn:A; try (inversion H; discriminate).
    apply act_good in A; [|exact Fr|exact G]. destruct (dpass f rules) as [rs e3] eqn:P0. inversion H; subst. constructor; [exact A|eapply IH; eauto].
  - destruct (dpass f rules) as [rs e3] eqn:P0. inversion H; subst. constructor; [apply (dg_0 _ _ dg)|eapply IH; eauto].
Qed.
Lemma set_nth_good {A} (Q : A -> Prop) x : forall l i, Forall Q l -> Q x -> Forall Q (set_nth i x l).
Proof. induction l as [|y l IH]; intros [|i] F Hx; cbn; inversion F; subst; auto. Qed.
Lemma trigger_at_good : forall order rules f rules' f' e, Forall (fun r => D (rl_degree r)) rules -> good f ->
  trigger_at enabled implication order rules f = (rules', f', e) -> good f' /\ Forall (fun r => D (rl_degree r)) rules'.
Proof.
  induction order as [|i order IH]; intros rules f rules' f' e F G H; cbn [trigger_at] in H; [inversion H; subst; auto|].
  destruct (nth_error rules i) as [r|] eqn:N; [|inversion H; subst; auto].
  destruct (trigger enabled implication f r) as [[r2 f2]|?| |] eqn:Tr; try (inversion H; subst; auto).
  assert (D (rl_degree r)) as Hr by (rewrite Forall_forall in F; apply F; eapply nth_error_In; exact N).
  destruct (trigger_good _ _ _ _ _ _ Hr Tr G) as [G2 E2]. eapply IH; [|exact G2|exact H]. apply set_nth_good; [exact F|rewrite E2; exact Hr].
Qed.
Lemma queue_good less n rules f rules' f' e : Forall fine_rule rules -> good f ->
  queue_rules enabled degree conjunction disjunction implication drain less n rules f = (rules', f', e) -> good f' /\ (e = Ok tt -> Forall (fun r => D (rl_degree r)) rules').
Proof.
  intros F G H. unfold queue_rules in H. destruct (dpass f rules) as [rs e1] eqn:P0. destruct e1 as [[]|?| |]; try (inversion H; subst; split; [exact G|discriminate]).
  apply dpass_good in P0; auto. apply trigger_at_good in H; auto. destruct H; auto.
Qed.
Lemma total_eq : forall rules (s : T), fold_left (fun s r => if rule_loaded r then s_add s (rl_degree r) else s) rules s =
  fold_left s_add (map (@rl_degree T) (filter rule_loaded rules)) s.
Proof. induction rules as [|r rules IH]; intro s; [reflexivity|]. cbn [fold_left filter]. destruct (rule_loaded r); cbn [map fold_left]; apply IH. Qed.
Lemma share_good sum : forall rules f rules' f' e,
  (forall r, In r rules -> rule_loaded r = true -> D (let q := s_div (rl_degree r) sum in if isNaN q then s_0 else q)) -> Forall (fun r => D (rl_degree r)) rules -> good f ->
  share_pass enabled implication sum rules f = (rules', f', e) -> good f' /\ (e = Ok tt -> Forall (fun r => D (rl_degree r)) rules').
Proof.
  induction rules as [|r rules IH]; intros f rules' f' e Q F G H; cbn [share_pass] in H; [inversion H; subst; split; [exact G|constructor]|].
  inversion F as [|? ? Fr F']; subst. assert (Q' := fun x I => Q x (or_intror I)). destruct (rule_loaded r) eqn:L.
  - cbv zeta in H. specialize (Q r (or_introl eq_refl) L). cbv zeta in Q. set (x := if isNaN (s_div (rl_degree r) sum) then s_0 else s_div (rl_degree r) sum) in *.
    destruct (trigger enabled implication f (set_degree x r)) as [[r2 f2]|?| |] eqn:Tr; try (inversion H; subst; split; [exact G|discriminate]).
    destruct (trigger_good _ _ _ _ _ _ (Q : D (rl_degree (set_degree x r))) Tr G) as [G2 E2]. destruct (share_pass enabled implication sum rules f2) as [[rs f3] e3] eqn:P0.
    destruct (IH _ _ _ _ Q' F' G2 P0) as [G3 R3]. inversion H; subst. split; [exact G3|]. intro E. constructor; [rewrite E2; exact Q|exact (R3 E)].
  - destruct (share_pass enabled implication sum rules f) as [[rs f3] e3] eqn:P0. destruct (IH _ _ _ _ Q' F' G P0) as [G3 R3]. inversion H; subst. split; [exact G3|].
    intro E. constructor; [exact Fr|exact (R3 E)].
Qed.
Lemma activate_good a rules f rules' f' e : Forall fine_rule rules -> good f ->
  activate enabled degree conjunction disjunction implication drain a rules f = (rules', f', e) -> good f' /\ (e = Ok tt -> Forall (fun r => D (rl_degree r)) rules').
Proof.
  intros F G H. destruct a; cbn [activate] in H; try (eapply pass_good; eassumption); try (eapply queue_good; eassumption).
  - unfold last_rules in H. destruct (pas _ _ (rev rules) f) as [[rs g] e'] eqn:E. inversion H; subst. apply pass_good in E; [|apply Forall_rev; exact F|exact G].
    destruct E as [G1 R1]. split; [exact G1|]. intro X. apply Forall_rev. auto.
  - unfold proportional in H. destruct (dpass f rules) as [rs e1] eqn:P0. destruct e1 as [[]|?| |]; try (inversion H; subst; split; [exact G|discriminate]).
    apply dpass_good in P0; auto. eapply share_good; [|exact P0|exact G|exact H]. intros r I L. rewrite total_eq. apply (dg_share _ _ dg).
    + apply Forall_map. rewrite Forall_forall in *. intros x X. apply filter_In in X. apply P0, X.
    + apply in_map, filter_In. auto.
Qed.
End Block.

Lemma run_good drain enabled degree : forall bs f bs' f' e,
  (forall b, In b bs -> b_enabled b = true -> (forall n, b_disjunction b = Some n -> fit n) /\ Forall (fine_rule enabled degree) (b_rules b)) -> good f ->
  run_blocks drain enabled degree bs f = (bs', f', e) -> good f' /\ (e = Ok tt -> Forall (rule_degrees D) bs').
Proof.
  induction bs as [|b bs IH]; intros f bs' f' e Q G H; cbn [run_blocks] in H; [inversion H; subst; split; [exact G|constructor]|].
  assert (Q' := fun x I => Q x (or_intror I)). destruct (b_enabled b) eqn:En.
  - destruct (Q b (or_introl eq_refl) En) as [Fd Fr]. destruct (block_activate enabled degree drain b f) as [[b1 f1] e1] eqn:B. unfold block_activate in B.
    destruct (activate _ _ _ _ _ _ _ (b_rules b) f) as [[rs g] e2] eqn:A. inversion B; subst. destruct (activate_good _ _ _ _ _ _ Fd _ _ _ _ _ _ Fr G A) as [G1 R1].
    destruct e1 as [[]|?| |]; try (inversion H; subst; split; [exact G1|discriminate]).
    destruct (run_blocks drain enabled degree bs f1) as [[bs2 f2] e2] eqn:R2. destruct (IH _ _ _ _ Q' G1 R2) as [G3 R3]. inversion H; subst. split; [exact G3|].
    intro E. constructor; [intros _; exact (R1 eq_refl)|exact (R3 E)].
  - destruct (run_blocks drain enabled degree bs f) as [[bs2 f2] e2] eqn:R2. destruct (IH _ _ _ _ Q' G R2) as [G3 R3]. inversion H; subst. split; [exact G3|].
    intro E. constructor; [intro X; congruence|exact (R3 E)].
Qed.
Lemma view_cleared ins (outs : list (output T)) : engine_view ins (map (set_fuzzy []) outs) = engine_view ins outs.
Proof. unfold engine_view. f_equal. f_equal. rewrite map_map. reflexivity. Qed.
Lemma aggregations_cleared (outs : list (output T)) : map (@o_aggregation T) (map (set_fuzzy []) outs) = map (@o_aggregation T) outs.
Proof. rewrite map_map. reflexivity. Qed.
Lemma enabled_cleared ins (outs : list (output T)) v : engine_enabled ins (map (set_fuzzy []) outs) v = engine_enabled ins outs v.
Proof. destruct v as [i|j]; [reflexivity|]. cbn. rewrite nth_error_map. destruct (nth_error outs j); reflexivity. Qed.
Lemma phase_good drain (e : engine T) bs fz r : sound D fit e -> activation_phase drain e = (bs, fz, r) -> good fz /\ (r = Ok tt -> Forall (rule_degrees D) bs).
Proof.
  intros SE H. unfold activation_phase in H. eapply run_good; [|clear H|exact H].
  - intros b I En. split; [intros n; apply (so_disjunctions _ _ _ SE); auto|]. apply Forall_forall. intros r0 I0. split; [eapply (so_weights _ _ _ SE); eassumption|].
    intros ex v t m f A U Ev G M. unfold cleared in *. rewrite view_cleared, aggregations_cleared in M. rewrite enabled_cleared in Ev. destruct v as [i|j]; cbn [engine_degree engine_enabled] in *.
    + destruct (nth_error (e_inputs e) i) as [v|] eqn:Ni; [|discriminate]. destruct (nth_error (v_terms v) t) as [tm|] eqn:Nt; [|discriminate].
      eapply (so_inputs _ _ _ SE); [eapply nth_error_In; exact Ni|exact Ev|eapply nth_error_In; exact Nt|exact M].
    + destruct (nth_error f j) as [l|] eqn:Nl; [|discriminate]. rewrite nth_error_map in M. destruct (nth_error (e_outputs e) j) as [o|] eqn:No; [|discriminate]. cbn in M. inversion M; subst.
      destruct (so_consulted _ _ _ SE b r0 ex j t o I En I0 A U No) as (n & -> & Fn). apply agg_good; [exact Fn|]. rewrite Forall_forall in G. apply G. eapply nth_error_In; exact Nl.
  - apply Forall_forall. intros l I. apply in_map_iff in I. destruct I as (o & <- & _). constructor.
Qed.
Lemma defuzzify_fuzzy vw (o o' : output T) r : defuzzify vw o = (o', r) -> o_fuzzy o' = o_fuzzy o.
Proof.
  unfold defuzzify. destruct (negb _); [intro H; inversion H; reflexivity|]. destruct (o_defuzzifier o); [|intro H; inversion H; reflexivity].
  destruct (defuzzified vw d o); intro H; inversion H; reflexivity.
Qed.
Lemma from_fuzzy ins (Q : list (activated T nat) -> Prop) : forall rest done outs r, defuzzify_from ins done rest = (outs, r) ->
  Forall (fun o => Q (o_fuzzy o)) (done ++ rest) -> Forall (fun o => Q (o_fuzzy o)) outs.
Proof.
  induction rest as [|o rest IH]; intros done outs r H F; cbn [defuzzify_from] in H; [inversion H; subst; now rewrite app_nil_r in F|].
  destruct (defuzzify _ o) as [o' e] eqn:E. apply defuzzify_fuzzy in E.
  assert (Forall (fun o => Q (o_fuzzy o)) (done ++ o' :: rest)) as F'.
  { apply Forall_app in F. destruct F as [F1 F2]. apply Forall_app. split; [exact F1|]. inversion F2; subst. constructor; [rewrite E; assumption|assumption]. }
  destruct e as [[]|?| |]; try (inversion H; subst; exact F'). eapply IH; [exact H|]. rewrite <- app_assoc. exact F'.
Qed.
Lemma put_good fz : forall outs : list (output T), good fz -> Forall (fun o => fuzzy_degrees D (o_fuzzy o)) (put_fuzzy outs fz).
Proof.
  intros outs G. apply Forall_forall. intros o I. unfold put_fuzzy in I. apply in_map_iff in I. destruct I as ([o0 l] & <- & I). cbn. apply in_combine_r in I. rewrite Forall_forall in G. auto.
Qed.
Lemma process_good drain (e e' : engine T) r : sound D fit e -> process drain e = (e', r) ->
  Forall (fun o => fuzzy_degrees D (o_fuzzy o)) (e_outputs e') /\ (r = Ok tt -> Forall (rule_degrees D) (e_blocks e')).
Proof.
  intros SE H. rewrite process_phases in H. destruct (activation_phase drain e) as [[bs fz] u] eqn:A. destruct (phase_good _ _ _ _ _ SE A) as [G R].
  pose proof (put_good fz (cleared e) G) as PG.
  destruct u as [[]|?| |]; try (inversion H; subst; cbn; split; [exact PG|discriminate]).
  destruct (defuzzify_from (e_inputs e) [] (put_fuzzy (cleared e) fz)) as [outs r'] eqn:E. inversion H; subst. cbn. split; [|intros _; apply R; reflexivity].
  eapply (from_fuzzy _ (fuzzy_degrees D)); [exact E|exact PG].
Qed.
End Generic.
