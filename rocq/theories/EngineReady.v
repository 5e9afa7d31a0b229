(** Proofs about engines: what isReady promises. *)
From Coq Require Import ZArith Ascii String List Bool Permutation Lia Arith.
From Verif Require Import Base Op Norm Shape Discrete Defuzz Aggregated Hedge Text Function FunctionProofs2 Rule Var Activation Engine
  TextProofs FunctionTable RuleProofs2 RuleProofs3 SpecText SpecRule SpecVar SpecActivation SpecEngine ActivationProofs ActivationProofs2 ActivationProofs3 VarProofs EngineProofs EngineProofs2 EngineProofs3.
Import ListNotations.
Local Open Scope string_scope.

Lemma fine_bind {A B} (m : res A) (k : A -> res B) : fine m -> (forall x, m = Ok x -> fine (k x)) -> fine (rbind m k).
Proof. destruct m; cbn; auto. Qed.
Lemma fine_rfold {A B} (f : A -> B -> res A) l : (forall a b, In b l -> fine (f a b)) -> forall a, fine (rfold f a l).
Proof.
  induction l as [|b l IH]; intros F a; cbn [rfold]; [exact I|]. apply fine_bind; [apply F; left; reflexivity|]. intros x _. apply IH. intros. apply F. right. assumption.
Qed.
Lemma fine_fail {A} (r : res A) : fine r -> fine (fail r).
Proof. destruct r; cbn; auto. Qed.

Section Ready.
Context {T : Type} `{S : Scalar T}.
(** ** terms and defuzzifiers *)
Lemma fine_partition {A} (p : A -> bool) l : fine (partition_point p l).
Proof.
  induction l as [|a l IH]; cbn [partition_point]; [exact I|]. destruct (p a); [|destruct (none_of p l); exact I]. apply fine_bind; [exact IH|]. intros; exact I.
Qed.
Lemma fine_deref {A} (l : list A) n : fine (deref l n).
Proof. unfold deref. destruct (nth_error l n); exact I. Qed.
Lemma fine_discrete xy h x : fine (disc_membership xy h x).
Proof.
  unfold disc_membership. destruct (isNaN x); [exact I|]. destruct xy as [|f xy]; [reflexivity|]. destruct (isLE x _); [exact I|]. destruct (isGE x _); [exact I|].
  apply fine_bind; [apply fine_partition|]. intros lb _. apply fine_bind; [apply fine_deref|]. intros l _. destruct (isEq x _); [exact I|].
  apply fine_bind; [apply fine_partition|]. intros ub _. destruct lb; [exact I|]. apply fine_bind; [apply fine_deref|]. intros l' _. apply fine_bind; [apply fine_deref|]. intros; exact I.
Qed.
Lemma fine_node vars : forall n : node T, fine (node_evaluate vars n).
Proof.
  fix IH 1. intros [el l r v c]. cbn [node_evaluate]. destruct el as [e|].
  - destruct (el_fun e).
    + reflexivity.
    + destruct l as [x|]; [apply fine_bind; [apply IH|intros; exact I]|]. destruct r as [x|]; [|reflexivity]. apply fine_bind; [apply IH|intros; exact I].
    + destruct l as [x|], r as [y|]; try reflexivity. apply fine_bind; [apply IH|]. intros a _. apply fine_bind; [apply IH|]. intros; exact I.
  - destruct (negb _); [|exact I]. destruct (vget vars v); reflexivity.
Qed.
Lemma fine_term vw (t : term T) x : fine (term_membership vw t x).
Proof.
  unfold term_membership. destruct (tm_body t) as [s|xy|v|cs en|f]; try exact I.
  - apply fine_discrete.
  - unfold linear_membership. destruct en; reflexivity.
  - unfold fn_membership. destruct (fn_root f); [|reflexivity]. cbn. apply fine_node.
Qed.
Lemma fine_tsukamoto (t : term T) x : fine (term_tsukamoto t x).
Proof. unfold term_tsukamoto. destruct (tm_body t); try reflexivity. destruct s; reflexivity. Qed.
Lemma fine_integral k (f : T -> res T) lo hi n : (forall x, fine (f x)) -> fine (integral_defuzzify k f lo hi n).
Proof.
  intros F. destruct k; cbn [integral_defuzzify]; unfold bisector, centroid, lom, mom, som.
  all: destruct (negb _); [exact I|].
  1: destruct (Z.ltb n 0); [reflexivity|].
  all: apply fine_bind; [|intros; exact I].
  all: apply fine_rfold; intros a b _; unfold bisector_step, centroid_step, lom_step, mom_step, som_step; apply fine_bind; [apply F|intros; exact I].
Qed.
Lemma fine_aggregated {A} (memb : A -> T -> res T) a l x : (forall t y, fine (memb t y)) -> a <> None ->
  Forall (fun t => ac_implication t <> None) l -> fine (agg_membership memb a l x).
Proof.
  intros F Na L. unfold agg_membership. destruct (isNaN x) eqn:N; [exact I|]. destruct l as [|t l]; [exact I|]. destruct a as [s|]; [|congruence].
  apply fine_rfold. intros mu c J. rewrite Forall_forall in L. specialize (L c J). apply fine_bind; [|intros; exact I].
  unfold ac_membership. rewrite N. destruct (ac_implication c); [|congruence]. apply fine_bind; [apply F|intros; exact I].
Qed.
Lemma fine_weighted {A} k ty (name : A -> string) (memb tsuk : A -> T -> res T) wt a (l : list (activated T A)) :
  (forall t y, fine (memb t y)) -> (forall t y, fine (tsuk t y)) -> fine (weighted_defuzzify k ty name memb tsuk wt a l).
Proof.
  intros F G. unfold weighted_defuzzify. destruct l as [|t l]; [exact I|]. apply fine_bind.
  - destruct (wtype_eqb ty WAutomatic); [|exact I]. cbn. destruct (forallb _ _); reflexivity.
  - intros w _. destruct w; [reflexivity| |]; unfold weighted_with; (apply fine_bind; [|intros; exact I]); apply fine_rfold; intros c d _; unfold weighted_step;
      (apply fine_bind; [|intros; exact I]); auto.
Qed.
Definition complete (o : output T) (l : list (activated T nat)) : Prop :=
  is_integral (o_defuzzifier o) = true -> Forall (fun t => ac_implication t <> None) l.
Lemma fine_defuzzify vw o : output_ready o = true -> complete o (o_fuzzy o) -> fine (snd (defuzzify vw o)).
Proof.
  unfold output_ready, defuzzify, complete. intros H C. apply andb_prop in H. destruct H as [H H2]. apply andb_prop in H. destruct H as [_ H1].
  destruct (negb (v_enabled (o_var o))); [exact I|]. destruct (o_defuzzifier o) as [d|]; [|discriminate].
  assert (forall n y, fine (match nth_error (v_terms (o_var o)) n with Some tm => term_membership vw tm y | None => UB end)) as F.
  { intros n y. destruct (nth_error _ n); [apply fine_term|exact I]. }
  assert (fine (defuzzified vw d o)) as G.
  { unfold defuzzified. destruct d as [k n|k ty].
    - apply fine_integral. intros x. apply fine_aggregated; [exact F| |apply C; reflexivity]. intros N. rewrite N in H2. discriminate.
    - apply fine_weighted; [exact F|]. intros n y. destruct (nth_error _ n); [apply fine_tsukamoto|exact I]. }
  destruct (defuzzified vw d o); try exact I. exact G.
Qed.

(** ** rules *)
Definition conclusion_to (cs : list proposition) (j : nat) : Prop := exists p, In p cs /\ pr_var p = VOut j.
Section Rules.
Variable enabled : varref -> bool.
Variable drain : drainer T.
Variable degree : fuzzy T -> varref -> nat -> res T.
Hypothesis D : forall f v t, fine (degree f v t).
Variables (conjunction : option tnorm) (disjunction : option snorm) (implication : option tnorm).
Variable integral : nat -> Prop.
(** the rule has the norms it needs *)
Definition supplied (r : rule T) : Prop :=
  (forall e, rl_antecedent r = Some e -> (uses "and" e -> conjunction <> None) /\ (uses "or" e -> disjunction <> None)) /\
  (forall j, rule_loaded r = true -> conclusion_to (rl_consequent r) j -> integral j -> implication <> None).
Lemma supplied_same r r' : same_rule r r' -> supplied r -> supplied r'.
Proof.
  intros (A1 & A2 & A3 & A4 & A5 & A6 & A7) [B1 B2]. unfold supplied, rule_loaded in *. rewrite A5, A7. split; assumption.
Qed.
Lemma fine_expression f e : (uses "and" e -> conjunction <> None) -> (uses "or" e -> disjunction <> None) ->
  fine (expression_degree enabled (degree f) conjunction disjunction e).
Proof.
  induction e as [p|n l IHl r IHr]; cbn [expression_degree uses]; intros A B.
  - unfold proposition_degree. destruct (negb _); [exact I|].
    assert (fine (match pr_term p with Some t => do m <- degree f (pr_var p) t; Ok (hedges_apply (pr_hedges p) m) | None => UB end)) as F.
    { destruct (pr_term p); [|exact I]. apply fine_bind; [apply D|intros; exact I]. }
    destruct (last _ _) as [[]|]; try exact I; exact F.
  - assert (forall (g : T -> T -> T), fine (do a <- expression_degree enabled (degree f) conjunction disjunction l;
      do b <- expression_degree enabled (degree f) conjunction disjunction r; Ok (g a b))) as F.
    { intros g. apply fine_bind; [apply IHl; auto|]. intros a _. apply fine_bind; [apply IHr; auto|]. intros; exact I. }
    destruct (String.eqb_spec n "and") as [-> |N1].
    + destruct conjunction; [apply F|]. now destruct A; auto.
    + destruct (String.eqb_spec n "or") as [-> |N2]; [|reflexivity]. destruct disjunction; [apply F|]. now destruct B; auto.
Qed.
Lemma fine_activate f r : supplied r -> fine (activate_with enabled degree conjunction disjunction f r).
Proof.
  intros [H _]. unfold activate_with, rule_activate. destruct (negb (rule_loaded r)); [reflexivity|]. apply fine_bind; [|intros; exact I].
  destruct (rl_antecedent r) as [e|]; [|reflexivity]. cbn [antecedent_degree]. destruct (H e eq_refl). apply fine_expression; assumption.
Qed.
Lemma fine_add_term j (a : activated T nat) : forall fz, fine (add_term j a fz).
Proof. induction j as [|j IH]; intros [|l fz]; cbn [add_term]; try exact I. apply fine_bind; [apply IH|intros; exact I]. Qed.
Lemma fine_add_terms : forall added (fz : fuzzy T), fine (add_terms implication added fz).
Proof. induction added as [|[[j t] d] added IH]; intros fz; cbn [add_terms]; [exact I|]. apply fine_bind; [apply fine_add_term|]. intros; apply IH. Qed.
Lemma fine_modify : forall cs (d : T), fine (conclusions_modify enabled d cs).
Proof.
  induction cs as [|p cs IH]; intros d; cbn [conclusions_modify]; [exact I|]. destruct (enabled (pr_var p)); [|apply IH].
  destruct (pr_var p), (pr_term p); try exact I. apply fine_bind; [apply IH|intros; exact I].
Qed.
Lemma fine_trigger f r : fine (trigger enabled implication f r).
Proof.
  unfold trigger. apply fine_bind.
  - unfold rule_trigger. destruct (negb _); [reflexivity|]. destruct (_ && _)%bool; [|exact I]. apply fine_bind; [|intros; exact I].
    unfold consequent_modify. destruct (rl_consequent r); [reflexivity|]. apply fine_modify.
  - intros [r1 added] _. apply fine_bind; [apply fine_add_terms|intros; exact I].
Qed.
(** terms added to variables with an integral defuzzifier have an implication *)
Definition implied (f f' : fuzzy T) : Prop :=
  length f' = length f /\ forall j l, integral j -> nth_error f j = Some l -> exists l', nth_error f' j = Some (l ++ l')%list /\ Forall (fun t => ac_implication t <> None) l'.
Lemma implied_refl f : implied f f.
Proof. split; [reflexivity|]. intros j l _ H. exists []. rewrite app_nil_r. auto. Qed.
Lemma implied_trans f g h : implied f g -> implied g h -> implied f h.
Proof.
  intros [A1 A2] [B1 B2]. split; [congruence|]. intros j l J H. destruct (A2 j l J H) as (l1 & H1 & D1). destruct (B2 j _ J H1) as (l2 & H2 & D2).
  exists (l1 ++ l2)%list. rewrite app_assoc. split; [exact H2|]. apply Forall_app. auto.
Qed.
Lemma modify_to : forall cs (d : T) added, conclusions_modify enabled d cs = Ok added -> forall j t x, In (j, t, x) added -> conclusion_to cs j.
Proof.
  induction cs as [|p cs IH]; intros d added H j t x J; cbn [conclusions_modify] in H; [inversion H; subst; contradiction|].
  assert (conclusion_to cs j -> conclusion_to (p :: cs) j) as W by (intros (q & Q1 & Q2); exists q; split; [right|]; assumption).
  destruct (enabled (pr_var p)) eqn:E; [|eapply W, IH; eassumption].
  destruct (pr_var p) as [i|i] eqn:V; [discriminate|]. destruct (pr_term p) as [k|]; [|discriminate].
  destruct (conclusions_modify enabled _ cs) as [rest|?| |] eqn:G; cbn [rbind] in H; try discriminate. inversion H; subst.
  destruct J as [J|J]; [inversion J; subst; exists p; split; [left; reflexivity|exact V]|eapply W, IH; eassumption].
Qed.
Lemma trigger_implied f r r' f' : supplied r -> trigger enabled implication f r = Ok (r', f') -> implied f f'.
Proof.
  intros [_ Q]. unfold trigger. destruct (rule_trigger enabled r) as [[r1 added]|?| |] eqn:E; cbn [rbind]; try discriminate.
  destruct (add_terms implication added f) as [f1|?| |] eqn:A; cbn [rbind]; try discriminate. intros H. inversion H; subst.
  apply add_terms_extended in A. destruct A as [A1 A2]. split; [exact A1|]. intros j l J Hl. exists (for_variable implication j added). split; [apply A2; exact Hl|].
  unfold rule_trigger in E. destruct (rule_loaded r) eqn:L; [cbn [negb] in E|discriminate].
  destruct (_ && _)%bool; [|inversion E; subst; constructor].
  unfold consequent_modify in E. destruct (rl_consequent r) as [|p cs] eqn:C; [discriminate|].
  destruct (conclusions_modify enabled (rl_degree r) (p :: cs)) as [ad|?| |] eqn:M; cbn [rbind] in E; try discriminate. inversion E; subst.
  unfold for_variable. apply Forall_forall. intros x I. apply in_map_iff in I. destruct I as ([[i t] d] & <- & I). apply filter_In in I. destruct I as [I1 I2]. cbn in I2 |- *.
  apply Nat.eqb_eq in I2. subst i. eapply Q; [reflexivity| |exact J]. eapply modify_to; eassumption.
Qed.
Definition good (f f' : fuzzy T) (u : res unit) : Prop := implied f f' /\ fine u.
Lemma good_same f u : fine u -> good f f u.
Proof. split; [apply implied_refl|assumption]. Qed.
Hint Resolve good_same fine_fail : core.
Lemma supplied_deactivate r : supplied r -> supplied (rule_deactivate r).
Proof. apply supplied_same, same_deactivate. Qed.
Lemma supplied_activate f r r' : activate_with enabled degree conjunction disjunction f r = Ok r' -> supplied r -> supplied r'.
Proof. intros H. apply supplied_same. eapply act_same; exact H. Qed.
Lemma pass_good choose : forall rules k f rules' f' e, Forall supplied rules ->
  pass enabled degree conjunction disjunction implication choose k rules f = (rules', f', e) -> good f f' e.
Proof.
  induction rules as [|r rules IH]; intros k f rules' f' e Q H; cbn [pass] in H; [inversion H; subst; apply good_same; exact I|].
  inversion Q as [|? ? Q1 Q2]; subst. pose proof (supplied_deactivate _ Q1) as Q1'. destruct (rule_loaded (rule_deactivate r)).
  - pose proof (fine_activate f _ Q1') as F. destruct (activate_with _ _ _ _ f (rule_deactivate r)) as [r1|x| |] eqn:A; try (inversion H; subst; apply good_same; exact F).
    destruct (choose k (rl_degree r1)).
    + pose proof (fine_trigger f r1) as F2. pose proof (supplied_activate _ _ _ A Q1') as Q3.
      destruct (trigger enabled implication f r1) as [[r2 f2]|x| |] eqn:G; try (inversion H; subst; apply good_same; exact F2).
      apply (trigger_implied _ _ _ _ Q3) in G. destruct (pass _ _ _ _ _ _ _ rules f2) as [[rs g] e'] eqn:E. inversion H; subst. apply IH in E; [|exact Q2].
      destruct E. split; [eapply implied_trans; eassumption|assumption].
    + destruct (pass _ _ _ _ _ _ _ rules f) as [[rs g] e'] eqn:E. inversion H; subst. eapply IH; [exact Q2|exact E].
  - destruct (pass _ _ _ _ _ _ _ rules f) as [[rs g] e'] eqn:E. inversion H; subst. eapply IH; [exact Q2|exact E].
Qed.
Lemma Forall_set_nth {A} (P : A -> Prop) x : P x -> forall l i, Forall P l -> Forall P (set_nth i x l).
Proof. intros X. induction l as [|y l IH]; intros [|i] H; cbn [set_nth]; auto; inversion H; subst; constructor; auto. Qed.
Lemma trigger_at_good : forall order rules f rules' f' e, Forall supplied rules ->
  trigger_at enabled implication order rules f = (rules', f', e) -> good f f' e.
Proof.
  induction order as [|i order IH]; intros rules f rules' f' e Q H; cbn [trigger_at] in H; [inversion H; subst; apply good_same; exact I|].
  destruct (nth_error rules i) as [r|] eqn:N; [|inversion H; subst; apply good_same; exact I].
  assert (supplied r) as Q1 by (rewrite Forall_forall in Q; apply Q; eapply nth_error_In; exact N).
  pose proof (fine_trigger f r) as F. destruct (trigger enabled implication f r) as [[r1 f1]|x| |] eqn:G; try (inversion H; subst; apply good_same; exact F).
  pose proof (supplied_same _ _ (trig_same _ _ _ _ _ _ G) Q1) as Q2.
  apply (trigger_implied _ _ _ _ Q1) in G. apply IH in H; [|apply Forall_set_nth; assumption]. destruct H. split; [eapply implied_trans; eassumption|assumption].
Qed.
Lemma share_good sum : forall rules f rules' f' e, Forall supplied rules -> share_pass enabled implication sum rules f = (rules', f', e) -> good f f' e.
Proof.
  induction rules as [|r rules IH]; intros f rules' f' e Q H; cbn [share_pass] in H; [inversion H; subst; apply good_same; exact I|].
  inversion Q as [|? ? Q1 Q2]; subst. destruct (rule_loaded r).
  - match type of H with context [trigger enabled implication f ?x] => assert (supplied x) as Q3 by (apply (supplied_same r); [now repeat split|exact Q1]); pose proof (fine_trigger f x) as F; destruct (trigger enabled implication f x) as [[r1 f1]|z| |] eqn:G end; try (inversion H; subst; apply good_same; exact F).
    apply (trigger_implied _ _ _ _ Q3) in G. destruct (share_pass _ _ _ rules f1) as [[rs g] e'] eqn:E. inversion H; subst. apply IH in E; [|exact Q2].
    destruct E. split; [eapply implied_trans; eassumption|assumption].
  - destruct (share_pass _ _ _ rules f) as [[rs g] e'] eqn:E. inversion H; subst. eapply IH; [exact Q2|exact E].
Qed.
Lemma degrees_good f : forall rules rules' e, Forall supplied rules -> degrees_pass enabled degree conjunction disjunction f rules = (rules', e) -> Forall supplied rules' /\ fine e.
Proof.
  induction rules as [|r rules IH]; intros rules' e Q H; cbn [degrees_pass] in H; [inversion H; subst; split; [constructor|exact I]|].
  inversion Q as [|? ? Q1 Q2]; subst. pose proof (supplied_deactivate _ Q1) as Q1'. destruct (rule_loaded (rule_deactivate r)).
  - pose proof (fine_activate f _ Q1') as F. destruct (activate_with _ _ _ _ f (rule_deactivate r)) as [r1|x| |] eqn:A; try (inversion H; subst; split; [constructor; assumption|exact F]).
    pose proof (supplied_activate _ _ _ A Q1') as Q3. destruct (degrees_pass _ _ _ _ f rules) as [rs e'] eqn:E. inversion H; subst. destruct (IH _ _ Q2 eq_refl). split; [constructor|]; assumption.
  - destruct (degrees_pass _ _ _ _ f rules) as [rs e'] eqn:E. inversion H; subst. destruct (IH _ _ Q2 eq_refl). split; [constructor|]; assumption.
Qed.
Lemma activate_good a rules f rules' f' e : Forall supplied rules ->
  activate enabled degree conjunction disjunction implication drain a rules f = (rules', f', e) -> good f f' e.
Proof.
  intros Q. destruct a; cbn [activate]; intros H; try (eapply pass_good; [exact Q|exact H]).
  - unfold last_rules in H. destruct (pass _ _ _ _ _ _ _ (rev rules) f) as [[rs g] e'] eqn:E. inversion H; subst. eapply pass_good; [|exact E]. apply Forall_rev. exact Q.
  - unfold highest, queue_rules in H. destruct (degrees_pass _ _ _ _ f rules) as [r1 e1] eqn:E. apply degrees_good in E; [|exact Q]. destruct E as [Q1 F].
    destruct e1; try (inversion H; subst; apply good_same; exact F). eapply trigger_at_good; [exact Q1|exact H].
  - unfold lowest, queue_rules in H. destruct (degrees_pass _ _ _ _ f rules) as [r1 e1] eqn:E. apply degrees_good in E; [|exact Q]. destruct E as [Q1 F].
    destruct e1; try (inversion H; subst; apply good_same; exact F). eapply trigger_at_good; [exact Q1|exact H].
  - unfold proportional in H. destruct (degrees_pass _ _ _ _ f rules) as [r1 e1] eqn:E. apply degrees_good in E; [|exact Q]. destruct E as [Q1 F].
    destruct e1; try (inversion H; subst; apply good_same; exact F). eapply share_good; [exact Q1|exact H].
Qed.
End Rules.

Lemma run_good drain enabled degree integral : (forall f v t, fine (degree f v t)) -> forall bs f bs' f' e,
  Forall (fun b => b_enabled b = true -> Forall (supplied (b_conjunction b) (b_disjunction b) (b_implication b) integral) (b_rules b)) bs ->
  run_blocks drain enabled degree bs f = (bs', f', e) -> good integral f f' e.
Proof.
  intros D. induction bs as [|b bs IH]; intros f bs' f' e Q H; cbn [run_blocks] in H; [inversion H; subst; apply good_same; exact I|].
  inversion Q as [|? ? Q1 Q2]; subst. destruct (b_enabled b).
  - unfold block_activate in H. destruct (activate _ _ _ _ _ _ _ (b_rules b) f) as [[rs g] u] eqn:E. apply (activate_good _ _ _ D _ _ _ integral) in E; [|apply Q1; reflexivity].
    destruct u as [[]|x| |]; try (inversion H; subst; exact E).
    destruct (run_blocks drain enabled degree bs g) as [[bs1 h] u] eqn:R. inversion H; subst. apply IH in R; [|exact Q2]. destruct E, R. split; [eapply implied_trans; eassumption|assumption].
  - destruct (run_blocks drain enabled degree bs f) as [[bs1 h] u] eqn:R. inversion H; subst. eapply IH; [exact Q2|exact R].
Qed.

(** ** engines *)
Lemma from_good ins : forall rest done outs r, Forall (fun o => output_ready o = true /\ complete o (o_fuzzy o)) rest ->
  defuzzify_from ins done rest = (outs, r) -> fine r.
Proof.
  induction rest as [|o rest IH]; intros done outs r Q H; cbn [defuzzify_from] in H; [inversion H; subst; exact I|].
  inversion Q as [|? ? [Q1 Q1'] Q2]; subst. match type of H with context [defuzzify ?v o] => pose proof (fine_defuzzify v o Q1 Q1') as F; destruct (defuzzify v o) as [o1 u] end.
  destruct u as [u|x| |]; try (inversion H; subst; exact F). eapply IH; [exact Q2|exact H].
Qed.


(** what every engine needs: the operators its rules use, and outputs which can be defuzzified *)
Definition integral_output (e : engine T) (j : nat) : Prop := exists o, nth_error (e_outputs e) j = Some o /\ is_integral (o_defuzzifier o) = true.
Lemma supplied_process drain (e : engine T) : forallb output_ready (e_outputs e) = true ->
  Forall (fun b => b_enabled b = true -> Forall (supplied (b_conjunction b) (b_disjunction b) (b_implication b) (integral_output e)) (b_rules b)) (e_blocks e) -> fine (snd (process drain e)).
Proof.
  intros RO Sup.
  unfold process.
  set (outs := map (set_fuzzy []) (e_outputs e)). set (deg := engine_degree _ _ _). set (en := engine_enabled _ _).
  assert (forall f v t, fine (deg f v t)) as D.
  { intros f v t. unfold deg, engine_degree. destruct v as [i|j].
    - destruct (nth_error _ i); [|exact I]. destruct (nth_error _ t); [|exact I]. apply fine_term.
    - destruct (nth_error f j); [|exact I]. destruct (nth_error _ j); exact I. }
  set (integral := integral_output e).
  destruct (run_blocks drain en deg (e_blocks e) (map (fun _ => []) outs)) as [[bs fz] r] eqn:Rn.
  apply (run_good _ _ _ integral D) in Rn.
  2: exact Sup.
  destruct Rn as [[Ln Im] F]. destruct r as [[]|x| |]; try exact F.
  destruct (defuzzify_from (e_inputs e) [] (put_fuzzy outs fz)) as [os r] eqn:Df. cbn [snd]. eapply from_good; [|exact Df].
  apply Forall_forall. intros o Io. unfold put_fuzzy in Io. apply in_map_iff in Io. destruct Io as ([o1 l] & <- & Io).
  apply In_nth_error in Io. destruct Io as [j Nj]. cbn [fst snd].
  assert (nth_error outs j = Some o1 /\ nth_error fz j = Some l) as [N1 N2].
  { clear - Nj. revert fz j Nj. induction outs as [|a outs IH]; intros [|c fz] [|j] H; cbn in *; try discriminate; [inversion H; auto|]. apply IH in H. exact H. }
  unfold outs in N1. rewrite nth_error_map in N1. destruct (nth_error (e_outputs e) j) as [o0|] eqn:N0; [|discriminate]. cbn in N1. inversion N1; subst o1.
  split.
  - rewrite forallb_forall in RO. apply nth_error_In in N0. exact (RO _ N0).
  - intros G. cbn in G |- *. destruct (Im j [] (ex_intro _ o0 (conj N0 G))) as (l' & L1 & L2).
    + rewrite nth_error_map. unfold outs. rewrite nth_error_map, N0. reflexivity.
    + cbn in L1. rewrite N2 in L1. inversion L1; subst. exact L2.
Qed.
Lemma ready_process drain (e : engine T) :
  is_ready e = true -> Forall (fun b => b_enabled b = true -> Forall visible (b_rules b)) (e_blocks e) -> fine (snd (process drain e)).
Proof.
  intros Rd Vis. unfold is_ready in Rd. apply andb_prop in Rd. destruct Rd as [Rd RB]. apply andb_prop in Rd. destruct Rd as [Rd _]. apply andb_prop in Rd. destruct Rd as [_ RO].
  apply supplied_process; [exact RO|].
  rewrite Forall_forall in Vis |- *. intros b Ib Eb. specialize (Vis b Ib Eb). rewrite forallb_forall in RB. specialize (RB b Ib).
    unfold block_ready in RB. apply andb_prop in RB. destruct RB as [RB B3]. apply andb_prop in RB. destruct RB as [RB B2]. apply andb_prop in RB. destruct RB as [_ B1].
    rewrite Forall_forall in Vis |- *. intros rl Ir. specialize (Vis rl Ir). split.
    - intros x X. split; intros U.
      + assert (existsb (fun r => before_then " and " (rl_text r)) (b_rules b) = true) as Q by (apply existsb_exists; exists rl; split; [exact Ir|]; apply (Vis x "and"); auto).
        rewrite Q in B1. destruct (b_conjunction b); [discriminate|cbn in B1; discriminate].
      + assert (existsb (fun r => before_then " or " (rl_text r)) (b_rules b) = true) as Q by (apply existsb_exists; exists rl; split; [exact Ir|]; apply (Vis x "or"); auto).
        rewrite Q in B2. destruct (b_disjunction b); [discriminate|cbn in B2; discriminate].
    - intros j L (p & P1 & P2) (o & O1 & O2).
      assert (existsb (needs_implication (e_outputs e)) (b_rules b) = true) as Q.
      { apply existsb_exists. exists rl. split; [exact Ir|]. unfold needs_implication. rewrite L. cbn [andb]. apply existsb_exists. exists p. split; [exact P1|]. rewrite P2, O1. exact O2. }
      rewrite Q in B3. destruct (b_implication b); [discriminate|cbn in B3; discriminate].
Qed.
(** ** configured engines *)
Lemma configured_process drain c d i g df a (e : engine T) : Forall (fun o => v_terms (o_var o) <> []) (e_outputs e) ->
  fine (snd (process drain (configure (Some c) (Some d) (Some i) (Some g) (Some df) a e))).
Proof.
  intro N. apply supplied_process.
  - apply forallb_forall. intros o I. cbn [configure e_outputs] in I. apply in_map_iff in I. destruct I as (o' & <- & I). rewrite Forall_forall in N. specialize (N o' I).
    unfold output_ready, set_operators. cbn. destruct (v_terms (o_var o')); [congruence|]. cbn. now rewrite orb_true_r.
  - apply Forall_forall. intros b I _. cbn [configure e_blocks] in I. apply in_map_iff in I. destruct I as (b' & <- & I). cbn. apply Forall_forall. intros r _. split; [intros x X; split; discriminate|discriminate].
Qed.
Lemma configured_ready c d i g df a (e : engine T) : e_inputs e <> [] -> e_outputs e <> [] -> e_blocks e <> [] ->
  Forall (fun o => v_terms (o_var o) <> []) (e_outputs e) -> Forall (fun b => b_rules b <> []) (e_blocks e) ->
  is_ready (configure (Some c) (Some d) (Some i) (Some g) (Some df) a e) = true.
Proof.
  intros Ni No Nb Ot Br. unfold is_ready. cbn [configure e_inputs e_outputs e_blocks]. repeat (apply andb_true_intro; split).
  - destruct (e_inputs e); [congruence|reflexivity].
  - destruct (e_outputs e); [congruence|reflexivity].
  - apply forallb_forall. intros o I. apply in_map_iff in I. destruct I as (o' & <- & I). rewrite Forall_forall in Ot. specialize (Ot o' I).
    unfold output_ready, set_operators. cbn. destruct (v_terms (o_var o')); [congruence|]. cbn. now rewrite orb_true_r.
  - destruct (e_blocks e); [congruence|reflexivity].
  - apply forallb_forall. intros b I. apply in_map_iff in I. destruct I as (b' & <- & I). rewrite Forall_forall in Br. specialize (Br b' I).
    unfold block_ready. cbn [b_rules b_conjunction b_disjunction b_implication has]. rewrite !orb_true_r. destruct (b_rules b'); [congruence|reflexivity].
Qed.
Lemma configure_effect c d i g df a (e : engine T) : let e' := configure c d i g df a e in
  e_name e' = e_name e /\ e_description e' = e_description e /\ e_inputs e' = e_inputs e /\
  Forall2 (fun o o' => o_aggregation o' = g /\ o_defuzzifier o' = df /\
    o_var o' = o_var o /\ o_fuzzy o' = o_fuzzy o /\ o_previous o' = o_previous o /\ o_default o' = o_default o /\ o_lock_previous o' = o_lock_previous o) (e_outputs e) (e_outputs e') /\
  Forall2 (fun b b' => b_conjunction b' = c /\ b_disjunction b' = d /\ b_implication b' = i /\ b_activation b' = match a with Some m => Some m | None => Some General end /\
    b_rules b' = b_rules b /\ b_enabled b' = b_enabled b /\ b_name b' = b_name b /\ b_description b' = b_description b) (e_blocks e) (e_blocks e').
Proof.
  repeat (split; [reflexivity|]). cbn [configure e_outputs e_blocks]. split.
  - induction (e_outputs e) as [|o os IH]; constructor; [repeat split|exact IH].
  - induction (e_blocks e) as [|b bs IH]; constructor; [repeat split; destruct a; reflexivity|exact IH].
Qed.
Lemma configured drain c d i g df a (e : engine T) : let e' := configure (Some c) (Some d) (Some i) (Some g) (Some df) a e in
  Forall (fun o => v_terms (o_var o) <> []) (e_outputs e) -> fine (snd (process drain e')) /\
  (e_inputs e <> [] -> e_outputs e <> [] -> e_blocks e <> [] -> Forall (fun b => b_rules b <> []) (e_blocks e) -> is_ready e' = true).
Proof. intros e' N. split; [now apply configured_process|]. intros. now apply configured_ready. Qed.
End Ready.

(** ** keywords in neatly written rules *)
Definition blankless (w : string) : Prop := all_chars (fun c => c <> " "%char) w.
Lemma cut_first w r b c : blankless w -> w ++ String " " r = b ++ String " " c -> (b = w /\ c = r) \/ exists b', b = w ++ String " " b' /\ r = b' ++ String " " c.
Proof.
  revert b. induction w as [|x w IH]; intros b W H; cbn [append] in *.
  - destruct b as [|y b]; cbn in H; inversion H; subst; [left; auto|right; exists b; auto].
  - destruct W as [W1 W2]. destruct b as [|y b]; cbn in H; inversion H as [[E1 E2]]; [congruence|subst y].
    destruct (IH b W2 E2) as [[-> ->]|(b' & -> & ->)]; [left; auto|right; exists b'; auto].
Qed.
Lemma no_blank w b c : blankless w -> w <> b ++ String " " c.
Proof. revert b. induction w as [|x w IH]; intros [|y b] W H; cbn in H; try discriminate; inversion H; subst; destruct W; [congruence|eapply IH; eauto]. Qed.
Lemma glue_cut : forall ws b c, Forall blankless ws -> glue " " ws = b ++ String " " c ->
  exists X Y, ws = (X ++ Y)%list /\ X <> [] /\ Y <> [] /\ b = glue " " X /\ c = glue " " Y.
Proof.
  induction ws as [|w ws IH]; intros b c F H; [destruct b; discriminate|]. inversion F as [|? ? F1 F2]; subst. destruct ws as [|v ws].
  - exfalso. eapply no_blank; [exact F1|exact H].
  - change (glue " " (w :: v :: ws)) with (w ++ String " " (glue " " (v :: ws))) in H. apply cut_first in H; [|exact F1]. destruct H as [[-> ->]|(b' & -> & H)].
    + exists [w], (v :: ws). repeat split; auto; discriminate.
    + destruct (IH b' c F2 H) as (X & Y & E & NX & NY & -> & ->). exists (w :: X), Y. rewrite E. repeat split; auto; [discriminate|].
      destruct X; [congruence|reflexivity].
Qed.
Lemma glue_app X Y : X <> [] -> Y <> [] -> glue " " (X ++ Y)%list = glue " " X ++ String " " (glue " " Y).
Proof.
  intros NX NY. induction X as [|x X IH]; [congruence|]. destruct X as [|x' X].
  - cbn. destruct Y; [congruence|reflexivity].
  - change (glue " " ((x :: x' :: X) ++ Y)%list) with (x ++ String " " (glue " " ((x' :: X) ++ Y)%list)). rewrite IH by discriminate.
    change (glue " " (x :: x' :: X)) with (x ++ String " " (glue " " (x' :: X))). rewrite sapp_assoc. reflexivity.
Qed.
Lemma glue_word ws k : Forall blankless ws -> blankless k -> ws <> [] -> glue " " ws = k -> ws = [k].
Proof.
  intros F K N H. destruct ws as [|w [|v ws]]; [congruence|cbn in H; now subst|]. exfalso. symmetry in H. eapply no_blank; [exact K|exact H].
Qed.
Lemma occurrence ws b a k : Forall blankless ws -> blankless k -> glue " " ws = b ++ (" " ++ k ++ " ") ++ a ->
  exists X Y, ws = (X ++ k :: Y)%list /\ X <> [] /\ b = glue " " X.
Proof.
  intros F K H. change ((" " ++ k ++ " ") ++ a) with (String " " ((k ++ " ") ++ a)) in H.
  rewrite sapp_assoc in H. change (" " ++ a) with (String " " a) in H.
  destruct (glue_cut _ _ _ F H) as (X & Y & -> & NX & NY & -> & E). apply Forall_app in F. destruct F as [_ F].
  destruct (glue_cut _ _ _ F (eq_sym E)) as (X2 & Y2 & -> & NX2 & NY2 & E2 & E3). apply Forall_app in F. destruct F as [F _].
  apply eq_sym in E2. rewrite (glue_word X2 k F K NX2 E2). exists X, Y2. auto.
Qed.
Lemma split_unique {A} (k : A) X Y L M : (X ++ k :: Y = L ++ k :: M)%list -> ~ In k L -> exists Z, X = (L ++ Z)%list.
Proof.
  revert X. induction L as [|l L IH]; intros X H N; [exists X; reflexivity|]. destruct X as [|x X]; cbn in H; inversion H; subst.
  - exfalso. apply N. left. reflexivity.
  - destruct (IH X) as [Z ->]; [assumption|intro; apply N; right; assumption|]. exists Z. reflexivity.
Qed.
Lemma keyword_before k ws A R : Forall blankless ws -> blankless k -> ws = ("if" :: A ++ "then" :: R)%list -> ~ In "then" A -> In k A ->
  before_then (" " ++ k ++ " ") (glue " " ws) = true.
Proof.
  intros F K -> NT I. apply in_split in I. destruct I as (A1 & A2 & ->).
  set (L := "if" :: A1). set (M := (A2 ++ "then" :: R)%list).
  assert ("if" :: (A1 ++ k :: A2) ++ "then" :: R = L ++ k :: M)%list as E by (unfold L, M; cbn; rewrite <- app_assoc; reflexivity). rewrite E in *.
  assert (M <> []) as NM by (unfold M; destruct A2; discriminate).
  assert (glue " " (L ++ k :: M)%list = glue " " L ++ (" " ++ k ++ " ") ++ glue " " M) as G.
  { rewrite (glue_app L (k :: M)) by discriminate. change (k :: M) with ([k] ++ M)%list. rewrite (glue_app [k] M) by (assumption || discriminate). cbn [glue].
    change ((" " ++ k ++ " ") ++ glue " " M) with (String " " ((k ++ " ") ++ glue " " M)). rewrite sapp_assoc. reflexivity. }
  unfold before_then, index_of.
  destruct (find_sub (" " ++ k ++ " ") (glue " " (L ++ k :: M)%list)) as [[b a]|] eqn:Fk.
  2: { apply find_sub_none in Fk. exfalso. apply Fk. do 2 eexists. exact G. }
  apply find_sub_some in Fk. destruct Fk as [_ Mk]. specialize (Mk _ _ G).
  destruct (find_sub " then " (glue " " (L ++ k :: M)%list)) as [[b2 a2]|] eqn:Ft; [|reflexivity].
  apply find_sub_some in Ft. destruct Ft as [Et _]. apply Nat.ltb_lt. eapply Nat.le_lt_trans; [exact Mk|].
  assert (blankless "then") as KT by (cbn; repeat split; discriminate).
  destruct (occurrence _ b2 a2 "then" F KT Et) as (X & Y & EX & NX & ->). 
  assert (exists Z, X = ((L ++ k :: A2) ++ Z)%list) as [Z ->].
  { eapply (split_unique "then" X Y (L ++ k :: A2)%list R); [rewrite <- EX; unfold M; rewrite <- app_assoc; reflexivity|].
    intros J. apply in_app_iff in J. unfold L in J. destruct J as [[J|J]|[J|J]]; [discriminate| | |]; apply NT; apply in_app_iff; cbn; auto. }
  rewrite <- app_assoc. rewrite (glue_app L) by discriminate. rewrite slen_app. cbn [String.length]. lia.
Qed.
Lemma postfix_uses env k e q : Postfix env e q -> uses k e -> In k q.
Proof.
  induction 1 as [p ts _|n l r ts us N _ Hl IHl Hr IHr]; cbn [uses]; [tauto|]. intros [-> |[U|U]]; rewrite !in_app_iff; cbn; auto.
Qed.
Lemma lexeme_word w : lexeme special_chars w -> word w.
Proof.
  intros [(c & I & Sp & ->)|[N A]].
  - split; [discriminate|]. cbn. rewrite Sp. reflexivity.
  - split; [exact N|]. clear N. induction w as [|c w IH]; [reflexivity|]. destruct A as [[A1 _] A2]. cbn. rewrite A1. cbn. auto.
Qed.
Lemma word_blankless w : word w -> blankless w.
Proof.
  intros [_ H]. induction w as [|c w IH]; cbn in *; [exact I|]. apply andb_prop in H. destruct H as [H1 H2]. split; [|apply IH; exact H2]. intros ->. discriminate.
Qed.
Lemma join_is_glue ws : join ws " " = glue " " ws.
Proof. apply join_glue. Qed.
Lemma words_lex ws : Forall (lexeme special_chars) ws -> lex special_chars (words ws) = ws.
Proof. induction 1 as [|w ws H F IH]; [reflexivity|]. cbn [words]. change (w ++ " " ++ words ws) with (w ++ String " " (words ws)). rewrite lex_lexeme by auto. now rewrite IH. Qed.
Section Visible.
Context {T : Type} `{S : Scalar T}.
Lemma neat_visible env (r : rule T) : neat (rl_text r) -> loaded_from_text env r -> visible r.
Proof.
  intros (ws & Et & F & Hf) (r0 & r1 & L & Sm) e kw A K U.
  apply load_iff in L. destruct L as (A0 & C & o & e0 & cs & w & RT & AL & _ & _ & ->).
  destruct Sm as (_ & _ & _ & _ & SA & _). cbn in SA. rewrite SA in A. inversion A; subst e0. clear A SA.
  assert (before_hash (rl_text r) = rl_text r) as B by (apply before_hash_iff; split; [exact Hf|left; reflexivity]). rewrite B, Et in RT.
  rewrite <- join_is_glue, tokens_join in RT by (eapply Forall_impl; [|exact F]; intros; now apply lexeme_word).
  assert (Forall blankless ws) as Fb by (eapply Forall_impl; [|exact F]; intros; now apply word_blankless, lexeme_word).
  assert (blankless kw) as Kb by (destruct K as [-> | ->]; cbn; repeat split; discriminate).
  assert (exists R, ws = ("if" :: A0 ++ "then" :: R)%list /\ ~ In "then" A0) as (R & EW & NT) by (inversion RT; subst; eexists; split; eauto).
  assert (Forall (lexeme special_chars) A0) as FA. { rewrite EW in F. inversion F as [|? ? _ F']; subst. apply Forall_app in F'. tauto. }
  pose proof (@antecedent_total T S env (words A0)) as AT. rewrite AL in AT. destruct AT as (q & Y & Pq). rewrite words_lex in Y by exact FA.
  rewrite Et. eapply keyword_before; eauto. eapply yard_tokens_in; [exact Y|]. eapply postfix_uses; eassumption.
Qed.
End Visible.
