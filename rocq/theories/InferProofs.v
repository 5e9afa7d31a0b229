(** Proofs about inference: process() draws the conclusions which the rules describe. *)
From Coq Require Import ZArith String List Bool Lia.
From Verif Require Import Base Op Norm Hedge Defuzz Aggregated Function Rule Var Activation Engine SpecDegree SpecActivation SpecEngine SpecInfer
  DegreeProofs ActivationProofs ActivationProofs2 AggProofs EngineProofs EngineProofs3.
Import ListNotations.

Section Proofs.
Context {T : Type} `{S : Scalar T}.

Lemma about_app j (k l : facts T) : about j (k ++ l)%list = (about j k ++ about j l)%list.
Proof. unfold about. now rewrite filter_app, map_app. Qed.

Section Engine.
Variable e : engine T.
Notation en := (engine_enabled (e_inputs e) (cleared e)).
Notation dg := (engine_degree (engine_view (e_inputs e) (cleared e)) (e_inputs e) (map (@o_aggregation T) (cleared e))).

Lemma view_cleared : engine_view (e_inputs e) (cleared e) = engine_view (e_inputs e) (e_outputs e).
Proof. unfold engine_view, cleared. f_equal. f_equal. rewrite map_map. reflexivity. Qed.
Lemma nth_cleared j : nth_error (cleared e) j = option_map (set_fuzzy []) (nth_error (e_outputs e) j).
Proof. unfold cleared. apply nth_error_map. Qed.
Lemma en_true v : en v = true -> active e v.
Proof.
  intros E I. destruct v as [i|j]; cbn in E, I.
  - destruct I as (w & H & D). rewrite H in E. congruence.
  - destruct I as (o & H & D). rewrite nth_cleared, H in E. cbn in E. congruence.
Qed.
Lemma en_false v : en v = false -> inactive e v.
Proof.
  destruct v as [i|j]; cbn; intros H.
  - destruct (nth_error (e_inputs e) i) as [w|]; [eauto|discriminate].
  - rewrite nth_cleared in H. destruct (nth_error (e_outputs e) j) as [o|]; cbn in H; [eauto|discriminate].
Qed.
(** the fuzzy outputs are the conclusions *)
Definition stands (known : facts T) (f : fuzzy T) : Prop :=
  length f = length (e_outputs e) /\ forall j l, nth_error f j = Some l -> l = about j known.
Lemma dg_holds known f v t m : stands known f -> dg f v t = Ok m -> Holds e known v t m.
Proof.
  intros [L H] E. destruct v as [i|j]; cbn in E |- *.
  - rewrite view_cleared in E. destruct (nth_error (e_inputs e) i) as [v|] eqn:Ei; [|discriminate].
    destruct (nth_error (v_terms v) t) as [tm|] eqn:Et; [|discriminate]. eapply holds_input; eauto.
  - destruct (nth_error f j) as [l|] eqn:Ef; [|discriminate]. rewrite nth_error_map, nth_cleared in E.
    destruct (nth_error (e_outputs e) j) as [o|] eqn:Eo; cbn in E; [|discriminate]. injection E as <-. apply H in Ef. subst l.
    rewrite degree_of_term. now apply holds_output.
Qed.
Lemma strength b known f a d : stands known f ->
  expression_degree en (dg f) (b_conjunction b) (b_disjunction b) a = Ok d -> Strength e b known a d.
Proof.
  intros F H. apply degree_iff in H. induction H.
  - apply st_inactive, en_false, H.
  - eapply st_any; eauto. now apply en_true.
  - eapply st_term; eauto; [now apply en_true|]. now apply (dg_holds known f).
  - now apply st_and.
  - now apply st_or.
Qed.
Definition as_facts (imp : option tnorm) (added : list (nat * nat * T)) : facts T := map (fun a => (fst (fst a), mkActivated (snd (fst a)) (snd a) imp)) added.
Lemma follows b : forall ps d added, conclusions_modify en d ps = Ok added -> Follows e b d ps (as_facts (b_implication b) added).
Proof.
  induction ps as [|p ps IH]; intros d added H; cbn [conclusions_modify] in H.
  - injection H as <-. constructor.
  - destruct (en (pr_var p)) eqn:E.
    + destruct (pr_var p) as [i|j] eqn:V; [discriminate H|]. destruct (pr_term p) as [t|] eqn:Et; [|discriminate H].
      destruct (conclusions_modify _ _ ps) as [rest| | |] eqn:R; cbn [rbind] in H; try discriminate H. injection H as <-.
      cbn [as_facts map fst snd]. apply fo_active; auto.
      * rewrite V. now apply en_true.
      * now apply hedged_iff.
      * now apply IH.
    + apply fo_inactive; [now apply en_false|]. now apply IH.
Qed.
Lemma about_facts j imp added : about j (as_facts imp added) = for_variable imp j added.
Proof.
  unfold about, as_facts, for_variable. induction added as [|[[i t] d] added IH]; [reflexivity|].
  cbn [map filter fst snd]. destruct (Nat.eqb i j); cbn [map snd]; rewrite IH; reflexivity.
Qed.
Lemma stands_more known f imp added f' : stands known f -> add_terms imp added f = Ok f' -> stands (known ++ as_facts imp added) f'.
Proof.
  intros [L F] H. apply add_terms_extended in H. destruct H as [L' X]. split; [lia|]. intros j l N.
  assert (exists l0, nth_error f j = Some l0) as [l0 E].
  { destruct (nth_error f j) as [l0|] eqn:E; [eauto|]. apply nth_error_None in E. assert (nth_error f' j <> None) as B by congruence. apply nth_error_Some in B. lia. }
  pose proof (X _ _ E) as X1. rewrite N in X1. injection X1 as ->. rewrite about_app, about_facts. now rewrite <- (F _ _ E).
Qed.
Lemma loaded_some (r : rule T) : rule_loaded r = true -> exists a, rl_antecedent r = Some a /\ rl_consequent r <> [].
Proof. unfold rule_loaded. destruct (rl_antecedent r) as [a|]; [|discriminate]. destruct (rl_consequent r); [discriminate|]. intros _. exists a. split; [reflexivity|discriminate]. Qed.

Lemma general_rules b : forall rules k known f rules' f', stands known f ->
  pass en dg (b_conjunction b) (b_disjunction b) (b_implication b) (fun _ _ => true) k rules f = (rules', f', Ok tt) ->
  exists known', Rules e b known rules known' /\ stands known' f'.
Proof.
  induction rules as [|r rules IH]; intros k known f rules' f' F H; cbn [pass] in H.
  - injection H as <- <-. exists known. split; [constructor|exact F].
  - change (rule_loaded (rule_deactivate r)) with (rule_loaded r) in H. destruct (rule_loaded r) eqn:L.
    + destruct (loaded_some r L) as (a & A & C).
      destruct (activate_with en dg (b_conjunction b) (b_disjunction b) f (rule_deactivate r)) as [r1| | |] eqn:E1; try discriminate H.
      apply act_ok in E1; [|exact L]. destruct E1 as (d & D & ->). rewrite A in D. cbn [antecedent_degree] in D. apply (strength b known f a d F) in D.
      destruct (trigger en (b_implication b) f (set_degree (rl_weight r * d)%S (rule_deactivate r))) as [[r2 f2]| | |] eqn:E2; try discriminate H.
      destruct (pass _ _ _ _ _ _ _ rules f2) as [[rs f3] e3] eqn:E3. injection H as <- <- ->.
      unfold trigger, rule_trigger in E2.
      change (rule_loaded (set_degree (rl_weight r * d)%S (rule_deactivate r))) with (rule_loaded r) in E2. rewrite L in E2. cbn [negb] in E2.
      change (rl_enabled (set_degree (rl_weight r * d)%S (rule_deactivate r))) with (rl_enabled r) in E2.
      change (rl_degree (set_degree (rl_weight r * d)%S (rule_deactivate r))) with (rl_weight r * d)%S in E2.
      change (rl_consequent (set_degree (rl_weight r * d)%S (rule_deactivate r))) with (rl_consequent r) in E2.
      destruct (rl_enabled r && isGt (rl_weight r * d)%S s_0)%bool eqn:B.
      * apply andb_prop in B. destruct B as [B1 B2].
        destruct (consequent_modify en (rl_weight r * d)%S (rl_consequent r)) as [added| | |] eqn:M; cbn [rbind] in E2; try discriminate E2.
        destruct (add_terms (b_implication b) added f) as [f4| | |] eqn:E4; cbn [rbind] in E2; try discriminate E2. injection E2 as <- <-.
        assert (conclusions_modify en (rl_weight r * d)%S (rl_consequent r) = Ok added) as M' by (unfold consequent_modify in M; destruct (rl_consequent r); [discriminate M|exact M]).
        destruct (IH _ _ _ _ _ (stands_more _ _ _ _ _ F E4) E3) as (known' & R & F'). exists known'. split; [|exact F'].
        eapply ru_next; [|exact R]. eapply dr_fires; eauto. now apply follows.
      * cbn [rbind add_terms] in E2. injection E2 as <- <-.
        destruct (IH _ _ _ _ _ F E3) as (known' & R & F'). exists known'. split; [|exact F'].
        apply ru_next with (cs := []); [|now rewrite app_nil_r]. eapply dr_idle; eauto. destruct (rl_enabled r); [right; exact B|now left].
    + destruct (pass _ _ _ _ _ _ _ rules f) as [[rs f3] e3] eqn:E3. injection H as <- <- ->.
      destruct (IH _ _ _ _ _ F E3) as (known' & R & F'). exists known'. split; [|exact F'].
      apply ru_next with (cs := []); [now apply dr_unloaded|now rewrite app_nil_r].
Qed.
Lemma general_blocks drain : forall bs known f bs' f', Forall (fun b => b_enabled b = true -> method_of b = General) bs -> stands known f ->
  run_blocks drain en dg bs f = (bs', f', Ok tt) -> exists known', Blocks e known bs known' /\ stands known' f'.
Proof.
  induction bs as [|b bs IH]; intros known f bs' f' G F H; cbn [run_blocks] in H.
  - injection H as <- <-. exists known. split; [constructor|exact F].
  - inversion_clear G as [|? ? G1 G2]. destruct (b_enabled b) eqn:B.
    + destruct (block_activate en dg drain b f) as [[b1 f1] r1] eqn:E1. destruct r1 as [[]| | |]; try discriminate H.
      destruct (run_blocks drain en dg bs f1) as [[bs2 f2] r2] eqn:E2. injection H as <- <- ->.
      unfold block_activate in E1. fold (method_of b) in E1. rewrite (G1 eq_refl) in E1.
      cbn [activate] in E1. unfold general in E1.
      destruct (pass _ _ _ _ _ _ _ _ f) as [[rs f3] e3] eqn:E3. injection E1 as <- <- ->.
      apply (general_rules b _ _ known) in E3; [|exact F]. destruct E3 as (k1 & R & F1).
      destruct (IH _ _ _ _ G2 F1 E2) as (k2 & R2 & F2). exists k2. split; [|exact F2]. eapply bl_enabled; eauto.
    + destruct (run_blocks drain en dg bs f) as [[bs2 f2] r2] eqn:E2. injection H as <- <- ->.
      destruct (IH _ _ _ _ G2 F E2) as (k2 & R2 & F2). exists k2. split; [|exact F2]. now apply bl_disabled.
Qed.
Lemma stands_nothing : stands [] (map (fun _ : output T => []) (cleared e)).
Proof.
  split; [rewrite map_length; unfold cleared; apply map_length|]. intros j l H. rewrite nth_error_map in H. destruct (nth_error (cleared e) j); [|discriminate]. now injection H as <-.
Qed.
End Engine.

(** each output variable sees the new values of those before it and the old values of the others *)
Lemma from_views ins : forall rest done outs, defuzzify_from ins done rest = (outs, Ok tt) ->
  length outs = (length done + length rest)%nat /\ firstn (length done) outs = done /\
  forall i o, nth_error rest i = Some o -> exists p, nth_error outs (length done + i) = Some p /\
    defuzzify (engine_view ins (firstn (length done + i) outs ++ skipn i rest)) o = (p, Ok tt).
Proof.
  induction rest as [|o rest IH]; intros done outs H; cbn [defuzzify_from] in H.
  - injection H as ->. split; [cbn; lia|]. split; [apply firstn_all|]. intros [|i] o N; discriminate N.
  - destruct (defuzzify (engine_view ins (done ++ o :: rest)) o) as [o1 [[]| | |]] eqn:E; try discriminate H.
    apply IH in H. destruct H as (L & F & N). rewrite app_length in L, F, N. cbn [length] in L, F, N |- *.
    assert (firstn (length done) outs = done) as F0.
    { apply (f_equal (firstn (length done))) in F. rewrite firstn_firstn in F. replace (Nat.min (length done) (length done + 1)) with (length done) in F by lia.
      rewrite F, firstn_app, Nat.sub_diag, firstn_all. cbn. apply app_nil_r. }
    split; [lia|]. split; [exact F0|]. intros [|i] o' H'.
    + cbn in H'. injection H' as <-. rewrite Nat.add_0_r. exists o1. split.
      * apply (f_equal (fun l => nth_error l (length done))) in F. rewrite nth_error_app2, Nat.sub_diag in F by lia. cbn in F. rewrite <- F.
        rewrite <- (firstn_skipn (length done + 1) outs) at 1. apply nth_error_app1. rewrite firstn_length. lia.
      * cbn [skipn]. rewrite F0. exact E.
    + cbn in H'. apply N in H'. destruct H' as (p & P & D). exists p. replace (length done + Datatypes.S i)%nat with (length done + 1 + i)%nat by lia. split; [exact P|exact D].
Qed.
Lemma view_outs ins (outs outs' : list (output T)) : map (fun o => (v_name (o_var o), v_value (o_var o))) outs = map (fun o => (v_name (o_var o), v_value (o_var o))) outs' ->
  engine_view ins outs = engine_view ins outs'.
Proof. intros E. unfold engine_view. now rewrite E. Qed.
Lemma put_view fz : forall (outs : list (output T)), length fz = length outs ->
  map (fun o => (v_name (o_var o), v_value (o_var o))) (put_fuzzy outs fz) = map (fun o => (v_name (o_var o), v_value (o_var o))) outs.
Proof. unfold put_fuzzy. induction fz as [|f fz IH]; intros [|o outs] L; cbn in *; try discriminate; [reflexivity|]. f_equal. apply IH. lia. Qed.

(** what process() does to an output variable, given what is concluded about it *)
Lemma inference drain (e e' : engine T) : general_engine e -> process drain e = (e', Ok tt) ->
  exists known, Infers e known /\
    forall j o, nth_error (e_outputs e) j = Some o -> exists p, nth_error (e_outputs e') j = Some p /\
      defuzzify (engine_view (e_inputs e) (firstn j (e_outputs e') ++ skipn j (e_outputs e))) (set_fuzzy (about j known) o) = (p, Ok tt).
Proof.
  intros G H. rewrite process_phases in H. destruct (activation_phase drain e) as [[bs fz] r] eqn:A. pose proof (phase_length _ _ _ _ _ A) as L.
  destruct r as [[]| | |]; try discriminate H. destruct (defuzzify_from (e_inputs e) [] (put_fuzzy (cleared e) fz)) as [outs r] eqn:D.
  injection H as <- ->. unfold activation_phase in A. apply (general_blocks e _ _ [] _ _ _ G (stands_nothing e)) in A. destruct A as (known & B & F & N).
  exists known. split; [exact B|]. intros j o O. apply from_views in D. destruct D as (_ & _ & D). cbn [length Nat.add] in D.
  assert (length fz = length (cleared e)) as L' by (unfold cleared; rewrite map_length; exact L).
  assert (nth_error (cleared e) j = Some (set_fuzzy [] o)) as C by (rewrite nth_cleared, O; reflexivity).
  destruct (put_nth _ _ _ _ L' C) as (f & Hf & P). apply N in Hf. subst f. apply D in P. destruct P as (p & P1 & P2).
  exists p. split; [exact P1|]. cbn [e_outputs]. change (set_fuzzy (about j known) (set_fuzzy [] o)) with (set_fuzzy (about j known) o) in P2.
  rewrite <- P2. f_equal. apply view_outs. rewrite !map_app. f_equal. rewrite <- !skipn_map. rewrite put_view by exact L'.
  unfold cleared. rewrite map_map. reflexivity.
Qed.

(** ** uniqueness *)
Section Unique.
Variable e : engine T.
Lemma holds_unique known v t m m' : Holds e known v t m -> Holds e known v t m' -> m = m'.
Proof. intros H H'. inversion H; subst; inversion H'; subst; congruence. Qed.
Lemma hedged_unique hs (x y y' : T) : Hedged hs x y -> Hedged hs x y' -> y = y'.
Proof. intros H H'. apply hedged_iff in H, H'. congruence. Qed.
Lemma strength_unique b known a d d' : Strength e b known a d -> Strength e b known a d' -> d = d'.
Proof.
  intros H. revert d'. induction H; intros d' H'; inversion H'; subst; try contradiction; try reflexivity.
  - match goal with A : pr_hedges p = _, B : pr_hedges p = _ |- _ => rewrite A in B; apply app_inj_tail in B; destruct B as [<- _] end.
    eapply hedged_unique; eauto.
  - exfalso. match goal with A : forall hs, pr_hedges p <> _ |- _ => eapply A; eauto end.
  - exfalso. match goal with A : forall hs, pr_hedges p <> _ |- _ => eapply A; eauto end.
  - assert (t0 = t) by congruence. subst t0. assert (m0 = m) by (eapply holds_unique; eauto). subst m0. eapply hedged_unique; eauto.
  - assert (n0 = n) by congruence. subst. f_equal; auto.
  - assert (n0 = n) by congruence. subst. f_equal; auto.
Qed.
Lemma follows_unique b d ps cs cs' : Follows e b d ps cs -> Follows e b d ps cs' -> cs = cs'.
Proof.
  intros H. revert cs'. induction H; intros cs' H'; inversion H'; subst; try contradiction; try reflexivity; auto.
  assert (d'0 = d') by (eapply hedged_unique; eauto). subst. assert (j0 = j) by congruence. assert (t0 = t) by congruence. subst. f_equal. auto.
Qed.
Lemma draws_unique b known r cs cs' : Draws e b known r cs -> Draws e b known r cs' -> cs = cs'.
Proof.
  intros H H'. inversion H; subst; inversion H'; subst; try congruence; try reflexivity;
    repeat match goal with A : rl_antecedent r = Some ?a, B : rl_antecedent r = Some ?b |- _ => assert (a = b) by congruence; subst b; clear B end;
    match goal with A : Strength e b known ?a ?d, B : Strength e b known ?a ?d' |- _ => assert (d' = d) by (eapply strength_unique; eauto); subst d' end.
  - match goal with A : _ \/ _ |- _ => destruct A; congruence end.
  - match goal with A : _ \/ _ |- _ => destruct A; congruence end.
  - eapply follows_unique; eauto.
Qed.
Lemma rules_unique b known rs k k' : Rules e b known rs k -> Rules e b known rs k' -> k = k'.
Proof.
  intros H. revert k'. induction H; intros k' H'; inversion H'; subst; [reflexivity|].
  assert (cs0 = cs) by (eapply draws_unique; eauto). subst. auto.
Qed.
Lemma blocks_unique known bs k k' : Blocks e known bs k -> Blocks e known bs k' -> k = k'.
Proof.
  intros H. revert k'. induction H; intros k' H'; inversion H'; subst; try congruence; auto.
  assert (known2 = known1) by (eapply rules_unique; eauto). subst. auto.
Qed.
End Unique.
Lemma infers_unique (e : engine T) k k' : Infers e k -> Infers e k' -> k = k'.
Proof. apply blocks_unique. Qed.
End Proofs.
