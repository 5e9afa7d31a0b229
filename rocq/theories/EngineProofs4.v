(** Proofs about engines: the order of rules, the type of an engine. *)
From Coq Require Import ZArith Reals String List Bool Permutation Lia.
From Verif Require Import Base Op XR XRFacts Norm Shape Discrete Defuzz Aggregated Hedge Text Function Rule Var Activation Engine
  SpecRule SpecVar SpecActivation SpecEngine AggProofs2 ActivationProofs ActivationProofs2 ActivationProofs3 VarProofs EngineProofs EngineProofs2 EngineProofs3.
Import ListNotations.
Local Open Scope string_scope.

Lemma Forall2_at {A B} (R : A -> B -> Prop) l l' i x : Forall2 R l l' -> nth_error l i = Some x -> exists y, nth_error l' i = Some y /\ R x y.
Proof. intros F. revert i. induction F; intros [|i] H1; cbn in *; try discriminate; [inversion H1; subst; eauto|eauto]. Qed.
Lemma Forall2_at_r {A B} (R : A -> B -> Prop) l l' i y : Forall2 R l l' -> nth_error l' i = Some y -> exists x, nth_error l i = Some x /\ R x y.
Proof. intros F. revert i. induction F; intros [|i] H1; cbn in *; try discriminate; [inversion H1; subst; eauto|eauto]. Qed.

(** ** the order of rules *)
Section Order.
Context {T : Type} `{S : Scalar T}.
Lemma expression_ext enabled (d1 d2 : varref -> nat -> res T) c j e : (forall v t, consults e v t -> d1 v t = d2 v t) ->
  expression_degree enabled d1 c j e = expression_degree enabled d2 c j e.
Proof.
  induction e as [p|n l IHl r IHr]; cbn [expression_degree consults]; intros E.
  - unfold proposition_degree. destruct (pr_term p) as [t|]; [|reflexivity]. rewrite (E (pr_var p) t) by auto. reflexivity.
  - rewrite IHl, IHr by (intros; apply E; auto). reflexivity.
Qed.
Section Block.
Variable enabled : varref -> bool.
Variable degree : fuzzy T -> varref -> nat -> res T.
Hypothesis D : forall f g i t, degree f (VIn i) t = degree g (VIn i) t.
Variables (conjunction : option tnorm) (disjunction : option snorm) (implication : option tnorm).
Notation act := (activate_with enabled degree conjunction disjunction).
Lemma act_ext f g r : reads_inputs r -> act f r = act g r.
Proof.
  intros Q. unfold activate_with, rule_activate. destruct (rl_antecedent r) as [e|] eqn:A; [|reflexivity]. cbn [antecedent_degree].
  rewrite (expression_ext enabled (degree f) (degree g)); [reflexivity|]. intros v t C. destruct (Q e v t A C) as [i ->]. apply D.
Qed.
(** what a single rule does *)
Definition effect (r : rule T) (p : rule T * list (nat * nat * T)) : Prop :=
  if rule_loaded r then exists r1, act [] (rule_deactivate r) = Ok r1 /\ rule_trigger enabled r1 = Ok p
  else p = (rule_deactivate r, []).
Definition bounded (n : nat) (added : list (nat * nat * T)) : Prop := Forall (fun a => (fst (fst a) < n)%nat) added.
Lemma add_term_ok j (a : activated T nat) : forall fz, (j < length fz)%nat -> exists fz', add_term j a fz = Ok fz'.
Proof.
  induction j as [|j IH]; intros [|l fz] L; cbn in *; try lia; [eauto|]. destruct (IH fz ltac:(lia)) as [fz' ->]. cbn. eauto.
Qed.
Lemma add_terms_ok : forall added (fz : fuzzy T), bounded (length fz) added <-> exists fz', add_terms implication added fz = Ok fz'.
Proof.
  induction added as [|[[j t] d] added IH]; intros fz; cbn [add_terms]; [split; [eauto|constructor]|]. split.
  - intros B. inversion B as [|? ? B1 B2]; subst. cbn in B1. destruct (add_term_ok j (mkActivated t d implication) fz B1) as [f1 E]. rewrite E. cbn [rbind].
    apply add_term_spec in E. destruct E as [E _]. apply IH. rewrite E. exact B2.
  - intros [fz' H]. destruct (add_term j _ fz) as [f1| | |] eqn:E; cbn [rbind] in H; try discriminate. apply add_term_spec in E. destruct E as (E1 & E2 & _).
    constructor; [exact E2|]. fold (bounded (length fz) added). rewrite <- E1. apply IH. eauto.
Qed.
Lemma add_terms_app a b (f g : fuzzy T) : add_terms implication a f = Ok g -> add_terms implication (a ++ b) f = add_terms implication b g.
Proof.
  revert f. induction a as [|[[j t] d] a IH]; intros f H; cbn [add_terms app] in *; [inversion H; reflexivity|].
  destruct (add_term j _ f) as [f1| | |]; cbn [rbind] in *; try discriminate. apply IH. exact H.
Qed.
Lemma pass_effects : forall rules k f rules' f', Forall reads_inputs rules ->
  (pass enabled degree conjunction disjunction implication (fun _ _ => true) k rules f = (rules', f', Ok tt) <->
   exists ps, Forall2 effect rules ps /\ rules' = map fst ps /\ add_terms implication (concat (map snd ps)) f = Ok f').
Proof.
  induction rules as [|r rules IH]; intros k f rules' f' Q; cbn [pass].
  - split; [intros H; inversion H; subst; exists []; repeat split; constructor|]. intros (ps & F & -> & A). inversion F; subst. cbn in A. inversion A; subst. reflexivity.
  - inversion Q as [|? ? Q1 Q2]; subst. assert (reads_inputs (rule_deactivate r)) as Q1' by exact Q1.
    change (rule_loaded (rule_deactivate r)) with (rule_loaded r). destruct (rule_loaded r) eqn:L.
    + split.
      * intros H. destruct (act f (rule_deactivate r)) as [r1|x| |] eqn:A; try (inversion H; fail).
        destruct (trigger enabled implication f r1) as [[r2 f2]|x| |] eqn:G; try (inversion H; fail).
        destruct (pass enabled degree conjunction disjunction implication _ _ rules f2) as [[rs g] e'] eqn:E. inversion H; subst. clear H.
        unfold trigger in G. destruct (rule_trigger enabled r1) as [[r3 added]|x| |] eqn:G1; cbn [rbind] in G; try discriminate.
        destruct (add_terms implication added f) as [f3|x| |] eqn:G2; cbn [rbind] in G; try discriminate. inversion G; subst r3 f3.
        apply (IH _ _ _ _ Q2) in E. destruct E as (ps & F & -> & Ad). exists ((r2, added) :: ps). split; [constructor; [|exact F]|split; [reflexivity|]].
        -- unfold effect. rewrite L. exists r1. split; [|exact G1]. rewrite <- A. apply act_ext. exact Q1'.
        -- cbn [map snd concat]. rewrite (add_terms_app _ _ _ _ G2). exact Ad.
      * intros (ps & F & -> & Ad). inversion F as [|? [r2 added] ? ps' H1 F']; subst. unfold effect in H1. rewrite L in H1. destruct H1 as (r1 & H1 & H2).
        rewrite (act_ext f [] _ Q1'), H1. cbn [map snd concat] in Ad.
        assert (exists g, add_terms implication added f = Ok g) as [g Hg].
        { apply add_terms_ok. assert (bounded (length f) (added ++ concat (map snd ps'))) as B by (apply add_terms_ok; eauto). apply Forall_app in B. tauto. }
        unfold trigger. rewrite H2. cbn [rbind]. rewrite Hg. cbn [rbind]. rewrite (add_terms_app _ _ _ _ Hg) in Ad.
        destruct (pass enabled degree conjunction disjunction implication _ (k + 1) rules g) as [[rs h] e'] eqn:E.
        assert (pass enabled degree conjunction disjunction implication (fun _ _ => true) (k + 1) rules g = (map fst ps', f', Ok tt)) as E2 by (apply IH; [exact Q2|exists ps'; auto]).
        rewrite E in E2. inversion E2; subst. reflexivity.
    + split.
      * intros H. destruct (pass enabled degree conjunction disjunction implication _ _ rules f) as [[rs g] e'] eqn:E. inversion H; subst. clear H.
        apply (IH _ _ _ _ Q2) in E. destruct E as (ps & F & -> & Ad). exists ((rule_deactivate r, []) :: ps). split; [constructor; [|exact F]|split; [reflexivity|exact Ad]].
        unfold effect. rewrite L. reflexivity.
      * intros (ps & F & -> & Ad). inversion F as [|? [r2 added] ? ps' H1 F']; subst. unfold effect in H1. rewrite L in H1. inversion H1; subst. cbn [map snd concat app] in Ad.
        assert (pass enabled degree conjunction disjunction implication (fun _ _ => true) k rules f = (map fst ps', f', Ok tt)) as E2 by (apply IH; [exact Q2|exists ps'; auto]).
        rewrite E2. reflexivity.
Qed.
Lemma concat_perm {A} (l l' : list (list A)) : Permutation l l' -> Permutation (concat l) (concat l').
Proof.
  induction 1; cbn; auto.
  - apply Permutation_app_head. assumption.
  - rewrite !app_assoc. apply Permutation_app_tail. apply Permutation_app_comm.
  - etransitivity; eassumption.
Qed.
Lemma filter_perm {A} (p : A -> bool) l l' : Permutation l l' -> Permutation (filter p l) (filter p l').
Proof.
  induction 1; cbn; auto; [destruct (p x); auto| |etransitivity; eassumption]. destruct (p x), (p y); try reflexivity. apply perm_swap.
Qed.
Lemma extended_perm added added' (f g f' g' : fuzzy T) : Forall2 (@Permutation _) f g -> Permutation added added' ->
  extended implication added f f' -> extended implication added' g g' -> Forall2 (@Permutation _) f' g'.
Proof.
  intros F Pm [L1 E1] [L2 E2].
  assert (forall j l l', nth_error f' j = Some l -> nth_error g' j = Some l' -> Permutation l l') as K.
  { intros j l l' H1 H2. destruct (nth_error f j) as [a|] eqn:A; [|apply nth_error_None in A; rewrite <- L1 in A; apply nth_error_None in A; congruence].
    destruct (nth_error g j) as [b|] eqn:B; [|apply nth_error_None in B; rewrite <- L2 in B; apply nth_error_None in B; congruence].
    rewrite (E1 _ _ A) in H1. rewrite (E2 _ _ B) in H2. inversion H1; inversion H2; subst.
    apply Permutation_app; [|apply Permutation_map, filter_perm; exact Pm].
    destruct (Forall2_at _ _ _ _ _ F A) as (b' & B' & Pb). rewrite B in B'. inversion B'; subst. exact Pb. }
  assert (length f' = length g') as Ln by (apply Forall2_len in F; congruence).
  clear - K Ln. revert g' Ln K. induction f' as [|a f' IH]; intros [|b g'] Ln K; cbn in Ln; try discriminate; constructor.
  - apply (K 0%nat); reflexivity.
  - apply IH; [congruence|]. intros j l l' H1 H2. apply (K (Datatypes.S j)); assumption.
Qed.
Lemma general_perm rules rules2 f g rules' f' : Forall reads_inputs rules -> Permutation rules rules2 -> Forall2 (@Permutation _) f g ->
  general enabled degree conjunction disjunction implication rules f = (rules', f', Ok tt) ->
  exists rules2' g', general enabled degree conjunction disjunction implication rules2 g = (rules2', g', Ok tt) /\
    Permutation rules' rules2' /\ Forall2 (@Permutation _) f' g'.
Proof.
  unfold general. intros Q Pm F H. apply pass_effects in H; [|exact Q]. destruct H as (ps & Fe & -> & Ad).
  destruct (Forall2_perm _ _ _ _ Pm Fe) as (ps2 & Pp & Fe2).
  assert (Permutation (concat (map snd ps)) (concat (map snd ps2))) as Pc by (apply concat_perm, Permutation_map; exact Pp).
  assert (exists g', add_terms implication (concat (map snd ps2)) g = Ok g') as [g' Hg].
  { apply add_terms_ok. replace (length g) with (length f) by (apply Forall2_len in F; congruence). unfold bounded.
    eapply Permutation_Forall; [exact Pc|]. apply (proj2 (add_terms_ok _ f)). eauto. }
  exists (map fst ps2), g'. split; [|split].
  - apply pass_effects; [eapply Permutation_Forall; eassumption|]. exists ps2. auto.
  - apply Permutation_map. exact Pp.
  - eapply extended_perm; [exact F|exact Pc|apply add_terms_extended; exact Ad|apply add_terms_extended; exact Hg].
Qed.
End Block.

(** blocks afterwards: the same with permuted rules *)
Lemma run_perm drain enabled degree : (forall f g i t, degree f (VIn i) t = degree g (VIn i) t) ->
  forall bs bs2 f g bs' f', Forall order_free bs -> Forall2 reordered_block bs bs2 -> Forall2 (@Permutation _) f g ->
  run_blocks drain enabled degree bs f = (bs', f', Ok tt) ->
  exists bs2' g', run_blocks drain enabled degree bs2 g = (bs2', g', Ok tt) /\ Forall2 reordered_block bs' bs2' /\ Forall2 (@Permutation _) f' g'.
Proof.
  intros D. induction bs as [|b bs IH]; intros bs2 f g bs' f' Q Rb F H; inversion Rb as [|? b2 ? bs3 R1 R2]; subst; cbn [run_blocks] in *.
  - inversion H; subst. exists [], g. repeat split; auto.
  - inversion Q as [|? ? Q1 Q2]; subst. destruct R1 as (E1 & E2 & E3 & E4 & E5 & E6 & E7 & E8). rewrite E1. unfold order_free in Q1. destruct (b_enabled b) eqn:Eb.
    + specialize (Q1 eq_refl). destruct Q1 as [Q1 Q1']. unfold method_of in Q1. unfold block_activate in *. rewrite E5, E6, E7, E8.
      destruct (b_activation b) as [a|] eqn:Ab; cbv iota in *.
      * subst a. cbn [activate] in *. destruct (general _ _ _ _ _ (b_rules b) f) as [[rs h] u] eqn:G.
        destruct u as [[]|?| |]; try (inversion H; fail). destruct (run_blocks drain enabled degree bs h) as [[bs1 k] u] eqn:Rn. inversion H; subst.
        destruct (general_perm _ _ D _ _ _ _ _ _ _ _ _ Q1' E4 F G) as (rs2 & h2 & -> & Pr & Fh).
        destruct (IH _ _ _ _ _ Q2 R2 Fh Rn) as (bs4 & k2 & -> & Rb4 & Fk). eexists _, _. split; [reflexivity|]. split; [|exact Fk]. constructor; [|exact Rb4].
        repeat split; cbn; auto; congruence.
      * cbn [activate] in *. destruct (general _ _ _ _ _ (b_rules b) f) as [[rs h] u] eqn:G.
        destruct u as [[]|?| |]; try (inversion H; fail). destruct (run_blocks drain enabled degree bs h) as [[bs1 k] u] eqn:Rn. inversion H; subst.
        destruct (general_perm _ _ D _ _ _ _ _ _ _ _ _ Q1' E4 F G) as (rs2 & h2 & -> & Pr & Fh).
        destruct (IH _ _ _ _ _ Q2 R2 Fh Rn) as (bs4 & k2 & -> & Rb4 & Fk). eexists _, _. split; [reflexivity|]. split; [|exact Fk]. constructor; [|exact Rb4].
        repeat split; cbn; auto; congruence.
    + destruct (run_blocks drain enabled degree bs f) as [[bs1 k] u] eqn:Rn. inversion H; subst.
      destruct (IH _ _ _ _ _ Q2 R2 F Rn) as (bs4 & k2 & -> & Rb4 & Fk). eexists _, _. split; [reflexivity|]. split; [|exact Fk]. constructor; [|exact Rb4]. repeat split; congruence || auto.
Qed.

Lemma phase_perm drain (e : engine T) bs bs' fz : Forall order_free (e_blocks e) -> Forall2 reordered_block (e_blocks e) bs ->
  activation_phase drain e = (bs', fz, Ok tt) ->
  exists bs2' fz2, activation_phase drain (reorder e bs) = (bs2', fz2, Ok tt) /\ Forall2 reordered_block bs' bs2' /\ Forall2 (@Permutation _) fz fz2.
Proof.
  intros Q Rb. unfold activation_phase. cbn [reorder e_inputs e_outputs e_blocks]. change (cleared (reorder e bs)) with (cleared e). intros H.
  refine (run_perm _ _ _ _ _ _ _ _ _ _ Q Rb _ H); [reflexivity|].
  apply Forall2_refl. reflexivity.
Qed.
Lemma defuzzify_fuzzy vw (o : output T) : o_fuzzy (fst (defuzzify vw o)) = o_fuzzy o.
Proof. unfold defuzzify. destruct (negb _); [reflexivity|]. destruct (o_defuzzifier o); [|reflexivity]. destruct (defuzzified _ _ _); reflexivity. Qed.
Lemma from_fuzzy ins : forall rest done, map (@o_fuzzy T) (fst (defuzzify_from ins done rest)) = (map (@o_fuzzy T) done ++ map (@o_fuzzy T) rest)%list.
Proof.
  induction rest as [|o rest IH]; intros done; cbn [defuzzify_from]; [cbn; now rewrite app_nil_r|].
  pose proof (defuzzify_fuzzy (engine_view ins (done ++ o :: rest)) o) as E. destruct (defuzzify _ o) as [o1 u]. cbn [fst] in E.
  destruct u; cbn [fst]; [rewrite IH, map_app, <- app_assoc; cbn; now rewrite E|rewrite map_app; cbn; now rewrite E..].
Qed.
Lemma put_fuzzies : forall (outs : list (output T)) fz, length fz = length outs -> map (@o_fuzzy T) (put_fuzzy outs fz) = fz.
Proof. unfold put_fuzzy. induction outs as [|o outs IH]; intros [|f fz] L; cbn in *; try discriminate; [reflexivity|]. f_equal. apply IH. lia. Qed.
Lemma process_fuzzies drain (e : engine T) bs fz r : activation_phase drain e = (bs, fz, r) -> map (@o_fuzzy T) (e_outputs (fst (process drain e))) = fz /\ e_blocks (fst (process drain e)) = bs.
Proof.
  intros A. pose proof (phase_length drain _ _ _ _ A) as L. rewrite process_phases, A.
  assert (length fz = length (cleared e)) as L' by (unfold cleared; now rewrite map_length).
  destruct r as [[]|x| |]; try (cbn; split; [apply put_fuzzies; exact L'|reflexivity]).
  pose proof (from_fuzzy (e_inputs e) (put_fuzzy (cleared e) fz) []) as F. destruct (defuzzify_from _ _ _) as [outs r]. cbn [fst e_outputs e_blocks] in *.
  split; [|reflexivity]. rewrite F. apply put_fuzzies. exact L'.
Qed.
(** C51: fuzzy outputs *)
Lemma reordered drain (e : engine T) bs : Forall order_free (e_blocks e) -> Forall2 reordered_block (e_blocks e) bs ->
  snd (process drain e) = Ok tt ->
  let p := fst (process drain e) in let p2 := fst (process drain (reorder e bs)) in
  Forall2 reordered_block (e_blocks p) (e_blocks p2) /\ Forall2 (fun o o2 => Permutation (o_fuzzy o) (o_fuzzy o2)) (e_outputs p) (e_outputs p2).
Proof.
  intros Q Rb H p p2. destruct (activation_phase drain e) as [[bs' fz] r] eqn:A.
  assert (r = Ok tt) as ->. { rewrite process_phases, A in H. destruct r as [[]|x| |]; cbn in H; congruence. }
  destruct (phase_perm drain e bs bs' fz Q Rb A) as (bs2 & fz2 & A2 & R2 & F2).
  destruct (process_fuzzies _ _ _ _ _ A) as [P1 P2]. destruct (process_fuzzies _ _ _ _ _ A2) as [P3 P4]. fold p in P1, P2. fold p2 in P3, P4.
  split; [rewrite P2, P4; exact R2|]. rewrite <- P1, <- P3 in F2. clear - F2. remember (e_outputs p2) as l2 eqn:E. clear E. revert l2 F2.
  induction (e_outputs p) as [|o l IH]; intros [|o2 l2] F; cbn in F; inversion F; subst; constructor; auto.
Qed.
End Order.

(** ** exact arithmetic: the values do not depend on the order either *)
Section Values.
Context (P : xparam).
#[local] Hint Extern 0 (Scalar xr) => exact (XRScalar P) : typeclass_instances.
Variable drain : drainer xr.
Definition term_of (vw : view xr) (o : output xr) (t : nat) (x : xr) : res xr :=
  match nth_error (v_terms (o_var o)) t with Some tm => term_membership vw tm x | None => UB end.
(** an output whose value does not depend on the order of its activated terms *)
Definition order_safe (o : output xr) : Prop :=
  v_enabled (o_var o) = true -> exists k n s, o_defuzzifier o = Some (DIntegral k n) /\ o_aggregation o = Some s /\ (s = HamacherSum -> xp_eps P = 0%R) /\
    forall vw x, x <> XNaN -> exists ds, Forall2 (contributes P (term_of vw o) x) (o_fuzzy o) ds.
Lemma defuzzified_perm vw (o : output xr) k n s l : (0 <= xp_eps P)%R -> o_aggregation o = Some s -> (s = HamacherSum -> xp_eps P = 0%R) ->
  (forall x, x <> XNaN -> exists ds, Forall2 (contributes P (term_of vw o) x) (o_fuzzy o) ds) -> Permutation (o_fuzzy o) l ->
  defuzzified vw (DIntegral k n) (set_fuzzy l o) = defuzzified vw (DIntegral k n) o.
Proof.
  intros E A H C Pm. unfold defuzzified. cbn [o_var set_fuzzy o_aggregation o_fuzzy]. apply integral_ext. intros x. rewrite A.
  destruct (isNaN x) eqn:N.
  - unfold agg_membership. rewrite N. reflexivity.
  - assert (x <> XNaN) as NX by (intros ->; rewrite (x_isNaN P) in N; discriminate). destruct (C x NX) as [ds F].
    exact (order_independent P (term_of vw o) s _ _ x ds NX E H F Pm).
Qed.
Definition equal_but_fuzzy (a b : output xr) : Prop := b = set_fuzzy (o_fuzzy b) a /\ Permutation (o_fuzzy a) (o_fuzzy b).
Lemma view_but ins a b : Forall2 equal_but_fuzzy a b -> engine_view ins a = engine_view ins b.
Proof.
  intros F. unfold engine_view. f_equal. f_equal. induction F as [|x y a b [E _] F IH]; [reflexivity|]. cbn. rewrite IH. rewrite E. reflexivity.
Qed.
Lemma defuzzify_but vw (o p o1 : output xr) : (0 <= xp_eps P)%R -> order_safe o -> equal_but_fuzzy o p -> defuzzify vw o = (o1, Ok tt) ->
  exists p1, defuzzify vw p = (p1, Ok tt) /\ equal_but_fuzzy o1 p1.
Proof.
  intros Ep Sf [E Pm] H. unfold defuzzify in *.
  assert (v_enabled (o_var p) = v_enabled (o_var o)) as -> by (rewrite E; reflexivity).
  assert (o_defuzzifier p = o_defuzzifier o) as -> by (rewrite E; reflexivity).
  destruct (v_enabled (o_var o)) eqn:En; cbn [negb] in *; [|inversion H; subst; exists p; split; [reflexivity|split; assumption]].
  destruct (Sf En) as (k & n & s & D & A & Hs & C). rewrite D in *.
  assert (defuzzified vw (DIntegral k n) p = defuzzified vw (DIntegral k n) o) as Dp.
  { rewrite E. eapply defuzzified_perm; eauto. }
  change (@defuzzified xr (XRScalar P) vw (DIntegral k n) p = @defuzzified xr (XRScalar P) vw (DIntegral k n) o) in Dp. rewrite Dp.
  destruct (defuzzified vw (DIntegral k n) o) as [v|x| |] eqn:V; try discriminate. inversion H; subst o1. exists (settle v p). split; [reflexivity|].
  split; [|exact Pm]. rewrite E. reflexivity.
Qed.
Lemma from_but ins : (0 <= xp_eps P)%R -> forall rest rest2 done done2 outs, Forall order_safe rest -> Forall2 equal_but_fuzzy rest rest2 -> Forall2 equal_but_fuzzy done done2 ->
  defuzzify_from ins done rest = (outs, Ok tt) -> exists outs2, defuzzify_from ins done2 rest2 = (outs2, Ok tt) /\ Forall2 equal_but_fuzzy outs outs2.
Proof.
  intros Ep. induction rest as [|o rest IH]; intros rest2 done done2 outs Sf F Fd H; inversion F as [|? p ? rest3 F1 F2]; subst; cbn [defuzzify_from] in *.
  - inversion H; subst. eauto.
  - inversion Sf as [|? ? Sf1 Sf2]; subst.
    assert (engine_view ins (done2 ++ p :: rest3) = engine_view ins (done ++ o :: rest)) as -> by (symmetry; apply view_but, Forall2_app; [exact Fd|constructor; assumption]).
    destruct (defuzzify (engine_view ins (done ++ o :: rest)) o) as [o1 u] eqn:Df. destruct u as [[]|x| |]; try discriminate.
    destruct (defuzzify_but _ _ _ _ Ep Sf1 F1 Df) as (p1 & -> & E1). eapply IH; [exact Sf2|exact F2| |exact H]. apply Forall2_app; [exact Fd|]. constructor; [exact E1|constructor].
Qed.
Lemma order_safe_same a b : same_output a b -> o_fuzzy a = o_fuzzy b -> order_safe b -> order_safe a.
Proof.
  intros (H1 & H2 & H3 & H4 & H5 & H6 & H7 & H8 & H9 & H10) F Sf En. unfold order_safe in Sf. rewrite H5 in Sf. destruct (Sf En) as (k & n & s & D & A & Hs & C). exists k, n, s.
  split; [congruence|]. split; [congruence|]. split; [exact Hs|]. intros vw x X. destruct (C vw x X) as [ds Fd]. exists ds. rewrite F.
  unfold term_of in *. rewrite H7 in Fd. exact Fd.
Qed.
(** C51: values *)
Lemma reordered_values (e : engine xr) bs : (0 <= xp_eps P)%R -> Forall order_free (e_blocks e) -> Forall2 reordered_block (e_blocks e) bs ->
  snd (process drain e) = Ok tt -> Forall order_safe (e_outputs (fst (process drain e))) ->
  snd (process drain (reorder e bs)) = Ok tt /\
  Forall2 equal_but_fuzzy (e_outputs (fst (process drain e))) (e_outputs (fst (process drain (reorder e bs)))).
Proof.
  intros Ep Q Rb H Sf. destruct (activation_phase drain e) as [[bs' fz] r] eqn:A. pose proof (phase_length _ _ _ _ _ A) as L.
  destruct (process_fuzzies _ _ _ _ _ A) as [Pf _].
  assert (Forall2 same_output (e_outputs e) (e_outputs (fst (process drain e)))) as Sm by (exact (proj1 (proj2 (proj2 (proj2 (process_same drain e)))))).
  rewrite (process_phases drain e), A in H, Sf, Pf, Sm |- *.
  destruct r as [[]|x| |]; cbn [snd] in H; try discriminate.
  destruct (phase_perm drain e bs bs' fz Q Rb A) as (bs2 & fz2 & A2 & R2 & F2).
  rewrite process_phases, A2. cbn [reorder e_inputs e_name e_description]. change (cleared (reorder e bs)) with (cleared e).
  destruct (defuzzify_from (e_inputs e) [] (put_fuzzy (cleared e) fz)) as [outs r] eqn:Df. cbn [fst snd e_outputs] in *. subst r.
  assert (length fz = length (cleared e)) as L' by (unfold cleared; now rewrite map_length).
  assert (Forall2 equal_but_fuzzy (put_fuzzy (cleared e) fz) (put_fuzzy (cleared e) fz2)) as Fp.
  { clear - F2 L'. revert fz fz2 F2 L'. unfold put_fuzzy. induction (cleared e) as [|o l IH]; intros fz fz2 F L; [constructor|]. destruct F as [|f f2 fz fz2 F1 F2]; [discriminate|].
    cbn. constructor; [split; [reflexivity|exact F1]|]. apply IH; [exact F2|]. cbn in L. lia. }
  assert (Forall order_safe (put_fuzzy (cleared e) fz)) as Sp.
  { apply Forall_forall. intros o Io. apply In_nth_error in Io. destruct Io as [i Ni].
    pose proof (put_fuzzies _ _ L') as Pz.
    assert (nth_error (map (@o_fuzzy xr) (put_fuzzy (cleared e) fz)) i = Some (o_fuzzy o)) as Nf by (now apply map_nth_error). rewrite Pz in Nf.
    assert (exists o2, nth_error outs i = Some o2 /\ o_fuzzy o2 = o_fuzzy o) as (o2 & N2 & E2).
    { rewrite <- Pf in Nf. rewrite nth_error_map in Nf. destruct (nth_error outs i) as [o2|]; [|discriminate]. inversion Nf. eauto. }
    assert (exists o0, nth_error (e_outputs e) i = Some o0 /\ same_output o0 o) as (o0 & N0 & S0).
    { assert (Forall2 same_output (e_outputs e) (put_fuzzy (cleared e) fz)) as Fs.
      { eapply Forall2_trans; [intros x y z; apply same_output_trans| |apply put_same; exact L'].
        unfold cleared. clear. induction (e_outputs e) as [|x l IH]; cbn; constructor; auto. now repeat split. }
      destruct (Forall2_at_r _ _ _ _ _ Fs Ni) as (o0 & N0 & S0). eauto. }
    destruct (Forall2_at _ _ _ _ _ Sm N0) as (o2' & N2' & S2). rewrite N2 in N2'. inversion N2'; subst o2'.
    apply (order_safe_same o o2); [eapply same_output_trans; [apply same_output_sym; exact S0|exact S2]|congruence|].
    rewrite Forall_forall in Sf. apply Sf. eapply nth_error_In. exact N2. }
  destruct (from_but _ Ep _ _ [] [] _ Sp Fp ltac:(constructor) Df) as (outs2 & -> & Fo). split; [reflexivity|exact Fo].
Qed.
End Values.

(** ** the type of an engine *)
Section Types.
Context {T : Type} `{S : Scalar T}.
Lemma forallb_iff {A} (p : A -> bool) (Q : A -> Prop) l : (forall x, p x = true <-> Q x) -> (forallb p l = true <-> Forall Q l).
Proof.
  intros E. induction l as [|x l IH]; cbn; [split; auto|]. rewrite andb_true_iff, IH, E. split; [intros []; constructor; assumption|intros H; inversion H; auto].
Qed.
Lemma integral_iff (o : output T) : is_integral (o_defuzzifier o) = true <-> integral_output o.
Proof. unfold integral_output. destruct (o_defuzzifier o) as [[]|]; cbn; split; eauto; try discriminate; intros (? & ? & ?); discriminate. Qed.
Lemma weighted_iff (o : output T) : is_weighted o = true <-> weighted_output o.
Proof. unfold weighted_output, is_weighted. destruct (o_defuzzifier o) as [[]|]; cbn; split; eauto; try discriminate; intros (? & ? & ?); discriminate. Qed.
Lemma wtype_iff ty (o : output T) : weighted_type ty o = true <-> exists k t, o_defuzzifier o = Some (DWeighted k t) /\ (t = WAutomatic \/ t = ty).
Proof.
  unfold weighted_type. destruct (o_defuzzifier o) as [[k n|k t]|]; try (split; [discriminate|intros (? & ? & ? & _); discriminate]).
  split.
  - intros H. exists k, t. split; [reflexivity|]. destruct t, ty; cbn in H; auto; discriminate.
  - intros (k' & t' & H & C). inversion H; subst. destruct C as [-> | ->]; [reflexivity|destruct ty; reflexivity].
Qed.
Lemma function_iff (t : term T) : wtype_eqb (term_wtype t) WTakagiSugeno = true <-> function_term t.
Proof. unfold term_wtype, function_term, term_monotonic. destruct (tm_body t) as [s| | | |]; cbn; try tauto; try (split; [discriminate|tauto]). destruct s; cbn; split; (discriminate || tauto). Qed.
Lemma monotonic_iff (t : term T) : term_monotonic t = true <-> monotonic_term t.
Proof. unfold monotonic_term, term_monotonic. destruct (tm_body t) as [s| | | |]; cbn; try (split; [discriminate|tauto]). destruct s; cbn; split; (discriminate || tauto). Qed.
Lemma sugeno_iff (o : output T) : (weighted_type WTakagiSugeno o && forallb (fun t => wtype_eqb (term_wtype t) WTakagiSugeno) (v_terms (o_var o)))%bool = true <-> takagi_sugeno_output o.
Proof. unfold takagi_sugeno_output. rewrite andb_true_iff, wtype_iff, (forallb_iff _ _ _ function_iff). reflexivity. Qed.
Lemma tsukamoto_iff (o : output T) : (weighted_type WTsukamoto o && forallb term_monotonic (v_terms (o_var o)))%bool = true <-> tsukamoto_output o.
Proof. unfold tsukamoto_output. rewrite andb_true_iff, wtype_iff, (forallb_iff _ _ _ monotonic_iff). reflexivity. Qed.
Lemma product_iff (b : block T) : tnorm_is_product (b_implication b) = true <-> product_implication b.
Proof. unfold product_implication. destruct (b_implication b) as [[]|]; cbn; split; try reflexivity; discriminate. Qed.
Lemma has_iff_some (o : output T) : has (o_defuzzifier o) = true <-> o_defuzzifier o <> None.
Proof. destruct (o_defuzzifier o); cbn; split; congruence. Qed.
Lemma not_forall {A} (p : A -> bool) (Q : A -> Prop) l : (forall x, p x = true <-> Q x) -> forallb p l = false -> ~ Forall Q l.
Proof. intros E H F. apply (forallb_iff p Q l E) in F. congruence. Qed.
Lemma weighted_of_ts (o : output T) : takagi_sugeno_output o -> weighted_output o.
Proof. intros [(k & ty & H & _) _]. exists k, ty. exact H. Qed.
Lemma weighted_of_tk (o : output T) : tsukamoto_output o -> weighted_output o.
Proof. intros [(k & ty & H & _) _]. exists k, ty. exact H. Qed.
Lemma classified_type (e : engine T) : classified e (engine_type e).
Proof.
  unfold engine_type. destruct (e_outputs e) as [|o0 l0] eqn:Eo; [left; exact Eo|]. rewrite <- Eo.
  assert (e_outputs e <> []) as N by congruence.
  destruct (forallb (fun o => is_integral (o_defuzzifier o)) (e_outputs e)) eqn:B1.
  { apply (forallb_iff _ _ _ integral_iff) in B1.
    destruct (forallb (fun b => tnorm_is_product (b_implication b)) (e_blocks e)) eqn:B2.
    - apply (forallb_iff _ _ _ product_iff) in B2. destruct (e_blocks e) eqn:Eb; cbn.
      + split; [exact N|]. split; [exact B1|]. rewrite Eb. tauto.
      + rewrite Eb. split; [exact N|]. split; [exact B1|]. split; [discriminate|exact B2].
    - rewrite andb_false_r. cbn. split; [exact N|]. split; [exact B1|]. intros [_ F]. exact (not_forall _ _ _ product_iff B2 F). }
  apply (not_forall _ _ _ integral_iff) in B1.
  destruct (forallb (fun o => weighted_type WTakagiSugeno o && _)%bool (e_outputs e)) eqn:B2.
  { apply (forallb_iff _ _ _ sugeno_iff) in B2. split; assumption. }
  apply (not_forall _ _ _ sugeno_iff) in B2.
  destruct (forallb (fun o => weighted_type WTsukamoto o && _)%bool (e_outputs e)) eqn:B3.
  { apply (forallb_iff _ _ _ tsukamoto_iff) in B3. split; [|split]; assumption. }
  apply (not_forall _ _ _ tsukamoto_iff) in B3.
  destruct (forallb is_weighted (e_outputs e)) eqn:B4.
  { apply (forallb_iff _ _ _ weighted_iff) in B4. split; [|split; [|split]]; assumption. }
  apply (not_forall _ _ _ weighted_iff) in B4.
  destruct (forallb (fun o => has (o_defuzzifier o)) (e_outputs e)) eqn:B5.
  - apply (forallb_iff _ _ _ has_iff_some) in B5. split; [exact B5|].
    assert (forall Q R : output T -> Prop, (forall o, o_defuzzifier o <> None -> Q o \/ R o) -> ~ Forall Q (e_outputs e) -> Exists R (e_outputs e)) as W.
    { intros Q R C NF. clear - B5 C NF. induction (e_outputs e) as [|o l IH]; [now destruct NF|]. inversion B5; subst. destruct (C o H1) as [Hq|Hr]; [|now constructor].
      right. apply IH; [assumption|]. intros F. apply NF. constructor; assumption. }
    split; [apply (W weighted_output)|apply (W integral_output)]; try assumption; intros o Ho; unfold weighted_output, integral_output; destruct (o_defuzzifier o) as [[k n|k n]|]; try congruence; eauto.
  - right. apply (not_forall _ _ _ has_iff_some) in B5. clear - B5. induction (e_outputs e) as [|o l IH]; [now destruct B5|].
    destruct (o_defuzzifier o) eqn:D; [|now left]. right. apply IH. intros F. apply B5. constructor; [congruence|assumption].
Qed.
Lemma exists_forall {A} (Q R : A -> Prop) l : Exists Q l -> Forall R l -> exists x, Q x /\ R x.
Proof. intros E F. apply Exists_exists in E. destruct E as (x & I & q). rewrite Forall_forall in F. eauto. Qed.
Lemma classified_unique (e : engine T) a b : classified e a -> classified e b -> a = b.
Proof.
  assert (forall Q R : output T -> Prop, (forall o, Q o -> R o -> False) -> e_outputs e <> [] -> Forall Q (e_outputs e) -> Forall R (e_outputs e) -> False) as FF.
  { intros Q R C N F G. destruct (e_outputs e); [congruence|]. inversion F; inversion G; subst. eauto. }
  assert (forall Q R : output T -> Prop, (forall o, Q o -> R o -> False) -> Exists Q (e_outputs e) -> Forall R (e_outputs e) -> False) as EF.
  { intros Q R C E F. destruct (exists_forall _ _ _ E F) as (x & q & r). eauto. }
  assert (forall o : output T, integral_output o -> weighted_output o -> False) as IW.
  { intros o (k & n & H) (k' & n' & H'). congruence. }
  assert (forall o : output T, weighted_output o -> integral_output o -> False) as WI by (intros; eauto).
  assert (forall o : output T, o_defuzzifier o = None -> integral_output o -> False) as NI by (intros o H (k & n & H'); congruence).
  assert (forall o : output T, o_defuzzifier o = None -> weighted_output o -> False) as NW by (intros o H (k & n & H'); congruence).
  assert (forall o : output T, o_defuzzifier o = None -> o_defuzzifier o <> None -> False) as NN by congruence.
  pose proof (FF _ _ IW) as F1. pose proof (EF _ _ IW) as F2. pose proof (EF _ _ WI) as F3. pose proof (EF _ _ NI) as F4. pose proof (EF _ _ NW) as F5. pose proof (EF _ _ NN) as F6.
  assert (e_outputs e = [] -> Exists integral_output (e_outputs e) -> False) as F7 by (intros -> E; inversion E).
  assert (Forall takagi_sugeno_output (e_outputs e) -> Forall weighted_output (e_outputs e)) as WS by (apply Forall_impl; apply weighted_of_ts).
  assert (Forall tsukamoto_output (e_outputs e) -> Forall weighted_output (e_outputs e)) as WK by (apply Forall_impl; apply weighted_of_tk).
  clear FF EF IW WI NI NW NN. unfold classified.
  generalize dependent (Forall integral_output (e_outputs e)). generalize dependent (Forall weighted_output (e_outputs e)).
  generalize dependent (Exists integral_output (e_outputs e)). generalize dependent (Exists weighted_output (e_outputs e)).
  generalize dependent (Forall takagi_sugeno_output (e_outputs e)). generalize dependent (Forall tsukamoto_output (e_outputs e)).
  generalize dependent (Exists (fun o : output T => o_defuzzifier o = None) (e_outputs e)).
  generalize dependent (Forall (fun o : output T => o_defuzzifier o <> None) (e_outputs e)).
  unfold not. generalize (e_outputs e = []). generalize (Forall product_implication (e_blocks e)). generalize (e_blocks e = []).
  intros. destruct a, b; try reflexivity; exfalso; cbn in *; tauto.
Qed.
Lemma type_iff (e : engine T) ty : engine_type e = ty <-> classified e ty.
Proof. split; [intros <-; apply classified_type|]. intros C. eapply classified_unique; [apply classified_type|exact C]. Qed.
End Types.
