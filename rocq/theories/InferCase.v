(** Engines for the examples on inference. *)
From Coq Require Import ZArith String List Bool Lia Reals Lra.
From Verif Require Import Base Op XR XRFacts Norm Hedge Shape Discrete Defuzz Aggregated Function Rule Var Activation Engine SpecNorm SpecTerm SpecDegree SpecDefuzz SpecActivation SpecEngine SpecInfer
  ShapeFacts ShapeDoc ShapeBundle NormSpec ActivationProofs3 EngineProofs3 SoundBundle SoundCase InferProofs InferBundle.
Import ListNotations.
Local Open Scope R_scope. Local Open Scope string_scope.
#[local] Hint Extern 0 (Scalar _) => exact (XRScalar xp_exact) : typeclass_instances.

(** if x is any then y is t, with weight w *)
Definition free_rule := rule_exact.
Definition free_var (terms : list (term xr)) : variable xr := mkVariable "y" "" XNaN (XFin 0) (XFin 10) true false terms.
(** the average of three and five *)
Definition free_output : output xr := mkOutput (free_var [mkTerm "three" (XFin 1) (TConstant (XFin 3)); mkTerm "five" (XFin 1) (TConstant (XFin 5))]) [] None
  (Some (DWeighted WeightedAverage WAutomatic)) XNaN XNaN false.
(** the centroid of a ramp cut off at 1/2 *)
Definition ramp_term : term xr := mkTerm "up" (XFin 1) (TShape (shape_map XFin (Ramp 0 10))).
Definition ramp_output : output xr := mkOutput (free_var [ramp_term]) [] (Some Maximum) (Some (DIntegral Centroid 2)) XNaN XNaN false.
Definition blocks_of (ws : list (R * nat)) : list (block xr) :=
  [mkBlock true "" "" (map (fun p => free_rule (fst p) (snd p)) ws) None None (Some Minimum) (Some General)].
Definition sugeno_engine : engine xr := mkEngine "" "" [x_exact] [free_output] (blocks_of [(1, 0%nat); (1/2, 1%nat)]).
Definition mamdani_engine : engine xr := mkEngine "" "" [x_exact] [ramp_output] (blocks_of [(1/2, 0%nat)]).

Lemma positive r : 1/2 <= r -> isGt (XFin r) (s_0 : xr) = true.
Proof.
  intros Hr. rewrite (x_0 xp_exact : (s_0 : xr) = XFin 0), (x_isGt xp_exact). cbn [xp_exact xp_eps]. unfold Rltb. rewrite Rminus_0_r, Rabs_pos_eq by lra.
  destruct (Rlt_dec 0 r), (Rlt_dec r 0); try reflexivity; exfalso; lra.
Qed.
Lemma weight r : s_mul (XFin r) (s_1 : xr) = XFin r.
Proof. rewrite (x_1 xp_exact : (s_1 : xr) = XFin 1). cbn. f_equal. lra. Qed.
Ltac ev2 := lazy -[isNaN isFinite isEq isLt isGt isLE isGE s_ltb s_eqb s_leb s_mul s_add s_sub s_div s_0 s_1 s_nan bound isEq_tol IZR Rdiv Rmult Rplus XRScalar xp_exact Rle Rlt sh_membership sample tnorm_compute snorm_compute].
Lemma sugeno_runs : exists e', process stable_drain sugeno_engine = (e', Ok tt).
Proof. rewrite process_phases. unfold activation_phase. ev2. rewrite !weight, !positive by lra. ev2. eexists. reflexivity. Qed.
Lemma mamdani_runs : exists e', process stable_drain mamdani_engine = (e', Ok tt).
Proof.
  rewrite process_phases. unfold activation_phase. ev2. rewrite !weight, !positive by lra. ev2. destruct (isFinite _); ev2; [|eexists; reflexivity].
  destruct (isNaN (sample _ _ _ 0)); ev2; destruct (isNaN (sample _ _ _ 1)); ev2; eexists; reflexivity.
Qed.
Lemma rule_draws e b r t o : nth_error (e_inputs e) 0 = Some x_exact -> nth_error (e_outputs e) 0 = Some o -> v_enabled (o_var o) = true -> 1/2 <= r ->
  Draws e b [] (free_rule r t) [(0%nat, mkActivated t (XFin r) (b_implication b))].
Proof.
  intros Hi O En R. assert (Strength e b [] (Prp (mkProp (VIn 0) [Any] (Some 0%nat))) (s_1 : xr)) as St.
  { apply st_any with (hs := []); [|reflexivity|constructor]. intros (w & W & D). cbn [pr_var] in W. rewrite Hi in W. injection W as <-. discriminate D. }
  eapply dr_fires; [reflexivity|reflexivity|exact St|reflexivity| |].
  - cbn [rl_weight free_rule rule_exact]. rewrite weight. now apply positive.
  - cbn [rl_weight free_rule rule_exact rl_consequent]. rewrite weight. apply fo_active; try reflexivity; [|constructor|constructor].
    intros (w & W & D). cbn [pr_var] in W. rewrite O in W. injection W as <-. congruence.
Qed.
Lemma draws_any (e : engine xr) b known r t cs : Draws e b [] (free_rule r t) cs -> Draws e b known (free_rule r t) cs.
Proof.
  intros D. inversion D; subst; [now apply dr_unloaded|eapply dr_idle|eapply dr_fires]; eauto;
    (match goal with A : rl_antecedent _ = Some _ |- _ => injection A as <- end; match goal with A : Strength _ _ _ _ _ |- _ => inversion A; subst end;
     [now apply st_inactive|eapply st_any; eauto|exfalso; match goal with A : forall hs, _ <> _ |- _ => now apply (A []) end]).
Qed.
Definition fact (t : nat) (w : R) : nat * activated xr nat := (0%nat, mkActivated t (XFin w) (Some Minimum)).
Lemma sugeno_infers : Infers sugeno_engine [fact 0 1; fact 1 (1/2)].
Proof.
  eapply bl_enabled; [reflexivity| |constructor]. cbn [b_rules map fst snd].
  eapply ru_next; [apply rule_draws with (o := free_output); try reflexivity; lra|].
  eapply ru_next; [apply draws_any, rule_draws with (o := free_output); try reflexivity; lra|]. constructor.
Qed.
Lemma mamdani_infers : Infers mamdani_engine [fact 0 (1/2)].
Proof.
  eapply bl_enabled; [reflexivity| |constructor]. cbn [b_rules map fst snd].
  eapply ru_next; [apply rule_draws with (o := ramp_output); try reflexivity; lra|]. constructor.
Qed.
Lemma ramp_value vw x : 0 <= x <= 10 -> term_membership vw ramp_term (XFin x) = Ok (XFin (x / 10)).
Proof.
  intros Hx. unfold ramp_term, term_membership. cbn [tm_body tm_height]. f_equal.
  etransitivity; [apply (doc_main xp_exact (Ramp 0 10) 1 x)|].
  - cbn. lra.
  - cbn. apply sn_default_off.
  - apply Forall_forall. intros v _. apply sn_default_off.
  - f_equal. cbn [doc_membership]. repeat match goal with |- context [if ?c then _ else _] => destruct c end; try lra; field.
Qed.
