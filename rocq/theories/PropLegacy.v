(** C90: output variables over time with the defuzzification of version 6.0. *)
From Coq Require Import ZArith List Bool String Relations.
From Flocq Require Import IEEE754.BinarySingleNaN.
From Verif Require Import Base Op F64 F64Arith Norm Shape Defuzz Aggregated Var Legacy SpecLegacy LegacyProofs EngineBundle.
Import ListNotations.
Local Open Scope string_scope.

(** * C90 *)
Theorem C90_disabled : forall T (S : Scalar T) vw (o : output T), v_enabled (o_var o) = false -> defuzzify_v6 vw o = (o, Ok tt).
Proof. exact @v6_disabled. Qed.
Print Assumptions C90_disabled.
(** with a result: the value that [defuzzify] gives, unless that is NaN *)
Theorem C90_result : forall T (S : Scalar T) vw (o : output T) d x, v_enabled (o_var o) = true -> o_fuzzy o <> [] -> o_defuzzifier o = Some d -> defuzzified vw d o = Ok x ->
  snd (defuzzify_v6 vw o) = Ok tt /\ o_var (fst (defuzzify_v6 vw o)) = set_value x (o_var o) /\
  (isNaN x = false -> o_var (fst (defuzzify_v6 vw o)) = o_var (fst (defuzzify vw o)) /\ snd (defuzzify vw o) = Ok tt).
Proof. exact @v6_result. Qed.
Print Assumptions C90_result.
(** a locked value stays the same over any number of steps without a result, whether these throw or not *)
Theorem C90_held : forall T (S : Scalar T) (o p : output T), Gaps defuzzify_v6 o p -> v_enabled (o_var o) = true -> o_lock_previous o = true -> isFinite (v_value (o_var o)) = true -> kept_by (o_var o) (v_value (o_var o)) ->
  v_value (o_var p) = v_value (o_var o) /\ same_settings o p.
Proof. exact @v6_held. Qed.
Print Assumptions C90_held.
Theorem C90_default : forall T (S : Scalar T) (o p : output T), Gap defuzzify_v6 o p -> v_enabled (o_var o) = true -> o_lock_previous o = false -> kept_by (o_var o) (o_default o) -> v_value (o_var p) = o_default o.
Proof. exact @v6_default. Qed.
Print Assumptions C90_default.
(** the previous value is always the last finite one *)
Theorem C90_memory : forall T (S : Scalar T) (o p : output T), (Run defuzzify_v6 o p -> (o_previous p = o_previous o \/ isFinite (o_previous p) = true) /\ same_settings o p) /\
  (forall vw l r, v_enabled (o_var o) = true -> isFinite (v_value (o_var o)) = true -> defuzzify_v6 vw (set_fuzzy l o) = (p, r) -> o_previous p = v_value (o_var o)).
Proof. intros T S o p. split; [intro H; split; [exact (v6_memory o p H)|exact (run_settings o p H)]|intros vw l r; exact (v6_remembers vw l o p r)]. Qed.
Print Assumptions C90_memory.
Theorem C90_throws : forall T (S : Scalar T) vw (o : output T), v_enabled (o_var o) = true -> no_result vw o ->
  (o_fuzzy o = [] -> snd (defuzzify_v6 vw o) = Ok tt) /\ (o_fuzzy o <> [] -> o_defuzzifier o = None -> snd (defuzzify_v6 vw o) = Throw EDefuzzify) /\
  (forall d e, o_fuzzy o <> [] -> o_defuzzifier o = Some d -> defuzzified vw d o = Throw e -> snd (defuzzify_v6 vw o) = Throw e).
Proof. exact @v6_throws. Qed.
Print Assumptions C90_throws.

#[local] Hint Extern 9 (Scalar _) => exact (F64Scalar fp_default) : typeclass_instances.
Definition half_locked (default : f64) (locked : bool) (l : list (activated f64 nat)) : output f64 :=
  mkOutput (mkVariable "y" "" (f64_lit 1 2) (f64_lit 0 1) (f64_lit 1 1) true true y_terms) l (Some Maximum) (Some (DIntegral Centroid 4)) s_nan default locked.
Definition no_view : view f64 := mkView [] [].
(** [defuzzify] of the current version does not hold the value *)
Theorem C90_current_refuted : exists o p : output f64, Gaps defuzzify o p /\ v_enabled (o_var o) = true /\ o_lock_previous o = true /\ isFinite (v_value (o_var o)) = true /\ kept_by (o_var o) (v_value (o_var o)) /\ isNaN (v_value (o_var p)) = true.
Proof.
  exists (half_locked s_nan true []), (fst (defuzzify no_view (half_locked s_nan true []))). split; [apply rt_step; exists no_view, [], (snd (defuzzify no_view (half_locked s_nan true []))); split; [now left|apply surjective_pairing]|].
  split; [reflexivity|]. split; [reflexivity|]. split; [vm_compute; reflexivity|]. split; [intros _; split; vm_compute; reflexivity|vm_compute; reflexivity].
Qed.
Print Assumptions C90_current_refuted.
(** in return, the default value does not replace a result that is NaN: terms concluded to the degree 0 have no centroid *)
Theorem C90_nan_refuted : exists o : output f64, isNaN (o_default o) = false /\ o_fuzzy o <> [] /\ isNaN (v_value (o_var (fst (defuzzify_v6 no_view o)))) = true /\ isNaN (v_value (o_var (fst (defuzzify no_view o)))) = false.
Proof. exists (half_locked (f64_lit 1 4) false [mkActivated 0 (f64_lit 0 1) (Some Minimum)]). split; [vm_compute; reflexivity|]. split; [discriminate|]. split; vm_compute; reflexivity. Qed.
Print Assumptions C90_nan_refuted.
(** two steps without a result, one of them for want of an implication *)
Example C90_case : exists p : output f64, Gaps defuzzify_v6 (half_locked (f64_lit 1 4) true []) p /\ snd (defuzzify_v6 no_view (half_locked (f64_lit 1 4) true [mkActivated 0 (f64_lit 1 1) None])) = Throw EImplication /\
  kept_by (o_var (half_locked (f64_lit 1 4) true [])) (f64_lit 1 2) /\ Beqb (v_value (o_var p)) (f64_lit 1 2) = true.
Proof.
  pose (o1 := fst (defuzzify_v6 no_view (half_locked (f64_lit 1 4) true []))). pose (g := [mkActivated 0 (f64_lit 1 1) (@None tnorm)] : list (activated f64 nat)). exists (fst (defuzzify_v6 no_view (set_fuzzy g o1))).
  split; [apply rt_trans with o1; apply rt_step|].
  - exists no_view, [], (snd (defuzzify_v6 no_view (half_locked (f64_lit 1 4) true []))). split; [now left|apply surjective_pairing].
  - exists no_view, g, (snd (defuzzify_v6 no_view (set_fuzzy g o1))). split; [|apply surjective_pairing]. right. right. exists (DIntegral Centroid 4), EImplication. split; [reflexivity|vm_compute; reflexivity].
  - split; [vm_compute; reflexivity|]. split; [intros _; split; vm_compute; reflexivity|vm_compute; reflexivity].
Qed.
