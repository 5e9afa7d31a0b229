(** C25-C30, C36, C37: activation methods, degrees of rules. *)
From Coq Require Import ZArith String List Bool Permutation Reals Lra.
From Flocq Require Import IEEE754.BinarySingleNaN.
From Verif Require Import Base Op XR F64 F64Arith Norm Hedge Aggregated Function Rule Var Activation SpecNorm SpecDegree SpecActivation DegreeProofs ActivationProofs ActivationProofs2 ActivationProofs3 ActivationProofs4 ActivationBundle.
Import ListNotations.
#[local] Hint Extern 9 (Scalar _) => exact (F64Scalar fp_default) : typeclass_instances.

(** * C25 *)
Theorem C25_general : forall T (S : Scalar T) enabled degree conjunction disjunction implication rules f rules' f',
  general enabled degree conjunction disjunction implication rules f = (rules', f', Ok tt) ->
  one_by_one enabled degree conjunction disjunction implication fires_general rules rules' f f'.
Proof. exact @general_ok. Qed.
Print Assumptions C25_general.
(** an exception comes from the antecedent of a loaded rule: the rules before it are done, it is left deactivated, those
    after it are untouched (the same loop serves First, Last and Threshold) *)
Theorem C25_exception : forall T (S : Scalar T) enabled degree conjunction disjunction implication choose x rules k f rules' f',
  pass enabled degree conjunction disjunction implication choose k rules f = (rules', f', Throw x) ->
  exists A r B A', rules = A ++ r :: B /\ rules' = A' ++ rule_deactivate r :: B /\
    one_by_one enabled degree conjunction disjunction implication (fires_by choose k) A A' f f' /\
    rule_loaded r = true /\ antecedent_degree enabled (degree f') conjunction disjunction (rl_antecedent r) = Throw x.
Proof. exact @pass_throw. Qed.
Print Assumptions C25_exception.
Example C25_case : demo_is General [true; true; false; true; false; false] demo_degrees [(0, f64_lit 1 4); (1, f64_lit 3 4); (3, f64_lit 3 4)].
Proof. vm_compute. auto 30. Qed.

(** * C26 *)
Theorem C26_first : forall T (S : Scalar T) enabled degree conjunction disjunction implication n t rules f rules' f',
  first enabled degree conjunction disjunction implication n t rules f = (rules', f', Ok tt) ->
  one_by_one enabled degree conjunction disjunction implication (fires_first n t) rules rules' f f'.
Proof. exact @first_ok. Qed.
Print Assumptions C26_first.
Theorem C26_last : forall T (S : Scalar T) enabled degree conjunction disjunction implication n t rules f rules' f',
  last_rules enabled degree conjunction disjunction implication n t rules f = (rules', f', Ok tt) ->
  one_by_one enabled degree conjunction disjunction implication (fires_first n t) (rev rules) (rev rules') f f'.
Proof. exact @last_ok. Qed.
Print Assumptions C26_last.
(** a disabled rule takes one of the places: of the rules 0, 1, 2 (disabled), 3 above 1/3, the first two are 1 and 2 *)
Example C26_case : demo_is (First 2 (f64_lit 1 3)) [false; true; false; false; false; false] demo_degrees [(1, f64_lit 3 4)] /\
  demo_is (Last 1 (f64_lit 1 3)) [false; false; false; true; false; false] demo_degrees [(3, f64_lit 3 4)].
Proof. vm_compute. auto 30. Qed.

(** * C27 *)
Theorem C27_highest : forall (P : xparam) enabled degree conjunction disjunction implication drain n rules f rules' f', drain_spec drain ->
  @highest xr (XRScalar P) enabled degree conjunction disjunction implication drain n rules f = (rules', f', Ok tt) ->
  @selection xr (XRScalar P) enabled degree conjunction disjunction implication (fun a b => negb (xltb a b)) n rules rules' f f'.
Proof. exact highest_x. Qed.
Print Assumptions C27_highest.
Theorem C27_lowest : forall (P : xparam) enabled degree conjunction disjunction implication drain n rules f rules' f', drain_spec drain ->
  @lowest xr (XRScalar P) enabled degree conjunction disjunction implication drain n rules f = (rules', f', Ok tt) ->
  @selection xr (XRScalar P) enabled degree conjunction disjunction implication (fun a b => negb (xltb b a)) n rules rules' f f'.
Proof. exact lowest_x. Qed.
Print Assumptions C27_lowest.
Theorem C27_highest_f64 : forall (P : fparam) enabled degree conjunction disjunction implication drain n rules f rules' f', drain_spec drain ->
  @highest f64 (F64Scalar P) enabled degree conjunction disjunction implication drain n rules f = (rules', f', Ok tt) ->
  @selection f64 (F64Scalar P) enabled degree conjunction disjunction implication (fun a b => negb (Bltb a b)) n rules rules' f f'.
Proof. exact highest_f. Qed.
Print Assumptions C27_highest_f64.
Theorem C27_lowest_f64 : forall (P : fparam) enabled degree conjunction disjunction implication drain n rules f rules' f', drain_spec drain ->
  @lowest f64 (F64Scalar P) enabled degree conjunction disjunction implication drain n rules f = (rules', f', Ok tt) ->
  @selection f64 (F64Scalar P) enabled degree conjunction disjunction implication (fun a b => negb (Bltb b a)) n rules rules' f f'.
Proof. exact lowest_f. Qed.
Print Assumptions C27_lowest_f64.
(** there are such queues *)
Theorem C27_queue_exists : forall T, drain_spec (@stable_drain T).
Proof. exact @stable_drain_ok. Qed.
Print Assumptions C27_queue_exists.
Example C27_case : demo_is (Highest 3) [false; true; false; true; false; false] demo_degrees [(1, f64_lit 3 4); (3, f64_lit 3 4)] /\
  demo_is (Lowest 1) [true; false; false; false; false; false] demo_degrees [(0, f64_lit 1 4)].
Proof. vm_compute. auto 30. Qed.

(** * C28 *)
Theorem C28_shares : forall T (S : Scalar T) enabled degree conjunction disjunction implication rules f rules' f',
  proportional enabled degree conjunction disjunction implication rules f = (rules', f', Ok tt) ->
  shares enabled degree conjunction disjunction implication rules rules' f f'.
Proof. exact @proportional_ok. Qed.
Print Assumptions C28_shares.
(** exactly: degrees d_i which are not negative become shares which add up to one, in the ratios of the d_i *)
Theorem C28_normalised : forall (P : xparam) enabled degree conjunction disjunction implication rules f rules' f' ds,
  @proportional xr (XRScalar P) enabled degree conjunction disjunction implication rules f = (rules', f', Ok tt) ->
  Forall2 (weighs P enabled degree conjunction disjunction f) rules ds ->
  exists shares : list R, Forall2 (fun r' s => rl_degree r' = XFin s) rules' shares /\
    (0 < Rsum ds -> Rsum shares = 1 /\ Forall2 (fun s d => s * Rsum ds = d) shares ds)%R /\
    (Rsum ds = 0 -> Forall (fun s => s = 0) shares)%R.
Proof. exact proportional_exact. Qed.
Print Assumptions C28_normalised.
(** in binary64 every share is between zero and one, even when the total overflows *)
Theorem C28_unit_f64 : forall (P : fparam) enabled degree conjunction disjunction implication rules f rules' f',
  @proportional f64 (F64Scalar P) enabled degree conjunction disjunction implication rules f = (rules', f', Ok tt) ->
  (forall r d, In r rules -> rule_loaded r = true ->
     @antecedent_degree f64 (F64Scalar P) enabled (degree f) conjunction disjunction (rl_antecedent r) = Ok d ->
     nonneg64 (@s_mul f64 (F64Scalar P) (rl_weight r) d)) ->
  Forall (fun r' => is_finite (rl_degree r') = true /\ 0 <= B2R (rl_degree r') <= 1)%R rules'.
Proof. exact proportional_unit. Qed.
Print Assumptions C28_unit_f64.
(** the disabled rule has its share, which no output receives *)
Example C28_case : demo_is Proportional [true; true; false; true; false; false]
  (map (fun d => s_div d (f64_lit 9 4)) demo_degrees) [(0, s_div (f64_lit 1 4) (f64_lit 9 4)); (1, s_div (f64_lit 3 4) (f64_lit 9 4)); (3, s_div (f64_lit 3 4) (f64_lit 9 4))].
Proof. vm_compute. auto 30. Qed.

(** * C29 *)
Theorem C29_threshold : forall T (S : Scalar T) enabled degree conjunction disjunction implication c v rules f rules' f',
  threshold_rules enabled degree conjunction disjunction implication c v rules f = (rules', f', Ok tt) ->
  one_by_one enabled degree conjunction disjunction implication (fires_threshold c v) rules rules' f f'.
Proof. exact @threshold_ok. Qed.
Print Assumptions C29_threshold.
Theorem C29_operator_text : forall s c, parse_comparison s = Ok c <-> s = comparison_operator c.
Proof. exact parse_comparison_iff. Qed.
Print Assumptions C29_operator_text.
Theorem C29_other_text : forall s, (exists c, s = comparison_operator c) \/ parse_comparison s = Throw ESyntax.
Proof. exact parse_comparison_fails. Qed.
Print Assumptions C29_other_text.
Example C29_case : demo_is (Threshold LessThan (f64_lit 3 4)) [true; false; false; false; false; false] demo_degrees [(0, f64_lit 1 4)] /\
  demo_is (Threshold NotEqualTo (f64_lit 3 4)) [true; false; false; false; false; false] demo_degrees [(0, f64_lit 1 4)] /\
  demo_is (Threshold EqualTo (f64_lit 3 4)) [false; true; false; true; false; false] demo_degrees [(1, f64_lit 3 4); (3, f64_lit 3 4)].
Proof. vm_compute. auto 30. Qed.

(** * C30 *)
(** whatever degrees and triggered flags the rules carry, the run has the same effect *)
Theorem C30_stale : forall T (S : Scalar T) enabled degree conjunction disjunction implication drain a rules rules2 f rules' f' e rules2' f2' e2,
  same_rules rules rules2 ->
  activate enabled degree conjunction disjunction implication drain a rules f = (rules', f', e) ->
  activate enabled degree conjunction disjunction implication drain a rules2 f = (rules2', f2', e2) ->
  f2' = f' /\ e2 = e /\ (e = Ok tt -> rules2' = rules').
Proof. exact @stale. Qed.
Print Assumptions C30_stale.
Theorem C30_settled : forall T (S : Scalar T) enabled degree conjunction disjunction implication drain a rules f rules' f',
  activate enabled degree conjunction disjunction implication drain a rules f = (rules', f', Ok tt) -> Forall settled rules'.
Proof. exact @activate_settled. Qed.
Print Assumptions C30_settled.
(** nothing else changes, exception or not *)
Theorem C30_keeps : forall T (S : Scalar T) enabled degree conjunction disjunction implication drain a rules f rules' f' e,
  activate enabled degree conjunction disjunction implication drain a rules f = (rules', f', e) -> same_rules rules rules'.
Proof. exact @activate_keeps. Qed.
Print Assumptions C30_keeps.
Example C30_case : same_rules demo_block (map rule_deactivate demo_block) /\ map (@rl_triggered f64) demo_block <> map (@rl_triggered f64) (map rule_deactivate demo_block).
Proof. split; [|discriminate]. repeat constructor. Qed.

(** * C36 *)
(** the degree is the one given by the tree: hedges from the term outwards, disabled variables as zero *)
Theorem C36_compositional : forall T (S : Scalar T) enabled membership conjunction disjunction e d,
  expression_degree enabled membership conjunction disjunction e = Ok d <-> Degree enabled membership conjunction disjunction e d.
Proof. exact @degree_iff. Qed.
Print Assumptions C36_compositional.
Theorem C36_bounded : forall (P : xparam) enabled membership conjunction disjunction w e d,
  (0 <= xp_eps P <= /10)%R -> disjunction <> Some UnboundedSum -> degree w ->
  (forall v t m, Uses v t e -> enabled v = true -> membership v t = Ok m -> degree m) ->
  @Degree xr (XRScalar P) enabled membership conjunction disjunction e d -> degree d /\ degree (@s_mul xr (XRScalar P) w d).
Proof. exact degree_bounded. Qed.
Print Assumptions C36_bounded.
Theorem C36_bounded_f64 : forall (P : fparam) enabled membership conjunction disjunction w e d,
  is_finite (fp_eps P) = true -> (B2R (fp_eps P) <= 1/8)%R -> disjunction <> Some UnboundedSum -> disjunction <> Some HamacherSum -> fdegree w ->
  (forall v t m, Uses v t e -> enabled v = true -> membership v t = Ok m -> fdegree m) ->
  @Degree f64 (F64Scalar P) enabled membership conjunction disjunction e d -> fdegree d /\ fdegree (@s_mul f64 (F64Scalar P) w d).
Proof. exact degree_bounded_f64. Qed.
Print Assumptions C36_bounded_f64.
(** not (very x) and (somewhat any or y): 1 - 1/16, then the minimum with 1 *)
Example C36_case : match expression_degree (fun _ => true) (demo_degree []) (Some Minimum) (Some Maximum)
    (Opr "and" (Prp (mkProp (VIn 0) [Not; Very] (Some 0))) (Opr "or" (Prp (mkProp (VIn 1) [Somewhat; Any] None)) (Prp (mkProp (VIn 2) [] (Some 0))))) with
  | Ok d => Beqb d (f64_lit 15 16) = true | _ => False end.
Proof. vm_compute. reflexivity. Qed.

(** * C37 *)
(** the conclusions on enabled variables, in order; the hedges of one go on to those after it *)
Theorem C37_conclusions : forall T (S : Scalar T) enabled cs (d : T) added, conclusions_modify enabled d cs = Ok added ->
  let es := filter (fun p => enabled (pr_var p)) cs in
  length added = length es /\
  forall i j t x, nth_error added i = Some (j, t, x) ->
    exists p, nth_error es i = Some p /\ pr_var p = VOut j /\ pr_term p = Some t /\
      x = hedges_apply (concat (rev (map pr_hedges (firstn (Datatypes.S i) es)))) d.
Proof. exact @modify_spec. Qed.
Print Assumptions C37_conclusions.
Theorem C37_no_failure : forall T (S : Scalar T) enabled cs (d : T), Forall (fun p => exists j t, pr_var p = VOut j /\ pr_term p = Some t) cs ->
  exists added, conclusions_modify enabled d cs = Ok added.
Proof. exact @modify_total. Qed.
Print Assumptions C37_no_failure.
(** without hedges before it a conclusion has its own degree *)
Theorem C37_independent : forall T (S : Scalar T) enabled cs (d : T) added i j t x p, conclusions_modify enabled d cs = Ok added ->
  nth_error added i = Some (j, t, x) -> nth_error (filter (fun p => enabled (pr_var p)) cs) i = Some p ->
  Forall (fun q => pr_hedges q = []) (firstn i (filter (fun p => enabled (pr_var p)) cs)) ->
  x = hedges_apply (pr_hedges p) d.
Proof. exact @modify_plain. Qed.
Print Assumptions C37_independent.
(** `o is very u and o is v`, degree 1/2: v receives 1/4 *)
Theorem C37_independence_refuted : exists (cs : list proposition) (d : f64) added p x, conclusions_modify (fun _ => true) d cs = Ok added /\
  nth_error cs 1 = Some p /\ pr_hedges p = [] /\ nth_error added 1 = Some (0%nat, 1%nat, x) /\ Beqb x d = false.
Proof.
  exists [mkProp (VOut 0) [Very] (Some 0); mkProp (VOut 0) [] (Some 1)], (f64_lit 1 2), [(0%nat, 0%nat, hedge_apply Very (f64_lit 1 2)); (0%nat, 1%nat, hedge_apply Very (f64_lit 1 2))],
    (mkProp (VOut 0) [] (Some 1)), (hedge_apply Very (f64_lit 1 2)).
  split; [reflexivity|]. split; [reflexivity|]. split; [reflexivity|]. split; [reflexivity|]. vm_compute. reflexivity.
Qed.
Print Assumptions C37_independence_refuted.
