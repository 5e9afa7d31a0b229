(** Statements of PropActivation.v gathered from the proofs, and a small rule block for the examples. *)
From Coq Require Import ZArith String List Bool Permutation Lia Reals Lra.
From Flocq Require Import IEEE754.BinarySingleNaN.
From Verif Require Import Base Op XR XRFacts F64 F64Facts F64Arith OpProofs Norm Hedge Aggregated Function Rule Var Activation SpecActivation ActivationProofs ActivationProofs2 ActivationProofs3 ActivationProofs4 SpecDegree DegreeProofs SpecNorm.
Import ListNotations.

Lemma parse_comparison_iff s c : parse_comparison s = Ok c <-> s = comparison_operator c.
Proof.
  split; [|intros ->; destruct c; reflexivity]. unfold parse_comparison.
  repeat match goal with |- (if String.eqb s ?t then _ else _) = _ -> _ => destruct (String.eqb_spec s t) as [->|_]; [intros H; inversion H; reflexivity|] end.
  discriminate.
Qed.
Lemma parse_comparison_fails s : (exists c, s = comparison_operator c) \/ parse_comparison s = Throw ESyntax.
Proof.
  destruct (parse_comparison s) as [c|e| |] eqn:E.
  - left. exists c. now apply parse_comparison_iff.
  - right. unfold parse_comparison in E.
    repeat match type of E with (if ?b then _ else _) = _ => destruct b; [discriminate|] end. exact (eq_sym E).
  - exfalso. unfold parse_comparison in E. repeat match type of E with (if ?b then _ else _) = _ => destruct b; [discriminate|] end. discriminate.
  - exfalso. unfold parse_comparison in E. repeat match type of E with (if ?b then _ else _) = _ => destruct b; [discriminate|] end. discriminate.
Qed.

Section Generic.
Context {T : Type} {S : Scalar T}.
Variable enabled : varref -> bool.
Variable degree : fuzzy T -> varref -> nat -> res T.
Variables (conjunction : option tnorm) (disjunction : option snorm) (implication : option tnorm).
Variable drain : drainer T.
Lemma stale a rules rules2 f rules' f' e rules2' f2' e2 : same_rules rules rules2 ->
  activate enabled degree conjunction disjunction implication drain a rules f = (rules', f', e) ->
  activate enabled degree conjunction disjunction implication drain a rules2 f = (rules2', f2', e2) ->
  f2' = f' /\ e2 = e /\ (e = Ok tt -> rules2' = rules').
Proof.
  intros H H1 H2. pose proof (activate_same enabled degree conjunction disjunction implication drain a _ _ f H) as K.
  rewrite H1, H2 in K. destruct K as (h1 & h2 & h3). cbn in *. repeat split; auto. intros X. symmetry. auto.
Qed.
End Generic.
Lemma highest_x (P : xparam) enabled degree conjunction disjunction implication drain n rules f rules' f' :
  drain_spec drain -> @highest xr (XRScalar P) enabled degree conjunction disjunction implication drain n rules f = (rules', f', Ok tt) ->
  @selection xr (XRScalar P) enabled degree conjunction disjunction implication (fun a b => negb (xltb a b)) n rules rules' f f'.
Proof. intros D H. eapply queue_ok; [exact D| |exact H]. intros rules1 _. exact (x_candidates P rules1). Qed.
Lemma lowest_x (P : xparam) enabled degree conjunction disjunction implication drain n rules f rules' f' :
  drain_spec drain -> @lowest xr (XRScalar P) enabled degree conjunction disjunction implication drain n rules f = (rules', f', Ok tt) ->
  @selection xr (XRScalar P) enabled degree conjunction disjunction implication (fun a b => negb (xltb b a)) n rules rules' f f'.
Proof. intros D H. eapply queue_ok in H; [exact H|exact D|]. intros rules1 _. exact (x_candidates_gt P rules1). Qed.
Lemma highest_f (P : fparam) enabled degree conjunction disjunction implication drain n rules f rules' f' :
  drain_spec drain -> @highest f64 (F64Scalar P) enabled degree conjunction disjunction implication drain n rules f = (rules', f', Ok tt) ->
  @selection f64 (F64Scalar P) enabled degree conjunction disjunction implication (fun a b => negb (Bltb a b)) n rules rules' f f'.
Proof. intros D H. eapply queue_ok; [exact D| |exact H]. intros rules1 _. exact (f_candidates P rules1). Qed.
Lemma lowest_f (P : fparam) enabled degree conjunction disjunction implication drain n rules f rules' f' :
  drain_spec drain -> @lowest f64 (F64Scalar P) enabled degree conjunction disjunction implication drain n rules f = (rules', f', Ok tt) ->
  @selection f64 (F64Scalar P) enabled degree conjunction disjunction implication (fun a b => negb (Bltb b a)) n rules rules' f f'.
Proof. intros D H. eapply queue_ok in H; [exact H|exact D|]. intros rules1 _. exact (f_candidates_gt P rules1). Qed.

(** ** five rules, if x_i is t then o is t_i: the third is disabled, the fifth is not loaded; all are left over from a run *)
#[local] Hint Extern 9 (Scalar _) => exact (F64Scalar fp_default) : typeclass_instances.
Definition demo_degree (f : fuzzy f64) (v : varref) (t : nat) : res f64 :=
  match v with
  | VIn 0 => Ok (f64_lit 1 4) | VIn 1 => Ok (f64_lit 3 4) | VIn 2 => Ok (f64_lit 1 2) | VIn 3 => Ok (f64_lit 3 4) | VIn 4 => Ok (f64_lit 1 1)
  | _ => Ok (f64_lit 0 1) end.
Definition demo_one (i : nat) : rule f64 :=
  mkRule (negb (Nat.eqb i 2)) "" (f64_lit 1 1) (f64_lit 9 10) true "" (Some (Prp (mkProp (VIn i) [] (Some 0)))) ""
    (if Nat.eqb i 4 then [] else [mkProp (VOut 0) [] (Some i)]).
Definition demo_block : list (rule f64) := map demo_one [0; 1; 2; 3; 4; 5].
Definition demo_run (a : activation f64) := activate (fun _ => true) demo_degree (Some Minimum) (Some Maximum) (Some Minimum) stable_drain a demo_block [[]].
(** triggered flags, degrees, terms added, outcome *)
Definition demo_is (a : activation f64) (flags : list bool) (degrees : list f64) (added : list (nat * f64)) : Prop :=
  let '(rs, f, e) := demo_run a in
  e = Ok tt /\ map (@rl_triggered f64) rs = flags /\
  forallb (fun p => Beqb (fst p) (snd p)) (combine (map (@rl_degree f64) rs) degrees) = true /\
  match f with [l] => map (@ac_term f64 nat) l = map fst added /\ forallb (fun p => Beqb (fst p) (snd p)) (combine (map (@ac_degree f64 nat) l) (map snd added)) = true | _ => False end.
Definition demo_degrees : list f64 := [f64_lit 1 4; f64_lit 3 4; f64_lit 1 2; f64_lit 3 4; f64_lit 0 1; f64_lit 0 1].
