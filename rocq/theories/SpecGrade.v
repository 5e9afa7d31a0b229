(** Mamdani engines with any operators without jumps and any hedges, over the reals and as documented, and what the errors of the memberships and of
    rounding come to. *)
From Coq Require Import ZArith Reals String List Bool.
From Flocq Require Import Core BinarySingleNaN.
From Verif Require Import Base F64 F64Arith Shape Norm Hedge Defuzz Aggregated Rule Var Activation Engine SpecTerm SpecNorm NormSpec SpecEngine SpecInfer SpecRound SpecNormErr SpecMamdani.
Import ListNotations.
Local Open Scope R_scope.

(** ** degrees *)
(** the hedge next to the term applies first *)
Definition hedged (hs : list hedge) (x : R) : R := fold_right (fun h y => h_formula (hname_of h) y) x hs.
(** how far the formula of a hedge is off if its argument is off by [d] *)
Definition hedge_spread (h : hedge) (d : R) : R := match h with Any => 0 | Not => d | Very | Extremely => 2 * d | Somewhat | Seldom => sqrt d end.
Definition hedged_error (eps : R) (hs : list hedge) (d : R) : R := fold_right (fun h y => hedge_error h eps + hedge_spread h y) d hs.
Section Engine.
Variable e : engine f64.
Definition grade_of (p : proposition) : R :=
  match pr_var p with
  | VIn i => match nth_error (e_inputs e) i with
             | Some v => if v_enabled v then hedged (pr_hedges p) (match pr_term p with Some t => documented (v_terms v) t (B2R (v_value v)) | None => 0 end) else 0
             | None => 0 end
  | VOut _ => 0
  end.
Section Block.
Variable b : block f64.
Fixpoint grade (a : expression) : R :=
  match a with
  | Prp p => grade_of p
  | Opr name l r => if String.eqb name "and" then match b_conjunction b with Some n => t_formula (tname_of n) (grade l) (grade r) | None => 0 end
                    else match b_disjunction b with Some n => s_formula (sname_of n) (grade l) (grade r) | None => 0 end
  end.
(** the errors of the two sides add up, except that of Minimum and Maximum the greater one counts *)
Definition both (plain : bool) (x y : R) : R := if plain then Rmax x y else x + y.
Fixpoint grade_error (eps delta : R) (a : expression) : R :=
  match a with
  | Prp p => hedged_error eps (pr_hedges p) delta
  | Opr name l r => if String.eqb name "and" then match b_conjunction b with Some n => tnorm_error n eps + both (match n with Minimum => true | _ => false end) (grade_error eps delta l) (grade_error eps delta r) | None => 0 end
                    else match b_disjunction b with Some n => snorm_error n + both (match n with Maximum => true | _ => false end) (grade_error eps delta l) (grade_error eps delta r) | None => 0 end
  end.
(** the degree of a rule; the rule does not fire if it is below the tolerance *)
Definition rule_grade (r : rule f64) : R := match rl_antecedent r with Some a => if rl_enabled r then B2R (rl_weight r) * grade a else 0 | None => 0 end.
Definition rule_error (eps delta : R) (r : rule f64) : R := match rl_antecedent r with Some a => grade_error eps delta a + u64 + eps | None => 0 end.
End Block.
(** ** conclusions *)
(** rules in force with their blocks *)
Definition in_force : list (block f64 * rule f64) := flat_map (fun b => if b_enabled b then map (pair b) (b_rules b) else []) (e_blocks e).
(** the terms of the output variable [j] which a rule concludes *)
Definition heads (j : nat) (r : rule f64) : list nat :=
  flat_map (fun p => match pr_var p, pr_term p with VOut k, Some t => if Nat.eqb k j then [t] else [] | _, _ => [] end) (rl_consequent r).
(** what it says of the value [x] *)
Definition says (ts : list (term f64)) (j : nat) (x : R) (br : block f64 * rule f64) : list R :=
  map (fun t => match b_implication (fst br) with Some n => t_formula (tname_of n) (documented ts t x) (rule_grade (fst br) (snd br)) | None => 0 end) (heads j (snd br)).
Definition joint_set (s : snorm) (ts : list (term f64)) (j : nat) (x : R) : R := fold_left (s_formula (sname_of s)) (flat_map (says ts j x) in_force) 0.
(** [delta] is the error of the memberships of inputs, [delta'] that of the memberships in the terms of the output *)
Definition head_error (eps delta delta' : R) (s : snorm) (br : block f64 * rule f64) : R :=
  delta' + rule_error (fst br) eps delta (snd br) + match b_implication (fst br) with Some n => tnorm_error n eps | None => 0 end + snorm_error s.
Definition joint_error (eps delta delta' : R) (s : snorm) (j : nat) : R :=
  fold_right Rplus 0 (map (fun br => INR (List.length (heads j (snd br))) * head_error eps delta delta' s br) in_force).
(** number of conclusions *)
Definition heads_count (j : nat) : nat := List.length (flat_map (fun br => heads j (snd br)) in_force).

(** ** engines *)
(** General activation; operators without jumps; weights in [0, 1]; antecedents consult existing inputs; conclusions have no hedges *)
Record even_engine : Prop := mkEvenEngine {
  ee_general : general_engine e;
  ee_blocks : forall b, In b (e_blocks e) -> b_enabled b = true ->
    (forall n, b_conjunction b = Some n -> even_tnorm n) /\ (forall n, b_disjunction b = Some n -> even_snorm n) /\ exists n, b_implication b = Some n /\ even_tnorm n;
  ee_weights : forall br, In br in_force -> fdegree (rl_weight (snd br));
  ee_antecedents : forall br a p, In br in_force -> rl_antecedent (snd br) = Some a -> In p (propositions a) -> exists i v, pr_var p = VIn i /\ nth_error (e_inputs e) i = Some v;
  ee_conclusions : forall br p, In br in_force -> In p (rl_consequent (snd br)) -> pr_hedges p = [] }.
(** memberships of the values of input variables as computed: degrees, and off by [delta] at most *)
Definition measured (P : fparam) (delta : R) : Prop := forall v t tm, In v (e_inputs e) -> nth_error (v_terms v) t = Some tm ->
  0 <= documented (v_terms v) t (B2R (v_value v)) <= 1 /\
  forall m, @term_membership f64 (F64Scalar P) (engine_view (e_inputs e) (e_outputs e)) tm (v_value v) = Ok m -> fdegree m /\ Rabs (B2R m - documented (v_terms v) t (B2R (v_value v))) <= delta.
End Engine.
(** memberships in the terms [ts] at [x]: degrees, and within [delta] of the documentation at [z] *)
Definition traced (P : fparam) (vw : view f64) (ts : list (term f64)) (delta : R) (x : f64) (z : R) (t : nat) : Prop :=
  exists tm m, nth_error ts t = Some tm /\ @term_membership f64 (F64Scalar P) vw tm x = Ok m /\ fdegree m /\ Rabs (B2R m - documented ts t z) <= delta.
(** [x] is not within the tolerance outside of the feet of a Triangle or Trapezoid, where memberships may be negative *)
Definition clear (eps : R) (t : term f64) (x : R) : Prop :=
  match tm_body t with
  | TShape (Triangle a _ c) => ~ (B2R a - eps < x < B2R a) /\ ~ (B2R c < x < B2R c + eps)
  | TShape (Trapezoid a _ _ d) => ~ (B2R a - eps < x < B2R a) /\ ~ (B2R d < x < B2R d + eps)
  | _ => True
  end.
