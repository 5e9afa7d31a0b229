(** The fuzzy set which the rules of a Mamdani engine conclude for an output variable, over the reals and as documented: antecedents joined by
    minimum and maximum of the documented memberships of the input values, conclusions cut off at the degree of the rule times its weight, and
    the greatest of all taken at every point. *)
From Coq Require Import ZArith Reals String List Bool.
From Flocq Require Import Core BinarySingleNaN.
From Verif Require Import Base F64 Shape Norm Hedge Defuzz Aggregated Rule Var Activation Engine SpecTerm SpecEngine SpecInfer SpecRound.
Import ListNotations.
Local Open Scope R_scope.

(** `not` is the complement and `any` is certain *)
Definition hedged_truth (hs : list hedge) (x : R) : R := fold_right (fun h y => match h with Not => 1 - y | Any => 1 | _ => y end) x hs.
Section Ideal.
Variable e : engine f64.
Definition truth_of (p : proposition) : R :=
  match pr_var p with
  | VIn i => match nth_error (e_inputs e) i with
             | Some v => if v_enabled v then hedged_truth (pr_hedges p) (match pr_term p with Some t => documented (v_terms v) t (B2R (v_value v)) | None => 0 end) else 0
             | None => 0 end
  | VOut _ => 0
  end.
Fixpoint truth (a : expression) : R :=
  match a with
  | Prp p => truth_of p
  | Opr name l r => if String.eqb name "and" then Rmin (truth l) (truth r) else Rmax (truth l) (truth r)
  end.
(** the rules in force *)
Definition rules_in_force : list (rule f64) := flat_map (fun b => if b_enabled b then b_rules b else []) (e_blocks e).
(** what a rule says of the value [x] of the output variable [j] with the terms [ts] *)
Definition said (ts : list (term f64)) (j : nat) (x : R) (r : rule f64) : list R :=
  match rl_antecedent r with
  | Some a => if rl_enabled r then flat_map (fun p => match pr_var p, pr_term p with
                | VOut k, Some t => if Nat.eqb k j then [Rmin (documented ts t x) (B2R (rl_weight r) * truth a)] else []
                | _, _ => [] end) (rl_consequent r) else []
  | None => []
  end.
Definition conclusion_set (ts : list (term f64)) (j : nat) (x : R) : R := fold_left Rmax (flat_map (said ts j x) rules_in_force) 0.

Fixpoint propositions (a : expression) : list proposition := match a with Prp p => [p] | Opr _ l r => propositions l ++ propositions r end.
(** Engines of this kind: General activation, Minimum, Maximum and Minimum; inputs of moderate size; all terms of inputs and of output [j] are
    Triangles, Trapezoids and Ramps with sides at least [w] wide; weights in [0, 1]; antecedents consult existing inputs, with at most [k] hedges `not`
    and `any` each; conclusions have no hedges and name existing terms. *)
Record line_engine (w : R) (k j : nat) (ts : list (term f64)) : Prop := mkLineEngine {
  le_general : general_engine e;
  le_inputs : forall v, In v (e_inputs e) -> within (bpow radix2 300) (v_value v) /\ List.Forall (line_term w) (v_terms v);
  le_terms : List.Forall (line_term w) ts;
  le_blocks : forall b, In b (e_blocks e) -> b_enabled b = true ->
    (b_conjunction b = None \/ b_conjunction b = Some Minimum) /\ (b_disjunction b = None \/ b_disjunction b = Some Maximum) /\ b_implication b = Some Minimum;
  le_weights : forall r, In r rules_in_force -> is_finite (rl_weight r) = true /\ 0 <= B2R (rl_weight r) <= 1;
  le_antecedents : forall r a p, In r rules_in_force -> rl_antecedent r = Some a -> In p (propositions a) ->
    (exists i v, pr_var p = VIn i /\ nth_error (e_inputs e) i = Some v) /\ List.Forall (fun h => h = Not \/ h = Any) (pr_hedges p) /\ (List.length (pr_hedges p) <= k)%nat;
  le_conclusions : forall r p, In r rules_in_force -> In p (rl_consequent r) -> pr_hedges p = [] /\ forall t, pr_var p = VOut j -> pr_term p = Some t -> (t < List.length ts)%nat }.
(** error of the degree of a rule: memberships of inputs, rounding, and the tolerance below which rules do not fire *)
Definition degree_error (k w eps : R) : R := shape_error 1 w eps + 8 * (k + 1) * u64 + eta64 + eps.
End Ideal.
