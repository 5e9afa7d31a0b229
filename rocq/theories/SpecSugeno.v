(** The value which a Takagi-Sugeno engine gives to an output variable, over the reals and as documented: the mean of the formulas of the
    concluded terms, each weighted by the truth of the antecedent times the weight of the rule. *)
From Coq Require Import ZArith Reals String List Bool.
From Flocq Require Import Core BinarySingleNaN.
From Verif Require Import Base F64 Norm Hedge Defuzz Aggregated Rule Var Activation Engine SpecDefuzz SpecEngine SpecInfer SpecRound SpecMamdani.
Import ListNotations.
Local Open Scope R_scope.

Section Ideal.
Variable e : engine f64.
(** the conclusions of the rules in force about the output variable [j]: degree and term *)
Definition votes_of (j : nat) (r : rule f64) : list (R * nat) :=
  match rl_antecedent r with
  | Some a => if rl_enabled r then flat_map (fun p => match pr_var p, pr_term p with
                | VOut k, Some t => if Nat.eqb k j then [(B2R (rl_weight r) * truth e a, t)] else []
                | _, _ => [] end) (rl_consequent r) else []
  | None => []
  end.
Definition votes (j : nat) : list (R * nat) := flat_map (votes_of j) (rules_in_force e).
(** c1 x1 + ... + cn xn, and the same of the absolute values *)
Fixpoint dot (cs xs : list R) : R := match cs, xs with c :: cs, x :: xs => c * x + dot cs xs | _, _ => 0 end.
Definition input_values : list R := map (fun v => B2R (v_value v)) (e_inputs e).
(** what the documentation says of Constant and Linear terms *)
Definition formula (t : term f64) : R :=
  match tm_body t with
  | TConstant c => B2R c
  | TLinear cs _ => dot (map B2R cs) input_values + nth (length input_values) (map B2R cs) 0
  | _ => 0
  end.
(** the sum of the sizes of the terms of the formula *)
Definition formula_size (t : term f64) : R :=
  match tm_body t with
  | TConstant c => Rabs (B2R c)
  | TLinear cs _ => dot (map (fun c => Rabs (B2R c)) cs) (map Rabs input_values) + Rabs (nth (length input_values) (map B2R cs) 0)
  | _ => 0
  end.
(** a Constant, or a Linear with a coefficient for every input variable and possibly one more *)
Definition formula_term (M : R) (t : term f64) : Prop := formula_size t <= M /\
  match tm_body t with
  | TConstant c => is_finite c = true
  | TLinear cs attached => attached = true /\ List.Forall (fun c => is_finite c = true) cs /\ (length (e_inputs e) <= length cs <= S (length (e_inputs e)))%nat
  | _ => False
  end.
(** formula of a term by its place in [ts] *)
Definition formula_at (ts : list (term f64)) (i : nat) : R := match nth_error ts i with Some t => formula t | None => 0 end.

Definition total_weight (j : nat) : R := rsum (map fst (votes j)).
Definition sugeno_sum (ts : list (term f64)) (j : nat) : R := rsum (map (fun v => fst v * formula_at ts (snd v)) (votes j)).
Definition sugeno_average (ts : list (term f64)) (j : nat) : R := sugeno_sum ts j / total_weight j.

(** Engines of this kind: General activation, Minimum and Maximum in antecedents; inputs of moderate size, with Triangles, Trapezoids and Ramps
    whose sides are at least [w] wide; output [j] with Constant and Linear terms up to [M]; weights in [0, 1]; antecedents consult existing inputs,
    with at most [k] hedges `not` and `any` each; conclusions have no hedges and name existing terms. *)
Record sugeno_engine (w M : R) (k j : nat) (ts : list (term f64)) : Prop := mkSugenoEngine {
  su_general : general_engine e;
  su_inputs : forall v, In v (e_inputs e) -> within (bpow radix2 300) (v_value v) /\ List.Forall (line_term w) (v_terms v);
  su_terms : List.Forall (formula_term M) ts;
  su_names : NoDup (map (@tm_name f64) ts);
  su_blocks : forall b, In b (e_blocks e) -> b_enabled b = true ->
    (b_conjunction b = None \/ b_conjunction b = Some Minimum) /\ (b_disjunction b = None \/ b_disjunction b = Some Maximum);
  su_weights : forall r, In r (rules_in_force e) -> is_finite (rl_weight r) = true /\ 0 <= B2R (rl_weight r) <= 1;
  su_antecedents : forall r a p, In r (rules_in_force e) -> rl_antecedent r = Some a -> In p (propositions a) ->
    (exists i v, pr_var p = VIn i /\ nth_error (e_inputs e) i = Some v) /\ List.Forall (fun h => h = Not \/ h = Any) (pr_hedges p) /\ (List.length (pr_hedges p) <= k)%nat;
  su_conclusions : forall r p, In r (rules_in_force e) -> In p (rl_consequent r) -> pr_hedges p = [] /\ forall t, pr_var p = VOut j -> pr_term p = Some t -> (t < List.length ts)%nat }.
End Ideal.
(** Linear terms with [n] inputs and size [M] *)
Definition linear_error (n M : R) : R := 65 / 64 * (n + 2) * u64 * M + 65 / 64 * (n + 1) * eta64.
(** degrees of [n] conclusions after adding up those of the same term *)
Definition vote_error (n k w eps : R) : R := degree_error k w eps + 9 * n * u64.
(** mean and sum over [n] conclusions of total weight [W], whose degrees are within [delta] and whose formulas of size [M] are within [nu]: rounding of
    the quotient, of the formulas, and errors of the degrees *)
Definition sugeno_error (n M W delta nu : R) : R := let omega := W - n * delta in mean_error n (M + nu) omega + nu + 2 * M * (n * delta) / omega.
Definition sugeno_sum_error (n M W delta nu : R) : R := let omega := W + n * delta in sum_error n (M + nu) omega + nu * omega + M * (n * delta).
