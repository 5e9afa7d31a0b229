(** The inference which the rules of an engine describe, as big-step rules: what is concluded from the values of the input variables
    and from what has been concluded before. *)
From Coq Require Import ZArith String List Bool.
From Verif Require Import Base Op Norm Hedge Defuzz Aggregated Function Rule Var Activation Engine SpecDegree SpecActivation SpecEngine.
Import ListNotations.

Section Inference.
Context {T : Type} `{S : Scalar T}.

(** conclusions drawn so far, in order: output variable; term, degree and implication operator *)
Definition facts : Type := list (nat * activated T nat).
Definition about (j : nat) (known : facts) : list (activated T nat) := map snd (filter (fun c => Nat.eqb (fst c) j) known).
(** the degrees to which a term has been concluded *)
Definition concluded (t : nat) (cs : list (activated T nat)) : list T := map (@ac_degree T nat) (filter (fun a => Nat.eqb t (ac_term a)) cs).
(** joined by the aggregation operator; added up if there is none *)
Definition joined (g : option snorm) (ds : list T) : T := fold_left (match g with Some s => snorm_compute s | None => s_add end) ds s_0.

Section Engine.
Variable e : engine T.
Definition inactive (v : varref) : Prop :=
  match v with
  | VIn i => exists w, nth_error (e_inputs e) i = Some w /\ v_enabled w = false
  | VOut j => exists o, nth_error (e_outputs e) j = Some o /\ v_enabled (o_var o) = false
  end.
Definition active (v : varref) : Prop := ~ inactive v.
(** the degree to which the variable is the term: membership of the value of an input variable; what has been concluded of an output variable *)
Inductive Holds (known : facts) : varref -> nat -> T -> Prop :=
| holds_input i v t tm m : nth_error (e_inputs e) i = Some v -> nth_error (v_terms v) t = Some tm ->
    term_membership (engine_view (e_inputs e) (e_outputs e)) tm (v_value v) = Ok m -> Holds known (VIn i) t m
| holds_output j o t : nth_error (e_outputs e) j = Some o -> Holds known (VOut j) t (joined (o_aggregation o) (concluded t (about j known))).

Section Block.
Variable b : block T.
(** the degree of an antecedent *)
Inductive Strength (known : facts) : expression -> T -> Prop :=
| st_inactive p : inactive (pr_var p) -> Strength known (Prp p) s_0
| st_any p hs x : active (pr_var p) -> pr_hedges p = (hs ++ [Any])%list -> Hedged hs s_1 x -> Strength known (Prp p) x
| st_term p t m x : active (pr_var p) -> (forall hs, pr_hedges p <> (hs ++ [Any])%list) -> pr_term p = Some t ->
    Holds known (pr_var p) t m -> Hedged (pr_hedges p) m x -> Strength known (Prp p) x
| st_and l r x y n : b_conjunction b = Some n -> Strength known l x -> Strength known r y -> Strength known (Opr "and" l r) (tnorm_compute n x y)
| st_or l r x y n : b_disjunction b = Some n -> Strength known l x -> Strength known r y -> Strength known (Opr "or" l r) (snorm_compute n x y).
(** what follows to the degree [d]; the hedges of a conclusion go on to those after it (C37) *)
Inductive Follows : T -> list proposition -> facts -> Prop :=
| fo_none d : Follows d [] []
| fo_inactive d p ps cs : inactive (pr_var p) -> Follows d ps cs -> Follows d (p :: ps) cs
| fo_active d d' p ps cs j t : active (pr_var p) -> pr_var p = VOut j -> pr_term p = Some t -> Hedged (pr_hedges p) d d' -> Follows d' ps cs ->
    Follows d (p :: ps) ((j, mkActivated t d' (b_implication b)) :: cs).
(** one rule *)
Inductive Draws (known : facts) (r : rule T) : facts -> Prop :=
| dr_unloaded : rule_loaded r = false -> Draws known r []
| dr_idle a d : rule_loaded r = true -> rl_antecedent r = Some a -> Strength known a d ->
    rl_enabled r = false \/ isGt (rl_weight r * d)%S s_0 = false -> Draws known r []
| dr_fires a d cs : rule_loaded r = true -> rl_antecedent r = Some a -> Strength known a d ->
    rl_enabled r = true -> isGt (rl_weight r * d)%S s_0 = true -> Follows (rl_weight r * d)%S (rl_consequent r) cs -> Draws known r cs.
(** the rules of a block, in order *)
Inductive Rules : facts -> list (rule T) -> facts -> Prop :=
| ru_none known : Rules known [] known
| ru_next known r rs cs known' : Draws known r cs -> Rules (known ++ cs)%list rs known' -> Rules known (r :: rs) known'.
End Block.
(** the blocks, in order *)
Inductive Blocks : facts -> list (block T) -> facts -> Prop :=
| bl_none known : Blocks known [] known
| bl_disabled known b bs known' : b_enabled b = false -> Blocks known bs known' -> Blocks known (b :: bs) known'
| bl_enabled known b bs known1 known' : b_enabled b = true -> Rules b known (b_rules b) known1 -> Blocks known1 bs known' -> Blocks known (b :: bs) known'.
Definition Infers (known : facts) : Prop := Blocks [] (e_blocks e) known.
End Engine.
(** all enabled blocks fire all their rules in turn *)
Definition general_engine (e : engine T) : Prop := Forall (fun b => b_enabled b = true -> method_of b = General) (e_blocks e).
End Inference.
Arguments facts : clear implicits.

(** ** what is computed from the conclusions, over the reals *)
From Coq Require Import Reals.
From Verif Require Import XR SpecNorm SpecDefuzz NormSpec.
Local Open Scope R_scope.
(** the degree [w c] and the membership function [mu] of the term of each conclusion [c], joined: for Minimum and Maximum it is the greatest of
    min(mu(x), w) *)
Definition inferred_set (n : tnorm) (s : snorm) (mu : nat -> R -> R) (w : activated xr nat -> R) (cs : list (activated xr nat)) (x : R) : R :=
  fold_left (s_formula (sname_of s)) (map (fun c => t_formula (tname_of n) (mu (ac_term c) x) (w c)) cs) 0.
(** sum of w z over sum of w *)
Definition weighted_mean (w z : activated xr nat -> R) (cs : list (activated xr nat)) : R :=
  rsum (map (fun c => w c * z c) cs) / rsum (map w cs).
(** the formulas hold for all degrees (C69): no comparison with tolerance, or no tolerance *)
Definition exact_t (eps : R) (n : tnorm) : Prop := forall a b, 0 <= a <= 1 -> 0 <= b <= 1 -> ~ t_band eps (tname_of n) a b.
Definition exact_s (eps : R) (s : snorm) : Prop := forall a b, 0 <= a <= 1 -> 0 <= b <= 1 -> ~ s_band eps (sname_of s) a b.
