(** The degree of an antecedent and of the conclusions of a rule, as documented. *)
From Coq Require Import ZArith String List Bool.
From Verif Require Import Base Op Norm Hedge Text Function Rule.
Import ListNotations.

Section Spec.
Context {T : Type} `{S : Scalar T}.
Variable enabled : varref -> bool.
Variable membership : varref -> nat -> res T.
Variable conjunction : option tnorm.
Variable disjunction : option snorm.

(** hedges apply from the one next to the term outwards *)
Inductive Hedged : list hedge -> T -> T -> Prop :=
| HNone x : Hedged [] x x
| HOuter h hs x y : Hedged hs x y -> Hedged (h :: hs) x (hedge_apply h y).
(** `any` needs no term and has degree one *)
Inductive Degree : expression -> T -> Prop :=
| DDisabled p : enabled (pr_var p) = false -> Degree (Prp p) s_0
| DAny p hs x : enabled (pr_var p) = true -> pr_hedges p = hs ++ [Any] -> Hedged hs s_1 x -> Degree (Prp p) x
| DTerm p t m x : enabled (pr_var p) = true -> (forall hs, pr_hedges p <> hs ++ [Any]) -> pr_term p = Some t ->
    membership (pr_var p) t = Ok m -> Hedged (pr_hedges p) m x -> Degree (Prp p) x
| DAnd l r a b n : conjunction = Some n -> Degree l a -> Degree r b -> Degree (Opr "and" l r) (tnorm_compute n a b)
| DOr l r a b n : disjunction = Some n -> Degree l a -> Degree r b -> Degree (Opr "or" l r) (snorm_compute n a b).

(** the term [t] of the variable [v] is used by a proposition of the tree *)
Inductive Uses (v : varref) (t : nat) : expression -> Prop :=
| UProp p : pr_var p = v -> pr_term p = Some t -> Uses v t (Prp p)
| ULeft n l r : Uses v t l -> Uses v t (Opr n l r)
| URight n l r : Uses v t r -> Uses v t (Opr n l r).
End Spec.
