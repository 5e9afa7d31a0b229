(** Degrees of antecedents as the engine computes them. *)
From Coq Require Import ZArith Reals String Bool List Lra Lia.
From Flocq Require Import Core BinarySingleNaN.
From Verif Require Import Base F64 F64Arith Norm Hedge Aggregated Rule Var Activation Engine SpecEngine SpecInfer SpecRound SpecMamdani SpecNormErr SpecGrade EngineProofs3 InferProofs GradeF64.
Import ListNotations.
Local Open Scope R_scope.

Lemma stands_none (e : engine f64) : stands e [] (map (fun _ => []) (e_outputs e)).
Proof. split; [apply map_length|]. intros j l H. rewrite nth_error_map in H. destruct (nth_error (e_outputs e) j); [now injection H as <-|discriminate]. Qed.
Theorem degree_close (P : fparam) (e : engine f64) delta (b : block f64) a (d : f64) : is_finite (fp_eps P) = true -> 0 <= B2R (fp_eps P) <= 1 / 8 -> 0 <= delta -> measured e P delta ->
  (forall n, b_conjunction b = Some n -> even_tnorm n) -> (forall n, b_disjunction b = Some n -> even_snorm n) ->
  (forall p, In p (propositions a) -> exists i v, pr_var p = VIn i /\ nth_error (e_inputs e) i = Some v) ->
  @expression_degree f64 (F64Scalar P) (engine_enabled (e_inputs e) (cleared e)) (@engine_degree f64 (F64Scalar P) (engine_view (e_inputs e) (cleared e)) (e_inputs e) (map (@o_aggregation f64) (cleared e)) (map (fun _ => []) (e_outputs e)))
    (b_conjunction b) (b_disjunction b) a = Ok d ->
  fdegree d /\ 0 <= grade e b a <= 1 /\ Rabs (B2R d - grade e b a) <= grade_error b (B2R (fp_eps P)) delta a.
Proof. intros FE E8 D M C J IN H. apply (@strength f64 (F64Scalar P) e b [] _ a d (stands_none e)) in H. now apply (grade_close P e delta FE E8 D M b C J [] a d). Qed.
