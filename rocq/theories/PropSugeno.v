(** C83: Takagi-Sugeno engines in double precision against the documentation over the reals. *)
From Coq Require Import ZArith Reals String Bool List Lia Lra.
From Flocq Require Import Core BinarySingleNaN.
From Verif Require Import Base Op XR F64 F64Arith F64Err Shape Norm Hedge Discrete Defuzz Aggregated Rule Var Activation Engine SpecTerm SpecActivation SpecEngine SpecInfer SpecDefuzz SpecRound SpecMamdani SpecSugeno
  ShapeF64 MamdaniF64 EngineF64 SugenoF64 SugenoF64c ActivationProofs3 MamdaniCase SugenoCase.
Import ListNotations.
Local Open Scope R_scope.

(** * C83 *)
(** Linear terms: c1 x1 + ... + cn xn, plus a last coefficient if there is one more *)
Theorem C83_linear : forall (P : fparam) (cs xs : list f64) M, List.Forall (fun c => is_finite c = true) cs -> List.Forall (fun x => is_finite x = true) xs ->
  (length xs <= length cs <= Datatypes.S (length xs))%nat -> (Z.of_nat (length xs) < 2 ^ 46 - 2)%Z ->
  let v := dot (map B2R cs) (map B2R xs) + nth (length xs) (map B2R cs) 0 in
  dot (map (fun c => Rabs (B2R c)) cs) (map Rabs (map B2R xs)) + Rabs (nth (length xs) (map B2R cs) 0) <= M -> M <= bpow radix2 400 ->
  exists r, @linear_membership f64 (F64Scalar P) cs (Some xs) = Ok r /\ is_finite r = true /\ Rabs (B2R r - v) <= linear_error (INR (length xs)) M.
Proof. exact linear_close. Qed.
Print Assumptions C83_linear.
(** process(): the value of an output variable against the mean, or sum, of the formulas of the terms weighted by what the rules say over the reals *)
Theorem C83_engine : forall (P : fparam) drain (e e' : engine f64) j o p kd ty k w M, is_finite (fp_eps P) = true /\ 0 <= B2R (fp_eps P) <= w -> bpow radix2 (-1075) <= w -> (Z.of_nat k < 2 ^ 46)%Z ->
  sugeno_engine e w M k j (v_terms (o_var o)) -> 0 <= M <= bpow radix2 300 -> (Z.of_nat (length (e_inputs e)) < 2 ^ 46 - 2)%Z -> (Z.of_nat (length (votes e j)) < 2 ^ 46)%Z ->
  @process f64 (F64Scalar P) drain e = (e', Ok tt) -> nth_error (e_outputs e) j = Some o -> nth_error (e_outputs e') j = Some p ->
  v_enabled (o_var o) = true -> v_lock_range (o_var o) = false -> o_aggregation o = None \/ o_aggregation o = Some UnboundedSum ->
  o_defuzzifier o = Some (DWeighted kd ty) -> ty = WTakagiSugeno \/ ty = WAutomatic ->
  let n := INR (length (votes e j)) in let W := total_weight e j in let delta := vote_error n (INR k) w (B2R (fp_eps P)) in let nu := linear_error (INR (length (e_inputs e))) M in
  0 < W - n * delta ->
  let v := v_value (o_var p) in is_finite v = true /\
  match kd with
  | WeightedAverage => Rabs (B2R v - sugeno_average e (v_terms (o_var o)) j) <= sugeno_error n M W delta nu
  | WeightedSum => Rabs (B2R v - sugeno_sum e (v_terms (o_var o)) j) <= sugeno_sum_error n M W delta nu
  end.
Proof. exact sugeno_close. Qed.
Print Assumptions C83_engine.

(** if x is up then y is three; if x is not up and x is up then y is 2 x + 1 with 0.5, for x = 5: (3/2 + 11/4) / (3/4), and the sum without the division *)
Example C83_case : forall kd, exists e' p, @process f64 (F64Scalar fp_default) (@stable_drain f64) (sugeno_case kd) = (e', Ok tt) /\ e_outputs e' = [p] /\
  is_finite (v_value (o_var p)) = true /\ Rabs (B2R (v_value (o_var p)) - match kd with WeightedAverage => 17 / 3 | WeightedSum => 17 / 4 end) <= / 4000.
Proof. exact sugeno_case_value. Qed.
