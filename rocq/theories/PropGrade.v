(** C88: Mamdani engines with any operators without jumps and any hedges, in double precision. *)
From Coq Require Import ZArith Reals String Bool List Lra.
From Coquelicot Require Import Coquelicot.
From Flocq Require Import Core BinarySingleNaN.
From Verif Require Import Base Op F64 F64Arith Shape Norm Hedge Defuzz Aggregated Rule Var Activation Engine SpecTerm SpecNorm NormSpec SpecActivation SpecEngine SpecInfer SpecDefuzz SpecRound SpecMamdani SpecLimit SpecNormErr SpecGrade
  ShapeF64 ActivationProofs3 EngineProofs3 GradeF64 GradeSet GradeValue GradeLine GradeEngine GradeCase GradeBundle.
Import ListNotations.
Local Open Scope R_scope.

(** * C88 *)
(** what a hedge makes of an error of its argument *)
Theorem C88_hedges : forall h a b, 0 <= a <= 1 -> 0 <= b <= 1 -> Rabs (h_formula (hname_of h) a - h_formula (hname_of h) b) <= hedge_spread h (Rabs (a - b)).
Proof. exact hedge_steady. Qed.
Print Assumptions C88_hedges.
(** degrees of antecedents, whatever the shapes of the terms, as long as their memberships are accurate *)
Theorem C88_degree : forall (P : fparam) (e : engine f64) delta (b : block f64) a (d : f64), is_finite (fp_eps P) = true -> 0 <= B2R (fp_eps P) <= 1 / 8 -> 0 <= delta -> measured e P delta ->
  (forall n, b_conjunction b = Some n -> even_tnorm n) -> (forall n, b_disjunction b = Some n -> even_snorm n) ->
  (forall p, In p (propositions a) -> exists i v, pr_var p = VIn i /\ nth_error (e_inputs e) i = Some v) ->
  @expression_degree f64 (F64Scalar P) (engine_enabled (e_inputs e) (cleared e)) (@engine_degree f64 (F64Scalar P) (engine_view (e_inputs e) (cleared e)) (e_inputs e) (map (@o_aggregation f64) (cleared e)) (map (fun _ => []) (e_outputs e)))
    (b_conjunction b) (b_disjunction b) a = Ok d ->
  fdegree d /\ 0 <= grade e b a <= 1 /\ Rabs (B2R d - grade e b a) <= grade_error b (B2R (fp_eps P)) delta a.
Proof. exact degree_close. Qed.
Print Assumptions C88_degree.
(** the fuzzy set of an output variable *)
Theorem C88_set : forall (P : fparam) (e : engine f64) delta delta' (vw : view f64) (ts : list (term f64)) s j (x : f64) z,
  is_finite (fp_eps P) = true -> 0 <= B2R (fp_eps P) <= 1 / 8 -> 0 <= delta -> 0 <= delta' -> measured e P delta -> even_engine e -> even_snorm s -> is_finite x = true -> (forall t, 0 <= documented ts t z <= 1) ->
  forall known, active e (VOut j) -> @Infers f64 (F64Scalar P) e known -> (forall br t, In br (in_force e) -> In t (heads j (snd br)) -> traced P vw ts delta' x z t) ->
  exists y, @agg_membership f64 (F64Scalar P) nat (fun t u => match nth_error ts t with Some tm => @term_membership f64 (F64Scalar P) vw tm u | None => UB end) (Some s) (about j known) x = Ok y /\
    fdegree y /\ Rabs (B2R y - joint_set e s ts j z) <= joint_error e (B2R (fp_eps P)) delta delta' s j.
Proof. exact joint_close. Qed.
Print Assumptions C88_set.
(** the value which [Engine::process] leaves in it *)
Theorem C88_value : forall (P : fparam) drain (e e' : engine f64) j o p n s X L delta delta', is_finite (fp_eps P) = true -> 0 <= B2R (fp_eps P) <= 1 / 8 -> 0 <= delta -> 0 <= delta' -> 0 <= L ->
  measured e P delta -> even_engine e -> @process f64 (F64Scalar P) drain e = (e', Ok tt) -> nth_error (e_outputs e) j = Some o -> nth_error (e_outputs e') j = Some p ->
  v_enabled (o_var o) = true -> o_aggregation o = Some s -> even_snorm s -> o_defuzzifier o = Some (DIntegral Centroid (Z.of_nat n)) -> (1 <= n)%nat -> (Z.of_nat n < 2 ^ 46)%Z ->
  let a := v_minimum (o_var o) in let b := v_maximum (o_var o) in let ts := v_terms (o_var o) in within X a -> within X b -> B2R a < B2R b -> X <= bpow radix2 300 ->
  (forall t, lipschitz (documented ts t) (B2R a) (B2R b) L /\ forall x, B2R a <= x <= B2R b -> 0 <= documented ts t x <= 1) ->
  (forall vw i br t, (i < n)%nat -> In br (in_force e) -> In t (heads j (snd br)) -> traced P vw ts delta' (@sample f64 (F64Scalar P) a b (Z.of_nat n) i) (mid (B2R a) (B2R b) n i) t) ->
  let f := joint_set e s ts j in let E := joint_error e (B2R (fp_eps P)) delta delta' s j in let K := INR (heads_count e j) * L in let d := B2R b - B2R a in let A := area f (B2R a) (B2R b) in
  0 < A / d - K * d / (2 * INR n) - E ->
  is_finite (v_value (o_var p)) = true /\ Rabs (B2R (v_value (o_var p)) - gravity f (B2R a) (B2R b)) <= gravity_error (INR n) d X A K E.
Proof. exact joint_value. Qed.
Print Assumptions C88_value.
(** terms of straight lines: memberships are degrees, and the value follows from the parameters of the engine alone *)
Theorem C88_memberships : forall (P : fparam) (w : R) (h x : f64), is_finite (fp_eps P) = true -> 0 <= B2R (fp_eps P) <= w -> eta64 <= w -> fdegree h -> tame x ->
  forall t vw, line_term w t -> tm_height t = h -> clear (B2R (fp_eps P)) t (B2R x) -> forall m, @term_membership f64 (F64Scalar P) vw t x = Ok m -> fdegree m.
Proof. exact line_degree. Qed.
Print Assumptions C88_memberships.
Theorem C88_lines : forall (P : fparam) drain (e e' : engine f64) j o p n s X w, is_finite (fp_eps P) = true -> 0 <= B2R (fp_eps P) <= 1 / 8 -> B2R (fp_eps P) <= w -> eta64 <= w ->
  even_engine e -> (forall v, In v (e_inputs e) -> within (bpow radix2 300) (v_value v) /\ List.Forall (line_term w) (v_terms v) /\ List.Forall (fun t => clear (B2R (fp_eps P)) t (B2R (v_value v))) (v_terms v)) ->
  @process f64 (F64Scalar P) drain e = (e', Ok tt) -> nth_error (e_outputs e) j = Some o -> nth_error (e_outputs e') j = Some p ->
  v_enabled (o_var o) = true -> o_aggregation o = Some s -> even_snorm s -> o_defuzzifier o = Some (DIntegral Centroid (Z.of_nat n)) -> (1 <= n)%nat -> (Z.of_nat n < 2 ^ 46)%Z ->
  let a := v_minimum (o_var o) in let b := v_maximum (o_var o) in let ts := v_terms (o_var o) in within X a -> within X b -> B2R a < B2R b -> X <= bpow radix2 300 ->
  List.Forall (line_term w) ts -> (forall br t, In br (in_force e) -> In t (heads j (snd br)) -> (t < List.length ts)%nat) ->
  (forall i, (i < n)%nat -> List.Forall (fun t => clear (B2R (fp_eps P)) t (B2R (@sample f64 (F64Scalar P) a b (Z.of_nat n) i))) ts) ->
  let delta := shape_error 1 w (B2R (fp_eps P)) in
  let f := joint_set e s ts j in let E := joint_error e (B2R (fp_eps P)) delta (delta + sample_error (INR n) X / w) s j in let K := INR (heads_count e j) * (1 / w) in let d := B2R b - B2R a in let A := area f (B2R a) (B2R b) in
  0 < A / d - K * d / (2 * INR n) - E ->
  is_finite (v_value (o_var p)) = true /\ Rabs (B2R (v_value (o_var p)) - gravity f (B2R a) (B2R b)) <= gravity_error (INR n) d X A K E.
Proof. exact line_value. Qed.
Print Assumptions C88_lines.
(** within the tolerance outside of its foot a Triangle has a negative membership *)
Theorem C88_foot_refuted : exists (t : term f64) (x m : f64), line_term 5 t /\ within 1 x /\ @term_membership f64 (F64Scalar fp_default) (mkView [] []) t x = Ok m /\ is_finite m = true /\ B2R m < 0.
Proof. exact foot_refuted. Qed.
Print Assumptions C88_foot_refuted.

(** two rules "x is up" and "x is very up and x is up" with degrees 1/2 and 1/8 and algebraic operators *)
Example C88_case : even_engine soft_case /\ exists e' p, @process f64 (F64Scalar fp_default) (@stable_drain f64) soft_case = (e', Ok tt) /\ e_outputs e' = [p] /\
  is_finite (v_value (o_var p)) = true /\ Rabs (B2R (v_value (o_var p)) - 185 / 28) <= 53 / 1000.
Proof. split; [exact soft_even|exact soft_value]. Qed.
