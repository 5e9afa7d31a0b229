(** C72: degrees and values of whole engines. *)
From Coq Require Import ZArith String List Bool Reals Lra.
From Flocq Require Import Core IEEE754.BinarySingleNaN.
From Verif Require Import Base Op XR F64 F64Arith Norm Shape Discrete Defuzz Aggregated Rule Var Activation Engine
  SpecNorm SpecTerm SpecDegree SpecSound ActivationProofs3 SoundProofs EngineBundle SoundBundle SoundCase.
Import ListNotations.
Local Open Scope R_scope. Local Open Scope string_scope.

(** * C72: degrees in the unit interval *)
Theorem C72_degrees : forall (P : xparam) drain (e e' : engine xr) r, 0 <= xp_eps P <= /10 ->
  @sound xr (XRScalar P) degree (fun n => n <> UnboundedSum) e -> @process xr (XRScalar P) drain e = (e', r) ->
  Forall (fun o => fuzzy_degrees degree (o_fuzzy o)) (e_outputs e') /\ (r = Ok tt -> Forall (rule_degrees degree) (e_blocks e')).
Proof. exact (fun P drain e e' r H => process_good (S := XRScalar P) _ _ (degrees_exact P H) drain e e' r). Qed.
Print Assumptions C72_degrees.
(** with rounding; HamacherSum can exceed 1 (C07) *)
Theorem C72_degrees_binary64 : forall (P : fparam) drain (e e' : engine f64) r, is_finite (fp_eps P) = true -> B2R (fp_eps P) <= 1/8 ->
  @sound f64 (F64Scalar P) fdegree (fun n => n <> UnboundedSum /\ n <> HamacherSum) e -> @process f64 (F64Scalar P) drain e = (e', r) ->
  Forall (fun o => fuzzy_degrees fdegree (o_fuzzy o)) (e_outputs e') /\ (r = Ok tt -> Forall (rule_degrees fdegree) (e_blocks e')).
Proof. exact (fun P drain e e' r H1 H2 => process_good (S := F64Scalar P) _ _ (degrees_f64 P H1 H2) drain e e' r). Qed.
Print Assumptions C72_degrees_binary64.
(** what makes the terms of the input variables give degrees *)
Theorem C72_terms : forall (P : xparam) vw t x, 0 <= xp_eps P <= /10 -> proper (xp_eps P) t x ->
  exists m, @term_membership xr (XRScalar P) vw t x = Ok m /\ degree m.
Proof. exact (fun P vw t x H => proper_degree P H vw t x). Qed.
Print Assumptions C72_terms.
(** the values of output variables with integral defuzzifiers *)
Theorem C72_integral_values : forall (P : xparam), 0 <= xp_eps P <= /10 ->
  forall drain (e e' : engine xr) j o p k n a b, @sound xr (XRScalar P) degree (fun n => n <> UnboundedSum) e ->
  @process xr (XRScalar P) drain e = (e', Ok tt) -> nth_error (e_outputs e) j = Some o -> nth_error (e_outputs e') j = Some p ->
  v_enabled (o_var o) = true -> o_defuzzifier o = Some (DIntegral k n) -> (1 <= n)%Z -> v_minimum (o_var o) = XFin a -> v_maximum (o_var o) = XFin b -> a <= b ->
  (k = Centroid -> forall vw t x m, In t (v_terms (o_var o)) -> a <= x <= b -> @term_membership xr (XRScalar P) vw t (XFin x) = Ok m -> degree m) ->
  kept_within a b a b o p.
Proof. exact integral_kept. Qed.
Print Assumptions C72_integral_values.
(** ... and of those with weighted averages *)
Theorem C72_average_values : forall (P : xparam), 0 <= xp_eps P <= /10 ->
  forall drain (e e' : engine xr) j o p ty a b lo hi, @sound xr (XRScalar P) degree (fun n => n <> UnboundedSum) e ->
  @process xr (XRScalar P) drain e = (e', Ok tt) -> nth_error (e_outputs e) j = Some o -> nth_error (e_outputs e') j = Some p ->
  v_enabled (o_var o) = true -> o_defuzzifier o = Some (DWeighted WeightedAverage ty) -> v_minimum (o_var o) = XFin a -> v_maximum (o_var o) = XFin b -> a <= b ->
  (v_lock_range (o_var o) = true -> a <= lo /\ hi <= b) ->
  (forall vw t y u, In t (v_terms (o_var o)) -> admissible o y -> @term_membership xr (XRScalar P) vw t y = Ok u \/ @term_tsukamoto xr (XRScalar P) t y = Ok u ->
     exists r, u = XFin r /\ lo <= r <= hi) ->
  kept_within a b lo hi o p.
Proof. exact average_kept. Qed.
Print Assumptions C72_average_values.
(** with rounding, for the defuzzifiers which select a sample *)
Theorem C72_selected_values_binary64 : forall (P : fparam) drain (e e' : engine f64) j o p k n (a b : f64), @process f64 (F64Scalar P) drain e = (e', Ok tt) ->
  nth_error (e_outputs e) j = Some o -> nth_error (e_outputs e') j = Some p ->
  v_enabled (o_var o) = true -> v_lock_range (o_var o) = false -> o_defuzzifier o = Some (DIntegral k n) -> k = SmallestOfMaximum \/ k = LargestOfMaximum -> (1 <= n < 2 ^ 31)%Z ->
  v_minimum (o_var o) = a -> v_maximum (o_var o) = b -> is_finite a = true -> is_finite b = true -> is_finite (Bminus mode_NE b a) = true -> bpow radix2 (-900) <= B2R b - B2R a ->
  let v := v_value (o_var p) in is_finite v = true /\ B2R a <= B2R v <= B2R b \/ v = o_default o \/ o_lock_previous o = true /\ v = o_previous o.
Proof. exact selected_kept64. Qed.
Print Assumptions C72_selected_values_binary64.
(** an antecedent consulting an output variable without aggregation operator sees the sum of the degrees: here 3/2 *)
#[local] Hint Extern 9 (Scalar _) => exact (F64Scalar fp_default) : typeclass_instances.
Theorem C72_consulted_refuted : exists e : engine f64, is_ready e = true /\ snd (process stable_drain e) = Ok tt /\
  (forall v t m, In v (e_inputs e) -> In t (v_terms v) -> term_membership (engine_view (e_inputs e) (e_outputs e)) t (v_value v) = Ok m -> fdegree m) /\
  (forall b r, In b (e_blocks e) -> In r (b_rules b) -> fdegree (rl_weight r)) /\
  exists r b, In b (e_blocks (processed e)) /\ In r (b_rules b) /\ Bltb (f64_lit 1 1) (rl_degree r) = true.
Proof. exact consulted_refuted. Qed.
Print Assumptions C72_consulted_refuted.

(** y is the average of three and five: 11/3 *)
Example C72_case : 0 <= xp_eps xp_default <= /10 /\ @sound xr (XRScalar xp_default) degree (fun n => n <> UnboundedSum) exact_engine /\
  (exists e', @process xr (XRScalar xp_default) (@stable_drain xr) exact_engine = (e', Ok tt) /\ map (fun o => v_value (o_var o)) (e_outputs e') = [XFin (11/3)]) /\
  (forall vw t y u, In t (v_terms (o_var y_exact)) -> @term_membership xr (XRScalar xp_default) vw t y = Ok u \/ @term_tsukamoto xr (XRScalar xp_default) t y = Ok u ->
     exists r, u = XFin r /\ 3 <= r <= 5).
Proof. split; [cbn; lra|]. split; [exact exact_sound|]. split; [exact exact_processed|exact y_values]. Qed.
(** a chain of two rule blocks in binary64 *)
Example C72_case_binary64 : @sound f64 (F64Scalar fp_default) fdegree (fun n => n <> UnboundedSum /\ n <> HamacherSum) (relay (Some Maximum)) /\
  snd (process stable_drain (relay (Some Maximum))) = Ok tt /\ all_equal (rule_degrees_of (processed (relay (Some Maximum)))) [f64_lit 3 4; f64_lit 3 4; f64_lit 3 4] = true /\
  all_equal (values (processed (relay (Some Maximum)))) [f64_lit 0 1; f64_lit 7 8] = true.
Proof. split; [exact relay_sound|]. vm_compute. auto. Qed.
