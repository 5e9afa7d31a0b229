(** C66: factories. *)
From Coq Require Import ZArith String List Bool Sorted.
From Verif Require Import Base Op Norm Hedge Shape Defuzz Aggregated Var Activation F64 Factory SpecFactory FactoryProofs.
Import ListNotations.
Local Open Scope string_scope.
#[local] Hint Extern 9 (Scalar _) => exact (F64Scalar fp_default) : typeclass_instances.

(** * C66 *)
(** after any history a construction factory is the table of what was registered last and not removed since *)
Theorem C66_construction : forall A (cs : list (command (option A))), let f := run_constructors cs in let t := table_after cs (fun _ => None) in
  (forall k, has_constructor k f = true <-> t k <> None) /\
  (forall k, get_constructor k f = match t k with Some c => c | None => None end) /\
  (forall k, construct k f = match t k with Some c => Ok c | None => Throw EFactory end) /\
  (forall k, In k (available f) <-> t k <> None) /\ StronglySorted before (available f).
Proof. exact @factory_table. Qed.
Print Assumptions C66_construction.
Theorem C66_cloning : forall A (clone : A -> A) (cs : list (command (option A))), let f := run_objects cs in let t := table_after cs (fun _ => None) in
  (forall k, has_object k f = true <-> t k <> None) /\
  (forall k, get_object k f = match t k with Some c => c | None => None end) /\
  (forall k, clone_object clone k f = match t k with Some c => Ok (option_map clone c) | None => Throw EFactory end) /\
  (forall k, In k (available f) <-> t k <> None) /\ StronglySorted before (available f).
Proof. exact @objects_table. Qed.
Print Assumptions C66_cloning.
(** a copied factory is equal *)
Theorem C66_copy : forall A (clone : A -> A) (cs : list (command (option A))), (forall o, clone o = o) -> copy_objects clone (run_objects cs) = run_objects cs.
Proof. exact @copy_equal. Qed.
Print Assumptions C66_copy.
(** the built-in classes *)
Theorem C66_tnorms : constructs tnorm_class tnorm_factory [AlgebraicProduct; BoundedDifference; DrasticProduct; EinsteinProduct; HamacherProduct; Minimum; NilpotentMinimum] /\
  forall k n, construct k tnorm_factory = Ok (Some n) <-> k = tnorm_class n.
Proof. exact tnorms_ok. Qed.
Print Assumptions C66_tnorms.
Theorem C66_snorms : constructs snorm_class snorm_factory [AlgebraicSum; BoundedSum; DrasticSum; EinsteinSum; HamacherSum; Maximum; NilpotentMaximum; NormalizedSum; UnboundedSum] /\
  forall k n, construct k snorm_factory = Ok (Some n) <-> k = snorm_class n.
Proof. exact snorms_ok. Qed.
Print Assumptions C66_snorms.
Theorem C66_hedges : constructs hedge_name hedge_factory [Any; Extremely; Not; Seldom; Somewhat; Very] /\
  forall k h, construct k hedge_factory = Ok (Some h) <-> k = hedge_name h.
Proof. exact hedges_ok. Qed.
Print Assumptions C66_hedges.
(** the look-up used by antecedents and consequents is that of the factory *)
Theorem C66_hedge_lookup : forall k, k <> "" -> hedge_of_name k = match construct k hedge_factory with Ok o => o | _ => None end.
Proof. exact hedge_lookup. Qed.
Print Assumptions C66_hedge_lookup.
Theorem C66_defuzzifiers : forall n, constructs defuzzifier_class (defuzzifier_factory n)
  [DIntegral Bisector n; DIntegral Centroid n; DIntegral LargestOfMaximum n; DIntegral MeanOfMaximum n; DIntegral SmallestOfMaximum n;
   DWeighted WeightedAverage WAutomatic; DWeighted WeightedSum WAutomatic].
Proof. exact defuzzifiers_ok. Qed.
Print Assumptions C66_defuzzifiers.
Theorem C66_integral : forall n k r, construct_integral (defuzzifier_class (DIntegral k r)) r (defuzzifier_factory n) = Ok (Some (DIntegral k r)).
Proof. exact integral_made. Qed.
Print Assumptions C66_integral.
Theorem C66_weighted : forall n k ty, construct_weighted (defuzzifier_class (DWeighted k ty)) ty (defuzzifier_factory n) = Ok (Some (DWeighted k ty)).
Proof. exact weighted_made. Qed.
Print Assumptions C66_weighted.
Theorem C66_weighted_types : forall s ty, wtype_of_name s = Ok ty <-> s = wtype_name ty.
Proof. exact wtype_names. Qed.
Print Assumptions C66_weighted_types.
(** new terms have the class asked for, no name and height 1; the same for activation methods *)
Theorem C66_terms : forall T (S : Scalar T), constructs (fun t => body_class (tm_body t)) (term_factory : cfactory (term T)) (map new_term new_bodies) /\
  Forall (fun t => tm_name t = "" /\ tm_height t = s_1) (map new_term new_bodies : list (term T)).
Proof. exact @terms_ok. Qed.
Print Assumptions C66_terms.
Theorem C66_term_classes : forall T (S : Scalar T) (b : tbody T), exists t, construct (body_class b) (term_factory : cfactory (term T)) = Ok (Some t) /\
  In t (map new_term new_bodies) /\ body_class (tm_body t) = body_class b.
Proof. exact @term_made. Qed.
Print Assumptions C66_term_classes.
Theorem C66_activations : forall T (S : Scalar T), constructs activation_class (activation_factory : cfactory (activation T))
  [First 1 s_0; General; Highest 1; Last 1 s_0; Lowest 1; Proportional; Threshold GreaterThanOrEqualTo s_0].
Proof. exact @activations_ok. Qed.
Print Assumptions C66_activations.
Theorem C66_activation_classes : forall T (S : Scalar T) (a : activation T), exists a0, construct (activation_class a) activation_factory = Ok (Some a0) /\
  In a0 activations /\ activation_class a0 = activation_class a.
Proof. exact @activation_made. Qed.
Print Assumptions C66_activation_classes.
(** the names themselves *)
Theorem C66_names : (forall k a, construct k tnorm_factory = Ok (Some a) <-> In (k, a) documented_tnorms) /\
  (forall k a, construct k snorm_factory = Ok (Some a) <-> In (k, a) documented_snorms) /\
  (forall k a, construct k hedge_factory = Ok (Some a) <-> In (k, a) documented_hedges) /\
  (forall n k a, construct k (defuzzifier_factory n) = Ok (Some a) <-> In (k, a) (documented_defuzzifiers n)).
Proof. exact names_ok. Qed.
Print Assumptions C66_names.
Theorem C66_scalar_names : forall T (S : Scalar T),
  (forall k a, construct k (activation_factory : cfactory (activation T)) = Ok (Some a) <-> In (k, a) documented_activations) /\
  (forall k t, construct k (term_factory : cfactory (term T)) = Ok (Some t) <-> exists b, In (k, b) documented_terms /\ t = mkTerm "" s_1 b).
Proof. exact scalar_names_ok. Qed.
Print Assumptions C66_scalar_names.

Definition commands : list (command (option nat)) := [Register "b" (Some 1); Register "a" None; Register "c" (Some 3); Register "b" (Some 2); Deregister "c"; Deregister "d"].
Example C66_case : let f := run_constructors commands in available f = ["a"; "b"] /\ construct "a" f = Ok None /\ construct "b" f = Ok (Some 2) /\
  construct "c" f = Throw EFactory /\ copy_objects (fun n => n) (run_objects commands) = [("a", None); ("b", Some 2)] /\
  construct "Minimum" tnorm_factory = Ok (Some Minimum) /\ construct "minimum" tnorm_factory = Throw EFactory /\
  construct_integral "Centroid" 200 (defuzzifier_factory 1000) = Ok (Some (DIntegral Centroid 200)) /\
  available hedge_factory = [""; "any"; "extremely"; "not"; "seldom"; "somewhat"; "very"].
Proof. repeat split; reflexivity. Qed.
