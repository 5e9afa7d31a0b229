(** C67, C68: operator names in FIS and FCL files, rules in FIS files. *)
From Coq Require Import ZArith Reals String List Bool Ascii Lia Permutation Sorting.Sorted.
From Flocq Require Import IEEE754.BinarySingleNaN.
From Verif Require Import Base Op F64 F64Arith Norm Hedge Shape Defuzz Aggregated Text Function Rule Var Activation Engine Factory
  Fll Fis Fcl SpecText SpecRule SpecFll FllText SpecFis FisRule FisBundle.
Import ListNotations.
Local Open Scope string_scope.
#[local] Hint Extern 9 (Scalar _) => exact (F64Scalar fis_params) : typeclass_instances.

(** * C67 *)
(** a name of the FIS format, and the name of the class, are read as the same norm *)
Theorem C67_fis_tnorms : forall n, construct (translate_tnorm (fis_tnorm n)) tnorm_factory = Ok (Some n) /\
  construct (translate_tnorm (tnorm_class n)) tnorm_factory = Ok (Some n).
Proof. exact fis_tnorms. Qed.
Print Assumptions C67_fis_tnorms.
Theorem C67_fis_snorms : forall n, construct (translate_snorm (fis_snorm n)) snorm_factory = Ok (Some n) /\
  construct (translate_snorm (snorm_class n)) snorm_factory = Ok (Some n).
Proof. exact fis_snorms. Qed.
Print Assumptions C67_fis_snorms.
(** a defuzzifier, or none, is read as one of its class, with the default resolution and the automatic type *)
Theorem C67_fis_defuzzifiers : forall resolution z,
  construct (translate_defuzzifier (fis_defuzzifier z)) (defuzzifier_factory resolution) = Ok (option_map (like resolution) z).
Proof. exact fis_defuzzifiers. Qed.
Print Assumptions C67_fis_defuzzifiers.
(** FCL: whatever the keyword before the colon *)
Theorem C67_fcl_tnorms : forall key n, lacks ":" key = true -> key <> "" -> fcl_parse_tnorm (key ++ ": " ++ fcl_tnorm n) = Ok n.
Proof. exact fcl_tnorms. Qed.
Print Assumptions C67_fcl_tnorms.
Theorem C67_fcl_snorms : forall key n, lacks ":" key = true -> key <> "" -> fcl_parse_snorm (key ++ ": " ++ fcl_snorm n) = Ok n.
Proof. exact fcl_snorms. Qed.
Print Assumptions C67_fcl_snorms.
Theorem C67_fcl_defuzzifiers : forall resolution key z, lacks ":" key = true -> key <> "" ->
  fcl_parse_defuzzifier resolution (key ++ ": " ++ fcl_defuzzifier z) = Ok (option_map (like resolution) z).
Proof. exact fcl_defuzzifiers. Qed.
Print Assumptions C67_fcl_defuzzifiers.
(** so the resolution and the type of a defuzzifier are lost *)
Theorem C67_defuzzifier_refuted : exists z, fcl_parse_defuzzifier 100 ("METHOD : " ++ fcl_defuzzifier (Some z)) <> Ok (Some z) /\
  construct (translate_defuzzifier (fis_defuzzifier (Some z))) (defuzzifier_factory 100) <> Ok (Some z).
Proof. exists (DIntegral Centroid 500). split; discriminate. Qed.
Print Assumptions C67_defuzzifier_refuted.
Example C67_case : map fis_tnorm [Minimum; AlgebraicProduct; BoundedDifference; DrasticProduct; EinsteinProduct; HamacherProduct; NilpotentMinimum] =
    ["min"; "prod"; "bounded_difference"; "drastic_product"; "einstein_product"; "hamacher_product"; "nilpotent_minimum"] /\
  fis_snorm AlgebraicSum = "probor" /\ fis_snorm UnboundedSum = "sum" /\ fis_defuzzifier (Some (DWeighted WeightedSum WTsukamoto)) = "wtsum" /\ fcl_tnorm None = "NONE" /\
  fcl_parse_snorm "ACCU : NSUM" = Ok (Some NormalizedSum) /\ fcl_parse_tnorm "AND : None" = Throw EFactory /\ translate_tnorm "mean" = "mean".
Proof. repeat split. Qed.

(** * C68 *)
(** a proposition whose hedges have a code is restored: hedges in the same order, and the term *)
Theorem C68_proposition : forall P d env p, fis_settings P d -> codable env p -> exists code (y : f64),
  @fis_code f64 (F64Scalar P) d [p] (pr_var p) (List.length (terms_of env (pr_var p))) = code ++ " " /\
  @to_scalar f64 (F64Scalar P) code = Ok y /\ @isEq f64 (F64Scalar P) y (@s_0 f64 (F64Scalar P)) = false /\
  @translate_proposition f64 (F64Scalar P) y (terms_of env (pr_var p)) =
    Ok (SpecRule.words (map hedge_name (pr_hedges p)) ++ match pr_term p with Some t => nth t (terms_of env (pr_var p)) "" | None => "" end).
Proof. intros P d env p H. exact (proposition_restored P d H env p). Qed.
Print Assumptions C68_proposition.
(** a rule with one connective and each variable at most once comes back as the same rule, its propositions in the order of the variables *)
Theorem C68_rule : forall P d (e : engine f64) r op ex, let env := engine_env (e_inputs e) (e_outputs e) in
  fis_settings P d -> fis_names env -> rl_antecedent r = Some ex -> fis_expressible env op ex (rl_consequent r) ->
  exists line r' ps cs, @fis_rule f64 (F64Scalar P) d e r = Ok line /\
  (forall b, @fis_rule_line f64 (F64Scalar P) d env b line = Ok (set_rules (b_rules b ++ [r'])%list b)) /\
  Permutation ps (propositions_of ex) /\ StronglySorted before_of ps /\ Permutation cs (rl_consequent r) /\ StronglySorted before_of cs /\
  rl_enabled r' = true /\ rl_antecedent r' = chained op ps /\ rl_consequent r' = cs /\
  let w := @reread f64 (F64Scalar P) d (rl_weight r) in rl_weight r' = if @isEq f64 (F64Scalar P) w (@s_1 f64 (F64Scalar P)) then @s_1 f64 (F64Scalar P) else w.
Proof. intros P d e r op ex env H. exact (rule_restored_f64 P d H e r op ex). Qed.
Print Assumptions C68_rule.
(** a negation after another hedge is moved before it, and two negations cancel *)
Theorem C68_negation_refuted : forall T (S : Scalar T) d v t n,
  (forall h, h <> Not -> fis_code d [mkProp v [h; Not] t] v n = fis_code d [mkProp v [Not; h] t] v n) /\
  (forall hs, fis_code d [mkProp v (Not :: Not :: hs) t] v n = fis_code d [mkProp v hs t] v n).
Proof. intros T S d v t n. split; [intro h; exact (negation_moved d v h t n)|intro hs; exact (negations_cancelled d v hs t n)]. Qed.
Print Assumptions C68_negation_refuted.
(** a second proposition on the same variable, and output variables in the antecedent, are dropped *)
Theorem C68_dropped_refuted : forall T (S : Scalar T) d p q l,
  (forall vars, pr_var q = pr_var p -> fis_codes d (p :: q :: l) vars = fis_codes d (p :: l) vars) /\
  (forall j (e : engine T), pr_var p = VOut j -> fis_codes d (p :: l) (input_sizes e) = fis_codes d l (input_sizes e)).
Proof. intros T S d p q l. split; [exact (second_dropped d p q l)|intros j e; exact (outputs_dropped d p j l e)]. Qed.
Print Assumptions C68_dropped_refuted.
(** codes of hedges are added up: four times somewhat is very, twice somewhat is refused *)
Theorem C68_hedges_refuted :
  fis_code 3 [mkProp (VIn 0) [Somewhat; Somewhat; Somewhat; Somewhat] (Some 0)] (VIn 0) 2 = fis_code 3 [mkProp (VIn 0) [Very] (Some 0)] (VIn 0) 2 /\
  exists y : f64, fis_code 3 [mkProp (VIn 0) [Somewhat; Somewhat] (Some 0)] (VIn 0) 2 = "1.100 " /\ to_scalar "1.100" = Ok y /\ translate_proposition y ["low"; "high"] = Throw ESyntax.
Proof. split; [vm_compute; reflexivity|]. eexists. split; [vm_compute; reflexivity|]. split; [reflexivity|vm_compute; reflexivity]. Qed.
Print Assumptions C68_hedges_refuted.
Example C68_case : fis_settings fis_params 3 /\ fis_names fan_env /\
  fis_expressible fan_env "and" (Opr "and" (Prp p_damp) (Prp p_heat)) [p_swing; p_speed] /\
  fis_rule 3 (fan []) (fan_rule (f64_lit 1 4) (Opr "and" (Prp p_damp) (Prp p_heat)) [p_swing; p_speed]) = Ok "-1.400 2.050 , 3.000 -2.000 (0.250) : 1" /\
  fis_rule_text 3 fan_env "-1.400 2.050 , 3.000 -2.000 (0.250) : 1" =
    Ok "if heat is not very very low and damp is somewhat high then speed is full and swing is not half with 0.250" /\
  codable fan_env p_any /\ fis_code 3 [p_any] (VIn 0) 2 = "-0.990 " /\
  fis_rule 3 (fan []) (fan_rule (f64_lit 1 4) (Opr "and" (Opr "or" (Prp p_damp) (Prp p_heat)) (Prp p_damp)) [p_swing; p_speed]) = Throw EExport.
Proof.
  split; [apply params_settings; lia|]. split; [exact fan_names|]. split.
  - split.
    + left; reflexivity.
    + repeat split.
    + split; [repeat (constructor; [cbn; intuition discriminate|]); constructor|]. repeat (apply Forall_cons; [eexists; split; [reflexivity|cbn; lia]|]). apply Forall_nil.
    + repeat apply Forall_cons; try apply Forall_nil.
      * split; [exists false, 5%Z; split; [repeat constructor|cbn; lia]|]. cbn. intuition discriminate.
      * split; [exists true, 40%Z; split; [repeat constructor|cbn; lia]|]. cbn. intuition discriminate.
    + split; [repeat (constructor; [cbn; intuition discriminate|]); constructor|]. repeat (apply Forall_cons; [eexists; split; [reflexivity|cbn; lia]|]). apply Forall_nil.
    + repeat apply Forall_cons; try apply Forall_nil; (split; [|discriminate]).
      * exists true, 0%Z. split; [repeat constructor|cbn; lia].
      * exists false, 0%Z. split; [repeat constructor|cbn; lia].
    + discriminate.
  - split; [vm_compute; reflexivity|]. split; [vm_compute; reflexivity|]. split; [exists true, 99%Z; split; [repeat constructor|reflexivity]|]. split; vm_compute; reflexivity.
Qed.
