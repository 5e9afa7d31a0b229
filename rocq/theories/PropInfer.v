(** C74: engines compute what their rules describe. *)
From Coq Require Import ZArith String List Bool Reals Lra.
From Flocq Require Import IEEE754.BinarySingleNaN.
From Verif Require Import Base Op XR F64 F64Arith Norm Shape Defuzz Aggregated Rule Var Activation Engine SpecNorm SpecDefuzz SpecRule SpecActivation SpecEngine SpecInfer
  NormSpec ActivationProofs3 EngineBundle SoundBundle SoundCase InferProofs InferBundle InferCase.
Import ListNotations.
Local Open Scope R_scope. Local Open Scope string_scope.

(** * C74 *)
(** after process() the fuzzy outputs hold the conclusions of the rules, in order, and each output variable has been defuzzified from them;
    it sees the new values of the output variables before it *)
Theorem C74_inference : forall T (S : Scalar T) drain (e e' : engine T), general_engine e -> process drain e = (e', Ok tt) ->
  exists known, Infers e known /\
    forall j o, nth_error (e_outputs e) j = Some o -> exists p, nth_error (e_outputs e') j = Some p /\
      defuzzify (engine_view (e_inputs e) (firstn j (e_outputs e') ++ skipn j (e_outputs e))) (set_fuzzy (about j known) o) = (p, Ok tt).
Proof. exact @inference. Qed.
Print Assumptions C74_inference.
Theorem C74_unique : forall T (S : Scalar T) (e : engine T) known known', Infers e known -> Infers e known' -> known = known'.
Proof. exact @infers_unique. Qed.
Print Assumptions C74_unique.
(** rules which consult input variables only do not depend on each other *)
Theorem C74_independent : forall T (S : Scalar T) (e : engine T) known, Forall (fun b => b_enabled b = true -> Forall reads_inputs (b_rules b)) (e_blocks e) -> Infers e known ->
  exists css, Forall2 (fun br => Draws e (fst br) [] (snd br)) (flat_map (fun b => if b_enabled b then map (pair b) (b_rules b) else []) (e_blocks e)) css /\ known = List.concat css.
Proof. exact @independent. Qed.
Print Assumptions C74_independent.
(** Mamdani and Larsen: the centroid of the joined conclusions *)
Theorem C74_mamdani : forall (P : xparam) drain (e e' : engine xr) known j o p n s r a b mu w, 0 <= xp_eps P -> exact_t (xp_eps P) n -> exact_s (xp_eps P) s -> s <> UnboundedSum ->
  general_engine e -> @process xr (XRScalar P) drain e = (e', Ok tt) -> @Infers xr (XRScalar P) e known ->
  nth_error (e_outputs e) j = Some o -> nth_error (e_outputs e') j = Some p -> v_enabled (o_var o) = true ->
  o_defuzzifier o = Some (DIntegral Centroid r) -> o_aggregation o = Some s -> (1 <= r)%Z -> v_minimum (o_var o) = XFin a -> v_maximum (o_var o) = XFin b -> a <= b ->
  (forall c, In c (about j known) -> ac_implication c = Some n /\ ac_degree c = XFin (w c) /\ 0 <= w c <= 1) ->
  (forall c x vw, In c (about j known) -> a <= x <= b -> 0 <= mu (ac_term c) x <= 1 /\
     exists t, nth_error (v_terms (o_var o)) (ac_term c) = Some t /\ @term_membership xr (XRScalar P) vw t (XFin x) = Ok (XFin (mu (ac_term c) x))) ->
  let f := inferred_set n s mu w (about j known) in let xs := mids a b (Z.to_nat r) in
  rsum (map f xs) <> 0 -> v_value (o_var p) = XFin (center_of_mass f xs).
Proof. exact mamdani. Qed.
Print Assumptions C74_mamdani.
(** Takagi-Sugeno: the mean of the values of the terms, weighted by the degrees of the conclusions *)
Theorem C74_takagi_sugeno : forall (P : xparam) drain (e e' : engine xr) known j o p ty w z,
  general_engine e -> @process xr (XRScalar P) drain e = (e', Ok tt) -> @Infers xr (XRScalar P) e known ->
  nth_error (e_outputs e) j = Some o -> nth_error (e_outputs e') j = Some p -> v_enabled (o_var o) = true ->
  v_lock_range (o_var o) = false -> o_defuzzifier o = Some (DWeighted WeightedAverage ty) -> takagi_sugeno_output o -> o_aggregation o = None \/ o_aggregation o = Some UnboundedSum ->
  let cs := about j known in NoDup (map (@tm_name xr) (v_terms (o_var o))) ->
  (forall c, In c cs -> ac_degree c = XFin (w c) /\ exists t, nth_error (v_terms (o_var o)) (ac_term c) = Some t /\
     forall x, @term_membership xr (XRScalar P) (engine_view (e_inputs e) (firstn j (e_outputs e') ++ skipn j (e_outputs e))) t (XFin x) = Ok (XFin (z (ac_term c)))) ->
  rsum (map w cs) <> 0 -> v_value (o_var p) = XFin (weighted_mean w (fun c => z (ac_term c)) cs).
Proof. exact sugeno_mean. Qed.
Print Assumptions C74_takagi_sugeno.
(** Tsukamoto: the mean of the points at which the terms have the degrees of the conclusions *)
Theorem C74_tsukamoto : forall (P : xparam) drain (e e' : engine xr) known j o p ty w z,
  general_engine e -> @process xr (XRScalar P) drain e = (e', Ok tt) -> @Infers xr (XRScalar P) e known ->
  nth_error (e_outputs e) j = Some o -> nth_error (e_outputs e') j = Some p -> v_enabled (o_var o) = true ->
  v_lock_range (o_var o) = false -> o_defuzzifier o = Some (DWeighted WeightedAverage ty) -> tsukamoto_output o ->
  let cs := about j known in NoDup (map (name_of o) cs) ->
  (forall c, In c cs -> ac_degree c = XFin (w c) /\ exists t, nth_error (v_terms (o_var o)) (ac_term c) = Some t /\ @term_tsukamoto xr (XRScalar P) t (XFin (w c)) = Ok (XFin (z c))) ->
  rsum (map w cs) <> 0 -> v_value (o_var p) = XFin (weighted_mean w z cs).
Proof. exact tsukamoto_mean. Qed.
Print Assumptions C74_tsukamoto.

Definition degree_of (c : activated xr nat) : R := match ac_degree c with XFin r => r | _ => 0 end.
(** y is three to degree 1 and five to degree 1/2 *)
Example C74_case : exists e', @process xr (XRScalar xp_exact) (@stable_drain xr) sugeno_engine = (e', Ok tt) /\
  map (fun o => v_value (o_var o)) (e_outputs e') = [XFin (11/3)].
Proof.
  assert (general_engine sugeno_engine) as general by repeat constructor.
  destruct sugeno_runs as (e' & E). exists e'. split; [exact E|].
  assert (exists p, e_outputs e' = [p]) as [p O].
  { pose proof (EngineProofs3.exceptions (S := XRScalar xp_exact) _ _ _ _ E) as [L _]. destruct (e_outputs e') as [|p [|]]; try discriminate L. eauto. }
  rewrite O. cbn [map]. f_equal.
  etransitivity; [eapply (C74_takagi_sugeno xp_exact (@stable_drain xr) sugeno_engine e' [fact 0 1; fact 1 (1/2)] 0 free_output p WAutomatic degree_of (fun t => if Nat.eqb t 0 then 3 else 5) general E sugeno_infers)|].
  all: try reflexivity.
  - rewrite O. reflexivity.
  - split; [exists WeightedAverage, WAutomatic; auto|]. repeat constructor.
  - now left.
  - repeat constructor; cbn; intuition discriminate.
  - intros c [<- | [<- | []]]; (split; [reflexivity|]); eexists; (split; [reflexivity|]); reflexivity.
  - cbn. unfold rsum. cbn. lra.
  - f_equal. unfold weighted_mean, rsum. cbn. field.
Qed.
(** min(x / 10, 1/2), sampled at 5/2 and 15/2 *)
Example C74_case_mamdani : exists e', @process xr (XRScalar xp_exact) (@stable_drain xr) mamdani_engine = (e', Ok tt) /\
  map (fun o => v_value (o_var o)) (e_outputs e') = [XFin (35/6)].
Proof.
  destruct mamdani_runs as (e' & E). exists e'. split; [exact E|].
  assert (exists p, e_outputs e' = [p]) as [p O].
  { pose proof (EngineProofs3.exceptions (S := XRScalar xp_exact) _ _ _ _ E) as [L _]. destruct (e_outputs e') as [|p [|]]; try discriminate L. eauto. }
  assert (forall x, inferred_set Minimum Maximum (fun _ x => x / 10) degree_of (about 0 [fact 0 (1/2)]) x = Rmax 0 (Rmin (x / 10) (1/2))) as M by reflexivity.
  assert (mids 0 10 (Z.to_nat 2) = [5/2; 15/2]) as X.
  { change (Z.to_nat 2) with 2%nat. unfold mids, mid. cbn. apply (f_equal2 cons); [lra|apply (f_equal2 cons); [lra|reflexivity]]. }
  rewrite O. cbn [map]. f_equal.
  assert (nth_error (e_outputs e') 0 = Some p) as Q by (rewrite O; reflexivity).
  assert (general_engine mamdani_engine) as general by repeat constructor.
  etransitivity; [refine (C74_mamdani xp_exact (@stable_drain xr) mamdani_engine e' [fact 0 (1/2)] 0 ramp_output p Minimum Maximum 2 0 10 (fun _ x => x / 10) degree_of
    _ (fun _ _ _ _ H => H) (fun _ _ _ _ H => H) _ general E mamdani_infers eq_refl Q eq_refl eq_refl eq_refl _ eq_refl eq_refl _ _ _ _)|]; rewrite ?X.
  - cbn; lra.
  - discriminate.
  - discriminate.
  - lra.
  - intros c [<- | []]. cbn. repeat split; lra.
  - intros c x vw [<- | []] Hx. split; [lra|]. exists ramp_term. split; [reflexivity|]. now apply ramp_value.
  - cbn [map]. rewrite !M. unfold rsum. cbn [fold_right]. unfold Rmin, Rmax. repeat destruct Rle_dec; lra.
  - unfold center_of_mass. cbn [map]. rewrite !M. unfold rsum. cbn [fold_right]. f_equal. unfold Rmin, Rmax. repeat destruct Rle_dec; try (exfalso; lra); field.
Qed.
