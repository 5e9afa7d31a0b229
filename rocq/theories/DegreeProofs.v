(** Proofs about degrees of antecedents and conclusions. *)
From Coq Require Import ZArith String List Bool Lia.
From Coq Require Import Reals Lra.
From Flocq Require Import IEEE754.BinarySingleNaN.
From Verif Require Import Base Op XR XRFacts F64 F64Arith SpecNorm NormBundle NormF64 HedgeProofs NormProofs Norm Hedge Text Function Rule SpecDegree.
Import ListNotations.

Section Proofs.
Context {T : Type} `{S : Scalar T}.

Lemma hedged_iff hs (x y : T) : Hedged hs x y <-> y = hedges_apply hs x.
Proof.
  split.
  - induction 1; [reflexivity|]. subst. reflexivity.
  - intros ->. induction hs as [|h hs IH]; cbn; constructor. exact IH.
Qed.
Lemma hedges_app hs gs (x : T) : hedges_apply (hs ++ gs) x = hedges_apply hs (hedges_apply gs x).
Proof. unfold hedges_apply. apply fold_right_app. Qed.
Lemma last_any (hs : list hedge) : last (map Some hs) None = Some Any <-> exists gs, hs = gs ++ [Any].
Proof.
  split.
  - destruct hs as [|h hs] using rev_ind; [discriminate|]. rewrite map_app. cbn [map]. rewrite last_last. intros E. inversion E; subst. eauto.
  - intros (gs & ->). rewrite map_app. cbn. apply last_last.
Qed.
Lemma any_one (x : T) : hedge_apply Any x = s_1.
Proof. reflexivity. Qed.

Definition hedge_eq_dec (a b : hedge) : {a = b} + {a <> b}.
Proof. decide equality. Defined.

Lemma both_ok {N} (o : option N) e (x y : res T) (g : N -> T -> T -> T) d :
  match o with None => Throw e | Some n => do a <- x; do b <- y; Ok (g n a b) end = Ok d ->
  exists n a b, o = Some n /\ x = Ok a /\ y = Ok b /\ d = g n a b.
Proof.
  destruct o as [n|]; [|discriminate]. destruct x as [a|?| |]; cbn [rbind]; try discriminate.
  destruct y as [b|?| |]; cbn [rbind]; try discriminate. intros H. inversion H. eauto 8.
Qed.

Section Degree.
Variable enabled : varref -> bool.
Variable membership : varref -> nat -> res T.
Variable conjunction : option tnorm.
Variable disjunction : option snorm.
Notation deg := (expression_degree enabled membership conjunction disjunction).
Notation Deg := (Degree enabled membership conjunction disjunction).

Lemma prop_last p : (exists gs, pr_hedges p = gs ++ [Any]) \/ (forall gs, pr_hedges p <> gs ++ [Any]).
Proof.
  destruct (last (map Some (pr_hedges p)) None) as [h|] eqn:E.
  - destruct (hedge_eq_dec h Any) as [-> | N]; [left; now apply last_any|right].
    intros gs H. apply N. assert (exists gs, pr_hedges p = gs ++ [Any]) as X by eauto. apply last_any in X. congruence.
  - right. intros gs H. assert (exists gs, pr_hedges p = gs ++ [Any]) as X by eauto. apply last_any in X. congruence.
Qed.
Lemma prop_any p gs : enabled (pr_var p) = true -> pr_hedges p = gs ++ [Any] ->
  proposition_degree enabled membership p = Ok (hedges_apply gs s_1).
Proof.
  intros E H. unfold proposition_degree. rewrite E. cbn [negb].
  assert (last (map Some (pr_hedges p)) None = Some Any) as -> by (apply last_any; eauto).
  rewrite H, hedges_app. reflexivity.
Qed.
Lemma prop_term p : enabled (pr_var p) = true -> (forall gs, pr_hedges p <> gs ++ [Any]) ->
  proposition_degree enabled membership p =
  match pr_term p with Some t => do m <- membership (pr_var p) t; Ok (hedges_apply (pr_hedges p) m) | None => UB end.
Proof.
  intros E H. unfold proposition_degree. rewrite E. cbn [negb].
  destruct (last (map Some (pr_hedges p)) None) as [h|] eqn:L; [|reflexivity].
  destruct h; try reflexivity. exfalso. apply last_any in L. destruct L as (gs & L). eapply H; exact L.
Qed.
Lemma degree_iff e d : deg e = Ok d <-> Deg e d.
Proof.
  split.
  - revert d. induction e as [p|n l IHl r IHr]; intros d H; cbn [expression_degree] in H.
    + destruct (enabled (pr_var p)) eqn:E.
      * destruct (prop_last p) as [[gs A] | A].
        -- rewrite (prop_any _ _ E A) in H. inversion H; subst. eapply DAny; [exact E|exact A|now apply hedged_iff].
        -- rewrite (prop_term _ E A) in H. destruct (pr_term p) as [t|] eqn:Tm; [|discriminate].
           destruct (membership (pr_var p) t) as [m|x| |] eqn:M; cbn [rbind] in H; try discriminate. inversion H; subst.
           eapply DTerm; [exact E|exact A|exact Tm|exact M|now apply hedged_iff].
      * unfold proposition_degree in H. rewrite E in H. cbn in H. inversion H; subst. now apply DDisabled.
    + destruct (String.eqb n "and") eqn:Na; [apply String.eqb_eq in Na; subst|destruct (String.eqb n "or") eqn:No; [apply String.eqb_eq in No; subst|discriminate]].
      * apply both_ok in H. destruct H as (c & a & b & C & A & B & ->). apply DAnd; auto.
      * apply both_ok in H. destruct H as (c & a & b & C & A & B & ->). apply DOr; auto.
  - induction 1 as [p E|p hs x E A Hh|p t m x E A Tm M Hh|l r a b n C Dl IHl Dr IHr|l r a b n C Dl IHl Dr IHr]; cbn [expression_degree].
    + unfold proposition_degree. now rewrite E.
    + rewrite (prop_any _ _ E A). apply hedged_iff in Hh. now subst.
    + rewrite (prop_term _ E A), Tm, M. apply hedged_iff in Hh. now subst.
    + rewrite IHl, IHr, String.eqb_refl, C. reflexivity.
    + rewrite IHl, IHr, C. reflexivity.
Qed.

(** closure: any set of numbers closed under the norms and hedges *)
Lemma degree_closed (U : T -> Prop) e d :
  U s_0 -> U s_1 -> (forall hs x, U x -> U (hedges_apply hs x)) ->
  (forall n a b, conjunction = Some n -> U a -> U b -> U (tnorm_compute n a b)) ->
  (forall n a b, disjunction = Some n -> U a -> U b -> U (snorm_compute n a b)) ->
  (forall v t m, Uses v t e -> enabled v = true -> membership v t = Ok m -> U m) ->
  Deg e d -> U d.
Proof.
  intros U0 U1 Uh Ut Us Um H.
  induction H as [p E|p hs x E A Hh|p t m x E A Tm M Hh|l r a b n C Dl IHl Dr IHr|l r a b n C Dl IHl Dr IHr].
  - exact U0.
  - apply hedged_iff in Hh. subst. auto.
  - apply hedged_iff in Hh. subst. apply Uh. apply (Um (pr_var p) t); auto. now constructor.
  - apply (Ut n); auto; [apply IHl|apply IHr]; intros v t m Hu; apply Um; [now apply ULeft|now apply URight].
  - apply (Us n); auto; [apply IHl|apply IHr]; intros v t m Hu; apply Um; [now apply ULeft|now apply URight].
Qed.
End Degree.

(** conclusions *)
Lemma modify_spec enabled : forall cs (d : T) added, conclusions_modify enabled d cs = Ok added ->
  let es := filter (fun p => enabled (pr_var p)) cs in
  length added = length es /\
  forall i j t x, nth_error added i = Some (j, t, x) ->
    exists p, nth_error es i = Some p /\ pr_var p = VOut j /\ pr_term p = Some t /\
      x = hedges_apply (concat (rev (map pr_hedges (firstn (Datatypes.S i) es)))) d.
Proof.
  induction cs as [|p cs IH]; intros d added H; cbn [conclusions_modify filter] in *.
  - inversion H; subst. split; [reflexivity|]. intros [|i]; discriminate.
  - destruct (enabled (pr_var p)) eqn:E; [|exact (IH _ _ H)].
    destruct (pr_var p) as [i|j] eqn:V; [discriminate|]. destruct (pr_term p) as [t|] eqn:Tm; [|discriminate].
    destruct (conclusions_modify enabled (hedges_apply (pr_hedges p) d) cs) as [rest|x| |] eqn:R; cbn [rbind] in H; try discriminate.
    inversion H; subst. destruct (IH _ _ R) as [h1 h2]. cbv zeta in *. split; [cbn; now rewrite h1|].
    intros [|i] j' t' x; cbn [nth_error].
    + intros Q. inversion Q; subst. exists p. repeat split; auto. cbn. now rewrite app_nil_r.
    + intros Q. destruct (h2 _ _ _ _ Q) as (q & q1 & q2 & q3 & ->). exists q. repeat split; auto.
      cbn [firstn map rev]. rewrite concat_app, hedges_app. cbn [concat]. rewrite app_nil_r. reflexivity.
Qed.
(** the conclusions are handled without failure when they are on output variables with a term *)
Lemma modify_total enabled : forall cs (d : T), Forall (fun p => exists j t, pr_var p = VOut j /\ pr_term p = Some t) cs ->
  exists added, conclusions_modify enabled d cs = Ok added.
Proof.
  induction cs as [|p cs IH]; intros d F; cbn [conclusions_modify]; [eauto|]. inversion F as [|? ? (j & t & V & Tm) F']; subst.
  destruct (enabled (pr_var p)); [|exact (IH _ F')]. rewrite V, Tm.
  destruct (IH (hedges_apply (pr_hedges p) d) F') as (l & ->). cbn. eauto.
Qed.
Lemma modify_plain enabled cs (d : T) added i j t x p : conclusions_modify enabled d cs = Ok added ->
  nth_error added i = Some (j, t, x) -> nth_error (filter (fun p => enabled (pr_var p)) cs) i = Some p ->
  Forall (fun q => pr_hedges q = []) (firstn i (filter (fun p => enabled (pr_var p)) cs)) ->
  x = hedges_apply (pr_hedges p) d.
Proof.
  intros H A P0 F. destruct (modify_spec _ _ _ _ H) as [_ K]. cbv zeta in K. destruct (K _ _ _ _ A) as (q & q1 & _ & _ & ->).
  assert (q = p) by congruence. subst q. f_equal. revert P0 F. generalize (filter (fun p => enabled (pr_var p)) cs). clear.
  intros l. revert i. induction l as [|y l IH]; intros [|i] H F; try discriminate.
  - inversion H; subst. cbn. apply app_nil_r.
  - cbn [firstn] in F. inversion F as [|? ? Fy F']; subst. specialize (IH i H F').
    change (firstn (Datatypes.S (Datatypes.S i)) (y :: l)) with (y :: firstn (Datatypes.S i) l). cbn [map rev].
    rewrite concat_app, IH. cbn [concat]. rewrite Fy. now rewrite !app_nil_r.
Qed.
End Proofs.

(** ** degrees stay between zero and one *)
Lemma exact_one (P : xparam) : degree (@s_1 xr (XRScalar P)) /\ degree (@s_0 xr (XRScalar P)).
Proof. split; eexists; (split; [first [apply (x_1 P)|apply (x_0 P)]|lra]). Qed.
Lemma degree_bounded (P : xparam) enabled membership conjunction disjunction w e d :
  (0 <= xp_eps P <= /10)%R -> disjunction <> Some UnboundedSum -> degree w ->
  (forall v t m, Uses v t e -> enabled v = true -> membership v t = Ok m -> degree m) ->
  @Degree xr (XRScalar P) enabled membership conjunction disjunction e d -> degree d /\ degree (@s_mul xr (XRScalar P) w d).
Proof.
  intros E N W M H. assert (degree d) as D.
  { eapply (@degree_closed xr (XRScalar P)); [apply exact_one|apply exact_one| | | |exact M|exact H].
    - intros hs x. apply hedges_degree. exact E.
    - intros n a b _ Ha Hb. apply (tnorm_weak P n); auto. lra.
    - intros n a b C Ha Hb. apply (snorm_weak P n); auto; [lra|congruence]. }
  split; [exact D|]. change (degree (@tnorm_compute xr (XRScalar P) AlgebraicProduct w d)). apply (tnorm_weak P AlgebraicProduct); auto. lra.
Qed.
Lemma degree_bounded_f64 (P : fparam) enabled membership conjunction disjunction w e d :
  is_finite (fp_eps P) = true -> (B2R (fp_eps P) <= 1/8)%R -> disjunction <> Some UnboundedSum -> disjunction <> Some HamacherSum -> fdegree w ->
  (forall v t m, Uses v t e -> enabled v = true -> membership v t = Ok m -> fdegree m) ->
  @Degree f64 (F64Scalar P) enabled membership conjunction disjunction e d -> fdegree d /\ fdegree (@s_mul f64 (F64Scalar P) w d).
Proof.
  intros E1 E2 N1 N2 W M H. assert (fdegree d) as D.
  { eapply (@degree_closed f64 (F64Scalar P)); [| | | | |exact M|exact H].
    - split; [reflexivity|]. change (B2R (@s_0 f64 (F64Scalar P))) with (B2R (f64_lit 0 1)). rewrite (proj1 f64_0_correct). lra.
    - split; [reflexivity|]. change (B2R (@s_1 f64 (F64Scalar P))) with (B2R (f64_lit 1 1)). rewrite (proj1 f64_1_correct). lra.
    - intros hs x. apply hedges_range_f64; assumption.
    - intros n a b _ Ha Hb. apply (C07_t P n); auto.
    - intros n a b C Ha Hb. apply (C07_s P n); auto; congruence. }
  split; [exact D|]. change (fdegree (@tnorm_compute f64 (F64Scalar P) AlgebraicProduct w d)). apply (C07_t P AlgebraicProduct); auto.
Qed.
