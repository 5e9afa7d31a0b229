(** Proofs about engines: history, idempotence, restart, copies. *)
From Coq Require Import ZArith String List Bool Permutation Lia.
From Verif Require Import Base Op Norm Shape Discrete Defuzz Aggregated Text Function FunctionProofs2 Rule Var Activation Engine
  SpecVar SpecActivation SpecEngine ActivationProofs ActivationProofs2 ActivationProofs3 VarProofs EngineProofs.
Import ListNotations.
Local Open Scope string_scope.

Section Proofs.
Context {T : Type} `{S : Scalar T}.
Variable drain : drainer T.

Lemma Forall2_refl {A} (R : A -> A -> Prop) l : (forall x, In x l -> R x x) -> Forall2 R l l.
Proof. induction l; intros H; constructor; [apply H; left; reflexivity|]. apply IHl. intros x I. apply H. right. exact I. Qed.
Lemma Forall2_impl_in {A B} (R Q : A -> B -> Prop) l l' : Forall2 R l l' -> (forall x y, In x l -> In y l' -> R x y -> Q x y) -> Forall2 Q l l'.
Proof. induction 1; intros F; constructor; [apply F; cbn; auto|]. apply IHForall2. intros. apply F; cbn; auto. Qed.
Lemma Forall2_trans {A} (R : A -> A -> Prop) : (forall x y z, R x y -> R y z -> R x z) -> forall a b c, Forall2 R a b -> Forall2 R b c -> Forall2 R a c.
Proof. intros Tr a b c H. revert c. induction H; intros c K; inversion K; subst; constructor; eauto. Qed.

(** *** configuration is preserved *)
Lemma same_variable_trans (a b c : variable T) : same_variable a b -> same_variable b c -> same_variable a c.
Proof. unfold same_variable. intuition congruence. Qed.
Lemma same_block_trans (a b c : block T) : same_block a b -> same_block b c -> same_block a c.
Proof.
  intros (a1 & a2 & a3 & a4 & a5 & a6 & a7 & a8) (b1 & b2 & b3 & b4 & b5 & b6 & b7 & b8). split; [congruence|]. split; [congruence|]. split; [congruence|].
  split; [eapply sames_trans; eassumption|]. split; [congruence|]. split; [congruence|]. split; congruence.
Qed.
Lemma same_engine_trans (a b c : engine T) : same_engine a b -> same_engine b c -> same_engine a c.
Proof.
  intros (a1 & a2 & a3 & a4 & a5) (b1 & b2 & b3 & b4 & b5). split; [congruence|]. split; [congruence|].
  split; [eapply Forall2_trans; [apply same_variable_trans|..]; eassumption|].
  split; [eapply Forall2_trans; [apply same_output_trans|..]; eassumption|].
  eapply Forall2_trans; [apply same_block_trans|..]; eassumption.
Qed.
Lemma same_engine_refl (e : engine T) : same_engine e e.
Proof.
  split; [reflexivity|]. split; [reflexivity|]. split; [apply Forall2_refl; repeat split|].
  split; [apply Forall2_refl; intros; apply same_output_refl|]. apply Forall2_refl. intros. apply same_block_refl.
Qed.
Lemma run_blocks_same enabled degree : forall bs fz, Forall2 same_block bs (fst (fst (run_blocks drain enabled degree bs fz))).
Proof.
  induction bs as [|b bs IH]; intros fz; cbn [run_blocks]; [constructor|].
  assert (Forall2 same_block bs bs) as Rf by (apply Forall2_refl; intros; apply same_block_refl).
  destruct (b_enabled b).
  - assert (same_block b (fst (fst (block_activate enabled degree drain b fz)))) as K.
    { unfold block_activate. destruct (activate _ _ _ _ _ _ _ (b_rules b) fz) as [[rs g] u] eqn:E. apply activate_keeps in E. cbn. repeat split. exact E. }
    destruct (block_activate enabled degree drain b fz) as [[b1 f1] [[]|?| |]]; cbn [fst snd] in *; try (constructor; assumption).
    specialize (IH f1). destruct (run_blocks drain enabled degree bs f1) as [[b2 g] u]. constructor; assumption.
  - specialize (IH fz). destruct (run_blocks drain enabled degree bs fz) as [[b2 g] u]. constructor; [apply same_block_refl|assumption].
Qed.
Lemma defuzzify_from_same ins : forall rest done, Forall2 same_output (done ++ rest) (fst (defuzzify_from ins done rest)).
Proof.
  induction rest as [|o rest IH]; intros done; cbn [defuzzify_from].
  - rewrite app_nil_r. apply Forall2_refl. intros. apply same_output_refl.
  - destruct (defuzzify (engine_view ins (done ++ o :: rest)) o) as [o1 r] eqn:E. apply defuzzify_same in E.
    assert (Forall2 same_output (done ++ o :: rest) (done ++ o1 :: rest)) as K.
    { apply Forall2_app; [apply Forall2_refl; intros; apply same_output_refl|]. constructor; [exact E|apply Forall2_refl; intros; apply same_output_refl]. }
    destruct r as [[]|?| |]; try exact K. eapply Forall2_trans; [apply same_output_trans|exact K|].
    specialize (IH (done ++ [o1])%list). rewrite <- app_assoc in IH. exact IH.
Qed.
Lemma put_same fz : forall outs : list (output T), length fz = length outs -> Forall2 same_output outs (put_fuzzy outs fz).
Proof.
  unfold put_fuzzy. induction fz as [|f fz IH]; intros [|o outs] H; cbn in *; try discriminate; constructor; [repeat split|]. apply IH. lia.
Qed.
Lemma process_same (e : engine T) : same_engine e (fst (process drain e)).
Proof.
  unfold process. set (outs := map (set_fuzzy []) (e_outputs e)).
  pose proof (run_blocks_same (engine_enabled (e_inputs e) outs) (engine_degree (engine_view (e_inputs e) outs) (e_inputs e) (map (@o_aggregation T) outs)) (e_blocks e) (map (fun _ => []) outs)) as B.
  destruct (run_blocks drain (engine_enabled (e_inputs e) outs) _ (e_blocks e) _) as [[bs fz] r] eqn:E. cbn [fst] in B.
  apply run_grown in E. destruct E as [E _]. rewrite map_length in E.
  assert (Forall2 same_output (e_outputs e) (put_fuzzy outs fz)) as O.
  { eapply Forall2_trans; [apply same_output_trans| |apply put_same; exact E]. unfold outs. clear. induction (e_outputs e); constructor; [apply set_fuzzy_same|assumption]. }
  assert (Forall2 same_variable (e_inputs e) (e_inputs e)) as I by (apply Forall2_refl; repeat split).
  pose proof (defuzzify_from_same (e_inputs e) (put_fuzzy outs fz) []) as D. cbn [app] in D.
  destruct r as [[]|?| |]; try (cbn [fst]; repeat split; assumption).
  destruct (defuzzify_from (e_inputs e) [] (put_fuzzy outs fz)) as [o2 r2]. cbn [fst] in *. split; [reflexivity|]. split; [reflexivity|].
  split; [exact I|]. split; [|exact B]. eapply Forall2_trans; [apply same_output_trans| |]; eassumption.
Qed.
Lemma restart_same (e : engine T) : same_engine e (restart e).
Proof.
  split; [reflexivity|]. split; [reflexivity|]. cbn. split; [induction (e_inputs e); constructor; [repeat split|assumption]|].
  split; [induction (e_outputs e); constructor; [repeat split|assumption]|]. apply Forall2_refl. intros. apply same_block_refl.
Qed.
Lemma set_inputs_same values (e : engine T) : same_engine e (set_inputs values e).
Proof.
  split; [reflexivity|]. split; [reflexivity|]. cbn. split; [|split; [apply Forall2_refl; intros; apply same_output_refl|apply Forall2_refl; intros; apply same_block_refl]].
  generalize (e_inputs e) as l. intros l. revert values. induction l as [|v l IH]; intros [|x values]; cbn; try constructor; try (repeat split); auto.
  - apply Forall2_refl. repeat split.
Qed.
Lemma execute_same c (e : engine T) : same_engine e (execute drain c e).
Proof. destruct c; [apply set_inputs_same|apply process_same|apply restart_same]. Qed.
Lemma run_same cs : forall e : engine T, same_engine e (run drain cs e).
Proof.
  induction cs as [|c cs IH]; intros e; cbn; [apply same_engine_refl|]. eapply same_engine_trans; [apply execute_same|apply IH].
Qed.

(** *** engines with the same configuration are alike *)
Lemma term_like_refl inames onames strict (t : term T) :
  (forall f n v, tm_body t = TFunction f -> fn_root f = Some n -> In v (free n) -> v = "x" \/ readable onames strict v) -> term_like inames onames strict t t.
Proof.
  intros H. split; [reflexivity|]. split; [reflexivity|]. destruct (tm_body t); try reflexivity. split; [reflexivity|]. split; [reflexivity|].
  intros n v Rt I. destruct (H f n v eq_refl Rt I) as [E|E]; [left; exact E|]. right. destruct (fn_engine f); auto.
Qed.
Definition reads (onames : list string) (strict : bool) (e : engine T) : Prop :=
  forall t f n v, In t (all_terms e) -> tm_body t = TFunction f -> fn_root f = Some n -> In v (free n) -> v = "x" \/ readable onames strict v.
Lemma same_like strict (a b : engine T) : same_engine a b -> input_values a = input_values b -> reads (output_names a) strict a ->
  (strict = true -> Forall2 (fun o p => v_value (o_var o) = v_value (o_var p) /\ o_previous o = o_previous p) (e_outputs a) (e_outputs b)) ->
  engine_like (input_names a) (output_names a) strict a b.
Proof.
  intros (_ & _ & HI & HO & HB) V Rd St. split; [|split; [|split; [exact HB|split; reflexivity]]].
  - assert (forall v, In v (e_inputs a) -> forall t, In t (v_terms v) -> In t (all_terms a)) as Tm.
    { intros v Iv t It. apply in_or_app. left. apply in_flat_map. eauto. }
    clear - HI V Rd Tm. unfold input_values in V. set (inames := input_names a) in *. set (onames := output_names a) in *.
    revert V Tm. induction HI as [|x y l l' E HI IH]; intros V Tm; [constructor|]. cbn in V. injection V as V1 V2. constructor.
    + destruct E as (h1 & h2 & h3 & h4 & h5 & h6 & h7). split; [|exact V1]. repeat (split; [congruence|]). rewrite h7. apply Forall2_refl.
      intros t It. apply term_like_refl. intros f n v. apply Rd. eapply Tm; [left; reflexivity|exact It].
    + apply IH; [exact V2|]. intros v Iv. apply Tm. right. exact Iv.
  - assert (forall o, In o (e_outputs a) -> forall t, In t (v_terms (o_var o)) -> In t (all_terms a)) as Tm.
    { intros v Iv t It. apply in_or_app. right. apply in_flat_map. eauto. }
    clear - HO St Rd Tm. set (inames := input_names a) in *. set (onames := output_names a) in *.
    revert St Tm. induction HO as [|x y l l' E HI IH]; intros St Tm; [constructor|]. constructor.
    + destruct E as (h1 & h2 & h3 & h4 & h5 & h6 & h7 & h8 & h9 & h10 & h11). split.
      { repeat (split; [congruence|]). rewrite h7. apply Forall2_refl. intros t It. apply term_like_refl. intros f n v. apply Rd. eapply Tm; [left; reflexivity|exact It]. }
      repeat (split; [congruence|]). intros X. specialize (St X). inversion St; subst. assumption.
    + apply IH; [|intros o Io; apply Tm; right; exact Io]. intros X. specialize (St X). inversion St; subst. assumption.
Qed.
(** C46 *)
Lemma history (a b : engine T) : same_engine a b -> input_values a = input_values b -> ignores_outputs a ->
  let x := process drain a in let y := process drain b in
  snd y = snd x /\ Forall2 (agrees (snd x)) (e_outputs (fst x)) (e_outputs (fst y)) /\
  (snd x = Ok tt -> Forall2 (fun c d => b_enabled c = true -> b_rules d = b_rules c) (e_blocks (fst x)) (e_blocks (fst y))).
Proof.
  intros SE V Ig. cbn zeta.
  assert (engine_like (input_names a) (output_names a) false a b) as L.
  { apply same_like; auto; [|discriminate]. intros t f n v I1 I2 I3 I4. destruct (Ig t f n v I1 I2 I3 I4); [left|right; right]; assumption. }
  destruct (process_like drain _ _ _ a b L) as (Pr & _ & PO & PB). split; [congruence|]. split.
  - eapply Forall2_impl_in; [exact PO|]. intros o p _ _ (h1 & h2 & h3). split; [congruence|]. intros X1 X2 X3. symmetry. auto.
  - intros X. eapply Forall2_impl_in; [exact PB|]. intros c d _ _ [h1 h2] En. symmetry. auto.
Qed.

(** *** strict similarity is kept by commands *)
Lemma strict_exec inames onames (a b : engine T) c : engine_like inames onames true a b -> engine_like inames onames true (execute drain c a) (execute drain c b).
Proof.
  intros L. pose proof L as (HI & HO & HB & NI & NO).
  assert (forall c, map (@v_name T) (e_inputs (execute drain c a)) = inames) as NI'.
  { intros d. pose proof (execute_same d a) as (_ & _ & Q & _ & _). rewrite <- NI. symmetry. eapply Forall2_map_eq; [|exact Q]. intros x y E. symmetry. apply E. }
  assert (forall c, map (fun o => v_name (o_var o)) (e_outputs (execute drain c a)) = onames) as NO'.
  { intros d. pose proof (execute_same d a) as (_ & _ & _ & Q & _). rewrite <- NO. symmetry. eapply Forall2_map_eq; [|exact Q]. intros x y E. symmetry. apply E. }
  assert (forall x v w, in_like inames onames true v w -> in_like inames onames true (set_value x v) (set_value x w)) as SV.
  { intros x v w [(h1 & h2 & h3 & h4 & h5 & h6) E]. split; [repeat (split; [assumption|]); assumption|]. cbn. rewrite h2, h3, h5. reflexivity. }
  destruct c as [values| |].
  - split; [|split; [exact HO|split; [exact HB|split; [apply (NI' (CInputs values))|apply (NO' (CInputs values))]]]].
    cbn. clear - HI SV. revert values. induction HI; intros [|u values]; cbn; try constructor; auto.
  - destruct (process_like drain _ _ _ a b L) as (Pr & PI & PO & PB). split; [exact PI|].
    split; [eapply Forall2_impl_in; [exact PO|]; intros o p _ _ H; apply H|].
    split; [eapply Forall2_impl_in; [exact PB|]; intros o p _ _ H; apply H|]. split; [apply (NI' CProcess)|apply (NO' CProcess)].
  - split; [|split; [|split; [exact HB|split; [apply (NI' CRestart)|apply (NO' CRestart)]]]].
    + cbn. clear - HI SV. induction HI; constructor; auto.
    + cbn. clear - HO. induction HO as [|o p l l' H HO IH]; constructor; [|exact IH].
      destruct H as ((h1 & h2 & h3 & h4 & h5 & h6) & g1 & g2 & g3 & g4 & g5). split; [repeat (split; [assumption|]); assumption|].
      repeat (split; [assumption|]). intros _. cbn. rewrite h2, h3, h5. split; reflexivity.
Qed.
Lemma strict_observed inames onames (a b : engine T) : engine_like inames onames true a b -> observed (process drain a) = observed (process drain b).
Proof.
  intros L. destruct (process_like drain _ _ _ a b L) as (Pr & PI & PO & PB). unfold observed. rewrite <- Pr. f_equal; [f_equal|].
  - eapply Forall2_map_eq; [|exact PO]. intros o p ((_ & _ & _ & _ & _ & g) & h & _). destruct (g eq_refl). congruence.
  - destruct (snd (process drain a)) as [[]|?| |]; try reflexivity. clear - PB. induction PB as [|c d l l' [H1 H2] PB IH]; [reflexivity|]. cbn.
    destruct H1 as (E & _). rewrite E. destruct (b_enabled c) eqn:En; [|exact IH]. cbn. f_equal; auto.
Qed.
Lemma strict_trace inames onames cs : forall a b : engine T, engine_like inames onames true a b -> trace drain cs a = trace drain cs b.
Proof.
  induction cs as [|c cs IH]; intros a b L; [reflexivity|].
  destruct c as [values| |]; cbn [trace]; try (apply IH; exact (strict_exec _ _ a b _ L)).
  f_equal; [eapply strict_observed; exact L|]. apply IH. exact (strict_exec _ _ a b CProcess L).
Qed.

(** C48 *)
Lemma bound_nan (lo hi : T) : nan_unordered -> bound s_nan lo hi = s_nan.
Proof. intros N. unfold bound. rewrite (proj2 (N hi)), (proj1 (N lo)). reflexivity. Qed.
Lemma restart_unused (e : engine T) : nan_unordered -> unused (restart e).
Proof.
  intros N. split; cbn.
  - apply Forall_forall. intros v I. apply in_map_iff in I. destruct I as (w & <- & _). cbn. rewrite bound_nan by exact N. destruct (v_lock_range w); reflexivity.
  - apply Forall_forall. intros v I. apply in_map_iff in I. destruct I as (w & <- & _). cbn. rewrite bound_nan by exact N. destruct (v_lock_range (o_var w)); auto.
Qed.
Lemma same_engine_sym (a b : engine T) : same_engine a b -> same_engine b a.
Proof.
  intros (h1 & h2 & h3 & h4 & h5). split; [congruence|]. split; [congruence|].
  split; [clear - h3; induction h3; constructor; auto; unfold same_variable in *; intuition congruence|].
  split; [clear - h4; induction h4; constructor; auto using same_output_sym|].
  clear - h5; induction h5 as [|x y l l' H]; constructor; auto. destruct H as (a1 & a2 & a3 & a4 & a5 & a6 & a7 & a8).
  split; [congruence|]. split; [congruence|]. split; [congruence|]. split; [now apply sames_sym|]. repeat (split; [congruence|]). congruence.
Qed.
Lemma unused_trace (a b : engine T) cs : unused a -> unused b -> same_engine a b -> trace drain cs a = trace drain cs b.
Proof.
  intros [A1 A2] [B1 B2] SE. apply (strict_trace (input_names a) (output_names a)). apply same_like; auto.
  - destruct SE as (_ & _ & HI & _). unfold input_values. clear - HI A1 B1. induction HI; [reflexivity|]. inversion A1; inversion B1; subst. cbn. f_equal; [congruence|auto].
  - intros t f n v _ _ _ _. right. left. reflexivity.
  - intros _. destruct SE as (_ & _ & _ & HO & _). clear - HO A2 B2. induction HO; [constructor|]. inversion A2; inversion B2; subst. constructor; [|auto].
    intuition congruence.
Qed.
Lemma restart_trace (e0 : engine T) cs0 cs : nan_unordered -> unused e0 ->
  trace drain cs (restart (run drain cs0 e0)) = trace drain cs e0.
Proof.
  intros N U. symmetry. apply unused_trace; [exact U|apply restart_unused; exact N|].
  eapply same_engine_trans; [apply run_same|apply restart_same].
Qed.
End Proofs.
