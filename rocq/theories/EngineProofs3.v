(** Proofs about engines: copies, disabled components, exceptions, ranges. *)
From Coq Require Import ZArith String List Bool Permutation Lia.
From Verif Require Import Base Op Norm Shape Discrete Defuzz Aggregated Text Function FunctionProofs2 Rule Var Activation Engine
  SpecVar SpecActivation SpecEngine ActivationProofs ActivationProofs2 ActivationProofs3 VarProofs EngineProofs EngineProofs2.
Import ListNotations.
Local Open Scope string_scope.

Section Proofs.
Context {T : Type} `{S : Scalar T}.
Variable drain : drainer T.

(** ** the phases of process *)
Definition cleared (e : engine T) : list (output T) := map (set_fuzzy []) (e_outputs e).
(** Engine.cpp:316-323 *)
Definition activation_phase (e : engine T) : list (block T) * fuzzy T * res unit :=
  run_blocks drain (engine_enabled (e_inputs e) (cleared e))
    (engine_degree (engine_view (e_inputs e) (cleared e)) (e_inputs e) (map (@o_aggregation T) (cleared e))) (e_blocks e) (map (fun _ => []) (cleared e)).
Lemma process_phases e : process drain e =
  let '(bs, fz, r) := activation_phase e in
  match r with
  | Ok _ => let '(outs, r) := defuzzify_from (e_inputs e) [] (put_fuzzy (cleared e) fz) in (mkEngine (e_name e) (e_description e) (e_inputs e) outs bs, r)
  | _ => (mkEngine (e_name e) (e_description e) (e_inputs e) (put_fuzzy (cleared e) fz) bs, r)
  end.
Proof. reflexivity. Qed.
Lemma process_inputs e : e_inputs (fst (process drain e)) = e_inputs e.
Proof.
  rewrite process_phases. destruct (activation_phase e) as [[bs fz] [[]|?| |]]; try reflexivity.
  destruct (defuzzify_from _ _ _). reflexivity.
Qed.
Lemma phase_length e bs fz r : activation_phase e = (bs, fz, r) -> length fz = length (e_outputs e).
Proof.
  unfold activation_phase. intros H. apply run_grown in H. destruct H as [H _]. rewrite H, map_length. unfold cleared. apply map_length.
Qed.
Lemma put_nth fz : forall (outs : list (output T)) i o, length fz = length outs -> nth_error outs i = Some o ->
  exists f, nth_error fz i = Some f /\ nth_error (put_fuzzy outs fz) i = Some (set_fuzzy f o).
Proof.
  unfold put_fuzzy. induction fz as [|f fz IH]; intros [|p outs] [|i] o L H; cbn in *; try discriminate.
  - inversion H; subst. eauto.
  - apply IH; [lia|exact H].
Qed.

(** ** defuzzification of all outputs, one after the other *)
Definition untouched (o p : output T) : Prop := p = set_fuzzy (o_fuzzy p) o.
Lemma from_prefix ins : forall rest done outs r, defuzzify_from ins done rest = (outs, r) -> exists tail, outs = (done ++ tail)%list /\ length tail = length rest.
Proof.
  induction rest as [|o rest IH]; intros done outs r H; cbn [defuzzify_from] in H.
  - inversion H; subst. exists []. rewrite app_nil_r. auto.
  - destruct (defuzzify (engine_view ins (done ++ o :: rest)) o) as [o1 [[]|?| |]]; try (inversion H; subst; eexists; split; [reflexivity|reflexivity]).
    apply IH in H. destruct H as (tail & -> & L). exists (o1 :: tail). rewrite <- app_assoc. split; [reflexivity|]. cbn. lia.
Qed.
(** the first [k] outputs have been defuzzified; if any are left, the next one has failed with the outcome *)
Lemma from_spec ins : forall rest done outs r, defuzzify_from ins done rest = (outs, r) ->
  exists k, (k <= length rest)%nat /\ length outs = (length done + length rest)%nat /\
    (r = Ok tt <-> k = length rest) /\
    (forall i, (i < length done)%nat -> nth_error outs i = nth_error done i) /\
    (forall i o, nth_error rest i = Some o -> exists p, nth_error outs (length done + i) = Some p /\
       ((i < k)%nat -> exists view, defuzzify view o = (p, Ok tt)) /\
       ((i >= k)%nat -> p = o) /\ (i = k -> exists view, defuzzify view o = (o, r))).
Proof.
  induction rest as [|o rest IH]; intros done outs r H; cbn [defuzzify_from] in H.
  - inversion H; subst. exists 0%nat. cbn. split; [lia|]. split; [lia|]. split; [tauto|]. split; [reflexivity|]. intros [|i] o E; discriminate.
  - destruct (defuzzify (engine_view ins (done ++ o :: rest)) o) as [o1 r1] eqn:E.
    assert (r1 <> Ok tt -> o1 = o) as K.
    { intros N. unfold defuzzify in E. destruct (negb _); [inversion E; congruence|]. destruct (o_defuzzifier o); [|inversion E; congruence].
      destruct (defuzzified _ d o); inversion E; congruence. }
    assert (r1 <> Ok tt -> (outs, r) = (done ++ o1 :: rest, r1)%list -> exists k, (k <= length (o :: rest))%nat /\ length outs = (length done + length (o :: rest))%nat /\
      (r = Ok tt <-> k = length (o :: rest)) /\ (forall i, (i < length done)%nat -> nth_error outs i = nth_error done i) /\
      (forall i q, nth_error (o :: rest) i = Some q -> exists p, nth_error outs (length done + i) = Some p /\
        ((i < k)%nat -> exists view, defuzzify view q = (p, Ok tt)) /\ ((i >= k)%nat -> p = q) /\ (i = k -> exists view, defuzzify view q = (q, r)))) as W.
    { intros N Q. specialize (K N). subst o1. inversion Q; subst outs r. exists 0%nat. split; [lia|]. split; [apply app_length|].
      split; [split; [congruence|cbn; lia]|]. split; [intros i L; apply nth_error_app1; exact L|].
      intros i q Hq. exists q. rewrite nth_error_app2 by lia. replace (length done + i - length done)%nat with i by lia.
      split; [exact Hq|]. split; [lia|]. split; [reflexivity|]. intros ->. cbn in Hq. inversion Hq; subst. eauto. }
    destruct r1 as [[]|x| |]; [|apply W; [discriminate|symmetry; exact H]..].
    destruct (IH _ _ _ H) as (k & K1 & K2 & K3 & K4 & K5). rewrite app_length in *. cbn [length] in *. exists (Datatypes.S k).
    split; [lia|]. split; [lia|]. split; [rewrite K3; lia|]. split; [intros i L; rewrite K4 by lia; apply nth_error_app1; exact L|].
    intros [|i] q Hq; cbn in Hq.
    + inversion Hq; subst q. exists o1. rewrite Nat.add_0_r. split; [rewrite K4 by lia; rewrite nth_error_app2, Nat.sub_diag by lia; reflexivity|].
      split; [eauto|]. split; lia.
    + destruct (K5 i q Hq) as (p & P1 & P2 & P3 & P4). exists p. replace (length done + Datatypes.S i)%nat with (length done + 1 + i)%nat by lia.
      split; [exact P1|]. split; [intros; apply P2; lia|]. split; [intros; apply P3; lia|]. intros; apply P4; lia.
Qed.
Lemma defuzzify_disabled vw (o : output T) : v_enabled (o_var o) = false -> defuzzify vw o = (o, Ok tt).
Proof. unfold defuzzify. intros ->. reflexivity. Qed.
Lemma defuzzify_updates vw (o p : output T) : v_enabled (o_var o) = true -> defuzzify vw o = (p, Ok tt) -> o_previous p = v_value (o_var o).
Proof.
  unfold defuzzify. intros ->. cbn [negb]. destruct (o_defuzzifier o); [|discriminate]. destruct (defuzzified vw d o); intros H; inversion H; subst; reflexivity.
Qed.

(** C52 *)
Lemma exceptions e e' r : process drain e = (e', r) -> length (e_outputs e') = length (e_outputs e) /\
  exists k, (k <= length (e_outputs e))%nat /\ (r = Ok tt <-> snd (activation_phase e) = Ok tt /\ k = length (e_outputs e)) /\
   (snd (activation_phase e) <> Ok tt -> k = 0%nat /\ r = snd (activation_phase e)) /\
   forall i o p, nth_error (e_outputs e) i = Some o -> nth_error (e_outputs e') i = Some p ->
     ((i < k)%nat -> (exists vw, defuzzify vw (set_fuzzy (o_fuzzy p) o) = (p, Ok tt)) /\
        if v_enabled (o_var o) then o_previous p = v_value (o_var o) else same_values o p) /\
     ((i >= k)%nat -> same_values o p) /\
     (i = k -> snd (activation_phase e) = Ok tt -> exists vw q, defuzzify vw (set_fuzzy (o_fuzzy p) o) = (q, r)).
Proof.
  rewrite process_phases. destruct (activation_phase e) as [[bs fz] r1] eqn:A. pose proof (phase_length _ _ _ _ A) as L. cbn [snd].
  assert (length (cleared e) = length (e_outputs e)) as Lc by apply map_length. rewrite <- Lc in L.
  assert (length (put_fuzzy (cleared e) fz) = length (e_outputs e)) as Lp.
  { rewrite <- Lc. pose proof (put_same fz _ L) as F. apply Forall2_len in F. congruence. }
  assert (forall i o, nth_error (e_outputs e) i = Some o -> exists f, nth_error (put_fuzzy (cleared e) fz) i = Some (set_fuzzy f o)) as Pn.
  { intros i o Ho. assert (nth_error (cleared e) i = Some (set_fuzzy [] o)) as Hc by (unfold cleared; now apply map_nth_error).
    destruct (put_nth fz _ _ _ L Hc) as (f & _ & H). exists f. exact H. }
  assert (r1 <> Ok tt -> (e', r) = (mkEngine (e_name e) (e_description e) (e_inputs e) (put_fuzzy (cleared e) fz) bs, r1) ->
    length (e_outputs e') = length (e_outputs e) /\
    exists k, (k <= length (e_outputs e))%nat /\ (r = Ok tt <-> r1 = Ok tt /\ k = length (e_outputs e)) /\ (r1 <> Ok tt -> k = 0%nat /\ r = r1) /\
    forall i o p, nth_error (e_outputs e) i = Some o -> nth_error (e_outputs e') i = Some p ->
     ((i < k)%nat -> (exists vw, defuzzify vw (set_fuzzy (o_fuzzy p) o) = (p, Ok tt)) /\
        if v_enabled (o_var o) then o_previous p = v_value (o_var o) else same_values o p) /\
     ((i >= k)%nat -> same_values o p) /\ (i = k -> r1 = Ok tt -> exists vw q, defuzzify vw (set_fuzzy (o_fuzzy p) o) = (q, r))) as W.
  { intros N Q. inversion Q; subst e' r. cbn [e_outputs]. split; [exact Lp|]. exists 0%nat. split; [lia|]. split; [intuition congruence|]. split; [auto|].
    intros i o p Ho Hp. split; [lia|]. split; [|congruence]. intros _. destruct (Pn i o Ho) as (f & Hf). rewrite Hf in Hp. inversion Hp; subst. split; reflexivity. }
  destruct r1 as [[]|x| |]; [|intros H; apply W; [discriminate|symmetry; exact H]..].
  clear W. destruct (defuzzify_from (e_inputs e) [] (put_fuzzy (cleared e) fz)) as [outs r2] eqn:D. intros H. inversion H; subst e' r. cbn [e_outputs].
  destruct (from_spec _ _ _ _ _ D) as (k & K1 & K2 & K3 & _ & K5). cbn [length plus] in *. rewrite Lp in *.
  split; [exact K2|]. exists k. split; [exact K1|]. split; [rewrite K3; tauto|]. split; [congruence|].
  intros i o p Ho Hp. destruct (Pn i o Ho) as (f & Hf). destruct (K5 i _ Hf) as (q & Q1 & Q2 & Q3 & Q4).
  rewrite Hp in Q1. inversion Q1; subst q. clear Q1.
  assert (o_fuzzy p = f) as Ef.
  { destruct (Nat.lt_ge_cases i k) as [Hi|Hi]; [|rewrite (Q3 Hi); reflexivity]. destruct (Q2 Hi) as (vw & V). unfold defuzzify in V.
    destruct (negb _); [inversion V; reflexivity|]. destruct (o_defuzzifier _); [|discriminate]. destruct (defuzzified _ _ _); inversion V; reflexivity. }
  rewrite Ef. split.
  - intros Hi. destruct (Q2 Hi) as (vw & V). split; [eauto|]. destruct (v_enabled (o_var o)) eqn:En.
    + apply defuzzify_updates in V; exact V || exact En.
    + rewrite defuzzify_disabled in V by exact En. inversion V; subst. split; reflexivity.
  - split; [intros Hi; rewrite (Q3 Hi); split; reflexivity|]. intros -> _. destruct (Q4 eq_refl) as (vw & V). eauto.
Qed.
Lemma Forall2_nth {A B} (R : A -> B -> Prop) l l' : length l = length l' -> (forall i x y, nth_error l i = Some x -> nth_error l' i = Some y -> R x y) -> Forall2 R l l'.
Proof.
  revert l'. induction l as [|x l IH]; intros [|y l'] L H; cbn in *; try discriminate; constructor; [apply (H 0%nat); reflexivity|].
  apply IH; [lia|]. intros i. apply (H (Datatypes.S i)).
Qed.
(** C47 *)
Lemma process_ignores (e : engine T) : ignores_outputs e -> ignores_outputs (fst (process drain e)).
Proof.
  intros H. pose proof (process_same drain e) as (_ & _ & HI & HO & _).
  assert (output_names (fst (process drain e)) = output_names e) as En.
  { symmetry. unfold output_names. eapply Forall2_map_eq; [|exact HO]. intros x y Q. symmetry. apply Q. }
  assert (all_terms (fst (process drain e)) = all_terms e) as Et.
  { unfold all_terms. f_equal.
    - clear - HI. induction HI as [|x y l l' E HI IH]; [reflexivity|]. cbn. rewrite IH. f_equal. apply E.
    - clear - HO. induction HO as [|x y l l' E HI IH]; [reflexivity|]. cbn. rewrite IH. f_equal. apply E. }
  unfold ignores_outputs. rewrite En, Et. exact H.
Qed.
Lemma idempotent (e : engine T) : ignores_outputs e ->
  let x := process drain e in let y := process drain (fst x) in
  snd y = snd x /\ e_inputs (fst y) = e_inputs (fst x) /\
  Forall2 (fun o p => o_fuzzy p = o_fuzzy o /\ (snd x = Ok tt -> o_lock_previous o = false -> v_value (o_var p) = v_value (o_var o)))
    (e_outputs (fst x)) (e_outputs (fst y)) /\
  (snd x = Ok tt -> Forall2 (fun c d => b_enabled c = true -> b_rules d = b_rules c) (e_blocks (fst x)) (e_blocks (fst y))).
Proof.
  intros Ig. cbn zeta.
  destruct (history drain e (fst (process drain e)) (process_same drain e)) as (H1 & H2 & H3); [unfold input_values; now rewrite process_inputs|exact Ig|].
  split; [exact H1|]. split; [apply process_inputs|]. split; [|exact H3].
  apply Forall2_nth; [apply Forall2_len in H2; exact H2|]. intros i o p Ho Hp.
  pose proof (nth_error_Forall2 _ _ _ _ _ _ H2 Ho Hp) as [A1 A2]. split; [exact A1|]. intros X1 X2.
  destruct (v_enabled (o_var o)) eqn:En; [auto|].
  destruct (process drain (fst (process drain e))) as [e2 r2] eqn:E2. cbn [fst snd] in *.
  destruct (exceptions _ _ _ E2) as (_ & k & _ & _ & _ & Q). destruct (Q i o p Ho Hp) as (Q1 & Q2 & _).
  destruct (Nat.lt_ge_cases i k) as [Hi|Hi]; [|apply Q2; exact Hi]. apply Q1 in Hi. destruct Hi as [_ Hi]. rewrite En in Hi. apply Hi.
Qed.

(** ** C49 *)
Lemma not_in_lookup (ctx : context T) v : ~ In v (map fst ctx) -> lookup_last ctx v = None.
Proof. apply lookup_none. Qed.
Lemma attached_like inames onames vw (t : term T) : map fst (vw_context vw) = (inames ++ onames)%list -> term_attached t ->
  term_like inames onames true t (term_update_reference vw t).
Proof.
  intros N A. unfold term_attached, term_update_reference in *. split; [destruct (tm_body t); reflexivity|]. split; [destruct (tm_body t); reflexivity|].
  destruct (tm_body t) eqn:B; try (rewrite B; reflexivity).
  - cbn. subst engine. reflexivity.
  - cbn [tm_body]. destruct A as (En & n & Pn & Rt). unfold fn_update_reference, fn_load. rewrite Pn. unfold fn_membership. cbn [fn_root fst fn_engine fn_vars].
    split; [exact Rt|]. split; [exact En|]. intros m v Rm I. destruct (string_dec v "x") as [->|Nx]; [left; reflexivity|]. right. rewrite En. split; [left; reflexivity|].
    destruct (in_dec string_dec v (inames ++ onames)) as [Y|Nv]; [left; exact Y|]. right.
    rewrite vget_vset, vget_fill, not_in_lookup by (rewrite N; exact Nv). destruct (String.eqb_spec "x" v); [congruence|reflexivity].
Qed.
Lemma copied_names vw (ins : list (variable T)) (outs : list (output T)) :
  engine_env (map (update_variable vw) ins) (map (fun o => set_var (update_variable vw (o_var o)) o) outs) = engine_env ins outs.
Proof.
  assert (forall v, var_names (update_variable vw v) = var_names v) as E.
  { intros v. unfold var_names, update_variable. cbn. f_equal. rewrite map_map. apply map_ext. intros t. unfold term_update_reference. destruct (tm_body t); reflexivity. }
  unfold engine_env. rewrite !map_map. f_equal; apply map_ext; intros; apply E.
Qed.
Lemma copied_rules env (rules : list (rule T)) : Forall (rule_current env) rules -> same_rules rules (fst (load_rules env (map rule_copy rules))).
Proof.
  unfold load_rules. cbn [fst]. rewrite !map_map. induction 1; cbn; constructor; assumption.
Qed.
Lemma copy_like (e : engine T) : Forall term_attached (all_terms e) -> all_current e ->
  engine_like (input_names e) (output_names e) true e (engine_copy e).
Proof.
  intros At Cu. unfold engine_copy. set (vw := engine_view (e_inputs e) (e_outputs e)).
  assert (map fst (vw_context vw) = (input_names e ++ output_names e)%list) as N by apply context_names.
  clearbody vw. rewrite Forall_forall in At.
  assert (forall v : variable T, (forall t, In t (v_terms v) -> In t (all_terms e)) -> var_like (input_names e) (output_names e) true v (update_variable vw v)) as VL.
  { intros v H. repeat (split; [reflexivity|]). cbn. assert (forall t, In t (v_terms v) -> term_attached t) as Q by auto. clear - Q N.
    induction (v_terms v) as [|t l IH]; constructor; [apply attached_like; [exact N|apply Q; left; reflexivity]|]. apply IH. intros; apply Q; right; assumption. }
  split; [|split; [|split; [|split; reflexivity]]]; cbn [e_inputs e_outputs e_blocks].
  - assert (forall v, In v (e_inputs e) -> forall t, In t (v_terms v) -> In t (all_terms e)) as Q.
    { intros v Iv t It. apply in_or_app. left. apply in_flat_map. eauto. }
    clear - Q VL. induction (e_inputs e) as [|v l IH]; constructor; [split; [apply VL; apply Q; left; reflexivity|reflexivity]|]. apply IH. intros w Iw. apply Q. right. exact Iw.
  - assert (forall o, In o (e_outputs e) -> forall t, In t (v_terms (o_var o)) -> In t (all_terms e)) as Q.
    { intros v Iv t It. apply in_or_app. right. apply in_flat_map. eauto. }
    clear - Q VL. induction (e_outputs e) as [|v l IH]; constructor.
    + split; [apply VL; apply Q; left; reflexivity|]. do 4 (split; [reflexivity|]). intros _. split; reflexivity.
    + apply IH. intros w Iw. apply Q. right. exact Iw.
  - rewrite copied_names. unfold all_current in Cu. induction Cu; constructor; [|assumption].
    repeat (split; [reflexivity|]). split; [apply copied_rules; assumption|]. repeat (split; [reflexivity|]). reflexivity.
Qed.
Lemma copy_trace (e : engine T) cs : Forall term_attached (all_terms e) -> all_current e -> trace drain cs (engine_copy e) = trace drain cs e.
Proof. intros A C. symmetry. eapply strict_trace. apply copy_like; assumption. Qed.

(** ** C50 *)
Lemma run_blocks_without enabled degree b : b_enabled b = false -> forall bs1 bs2 fz,
  exists cs1 cs2, length cs1 = length bs1 /\
    run_blocks drain enabled degree (bs1 ++ bs2) fz = ((cs1 ++ cs2)%list, snd (fst (run_blocks drain enabled degree (bs1 ++ bs2) fz)), snd (run_blocks drain enabled degree (bs1 ++ bs2) fz)) /\
    run_blocks drain enabled degree (bs1 ++ b :: bs2) fz =
      ((cs1 ++ b :: cs2)%list, snd (fst (run_blocks drain enabled degree (bs1 ++ bs2) fz)), snd (run_blocks drain enabled degree (bs1 ++ bs2) fz)).
Proof.
  intros D. induction bs1 as [|c bs1 IH]; intros bs2 fz.
  - cbn [app run_blocks]. rewrite D. destruct (run_blocks drain enabled degree bs2 fz) as [[cs g] u]. exists [], cs. cbn. auto.
  - cbn [app run_blocks]. destruct (b_enabled c).
    + destruct (block_activate enabled degree drain c fz) as [[c1 f1] [[]|x| |]];
        [|exists (c1 :: bs1), bs2; cbn; auto..].
      destruct (IH bs2 f1) as (cs1 & cs2 & L & E1 & E2). rewrite E2.
      destruct (run_blocks drain enabled degree (bs1 ++ bs2) f1) as [[cs g] u]. cbn [fst snd] in *. inversion E1; subst. exists (c1 :: cs1), cs2. cbn. auto.
    + destruct (IH bs2 fz) as (cs1 & cs2 & L & E1 & E2). rewrite E2.
      destruct (run_blocks drain enabled degree (bs1 ++ bs2) fz) as [[cs g] u]. cbn [fst snd] in *. inversion E1; subst. exists (c :: cs1), cs2. cbn. auto.
Qed.
Lemma disabled_block (e : engine T) bs1 b bs2 : e_blocks e = (bs1 ++ b :: bs2)%list -> b_enabled b = false ->
  let x := process drain e in let y := process drain (without bs1 bs2 e) in
  snd x = snd y /\ e_inputs (fst x) = e_inputs (fst y) /\ e_outputs (fst x) = e_outputs (fst y) /\
  exists cs1 cs2, length cs1 = length bs1 /\ e_blocks (fst y) = (cs1 ++ cs2)%list /\ e_blocks (fst x) = (cs1 ++ b :: cs2)%list.
Proof.
  intros E D. cbn zeta. rewrite !process_phases. unfold activation_phase. cbn [e_inputs e_outputs e_blocks e_name e_description without]. change (cleared (without bs1 bs2 e)) with (cleared e).
  rewrite E.
  set (en := engine_enabled _ _). set (dg := engine_degree _ _ _). set (f0 := map (fun _ : output T => []) _).
  destruct (run_blocks_without en dg b D bs1 bs2 f0) as (cs1 & cs2 & L & E1 & E2). rewrite E2.
  destruct (run_blocks drain en dg (bs1 ++ bs2) f0) as [[cs g] u]. cbn [fst snd] in *. inversion E1; subst cs.
  destruct u as [[]|x| |]; [|cbn; repeat (split; [reflexivity|]); eauto..].
  destruct (defuzzify_from (e_inputs e) [] (put_fuzzy (cleared e) g)) as [outs r]. cbn. repeat (split; [reflexivity|]). eauto.
Qed.
Lemma run_blocks_settled enabled degree : forall bs fz cs g, run_blocks drain enabled degree bs fz = (cs, g, Ok tt) -> Forall (fun b => b_enabled b = true -> Forall settled (b_rules b)) cs.
Proof.
  induction bs as [|b bs IH]; intros fz cs g H; cbn [run_blocks] in H; [inversion H; constructor|].
  destruct (b_enabled b) eqn:En.
  - unfold block_activate in H. destruct (activate _ _ _ _ _ _ _ (b_rules b) fz) as [[rs f1] [[]|?| |]] eqn:A; try (inversion H; fail).
    destruct (run_blocks drain enabled degree bs f1) as [[c2 g2] u] eqn:R. inversion H; subst. constructor; [|eapply IH; exact R].
    intros _. cbn. eapply activate_settled; exact A.
  - destruct (run_blocks drain enabled degree bs fz) as [[c2 g2] u] eqn:R. inversion H; subst. constructor; [congruence|eapply IH; exact R].
Qed.
Lemma disabled_rule (e e' : engine T) b r : process drain e = (e', Ok tt) -> In b (e_blocks e') -> b_enabled b = true -> In r (b_rules b) -> rl_enabled r = false -> rl_triggered r = false.
Proof.
  rewrite process_phases. destruct (activation_phase e) as [[bs fz] u] eqn:A. intros H Ib En Ir D.
  destruct u as [[]|?| |]; try (inversion H; fail).
  destruct (defuzzify_from _ _ _) as [outs r2]. inversion H; subst. cbn in Ib. apply run_blocks_settled in A.
  rewrite Forall_forall in A. specialize (A b Ib En). rewrite Forall_forall in A. specialize (A r Ir). destruct A as [_ A]. destruct (rl_triggered r); [|reflexivity]. destruct (A eq_refl). congruence.
Qed.
Lemma disabled_output (e e' : engine T) r j o p : process drain e = (e', r) -> nth_error (e_outputs e) j = Some o -> nth_error (e_outputs e') j = Some p ->
  v_enabled (o_var o) = false -> o_fuzzy p = [] /\ same_values o p.
Proof.
  intros H Ho Hp D. destruct (exceptions _ _ _ H) as (_ & k & _ & _ & _ & Q). destruct (Q j o p Ho Hp) as (Q1 & Q2 & _). split.
  - rewrite process_phases in H. destruct (activation_phase e) as [[bs fz] u] eqn:A. pose proof (phase_length _ _ _ _ A) as L.
    assert (nth_error (cleared e) j = Some (set_fuzzy [] o)) as Hc by (unfold cleared; now apply map_nth_error).
    assert (length fz = length (cleared e)) as Lc by (unfold cleared; rewrite map_length; exact L).
    destruct (put_nth fz _ _ _ Lc Hc) as (f & Hf & Hpf).
    assert (f = []) as ->.
    { unfold activation_phase in A. apply run_grown in A. destruct A as [_ A].
      destruct (A j []) as (l' & Hl & El); [erewrite map_nth_error; [reflexivity|exact Hc]|].
      rewrite Hf in Hl. inversion Hl; subst. apply El. cbn. rewrite Hc. exact D. }
    assert (forall outs r', defuzzify_from (e_inputs e) [] (put_fuzzy (cleared e) fz) = (outs, r') -> nth_error outs j = Some (set_fuzzy [] o)) as G.
    { intros outs r' G. destruct (from_spec _ _ _ _ _ G) as (k' & _ & _ & _ & _ & K). destruct (K j _ Hpf) as (q & K1 & K2 & K3 & _). cbn in K1. rewrite K1. f_equal.
      destruct (Nat.lt_ge_cases j k') as [Hi|Hi]; [|apply K3; exact Hi]. destruct (K2 Hi) as (vw & V). rewrite defuzzify_disabled in V by exact D. inversion V. reflexivity. }
    destruct u as [[]|?| |].
    + destruct (defuzzify_from _ _ _) as [outs r2] eqn:Df. inversion H; subst. cbn in Hp. rewrite (G _ _ eq_refl) in Hp. inversion Hp. reflexivity.
    + inversion H; subst. cbn in Hp. rewrite Hpf in Hp. inversion Hp. reflexivity.
    + inversion H; subst. cbn in Hp. rewrite Hpf in Hp. inversion Hp. reflexivity.
    + inversion H; subst. cbn in Hp. rewrite Hpf in Hp. inversion Hp. reflexivity.
  - destruct (Nat.lt_ge_cases j k) as [Hi|Hi]; [|apply Q2; exact Hi]. apply Q1 in Hi. rewrite D in Hi. apply Hi.
Qed.

(** ** C42: all variables stay in their locked ranges *)
Hypothesis B : sane_order.
Lemma from_in_range ins : forall rest done, Forall (fun o => in_range (o_var o)) (done ++ rest) -> Forall (fun o => in_range (o_var o)) (fst (defuzzify_from ins done rest)).
Proof.
  induction rest as [|o rest IH]; intros done H; cbn [defuzzify_from].
  - rewrite app_nil_r in H. exact H.
  - apply Forall_app in H. destruct H as [H1 H2]. inversion H2; subst.
    destruct (defuzzify (engine_view ins (done ++ o :: rest)) o) as [o1 r] eqn:E. pose proof (defuzzify_in B _ _ _ _ E H3) as K.
    destruct r as [[]|?| |]; [apply IH; apply Forall_app; split; [apply Forall_app; split; [assumption|]; constructor; [exact K|constructor]|assumption]|..].
    all: cbn [fst]; apply Forall_app; split; [assumption|]; constructor; assumption.
Qed.
Lemma execute_in_range c (e : engine T) : all_in_range e -> all_in_range (execute drain c e).
Proof.
  intros [H1 H2]. destruct c as [values| |]; cbn [execute].
  - split; [|exact H2]. cbn. apply Forall_app. split.
    + apply Forall_forall. intros v I. apply in_map_iff in I. destruct I as (p & <- & _). apply (set_value_in B).
    + apply Forall_forall. intros v I. rewrite Forall_forall in H1. apply H1. rewrite <- (firstn_skipn (length values)). apply in_or_app. right. exact I.
  - split; [rewrite process_inputs; exact H1|]. rewrite process_phases. destruct (activation_phase e) as [[bs fz] u] eqn:A.
    assert (Forall (fun o => in_range (o_var o)) (put_fuzzy (cleared e) fz)) as K.
    { apply Forall_forall. intros o I. unfold put_fuzzy in I. apply in_map_iff in I. destruct I as ([q f] & <- & I). apply in_combine_l in I.
      unfold cleared in I. apply in_map_iff in I. destruct I as (w & <- & I). rewrite Forall_forall in H2. exact (H2 w I). }
    destruct u as [[]|?| |]; try exact K. pose proof (from_in_range (e_inputs e) (put_fuzzy (cleared e) fz) [] K) as G.
    destruct (defuzzify_from _ _ _). exact G.
  - split; cbn; apply Forall_forall; intros v I; apply in_map_iff in I; destruct I as (w & <- & _); [apply (set_value_in B)|apply (clear_in B)].
Qed.
Lemma run_in_range cs : forall e : engine T, all_in_range e -> all_in_range (run drain cs e).
Proof. induction cs as [|c cs IH]; intros e H; cbn; [exact H|]. apply IH. now apply execute_in_range. Qed.
End Proofs.
