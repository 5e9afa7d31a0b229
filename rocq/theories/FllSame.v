(** Plain engines keep their configuration and their text. *)
From Coq Require Import ZArith List Bool String Ascii Arith Lia.
From Verif Require Import Base Op Norm Shape Discrete Defuzz Aggregated Text Function Rule Var Activation Engine Factory
  SpecText TextProofs TextProofs2 RuleProofs3 Fll SpecFll FllText FllLines FllExport FllRound FllRound2 FllFix.
Import ListNotations.
Local Open Scope string_scope.

Section Same.
Context {T : Type} `{S : Scalar T}.
Variables (d : nat) (resolution : Z) (indent separator : string).
Hypothesis N : printable (T := T) d.

Lemma plain_valid s : plain_name s -> valid_name s = s.
Proof. intros [A B]. now apply valid_keep. Qed.
Lemma plain_term_writable (t : term T) : plain_term t -> term_writable t.
Proof. intros [A B]. split; [rewrite (plain_valid _ A); apply A|]. destruct (tm_body t); auto. apply B. Qed.
Lemma plain_variable_writable (v : variable T) : plain_variable v -> variable_writable v.
Proof. intros (_ & [A _] & B). split; auto. eapply Forall_impl; [|exact B]. apply plain_term_writable. Qed.
Lemma plain_output_writable (o : output T) : plain_output o -> output_writable o.
Proof. intros [A B]. split; auto. now apply plain_variable_writable. Qed.
Lemma plain_block_writable (b : block T) : plain_block b -> block_writable b.
Proof.
  intros ([A _] & [B _] & C & D). repeat split; auto.
  - eapply Forall_impl; [|exact C]. intros r [R _]. exact R.
  - destruct (b_activation b) as [[]|]; auto.
Qed.
Lemma plain_writable (e : engine T) : plain_engine e -> writable e.
Proof.
  intros ([A _] & [B _] & I & O & R). repeat split; auto; (eapply Forall_impl; [|eassumption]); [apply plain_variable_writable|apply plain_output_writable|apply plain_block_writable].
Qed.

Section Relation.
Variable num : T -> T -> Prop.
Hypothesis num_reread : forall x, num x (reread d x).
Lemma num_map l : Forall2 num l (map (reread d) l).
Proof. induction l; constructor; auto. Qed.
Lemma same_height_printed h : same_height num h (if isEq h s_1 then s_1 else reread d h).
Proof. unfold same_height. destruct (isEq h s_1); auto. Qed.
Lemma loaded_root vw s (f : fstate T) : loaded_function vw s = Ok f -> fn_root f <> None.
Proof.
  unfold loaded_function, fn_load, fn_membership. destruct (parse default_table s) as [n|x| |]; try discriminate. cbn [fn_root fn_engine fn_formula fn_vars].
  destruct (node_evaluate _ n) as [y|y| |]; cbn [rbind]; try discriminate. intro H. injection H as <-. discriminate.
Qed.
Lemma same_printed_term vw t u : plain_term t -> printed_term d vw t = Ok u -> same_term num t u.
Proof.
  intros [A B] H. unfold printed_term in H. rewrite (plain_valid _ A) in H.
  unfold same_term. destruct (tm_body t) as [s|xy|v|cs b|f] eqn:E; cbn [rbind] in H.
  5: { destruct (loaded_function vw (formula_content (fn_formula f))) as [f'| | |] eqn:L; try discriminate. injection H as <-. cbn [tm_name tm_body]. split; auto. split; [|exact (loaded_root _ _ _ L)].
       rewrite (loaded_formula _ _ _ L). apply B. }
  all: injection H as <-; cbn [tm_name tm_body tm_height]; unfold printed_height; rewrite ?E; split; auto.
  - split; [destruct s; reflexivity|]. split; [|apply same_height_printed]. assert (Q : shape_list (shape_map (reread d) s) = map (reread d) (shape_list s)) by (destruct s; reflexivity). rewrite Q. apply num_map.
  - split; [|apply same_height_printed]. clear - num_reread. induction xy as [|p xy IH]; cbn [map]; constructor; [split; apply num_reread|exact IH].
  - split; [apply num_map|reflexivity].
Qed.
Lemma rmap_forall2 {A B} (f : A -> res B) (P : A -> Prop) (R : A -> B -> Prop) l : (forall a b, P a -> f a = Ok b -> R a b) -> Forall P l -> forall l1, rmapM f l = Ok l1 -> Forall2 R l l1.
Proof.
  intros Q F. induction F as [|a l Pa F IH]; intros l1 H; [injection H as <-; constructor|]. simpl in H. destruct (f a) as [b| | |] eqn:E; try discriminate. cbn [rbind] in H.
  destruct (rmapM f l) as [bs| | |]; try discriminate. injection H as <-. constructor; auto.
Qed.
Lemma same_printed_variable vw v w : plain_variable v -> printed_variable d vw v = Ok w -> same_variable num v w.
Proof.
  intros (A & [_ B] & C) H. unfold printed_variable in H. destruct (rmapM (printed_term d vw) (v_terms v)) as [ts| | |] eqn:E; try discriminate. injection H as <-.
  unfold same_variable. cbn [v_name v_description v_minimum v_maximum v_enabled v_lock_range v_terms v_value]. rewrite !(plain_valid _ A), B. repeat split; auto.
  exact (rmap_forall2 _ plain_term _ _ (fun a b => same_printed_term vw a b) C _ E).
Qed.
Lemma same_printed_output vw o p : plain_output o -> printed_output d vw o = Ok p -> same_output num o p.
Proof.
  intros [A _] H. unfold printed_output in H. destruct (printed_variable d vw (o_var o)) as [v| | |] eqn:E; try discriminate. injection H as <-.
  unfold same_output. cbn [o_var o_aggregation o_defuzzifier o_default o_lock_previous o_fuzzy o_previous]. repeat split; auto; exact (same_printed_variable _ _ _ A E) || apply (same_printed_variable _ _ _ A E).
Qed.
Lemma same_inputs vs : Forall plain_variable vs -> forall before ins, printed_inputs d before vs = Ok ins -> exists ws, ins = (before ++ ws)%list /\ Forall2 (same_variable num) vs ws.
Proof.
  intro F. induction F as [|v vs W F IH]; intros before ins H; [injection H as <-; exists []; rewrite app_nil_r; auto|]. cbn [printed_inputs] in H.
  destruct (printed_variable d (engine_view before []) v) as [w| | |] eqn:E; try discriminate. cbn [rbind] in H. destruct (IH _ _ H) as (ws & -> & Q).
  exists (w :: ws). split; [now rewrite <- app_assoc|]. constructor; auto. exact (same_printed_variable _ _ _ W E).
Qed.
Lemma same_outputs iv os : Forall plain_output os -> forall before outs, printed_outputs d iv before os = Ok outs -> exists ws, outs = (before ++ ws)%list /\ Forall2 (same_output num) os ws.
Proof.
  intro F. induction F as [|v vs W F IH]; intros before ins H; [injection H as <-; exists []; rewrite app_nil_r; auto|]. cbn [printed_outputs] in H.
  destruct (printed_output d (engine_view iv before) v) as [w| | |] eqn:E; try discriminate. cbn [rbind] in H. destruct (IH _ _ H) as (ws & -> & Q).
  exists (w :: ws). split; [now rewrite <- app_assoc|]. constructor; auto. exact (same_printed_output _ _ _ W E).
Qed.
Lemma same_printed_block env b : plain_block b -> same_block num env b (printed_block d env b).
Proof.
  intros ([_ A] & [_ B] & C & D). unfold same_block, printed_block. cbn [b_name b_description b_rules b_conjunction b_disjunction b_implication b_activation b_enabled]. rewrite A, B. repeat split; auto.
  - clear - C. induction C as [|r rs [_ Q] C IH]; cbn [map]; constructor; auto. unfold same_rule, printed_rule. rewrite Q. split; auto. apply load_text.
  - destruct (b_activation b) as [[]|]; cbn [printed_activation same_activation] in *; auto.
Qed.
Theorem same_printed e f : plain_engine e -> printed_engine d e = Ok f -> same_configuration num e f.
Proof.
  intros ([_ A] & [_ B] & WI & WO & WB) H. unfold printed_engine in H. destruct (printed_inputs d [] (e_inputs e)) as [ins| | |] eqn:EI; try discriminate. cbn [rbind] in H.
  destruct (printed_outputs d ins [] (e_outputs e)) as [outs| | |] eqn:EO; try discriminate. cbn [rbind] in H. injection H as <-.
  destruct (same_inputs _ WI _ _ EI) as (ws & Q & QI). cbn [app] in Q. subst ws. destruct (same_outputs _ _ WO _ _ EO) as (ws & Q & QO). cbn [app] in Q. subst ws.
  unfold same_configuration. cbn [e_name e_description e_inputs e_outputs e_blocks]. repeat split; auto. clear - WB num_reread. induction WB as [|b bs Wb WB IH]; cbn [map]; constructor; auto. now apply same_printed_block.
Qed.
End Relation.

(** ** success *)
Lemma rmap_ok {A B} (f : A -> res B) (P : A -> Prop) l : (forall a, P a -> exists b, f a = Ok b) -> Forall P l -> exists l1, rmapM f l = Ok l1.
Proof. intros Q F. induction F as [|a l Pa F (bs & IH)]; [eexists; reflexivity|]. simpl. destruct (Q a Pa) as (b & ->). cbn [rbind]. rewrite IH. eexists. reflexivity. Qed.
Lemma printed_variable_ok vw (v : variable T) : Forall no_function (v_terms v) -> exists w, printed_variable d vw v = Ok w.
Proof.
  intro F. unfold printed_variable. destruct (rmap_ok (printed_term d vw) no_function (v_terms v)) as (ts & ->); [|exact F|eexists; reflexivity].
  intros t H. unfold printed_term. unfold no_function in H. destruct (tm_body t); try (eexists; reflexivity). destruct H.
Qed.
Theorem printed_ok (e : engine T) : no_functions e -> exists f, printed_engine d e = Ok f.
Proof.
  intros [A B]. unfold printed_engine.
  assert (QI : forall vs, Forall (fun v => Forall no_function (v_terms v)) vs -> forall before, exists ins, printed_inputs (T := T) d before vs = Ok ins).
  { clear. intros vs F. induction F as [|v vs W F IH]; intros bf; [eexists; reflexivity|]. cbn [printed_inputs]. destruct (printed_variable_ok (engine_view bf []) v W) as (w & ->). apply IH. }
  destruct (QI _ A []) as (ins & ->). cbn [rbind].
  assert (QO : forall vs, Forall (fun o => Forall no_function (v_terms (o_var o))) vs -> forall before, exists outs, printed_outputs (T := T) d ins before vs = Ok outs).
  { clear. intros vs F. induction F as [|v vs W F IH]; intros bf; [eexists; reflexivity|]. cbn [printed_outputs]. unfold printed_output at 1. destruct (printed_variable_ok (engine_view ins bf) (o_var v) W) as (w & ->). apply IH. }
  destruct (QO _ B []) as (outs & ->). eexists. reflexivity.
Qed.

(** ** the same text *)
Lemma str_map l : map (str d) (map (reread (T := T) d) l) = map (str d) l.
Proof. rewrite map_map. apply map_ext. intro x. apply (reread_str d N). Qed.
Lemma same_parameters vw t u : plain_term t -> height_shown d t -> printed_term d vw t = Ok u -> fll_term d u = fll_term (T := T) d t.
Proof.
  intros [A B] HS H. unfold printed_term in H. rewrite (plain_valid _ A) in H. unfold fll_term.
  assert (Q : tm_name u = tm_name t /\ body_class (tm_body u) = body_class (tm_body t) /\ term_parameters d u = term_parameters d t).
  { unfold term_parameters, height_shown in *. destruct (tm_body t) as [s|xy|v|cs b|f] eqn:E; cbn [rbind] in H.
    5: { destruct (loaded_function vw (formula_content (fn_formula f))) as [f'| | |] eqn:L; try discriminate. injection H as <-. cbn [tm_name tm_body]. repeat split; auto. rewrite (loaded_formula _ _ _ L). apply B. }
    1,2: assert (HH : (if isEq (tm_height t) s_1 then s_1 else reread d (tm_height t)) = printed_height d t) by (unfold printed_height; rewrite E; reflexivity);
      assert (HE : isEq (printed_height d t) s_1 = isEq (tm_height t) s_1) by (rewrite <- HH; destruct (isEq (tm_height t) s_1) eqn:I1; [apply (pr_one d N)|destruct HS as [HS|HS]; [discriminate|exact HS]]);
      assert (HT : isEq (tm_height t) s_1 = false -> str d (printed_height d t) = str d (tm_height t)) by (intro I1; rewrite <- HH, I1; apply (reread_str d N)).
    all: injection H as <-; cbn [tm_name tm_body tm_height]; repeat split; auto.
    - destruct s; reflexivity.
    - assert (SL : shape_list (shape_map (reread d) s) = map (reread d) (shape_list s)) by (destruct s; reflexivity). unfold join_scalars. rewrite SL, str_map, HE.
      destruct (isEq (tm_height t) s_1); auto. now rewrite HT.
    - rewrite HE. f_equal. f_equal.
      + rewrite !flat_map_concat_map, map_map. f_equal. apply map_ext. intros [a b]. cbn [fst snd]. now rewrite !(reread_str d N).
      + destruct (isEq (tm_height t) s_1); auto. now rewrite HT.
    - apply (reread_str d N).
    - unfold join_scalars. now rewrite str_map. }
  destruct Q as (-> & -> & ->). reflexivity.
Qed.
Lemma rmap_map_eq {A B} (f : A -> res A) (g : A -> B) (P : A -> Prop) l : (forall a b, P a -> f a = Ok b -> g b = g a) -> Forall P l -> forall l1, rmapM f l = Ok l1 -> map g l1 = map g l.
Proof.
  intros Q F. induction F as [|a l Pa F IH]; intros l1 H; [injection H as <-; reflexivity|]. simpl in H. destruct (f a) as [b| | |] eqn:E; try discriminate. cbn [rbind] in H.
  destruct (rmapM f l) as [bs| | |]; try discriminate. injection H as <-. cbn [map]. now rewrite (Q _ _ Pa E), (IH _ eq_refl).
Qed.
Definition shown_variable (v : variable T) : Prop := plain_variable v /\ Forall (height_shown d) (v_terms v).
Lemma same_head_terms vw v w : shown_variable v -> printed_variable d vw v = Ok w ->
  valid_name (v_name w) = valid_name (v_name v) /\ fll_head d indent w = fll_head d indent v /\ map (fun t => indent ++ fll_term d t) (v_terms w) = map (fun t => indent ++ fll_term d t) (v_terms v).
Proof.
  intros [(A & [_ B] & C) HS] H. unfold printed_variable in H. destruct (rmapM (printed_term d vw) (v_terms v)) as [ts| | |] eqn:E; try discriminate. injection H as <-.
  cbn [v_name v_terms]. rewrite !(plain_valid _ A). split; auto. split.
  - unfold fll_head. cbn [v_description v_enabled v_minimum v_maximum v_lock_range]. unfold join_scalars. cbn [map]. now rewrite B, !(reread_str d N).
  - refine (rmap_map_eq _ _ (fun t => plain_term t /\ height_shown d t) _ _ _ _ E).
    + intros a b [P Q] R. now rewrite (same_parameters vw a b P Q R).
    + rewrite Forall_forall in *. auto.
Qed.
Lemma same_input_text vw v w : shown_variable v -> printed_variable d vw v = Ok w -> fll_input d indent separator w = fll_input d indent separator v.
Proof. intros A H. destruct (same_head_terms _ _ _ A H) as (Q1 & Q2 & Q3). unfold fll_input. now rewrite Q1, Q2, Q3. Qed.
Lemma same_output_text vw o p : shown_variable (o_var o) -> printed_output d vw o = Ok p -> fll_output d resolution indent separator p = fll_output d resolution indent separator o.
Proof.
  intros A H. unfold printed_output in H. destruct (printed_variable d vw (o_var o)) as [v| | |] eqn:E; try discriminate. injection H as <-.
  destruct (same_head_terms _ _ _ A E) as (Q1 & Q2 & Q3). unfold fll_output. cbn [o_var o_aggregation o_defuzzifier o_default o_lock_previous]. now rewrite Q1, Q2, Q3, (reread_str d N).
Qed.
Lemma same_block_text env b : plain_block b -> fll_block d indent separator (printed_block d env b) = fll_block d indent separator b.
Proof.
  intros ([_ A] & [_ B] & C & D). unfold fll_block, printed_block. cbn [b_name b_description b_rules b_conjunction b_disjunction b_implication b_activation b_enabled]. rewrite A, B.
  assert (R1 : map (fun r => indent ++ fll_rule r) (map (printed_rule env) (b_rules b)) = map (fun r => indent ++ fll_rule r) (b_rules b)).
  { rewrite map_map. apply map_ext_in. intros r I. rewrite Forall_forall in C. destruct (C r I) as [_ Q]. unfold fll_rule, printed_rule. now rewrite load_text, Q. }
  assert (R2 : fll_activation d (Some (printed_activation d (b_activation b))) = fll_activation d (b_activation b)).
  { destruct (b_activation b) as [[]|]; try reflexivity; try tauto; unfold fll_activation, printed_activation, activation_parameters; rewrite (reread_str d N); reflexivity. }
  now rewrite R1, R2.
Qed.
Theorem same_text e f : plain_engine e -> heights_shown d e -> printed_engine d e = Ok f -> fll_export d resolution indent separator f = fll_export d resolution indent separator e.
Proof.
  intros ([_ A] & [_ B] & WI & WO & WB) [HI HO] H. unfold printed_engine in H. destruct (printed_inputs d [] (e_inputs e)) as [ins| | |] eqn:EI; try discriminate. cbn [rbind] in H.
  destruct (printed_outputs d ins [] (e_outputs e)) as [outs| | |] eqn:EO; try discriminate. cbn [rbind] in H. injection H as <-.
  unfold fll_export. cbn [e_name e_description e_inputs e_outputs e_blocks]. rewrite A, B.
  assert (QI : forall vs, Forall shown_variable vs -> forall before ins, printed_inputs d before vs = Ok ins -> map (fll_input d indent separator) ins = map (fll_input d indent separator) (before ++ vs)).
  { clear - N. intros vs F. induction F as [|v vs W F IH]; intros before ins H; [injection H as <-; now rewrite app_nil_r|]. cbn [printed_inputs] in H.
    destruct (printed_variable d (engine_view before []) v) as [w| | |] eqn:E; try discriminate. cbn [rbind] in H. rewrite (IH _ _ H), !map_app. cbn [map]. rewrite (same_input_text _ _ _ W E), <- app_assoc. reflexivity. }
  assert (QO : forall vs, Forall (fun o => shown_variable (o_var o)) vs -> forall before outs, printed_outputs d ins before vs = Ok outs -> map (fll_output d resolution indent separator) outs = map (fll_output d resolution indent separator) (before ++ vs)).
  { clear - N. intros vs F. induction F as [|v vs W F IH]; intros before outs H; [injection H as <-; now rewrite app_nil_r|]. cbn [printed_outputs] in H.
    destruct (printed_output d (engine_view ins before) v) as [w| | |] eqn:E; try discriminate. cbn [rbind] in H. rewrite (IH _ _ H), !map_app. cbn [map]. rewrite (same_output_text _ _ _ W E), <- app_assoc. reflexivity. }
  rewrite (QI (e_inputs e)) with (before := []) (ins := ins); [|rewrite Forall_forall in *; intros v I; split; auto|exact EI].
  rewrite (QO (e_outputs e)) with (before := []) (outs := outs); [|rewrite Forall_forall in *; intros o I; split; [apply (WO o I)|auto]|exact EO].
  rewrite map_map. assert (QB : map (fun b => fll_block d indent separator (printed_block d (engine_env ins outs) b)) (e_blocks e) = map (fll_block d indent separator) (e_blocks e)).
  { apply map_ext_in. intros b I. apply same_block_text. rewrite Forall_forall in WB. auto. }
  rewrite QB. reflexivity.
Qed.
End Same.
