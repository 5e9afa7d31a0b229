(** Imported engines can be written, and printing is idempotent. *)
From Coq Require Import ZArith List Bool String Ascii Arith Lia.
From Verif Require Import Base Op Norm Shape Discrete Defuzz Aggregated Text Function Rule Var Activation Engine Factory
  SpecText TextProofs TextProofs2 RuleProofs3 Fll SpecFll FllText FllLines FllExport FllRound FllRound2.
Import ListNotations.
Local Open Scope string_scope.

Section Fix.
Context {T : Type} `{S : Scalar T}.
Variables (d : nat) (resolution : Z).
Hypothesis N : printable (T := T) d.

(** ** idempotence *)
Lemma valid_twice s : valid_name (valid_name (valid_name s)) = valid_name (valid_name s).
Proof. destruct (valid_name s) as [|c r] eqn:E; [reflexivity|]. rewrite <- E. rewrite (valid_idem s) by congruence. apply valid_idem. congruence. Qed.
Lemma rtrim_end y c : is_space c = false -> rtrim (y ++ char c) = y ++ char c.
Proof.
  intro H. induction y as [|x y IH]; cbn [append]; [cbn [char]; simpl; now rewrite H|]. rewrite rtrim_cons, IH. destruct y; reflexivity.
Qed.
Lemma rtrim_cases s : rtrim s = "" \/ exists y c, rtrim s = y ++ char c /\ is_space c = false.
Proof.
  induction s as [|x s IH]; [now left|]. rewrite rtrim_cons. destruct IH as [-> |(y & c & -> & E)].
  - destruct (is_space x) eqn:E; [now left|]. right. exists "", x. auto.
  - right. exists (String x y), c. split; auto. destruct y; reflexivity.
Qed.
Lemma words_end v c : is_space c = false -> exists ws w, words (v ++ char c) = (ws ++ [(w ++ char c)%string])%list.
Proof.
  intro H. assert (NS : Ascii.eqb c " " = false) by (destruct (Ascii.eqb_spec c " ") as [->|]; [discriminate|reflexivity]).
  induction v as [|x v (ws & w & IH)]; [exists [], ""; cbn; rewrite NS; reflexivity|]. cbn [append]. unfold words in *. cbn [chop].
  destruct (Ascii.eqb x " "); [exists ws, w; exact IH|]. destruct (chop " " (v ++ char c)) as [|p ps]; [destruct ws; discriminate|]. cbn [filter nonempty sempty negb] in *.
  destruct p as [|a p]; cbn [nonempty sempty negb] in IH.
  - exists (char x :: ws), w. cbn [app]. f_equal. exact IH.
  - destruct ws as [|w0 ws]; cbn [app] in IH; injection IH as E1 E2.
    + exists [], (String x w). cbn [app append]. now rewrite E1, E2.
    + exists (String x w0 :: ws), w. cbn [app]. now rewrite E1, E2.
Qed.
Lemma formula_idem s : formula_content (formula_content s) = formula_content s.
Proof.
  unfold formula_content. set (ws := words (rtrim (uncomment s))).
  assert (W : Forall wordy ws) by apply words_wordy.
  assert (H : lacks "#" (join ws " ") = true).
  { rewrite lacks_sforall. apply join_sforall; [reflexivity|]. apply words_sforall; [reflexivity|]. apply rtrim_sforall. rewrite <- lacks_sforall. apply hash_lacks. }
  rewrite hash_id by exact H. f_equal.
  assert (R : rtrim (join ws " ") = join ws " ").
  { unfold ws. destruct (rtrim_cases (uncomment s)) as [-> |(y & c & -> & E)]; [reflexivity|]. destruct (words_end y c E) as (us & w & ->).
    destruct us as [|u us]; [apply (rtrim_end w c E)|]. rewrite join_app by discriminate. cbn [join]. rewrite <- !sapp_assoc. now apply rtrim_end. }
  rewrite R. apply words_join. exact W.
Qed.
Lemma formula_one_line s : one_line s -> one_line (formula_content s).
Proof.
  unfold one_line, formula_content. intro H. rewrite lacks_sforall in *. apply join_sforall; [reflexivity|]. apply words_sforall; [reflexivity|]. apply rtrim_sforall. now apply hash_sforall.
Qed.
Lemma shape_map_idem (s : shape T) : shape_map (reread d) (shape_map (reread d) s) = shape_map (reread d) s.
Proof. destruct s; cbn [shape_map]; rewrite ?(reread_idem d N); reflexivity. Qed.
Lemma loaded_formula vw s (f : fstate T) : loaded_function vw s = Ok f -> fn_formula f = s.
Proof.
  unfold loaded_function, fn_load, fn_membership. destruct (parse default_table s) as [n|x| |]; try discriminate. cbn [fn_root fn_engine fn_formula fn_vars].
  destruct (node_evaluate _ n) as [y|y| |]; cbn [rbind]; try discriminate. intro H. injection H as <-. reflexivity.
Qed.
Lemma printed_term_fixed vw t t1 : valid_name (tm_name t) <> "" -> printed_term d vw t = Ok t1 -> printed_term d vw t1 = Ok t1.
Proof.
  intros NV H. unfold printed_term in *.
  destruct (tm_body t) as [s|xy|v|cs b|f] eqn:B; cbn [rbind] in H.
  5: { destruct (loaded_function vw (formula_content (fn_formula f))) as [f'|x| |] eqn:L; try discriminate. cbn [rbind] in H. injection H as <-. cbn [tm_body tm_name].
       rewrite (loaded_formula _ _ _ L), formula_idem, L. cbn [rbind]. rewrite (valid_idem _ NV). unfold printed_height. cbn [tm_body tm_height]. rewrite B. reflexivity. }
  all: assert (HH : (if isEq (if isEq (tm_height t) s_1 then s_1 else reread d (tm_height t)) s_1 then s_1 else reread d (if isEq (tm_height t) s_1 then s_1 else reread d (tm_height t))) =
                  (if isEq (tm_height t) s_1 then s_1 else reread d (tm_height t)))
    by (destruct (isEq (tm_height t) s_1); [now rewrite (pr_one d N)|]; destruct (isEq (reread d (tm_height t)) s_1) eqn:E; [symmetry; apply (pr_height d N (tm_height t)); [apply (reread_ok d N)|exact E]|apply (reread_idem d N)]).
  all: injection H as <-; cbn [tm_body tm_name rbind]; rewrite (valid_idem _ NV); unfold printed_height; cbn [tm_body tm_height]; rewrite B.
  - now rewrite HH, shape_map_idem.
  - rewrite HH. rewrite map_map. erewrite map_ext; [reflexivity|]. intros [a b]. cbn [fst snd]. now rewrite !(reread_idem d N).
  - now rewrite (reread_idem d N).
  - rewrite map_map. erewrite map_ext; [reflexivity|]. intro a. apply (reread_idem d N).
Qed.
Lemma rmap_fixed {A} (f : A -> res A) (P : A -> Prop) l : (forall a b, P a -> f a = Ok b -> f b = Ok b) -> Forall P l -> forall l1, rmapM f l = Ok l1 -> rmapM f l1 = Ok l1.
Proof.
  intros Q F. induction F as [|a l Pa F IH]; intros l1 H; [injection H as <-; reflexivity|]. simpl in H. destruct (f a) as [b| | |] eqn:E; try discriminate. cbn [rbind] in H.
  destruct (rmapM f l) as [bs| | |]; try discriminate. injection H as <-. simpl. rewrite (Q _ _ Pa E). cbn [rbind]. now rewrite (IH _ eq_refl).
Qed.
Lemma printed_variable_fixed vw v v1 : variable_writable v -> printed_variable d vw v = Ok v1 -> printed_variable d vw v1 = Ok v1.
Proof.
  intros [_ W] H. unfold printed_variable in *. destruct (rmapM (printed_term d vw) (v_terms v)) as [ts| | |] eqn:E; try discriminate. cbn [rbind] in H. injection H as <-.
  cbn [v_terms v_name v_description v_minimum v_maximum v_enabled v_lock_range].
  assert (WT : Forall (fun t => valid_name (tm_name t) <> "") (v_terms v)) by (eapply Forall_impl; [|exact W]; intros t [Q _]; exact Q).
  rewrite (rmap_fixed _ _ _ (fun a b => printed_term_fixed vw a b) WT _ E).
  cbn [rbind]. rewrite valid_twice, content_idem, !(reread_idem d N). rewrite valid_twice. reflexivity.
Qed.
Lemma printed_output_fixed vw o o1 : output_writable o -> printed_output d vw o = Ok o1 -> printed_output d vw o1 = Ok o1.
Proof.
  intros [W _] H. unfold printed_output in *. destruct (printed_variable d vw (o_var o)) as [v| | |] eqn:E; try discriminate. cbn [rbind] in H. injection H as <-.
  cbn [o_var o_aggregation o_defuzzifier o_default o_lock_previous]. rewrite (printed_variable_fixed _ _ _ W E). cbn [rbind]. now rewrite (reread_idem d N).
Qed.
Lemma printed_inputs_fixed vs : Forall variable_writable vs -> forall before ins, printed_inputs d before vs = Ok ins -> exists ws, ins = (before ++ ws)%list /\ printed_inputs d before ws = Ok ins.
Proof.
  intro F. induction F as [|v vs W F IH]; intros before ins H; [injection H as <-; exists []; rewrite app_nil_r; auto|]. cbn [printed_inputs] in H.
  destruct (printed_variable d (engine_view before []) v) as [w| | |] eqn:E; try discriminate. cbn [rbind] in H. destruct (IH _ _ H) as (ws & -> & Q).
  exists (w :: ws). split; [now rewrite <- app_assoc|]. cbn [printed_inputs]. rewrite (printed_variable_fixed _ _ _ W E). exact Q.
Qed.
Lemma printed_outputs_fixed iv os : Forall output_writable os -> forall before outs, printed_outputs d iv before os = Ok outs -> exists ws, outs = (before ++ ws)%list /\ printed_outputs d iv before ws = Ok outs.
Proof.
  intro F. induction F as [|v vs W F IH]; intros before ins H; [injection H as <-; exists []; rewrite app_nil_r; auto|]. cbn [printed_outputs] in H.
  destruct (printed_output d (engine_view iv before) v) as [w| | |] eqn:E; try discriminate. cbn [rbind] in H. destruct (IH _ _ H) as (ws & -> & Q).
  exists (w :: ws). split; [now rewrite <- app_assoc|]. cbn [printed_outputs]. rewrite (printed_output_fixed _ _ _ W E). exact Q.
Qed.
Lemma load_text env text (r : rule T) : rl_text (fst (rule_load env text r)) = text.
Proof.
  unfold rule_load. destruct (rule_split text) as [[[a c] w]| | |]; try reflexivity. destruct (antecedent_load env a); try reflexivity. destruct (consequent_load env c); reflexivity.
Qed.
Lemma printed_block_fixed env b : printed_block (T := T) d env (printed_block d env b) = printed_block d env b.
Proof.
  unfold printed_block. cbn [b_name b_description b_rules b_conjunction b_disjunction b_implication b_activation b_enabled]. rewrite !content_idem. f_equal.
  - rewrite map_map. apply map_ext. intro r. unfold printed_rule at 1 3. unfold printed_rule. rewrite load_text, content_idem. reflexivity.
  - destruct (b_activation b) as [[]|]; cbn [printed_activation]; rewrite ?(reread_idem d N); reflexivity.
Qed.
Theorem printed_fixed e e1 : writable e -> printed_engine (T := T) d e = Ok e1 -> printed_engine d e1 = Ok e1.
Proof.
  intros (_ & _ & WI & WO & _) H. unfold printed_engine in *. destruct (printed_inputs d [] (e_inputs e)) as [ins| | |] eqn:EI; try discriminate. cbn [rbind] in H.
  destruct (printed_outputs d ins [] (e_outputs e)) as [outs| | |] eqn:EO; try discriminate. cbn [rbind] in H. injection H as <-.
  cbn [e_inputs e_outputs e_blocks e_name e_description]. destruct (printed_inputs_fixed _ WI _ _ EI) as (ws & Q & QI). cbn [app] in Q. subst ws. rewrite QI. cbn [rbind].
  destruct (printed_outputs_fixed _ _ WO _ _ EO) as (ws & Q & QO). cbn [app] in Q. subst ws. rewrite QO. cbn [rbind]. rewrite !content_idem. do 2 f_equal.
  rewrite map_map. apply map_ext. intro b. apply printed_block_fixed.
Qed.
End Fix.
