(** Import of exported engines, block by block. *)
From Coq Require Import ZArith List Bool String Ascii Arith Lia.
From Verif Require Import Base Op Norm Shape Discrete Defuzz Aggregated Text Function Rule Var Activation Engine Factory
  SpecText TextProofs TextProofs2 RuleProofs3 Fll SpecFll FllText FllLines FllExport FllRound.
Import ListNotations.
Local Open Scope string_scope.

Ltac eqbs := repeat match goal with |- context [String.eqb ?a ?b] => let r := eval vm_compute in (String.eqb a b) in match r with true => idtac | false => idtac end; change (String.eqb a b) with r end.
Section Round.
Context {T : Type} `{S : Scalar T}.
Variables (d : nat) (resolution : Z) (indent : string).
Hypothesis N : printable (T := T) d.
Hypothesis indent_blank : blank indent = true.
Hypothesis indent_hash : lacks "#" indent = true.
Hypothesis indent_line : one_line indent.

Lemma row_good r : row_ok r -> good_pair (row_pair r).
Proof.
  intros [K O]. unfold key_ok in K. rewrite !andb_true_iff in K. repeat split; cbn [row_pair fst snd]; [tauto|now apply solid_one_line|now apply content_one_line].
Qed.
Lemma rfold_pairs {A} (f : A -> string -> res A) (g : A -> string * string -> res A) :
  (forall a p, good_pair p -> f a (pair_text p) = g a p) -> forall ps a, Forall good_pair ps -> rfold f a (map pair_text ps) = rfold g a ps.
Proof.
  intros H ps a F. revert a. induction F as [|p ps G F IH]; intro a; [reflexivity|]. simpl. rewrite H by auto. destruct (g a p); cbn [rbind]; auto.
Qed.
Definition input_pair (vw : view T) (v : variable T) (p : string * string) : res (variable T) :=
  if String.eqb (fst p) "InputVariable" then Ok (set_v_name (valid_name (snd p)) v)
  else match variable_key vw (fst p) (snd p) v with Some r => r | None => Throw EImport end.
Lemma input_line_pair vw v p : good_pair p -> input_line vw v (pair_text p) = input_pair vw v p.
Proof. intro G. unfold input_line. rewrite (pair_parse p G). cbn [rbind]. now destruct p. Qed.
Definition output_pair (vw : view T) (o : output T) (p : string * string) : res (output T) :=
  let '(key, value) := p in
  if String.eqb key "OutputVariable" then Ok (set_var (set_v_name (valid_name value) (o_var o)) o)
  else match variable_key vw key value (o_var o) with
  | Some r => do v <- r; Ok (set_var v o)
  | None =>
    if String.eqb key "default" then
      do x <- to_scalar value;
      Ok (mkOutput (o_var o) (o_fuzzy o) (o_aggregation o) (o_defuzzifier o) (o_previous o) x (o_lock_previous o))
    else if (String.eqb key "lock-previous" || String.eqb key "lock-valid")%bool then
      do b <- parse_boolean value;
      Ok (mkOutput (o_var o) (o_fuzzy o) (o_aggregation o) (o_defuzzifier o) (o_previous o) (o_default o) b)
    else if String.eqb key "defuzzifier" then do z <- parse_defuzzifier resolution (T := T) value; Ok (set_operators (o_aggregation o) z o)
    else if (String.eqb key "aggregation" || String.eqb key "accumulation")%bool then do a <- parse_snorm value; Ok (set_operators a (o_defuzzifier o) o)
    else Throw EImport
  end.
Lemma output_line_pair vw o p : good_pair p -> output_line resolution vw o (pair_text p) = output_pair vw o p.
Proof. intro G. unfold output_line. rewrite (pair_parse p G). reflexivity. Qed.
Definition block_pair (env : penv) (b : block T) (p : string * string) : res (block T) :=
  do kv <- Ok p;
  let '(key, value) := kv in
  if String.eqb key "RuleBlock" then
    Ok (mkBlock (b_enabled b) value (b_description b) (b_rules b) (b_conjunction b) (b_disjunction b) (b_implication b) (b_activation b))
  else if String.eqb key "description" then
    Ok (mkBlock (b_enabled b) (b_name b) value (b_rules b) (b_conjunction b) (b_disjunction b) (b_implication b) (b_activation b))
  else if String.eqb key "enabled" then
    do x <- parse_boolean value;
    Ok (mkBlock x (b_name b) (b_description b) (b_rules b) (b_conjunction b) (b_disjunction b) (b_implication b) (b_activation b))
  else if String.eqb key "conjunction" then
    do n <- parse_tnorm value;
    Ok (mkBlock (b_enabled b) (b_name b) (b_description b) (b_rules b) n (b_disjunction b) (b_implication b) (b_activation b))
  else if String.eqb key "disjunction" then
    do n <- parse_snorm value;
    Ok (mkBlock (b_enabled b) (b_name b) (b_description b) (b_rules b) (b_conjunction b) n (b_implication b) (b_activation b))
  else if (String.eqb key "implication" || (String.eqb key "activation" && has_constructor value tnorm_factory))%bool then
    do n <- parse_tnorm value;
    Ok (mkBlock (b_enabled b) (b_name b) (b_description b) (b_rules b) (b_conjunction b) (b_disjunction b) n (b_activation b))
  else if String.eqb key "activation" then do a <- parse_activation value; Ok (set_activation a b)
  else if String.eqb key "rule" then
    let '(r, out) := rule_load env value (rule_new value s_1) in
    match out with UB => UB | Diverge => Diverge | _ => Ok (set_rules (b_rules b ++ [r])%list b) end
  else Throw EImport.
Lemma block_line_pair env b p : good_pair p -> block_line env b (pair_text p) = block_pair env b p.
Proof. intro G. unfold block_line. rewrite (pair_parse p G). reflexivity. Qed.

(** ** variables *)
Definition head_set (v0 v : variable T) : variable T :=
  mkVariable (v_name v) (if sempty (v_description v0) then v_description v else content (v_description v0)) (v_value v)
    (reread d (v_minimum v0)) (reread d (v_maximum v0)) (v_enabled v0) (v_lock_range v0) (v_terms v).
Lemma input_head vw v0 v : rfold (input_pair vw) v (map row_pair (head_rows d v0)) = Ok (head_set v0 v).
Proof.
  unfold head_rows, description_rows, head_set. destruct (sempty (v_description v0)); simpl; unfold input_pair; cbn [fst snd];
  repeat (simpl; rewrite ?bool_read, ?(range_read d N); cbn [rbind]); reflexivity.
Qed.
Lemma output_head vw v0 o : rfold (output_pair vw) o (map row_pair (head_rows d v0)) = Ok (set_var (head_set v0 (o_var o)) o).
Proof.
  unfold head_rows, description_rows, head_set. destruct (sempty (v_description v0)); simpl; unfold output_pair; cbn [fst snd];
  repeat (simpl; rewrite ?bool_read, ?(range_read d N); cbn [rbind]); reflexivity.
Qed.
Lemma input_terms vw ts : Forall term_writable ts -> forall v,
  rfold (input_pair vw) v (map row_pair (map (fun t => ("term", term_value d t)) ts)) = (do us <- rmapM (printed_term d vw) ts; Ok (set_terms (v_terms v ++ us)%list v)).
Proof.
  intro F. induction F as [|t ts W F IH]; intro v; [simpl; rewrite app_nil_r; destruct v; reflexivity|]. cbn [map rfold rmapM row_pair fst snd].
  unfold input_pair at 1. cbn [fst snd]. simpl. rewrite (parse_term_ok d N vw t W).
  destruct (printed_term d vw t) as [u|x| |]; cbn [rbind]; try reflexivity. etransitivity; [apply IH|]. destruct (rmapM (printed_term d vw) ts) as [us|x| |]; cbn [rbind]; try reflexivity. cbn [v_terms set_terms]. now rewrite <- app_assoc.
Qed.
Lemma output_terms vw ts : Forall term_writable ts -> forall o,
  rfold (output_pair vw) o (map row_pair (map (fun t => ("term", term_value d t)) ts)) = (do us <- rmapM (printed_term d vw) ts; Ok (set_var (set_terms (v_terms (o_var o) ++ us)%list (o_var o)) o)).
Proof.
  intro F. induction F as [|t ts W F IH]; intro o; [simpl; rewrite app_nil_r; destruct o as [[]]; reflexivity|]. cbn [map rfold rmapM row_pair fst snd].
  unfold output_pair at 1. simpl. rewrite (parse_term_ok d N vw t W).
  destruct (printed_term d vw t) as [u|x| |]; cbn [rbind]; try reflexivity. etransitivity; [apply IH|]. destruct (rmapM (printed_term d vw) ts) as [us|x| |]; cbn [rbind]; try reflexivity. cbn [v_terms set_terms o_var set_var]. now rewrite <- app_assoc.
Qed.
Lemma description_ok s : one_line s -> Forall row_ok (description_rows s).
Proof. intro H. unfold description_rows. destruct (sempty s); repeat constructor. exact H. Qed.
Lemma head_ok v : one_line (v_description v) -> Forall row_ok (head_rows d v).
Proof.
  intro H. apply Forall_app. split; [now apply description_ok|]. repeat constructor; cbn [snd]; try apply solid_one_line, bool_solid.
  apply (words_one_line _ (range_solid d N v)).
Qed.
Lemma term_value_line t : term_writable t -> one_line (term_value (T := T) d t).
Proof.
  intros [NV FL]. destruct (tm_body t) as [| | | |f] eqn:B.
  1-4: rewrite term_value_words by (auto; rewrite B; discriminate); apply words_one_line; repeat constructor; auto using valid_solid, term_words_solid; try (destruct (class_solid (tm_body t)); assumption).
  unfold term_value. rewrite B. unfold term_parameters. rewrite B. cbn [body_class]. apply lacks_join; [reflexivity|]. apply Forall_app. split.
  - repeat constructor. apply solid_one_line, valid_solid.
  - destruct (sempty (fn_formula f)); repeat constructor. exact FL.
Qed.
Lemma terms_ok ts : Forall term_writable ts -> Forall row_ok (map (fun t : term T => ("term", term_value d t)) ts).
Proof. intro F. apply Forall_map. eapply Forall_impl; [|exact F]. intros t W. split; [reflexivity|]. now apply term_value_line. Qed.
Definition sheet_ok (b : (string * string) * list (string * string)) : Prop :=
  row_ok (fst b) /\ Forall row_ok (snd b).
Lemma name_ok k s : key_ok k = true -> row_ok (k, valid_name s).
Proof. intro K. split; [exact K|]. apply solid_one_line, valid_solid. Qed.
Lemma input_ok v : variable_writable v -> sheet_ok (input_sheet d v).
Proof. intros [D W]. split; [now apply name_ok|]. apply Forall_app. split; [now apply head_ok|now apply terms_ok]. Qed.
Lemma output_ok o : output_writable o -> sheet_ok (output_sheet d resolution o).
Proof.
  intros [[D W] Z]. split; [now apply name_ok|]. apply Forall_app. split; [now apply head_ok|]. apply Forall_app. split; [|now apply terms_ok].
  repeat constructor; cbn [snd]; [apply solid_one_line, snorm_solid| |apply solid_one_line, (str_solid d N)|apply solid_one_line, bool_solid].
  rewrite defuzzifier_joined. apply words_one_line, defuzzifier_solid.
Qed.
Lemma block_ok b : block_writable b -> sheet_ok (block_sheet d b).
Proof.
  intros (A & D & R & Z). split; [split; [reflexivity|exact A]|]. apply Forall_app. split; [now apply description_ok|]. apply Forall_app. split.
  - repeat constructor; cbn [snd]; try apply solid_one_line, bool_solid; try apply solid_one_line, tnorm_solid; try apply solid_one_line, snorm_solid.
    rewrite (activation_joined d). apply words_one_line, (activation_solid d N).
  - apply Forall_map. eapply Forall_impl; [|exact R]. intros r O. split; [reflexivity|exact O].
Qed.
Lemma sheet_good b : sheet_ok b -> Forall good_pair (snd (pairs_of b)).
Proof. intros [A B]. apply Forall_map. constructor; [now apply row_good|]. eapply Forall_impl; [|exact B]. apply row_good. Qed.

Lemma content_empty s : sempty s = true -> content s = "".
Proof. intro H. apply sempty_spec in H. now subst s. Qed.
Lemma import_input v e : variable_writable v ->
  block_pairs resolution (fst (pairs_of (input_sheet d v))) (snd (pairs_of (input_sheet d v))) e =
  (do v <- printed_variable d (engine_view (e_inputs e) (e_outputs e)) v; Ok (mkEngine (e_name e) (e_description e) (e_inputs e ++ [v])%list (e_outputs e) (e_blocks e))).
Proof.
  intro W. assert (G := sheet_good _ (input_ok v W)). unfold block_pairs. change (process_tag resolution (fst (pairs_of (input_sheet d v)))) with (process_input (T := T)).
  unfold process_input. rewrite pair_lines by exact G. rewrite (rfold_pairs _ _ (input_line_pair _)) by exact G. set (vw := engine_view _ _).
  unfold pairs_of, input_sheet, input_rows, printed_variable. cbn [snd fst map]. cbn [rfold]. unfold input_pair at 1. cbn [row_pair fst snd]. rewrite content_solid by apply valid_solid.
  cbn [rbind]. simpl (String.eqb _ _). cbn [rbind]. rewrite map_app, rfold_app, input_head. cbn [rbind]. unfold term_rows. destruct W as [_ W]. rewrite input_terms by exact W.
  destruct (rmapM (printed_term d vw) (v_terms v)) as [us|x| |]; cbn [rbind]; try reflexivity. repeat f_equal. unfold set_terms, head_set, set_v_name. cbn.
  destruct (sempty (v_description v)) eqn:E; [rewrite (content_empty _ E)|]; reflexivity.
Qed.
Lemma import_output o e : output_writable o ->
  block_pairs resolution (fst (pairs_of (output_sheet d resolution o))) (snd (pairs_of (output_sheet d resolution o))) e =
  (do o <- printed_output d (engine_view (e_inputs e) (e_outputs e)) o; Ok (mkEngine (e_name e) (e_description e) (e_inputs e) (e_outputs e ++ [o])%list (e_blocks e))).
Proof.
  intro W. assert (G := sheet_good _ (output_ok o W)). unfold block_pairs. change (process_tag resolution (fst (pairs_of (output_sheet d resolution o)))) with (process_output (T := T) resolution).
  unfold process_output. rewrite pair_lines by exact G. rewrite (rfold_pairs _ _ (output_line_pair _)) by exact G. set (vw := engine_view _ _).
  unfold pairs_of, output_sheet, output_rows, printed_output, printed_variable. cbn [snd fst map]. cbn [rfold]. unfold output_pair at 1. cbn [row_pair fst snd]. rewrite content_solid by apply valid_solid.
  simpl (String.eqb _ _). cbn [rbind]. rewrite map_app, rfold_app, output_head. cbn [rbind]. rewrite map_app, rfold_app. destruct W as [[_ W] Z].
  assert (M : forall o1, rfold (output_pair vw) o1 (map row_pair [("aggregation", fll_snorm (o_aggregation o)); ("defuzzifier", fll_defuzzifier resolution (o_defuzzifier o));
    ("default", str d (o_default o)); ("lock-previous", bool_text (o_lock_previous o))]) =
    Ok (mkOutput (o_var o1) (o_fuzzy o1) (o_aggregation o) (o_defuzzifier o) (o_previous o1) (reread d (o_default o)) (o_lock_previous o))).
  { intro o1. cbn [map row_pair fst snd rfold]. unfold output_pair at 1. simpl. rewrite snorm_read. cbn [rbind]. rewrite (defuzzifier_read d resolution N _ Z). cbn [rbind].
    rewrite content_solid by apply (str_solid d N). rewrite (reread_ok d N). cbn [rbind]. rewrite bool_read. reflexivity. }
  rewrite M. cbn [rbind]. unfold term_rows. rewrite output_terms by exact W.
  destruct (rmapM (printed_term d vw) (v_terms (o_var o))) as [us|x| |]; cbn [rbind]; try reflexivity. repeat f_equal. unfold set_var, set_terms, head_set, set_v_name. cbn.
  destruct (sempty (v_description (o_var o))) eqn:E; [rewrite (content_empty _ E)|]; reflexivity.
Qed.
Lemma block_rules env rs : forall b, rfold (block_pair env) b (map row_pair (map (fun r : rule T => ("rule", rl_text r)) rs)) = Ok (set_rules (b_rules b ++ map (printed_rule env) rs)%list b).
Proof.
  induction rs as [|r rs IH]; intro b; [simpl; rewrite app_nil_r; destruct b; reflexivity|]. cbn [map rfold row_pair fst snd]. unfold block_pair at 1. cbn [rbind]. simpl.
  set (c := content (rl_text r)). unfold printed_rule at 1. fold c.
  assert (O : snd (rule_load env c (rule_new (T := T) c s_1)) = Ok tt \/ exists x, snd (rule_load env c (rule_new (T := T) c s_1)) = Throw x) by apply load_outcome.
  destruct (rule_load env c (rule_new c s_1)) as [r1 out]. cbn [snd fst] in *.
  assert (E : match out with UB => UB | Diverge => Diverge | _ => Ok (set_rules (b_rules b ++ [r1])%list b) end = Ok (set_rules (b_rules b ++ [r1])%list b)) by (destruct O as [-> |[x ->]]; reflexivity).
  rewrite E. cbn [rbind]. etransitivity; [apply IH|]. cbn [b_rules set_rules]. now rewrite <- app_assoc.
Qed.
Lemma import_block b e : block_writable b ->
  block_pairs resolution (fst (pairs_of (block_sheet d b))) (snd (pairs_of (block_sheet d b))) e =
  Ok (mkEngine (e_name e) (e_description e) (e_inputs e) (e_outputs e) (e_blocks e ++ [printed_block d (engine_env (e_inputs e) (e_outputs e)) b])%list).
Proof.
  intro W. assert (G := sheet_good _ (block_ok b W)). unfold block_pairs. change (process_tag resolution (fst (pairs_of (block_sheet d b)))) with (process_block (T := T)).
  unfold process_block. rewrite pair_lines by exact G. rewrite (rfold_pairs _ _ (block_line_pair _)) by exact G. set (env := engine_env _ _).
  unfold pairs_of, block_sheet, block_rows, printed_block. cbn [snd fst map]. cbn [rfold]. unfold block_pair at 1. cbn [row_pair fst snd rbind].
  simpl (String.eqb _ _). cbn [rbind]. rewrite map_app, rfold_app. destruct W as (_ & _ & _ & Z).
  assert (D : forall b1, rfold (block_pair env) b1 (map row_pair (description_rows (b_description b))) =
    Ok (mkBlock (b_enabled b1) (b_name b1) (if sempty (b_description b) then b_description b1 else content (b_description b)) (b_rules b1) (b_conjunction b1) (b_disjunction b1) (b_implication b1) (b_activation b1))).
  { intro b1. unfold description_rows. destruct (sempty (b_description b)); [destruct b1|]; reflexivity. }
  rewrite D. cbn [rbind]. rewrite map_app, rfold_app.
  assert (M : forall b1, rfold (block_pair env) b1 (map row_pair [("enabled", bool_text (b_enabled b)); ("conjunction", fll_tnorm (b_conjunction b)); ("disjunction", fll_snorm (b_disjunction b));
    ("implication", fll_tnorm (b_implication b)); ("activation", fll_activation d (b_activation b))]) =
    Ok (mkBlock (b_enabled b) (b_name b1) (b_description b1) (b_rules b1) (b_conjunction b) (b_disjunction b) (b_implication b) (match b_activation b with None => None | Some _ => Some (printed_activation d (b_activation b)) end))).
  { intro b1. cbn [map row_pair fst snd rfold]. unfold block_pair, row_pair. cbn [rbind fst snd]. eqbs. cbn [orb andb]. cbn match. rewrite bool_read. cbn [rbind]. rewrite tnorm_read. cbn [rbind]. rewrite snorm_read. cbn [rbind]. rewrite tnorm_read. cbn [rbind].
    rewrite (activation_not_tnorm d N), (activation_read d N _ Z). cbn [rbind]. reflexivity. }
  rewrite M. cbn [rbind]. rewrite block_rules. cbn [rbind]. unfold set_rules, set_activation. cbn [b_activation b_enabled b_name b_description b_rules b_conjunction b_disjunction b_implication].
  assert (E : (if sempty (b_description b) then b_description (new_block (T := T)) else content (b_description b)) = content (b_description b)).
  { destruct (sempty (b_description b)) eqn:E; [rewrite (content_empty _ E)|]; reflexivity. }
  cbn [b_description new_block] in E. unfold new_block. cbn [b_activation b_enabled b_name b_description b_rules b_conjunction b_disjunction b_implication]. rewrite E. destruct (b_activation b); reflexivity.
Qed.

(** ** the whole engine *)
Lemma import_inputs vs : Forall variable_writable vs -> forall e, e_outputs e = [] ->
  rfold (fun e b => block_pairs (T := T) resolution (fst b) (snd b) e) e (map pairs_of (map (input_sheet d) vs)) =
  (do ins <- printed_inputs d (e_inputs e) vs; Ok (mkEngine (e_name e) (e_description e) ins (e_outputs e) (e_blocks e))).
Proof.
  intro F. induction F as [|v vs W F IH]; intros e O; [destruct e; reflexivity|]. cbn [map rfold printed_inputs]. rewrite import_input by exact W. rewrite O.
  destruct (printed_variable d (engine_view (e_inputs e) []) v); cbn [rbind]; try reflexivity. now rewrite IH.
Qed.
Lemma import_outputs os : Forall output_writable os -> forall e,
  rfold (fun e b => block_pairs (T := T) resolution (fst b) (snd b) e) e (map pairs_of (map (output_sheet d resolution) os)) =
  (do outs <- printed_outputs d (e_inputs e) (e_outputs e) os; Ok (mkEngine (e_name e) (e_description e) (e_inputs e) outs (e_blocks e))).
Proof.
  intro F. induction F as [|v vs W F IH]; intros e; [destruct e; reflexivity|]. cbn [map rfold printed_outputs]. rewrite import_output by exact W.
  destruct (printed_output d _ v); cbn [rbind]; try reflexivity. now rewrite IH.
Qed.
Lemma import_rule_blocks bs : Forall block_writable bs -> forall e,
  rfold (fun e b => block_pairs (T := T) resolution (fst b) (snd b) e) e (map pairs_of (map (block_sheet d) bs)) =
  Ok (mkEngine (e_name e) (e_description e) (e_inputs e) (e_outputs e) (e_blocks e ++ map (printed_block d (engine_env (e_inputs e) (e_outputs e))) bs)%list).
Proof.
  intro F. induction F as [|v vs W F IH]; intros e; [simpl; rewrite app_nil_r; destruct e; reflexivity|]. cbn [map rfold]. rewrite import_block by exact W.
  cbn [rbind]. rewrite IH. cbn [e_blocks e_inputs e_outputs e_name e_description]. now rewrite <- app_assoc.
Qed.
Lemma sheet_holds b : sheet_ok b -> Forall2 holds (lines_of indent b) (snd (pairs_of b)).
Proof.
  intros [A B]. unfold lines_of, pairs_of. cbn [snd map]. constructor; [now apply row_holds|]. induction B as [|r rs K B IH]; [constructor|]. cbn [map]. constructor; [now apply row_holds|exact IH].
Qed.
Lemma head_rows_plain v : Forall (fun p => fst p <> "Engine" /\ ~ In (fst p) block_names) (map row_pair (head_rows (T := T) d v)).
Proof.
  assert (Q : forall k x, mem k ["description"; "enabled"; "range"; "lock-range"] = true -> (fun p => fst p <> "Engine" /\ ~ In (fst p) block_names) (k, x : string)).
  { intros k x M. apply mem_in in M. cbn [fst]. cbn in M. destruct M as [<-|[<-|[<-|[<-|[]]]]]; (split; [discriminate|]); cbn; intuition discriminate. }
  unfold head_rows, description_rows. destruct (sempty (v_description v)); cbn [app map]; repeat (constructor; [apply Q; reflexivity|]); constructor.
Qed.
Lemma plain_key k (x : string) : mem k ("Engine" :: block_names) = false -> (fun p => fst p <> "Engine" /\ ~ In (fst p) block_names) (k, x).
Proof.
  intro M. cbn [fst]. split.
  - intros ->. discriminate.
  - intro I. assert (mem k ("Engine" :: block_names) = true); [|congruence]. unfold mem. apply existsb_exists. exists k. split; [right; exact I|apply String.eqb_refl].
Qed.
Lemma term_rows_plain v : Forall (fun p => fst p <> "Engine" /\ ~ In (fst p) block_names) (map row_pair (term_rows (T := T) d v)).
Proof. unfold term_rows. rewrite map_map. apply Forall_map, Forall_forall. intros t _. apply plain_key. reflexivity. Qed.
Lemma input_tagged v : tagged (pairs_of (input_sheet (T := T) d v)).
Proof.
  split; [cbn; auto|]. exists (content (valid_name (v_name v))), (map row_pair (input_rows d v)). split; [reflexivity|]. unfold input_rows. rewrite map_app. apply Forall_app. split; [apply head_rows_plain|apply term_rows_plain].
Qed.
Lemma output_tagged o : tagged (pairs_of (output_sheet (T := T) d resolution o)).
Proof.
  split; [cbn; auto|]. exists (content (valid_name (v_name (o_var o)))), (map row_pair (output_rows d resolution o)). split; [reflexivity|]. unfold output_rows. rewrite !map_app.
  apply Forall_app. split; [apply head_rows_plain|]. apply Forall_app. split; [|apply term_rows_plain]. cbn [map]. repeat (constructor; [apply plain_key; reflexivity|]). constructor.
Qed.
Lemma block_tagged b : tagged (pairs_of (block_sheet (T := T) d b)).
Proof.
  split; [cbn; auto|]. exists (content (b_name b)), (map row_pair (block_rows d b)). split; [reflexivity|]. unfold block_rows. rewrite !map_app.
  apply Forall_app. split; [unfold description_rows; destruct (sempty (b_description b)); constructor; [apply plain_key; reflexivity|constructor]|]. apply Forall_app.
  split; [cbn [map]; repeat (constructor; [apply plain_key; reflexivity|]); constructor|]. rewrite map_map. apply Forall_map, Forall_forall. intros t _. apply plain_key. reflexivity.
Qed.
Lemma sheets_ok e : writable e -> Forall sheet_ok (sheets d resolution e).
Proof.
  intros (_ & _ & I & O & B). unfold sheets. apply Forall_app. split; [|apply Forall_app; split]; apply Forall_map; (eapply Forall_impl; [|eassumption]); intros x W;
  [now apply input_ok|now apply output_ok|now apply block_ok].
Qed.
Theorem import_export (e : engine T) : writable e ->
  fll_import resolution (char newline) (fll_export d resolution indent (char newline) e) = printed_engine d e.
Proof.
  intro W. assert (SK := sheets_ok e W). destruct W as (WN & WD & WI & WO & WB). rewrite engine_text.
  assert (HR : Forall2 holds (map (row_line "") (engine_rows e)) (map row_pair (engine_rows e))).
  { assert (K : Forall row_ok (engine_rows e)) by (constructor; [split; [reflexivity|exact WN]|now apply description_ok]).
    induction K as [|r rs K F IH]; [constructor|]. cbn [map]. constructor; [now apply row_holds|exact IH]. }
  assert (HS : Forall2 holds (flat_map (lines_of indent) (sheets d resolution e)) (flat_map snd (map pairs_of (sheets d resolution e)))).
  { clear - SK indent_blank indent_hash indent_line. induction SK as [|b bs K F IH]; [constructor|]. cbn [flat_map map]. apply Forall2_app; [now apply sheet_holds|exact IH]. }
  assert (H := Forall2_app HR HS). rewrite import_joined; [|discriminate|].
  2: { clear - H. remember (map (row_line "") (engine_rows e) ++ flat_map (lines_of indent) (sheets d resolution e))%list as ls. remember (map row_pair (engine_rows e) ++ flat_map snd (map pairs_of (sheets d resolution e)))%list as ps. clear - H.
       induction H as [|l p ls ps (L & _) H IH]; constructor; auto. }
  unfold import_all. rewrite (import_holds resolution _ _ H), rfold_app.
  assert (E : rfold (import_pair resolution) (new_engine, "", []) (map row_pair (engine_rows e)) = Ok (mkEngine (content (e_name e)) (content (e_description e)) [] [] [], "", [])).
  { unfold engine_rows, description_rows. destruct (sempty (e_description e)) eqn:SE; [rewrite (content_empty _ SE)|]; reflexivity. }
  rewrite E. cbn [rbind]. rewrite import_blocks; [|unfold sheets; rewrite !map_app, !map_map; apply Forall_app; split; [|apply Forall_app; split]; apply Forall_map, Forall_forall; intros x _; [apply input_tagged|apply output_tagged|apply block_tagged]|tauto].
  unfold block_pairs at 1. cbn [process_tag sempty]. cbn [rbind].
  unfold sheets. rewrite !map_app, !rfold_app, import_inputs by (exact WI || reflexivity). unfold printed_engine. cbn [e_inputs e_outputs e_blocks e_name e_description].
  destruct (printed_inputs d [] (e_inputs e)) as [ins|x| |]; cbn [rbind]; try reflexivity. rewrite rfold_app, import_outputs by exact WO. cbn [e_inputs e_outputs e_blocks e_name e_description].
  destruct (printed_outputs d ins [] (e_outputs e)) as [outs|x| |]; cbn [rbind]; try reflexivity. rewrite import_rule_blocks by exact WB. reflexivity.
Qed.
End Round.
