(** Whole engines in the Fuzzy Control Language: output variables, rule blocks, and all of it. *)
From Coq Require Import ZArith List Bool String Ascii Arith Lia.
From Verif Require Import Base Op Norm Hedge Shape Discrete Defuzz Aggregated Text Function Rule Var Activation Engine Factory
  SpecText SpecRule TextProofs TextProofs2 RuleProofs RuleProofs3 Fll SpecFll FllText FllLines FllExport FllRound FllRound2 FllFix Fis SpecFis FisBundle Fcl SpecFcl FclText FclRound FclRound2 FclRound3.
Import ListNotations.
Local Open Scope string_scope.

Lemma rfold_join {A B} (f : A -> B -> res A) l1 l2 : forall a, rfold f a (l1 ++ l2)%list = (do a <- rfold f a l1; rfold f a l2).
Proof. induction l1 as [|x l1 IH]; intro a; [reflexivity|]. cbn [app rfold]. destruct (f a x) as [b|y| |]; cbn [rbind]; [apply IH|reflexivity|reflexivity|reflexivity]. Qed.

Section Round.
Context {T : Type} `{S : Scalar T}.
Variables (d : nat) (resolution : Z) (library indent : string).
Hypothesis N : printable (T := T) d.
Hypothesis numbers : forall x : T, sforall numeral (str d x) = true /\ dotted (str d x).
Hypothesis indent_blank : blank indent = true.
Hypothesis indent_line : one_line indent.
Hypothesis library_line : one_line library.

(** ** output variables *)
Definition operator_texts (o : output T) : list string :=
  ((match o_defuzzifier o with Some _ => [trim (operator_text "METHOD" (fcl_defuzzifier (o_defuzzifier o)))] | None => [] end) ++
   (match o_aggregation o with Some _ => [trim (operator_text "ACCU" (fcl_snorm (o_aggregation o)))] | None => [] end) ++
   [trim (default_text d o)])%list.
Definition output_texts (o : output T) : list string := (trim (range_text d (o_var o)) :: map (fun t => trim (term_text d t)) (v_terms (o_var o)) ++ operator_texts o)%list.
Definition onv (o : output T) : string * T := nv (o_var o).
Lemma operator_lines e i o w : rfold (fcl_output_line resolution e i) (mkOutput w [] None None s_nan s_nan false) (operator_texts o) =
  Ok (mkOutput w [] (o_aggregation o) (option_map (like resolution) (o_defuzzifier o)) s_nan (reread d (o_default o)) (o_lock_previous o)).
Proof.
  unfold operator_texts.
  assert (D : forall a z, rfold (fcl_output_line resolution e i) (mkOutput w [] a z s_nan s_nan false) [trim (default_text d o)] = Ok (mkOutput w [] a z s_nan (reread d (o_default o)) (o_lock_previous o))).
  { intros a z. cbn [rfold]. unfold fcl_output_line. rewrite trim_idem, default_token. unfold fcl_key. cbn [String.eqb Ascii.eqb Bool.eqb]. cbv zeta. rewrite (parse_fcl_default d N numbers o). cbn [rbind fst snd o_var o_fuzzy o_aggregation o_defuzzifier o_previous o_lock_previous].
    now rewrite orb_false_r. }
  assert (A : forall z, rfold (fcl_output_line resolution e i) (mkOutput w [] None z s_nan s_nan false)
    ((match o_aggregation o with Some _ => [trim (operator_text "ACCU" (fcl_snorm (o_aggregation o)))] | None => [] end) ++ [trim (default_text d o)])%list =
    Ok (mkOutput w [] (o_aggregation o) z s_nan (reread d (o_default o)) (o_lock_previous o))).
  { intro z. destruct (o_aggregation o) as [a|] eqn:E; [|apply D]. rewrite rfold_join. cbn [rfold]. unfold fcl_output_line at 1. rewrite trim_idem, operator_token by (discriminate || reflexivity). unfold fcl_key. cbn [String.eqb Ascii.eqb Bool.eqb]. cbv zeta.
    rewrite (parse_operator_snorm "ACCU" (Some a)) by (discriminate || reflexivity). cbn [rbind set_operators o_var o_fuzzy o_aggregation o_defuzzifier o_previous o_default o_lock_previous]. apply D. }
  destruct (o_defuzzifier o) as [z|] eqn:E; [|apply A]. rewrite rfold_join. cbn [rfold]. unfold fcl_output_line at 1. rewrite trim_idem, operator_token by (discriminate || reflexivity). unfold fcl_key. cbn [String.eqb Ascii.eqb Bool.eqb]. cbv zeta.
  rewrite (parse_operator_defuzzifier resolution "METHOD" (Some z)) by (discriminate || reflexivity). cbn [rbind set_operators o_var o_fuzzy o_aggregation o_defuzzifier o_previous o_default o_lock_previous option_map]. apply A.
Qed.
Lemma output_lines e i o vw : clear_variable (o_var o) -> (forall w, onv w = onv (decl_out o) -> engine_view (e_inputs e) (put_at i w (e_outputs e)) = vw) ->
  rfold (fcl_output_line resolution e i) (decl_out o) (output_texts o) = printed_output d vw (kept_output resolution o).
Proof.
  intros [V F] VW. unfold output_texts. cbn [rfold]. unfold fcl_output_line at 1. rewrite trim_idem, range_token. unfold fcl_key. change (String.eqb "RANGE" "RANGE") with true. cbv zeta. cbn match. rewrite (parse_fcl_range d N numbers (o_var o)). cbn [rbind fst snd].
  rewrite rfold_join. rewrite (rfold_terms d N numbers (fcl_output_line resolution e i) vw (@o_var T) set_var (fun w => onv w = onv (decl_out o)) (v_terms (o_var o))); auto.
  - unfold printed_output, printed_variable. cbn [kept_output kept_variable o_var v_terms]. destruct (rmapM (printed_term d vw) (map kept_term (v_terms (o_var o)))) as [us|x| |]; cbn [rbind]; try reflexivity.
    etransitivity; [apply operator_lines|]. cbn [kept_output kept_variable o_var v_name v_minimum v_maximum v_enabled v_lock_range v_description o_aggregation o_defuzzifier o_default o_lock_previous]. rewrite (valid_idem _ V). reflexivity.
  - intros a t G C. unfold fcl_output_line. rewrite trim_idem, term_token. unfold fcl_key. change (String.eqb "TERM" "RANGE") with false. change (String.eqb "TERM" "ENABLED") with false. change (String.eqb "TERM" "TERM") with true. cbv zeta. cbn match.
    rewrite (VW a G). destruct (fcl_parse_term vw (trim (term_text d t))); reflexivity.
  - intro a. destruct a; reflexivity.
Qed.
Lemma operator_lines_cleaned o : Forall2 (cleaned) ((match o_defuzzifier o with Some _ => [(indent ++ "METHOD : " ++ fcl_defuzzifier (o_defuzzifier o) ++ ";")%string] | None => [] end) ++
   (match o_aggregation o with Some _ => [(indent ++ "ACCU : " ++ fcl_snorm (o_aggregation o) ++ ";")%string] | None => [] end) ++
   [(indent ++ "DEFAULT := " ++ str d (o_default o) ++ (if o_lock_previous o then " | NC" else "") ++ ";")%string])%list (operator_texts o).
Proof.
  unfold operator_texts. apply Forall2_app; [|apply Forall2_app].
  - destruct (defuzzifier_firm (o_defuzzifier o)) as (A & B & C). destruct (o_defuzzifier o); constructor; [|constructor]. assert (Q := operator_cleaned indent indent_blank "METHOD" _ (or_introl eq_refl) A B C). unfold operator_text in Q at 1. rewrite !sapp_assoc in Q. exact Q.
  - destruct (snorm_firm (o_aggregation o)) as (A & B & C). destruct (o_aggregation o); constructor; [|constructor]. assert (Q := operator_cleaned indent indent_blank "ACCU" _ (or_intror (or_introl eq_refl)) A B C). unfold operator_text in Q at 1. rewrite !sapp_assoc in Q. exact Q.
  - constructor; [|constructor]. assert (Q := default_cleaned d indent numbers indent_blank o). unfold default_text in Q at 1. rewrite !sapp_assoc in Q. exact Q.
Qed.
Definition fcl_output_inside (o : output T) : list string := ((fcl_range d indent (o_var o) :: fcl_terms d indent (o_var o)) ++ ((match o_defuzzifier o with Some _ => [(indent ++ "METHOD : " ++ fcl_defuzzifier (o_defuzzifier o) ++ ";")%string] | None => [] end) ++
   (match o_aggregation o with Some _ => [(indent ++ "ACCU : " ++ fcl_snorm (o_aggregation o) ++ ";")%string] | None => [] end) ++
   [(indent ++ "DEFAULT := " ++ str d (o_default o) ++ (if o_lock_previous o then " | NC" else "") ++ ";")%string]))%list.
Lemma fcl_output_inner o rest : (fcl_output d indent o ++ "" :: rest)%list = (("DEFUZZIFY" ++ " " ++ valid_name (v_name (o_var o)))%string :: fcl_output_inside o ++ "END_DEFUZZIFY" :: "" :: rest)%list.
Proof. unfold fcl_output, fcl_output_inside. cbn [app]. f_equal. f_equal. rewrite <- !app_assoc. f_equal. Qed.
Lemma output_cleaned o : clear_variable (o_var o) -> Forall2 cleaned (fcl_output_inside o) (output_texts o).
Proof.
  intro C. unfold fcl_output_inside, output_texts. change (?a :: ?b ++ ?c)%list with ((a :: b) ++ c)%list. apply Forall2_app; [|apply operator_lines_cleaned]. exact (input_cleaned d indent numbers indent_blank (o_var o) C).
Qed.
Lemma section_output o dn todo rest e vw : clear_variable (o_var o) -> e_outputs e = (dn ++ decl_out o :: todo)%list -> ~ In (valid_name (v_name (o_var o))) (map (fun o => v_name (o_var o)) dn) -> engine_view (e_inputs e) (e_outputs e) = vw ->
  fcl_loop resolution (fcl_output d indent o ++ "" :: rest)%list e None =
  (do u <- printed_output d vw (kept_output resolution o); fcl_loop resolution rest (mkEngine (e_name e) (e_description e) (e_inputs e) (dn ++ u :: todo)%list (e_blocks e)) None).
Proof.
  intros C EI NI VW. assert (FI := cleaned_inner _ _ (output_cleaned o C)). assert (V := proj1 C).
  destruct (head_clean indent indent_blank "DEFUZZIFY" (valid_name (v_name (o_var o))) (or_intror eq_refl) V (valid_chars _)) as (Q & L & TK & NE & NM).
  rewrite fcl_output_inner. rewrite (loop_section resolution _ _ _ (output_texts o) "END_DEFUZZIFY" _ e Q NE); [|now rewrite TK|exact (output_cleaned o C)]. rewrite TK. unfold fcl_process. cbn [String.eqb Ascii.eqb Bool.eqb].
  unfold fcl_defuzzify. rewrite (NM _ FI). cbn [rbind]. rewrite EI, map_app. cbn [map].
  change (v_name (o_var (decl_out o))) with (valid_name (v_name (o_var o))). rewrite (find_length _ _ _ NI), map_length, nth_length.
  rewrite (proj2 (lines_back _ _ L FI)). rewrite (output_lines e (List.length dn) o vw C).
  - destruct (printed_output d vw (kept_output resolution o)) as [u|x| |]; cbn [rbind]; try reflexivity. rewrite put_at_length. apply loop_blank.
  - intros w G. rewrite <- VW, EI, put_at_length. apply view_eq; [reflexivity|]. rewrite !map_app. cbn [map]. change (nv (o_var w)) with (onv w). now rewrite G.
Qed.
Lemma printed_onv vw o u : valid_name (v_name (o_var o)) <> "" -> printed_output d vw (kept_output resolution o) = Ok u -> onv u = onv (decl_out o).
Proof.
  intros V H. unfold printed_output in H. cbn [kept_output o_var] in H. destruct (printed_variable d vw (kept_variable (o_var o))) as [w|x| |] eqn:E; try discriminate. cbn [rbind] in H. injection H as <-. unfold onv. cbn [o_var]. exact (printed_nv d vw (o_var o) w V E).
Qed.
Lemma sections_outputs vs rest vw nm ds ins bs : Forall (fun o => clear_variable (o_var o)) vs -> forall dn, NoDup (map (fun o => v_name (o_var o)) dn ++ map (fun o => valid_name (v_name (o_var o))) vs)%list -> engine_view ins (dn ++ map decl_out vs)%list = vw ->
  fcl_loop resolution (flat_map (fun o => fcl_output d indent o ++ [""])%list vs ++ rest)%list (mkEngine nm ds ins (dn ++ map decl_out vs)%list bs) None =
  (do us <- rmapM (printed_output d vw) (map (kept_output resolution) vs); fcl_loop resolution rest (mkEngine nm ds ins (dn ++ us)%list bs) None).
Proof.
  intro F. induction F as [|v vs C F IH]; intros dn ND VW; [reflexivity|]. cbn [flat_map map rmapM]. rewrite <- !app_assoc. change (([""] ++ flat_map (fun v => (fcl_output d indent v ++ [""])%list) vs ++ rest)%list) with ("" :: (flat_map (fun v => (fcl_output d indent v ++ [""])%list) vs ++ rest))%list.
  rewrite (section_output v dn (map decl_out vs) _ _ vw C); [| | |exact VW]; [| reflexivity | cbn [map] in ND; apply NoDup_remove_2 in ND; intro I; apply ND; apply in_or_app; now left].
  destruct (printed_output d vw (kept_output resolution v)) as [u|x| |] eqn:E; cbn [rbind]; try reflexivity. cbn [e_name e_description e_inputs e_blocks].
  assert (NU := printed_onv vw v u (proj1 C) E). assert (EQ : forall r, (dn ++ u :: r)%list = ((dn ++ [u]) ++ r)%list) by (intro r; now rewrite <- app_assoc).
  rewrite EQ, IH.
  - destruct (rmapM (printed_output d vw) (map (kept_output resolution) vs)) as [us|x| |]; cbn [rbind]; try reflexivity. now rewrite <- EQ.
  - rewrite map_app, <- app_assoc. cbn [map app]. assert (NN : v_name (o_var u) = valid_name (v_name (o_var v))) by (injection NU as A _; exact A). rewrite NN. exact ND.
  - rewrite <- VW. apply view_eq; [reflexivity|]. rewrite <- EQ, !map_app. cbn [map]. change (nv (o_var u)) with (onv u). now rewrite NU.
Qed.

(** ** rule blocks *)
Definition norm_texts (b : block T) : list string :=
  ((match b_conjunction b with Some _ => [trim (operator_text "AND" (fcl_tnorm (b_conjunction b)))] | None => [] end) ++
   (match b_disjunction b with Some _ => [trim (operator_text "OR" (fcl_snorm (b_disjunction b)))] | None => [] end) ++
   (match b_implication b with Some _ => [trim (operator_text "ACT" (fcl_tnorm (b_implication b)))] | None => [] end))%list.
Definition rule_texts (b : block T) : list string := map (fun p => trim (rule_line_text (Z.of_nat (Datatypes.S (fst p))) (snd p))) (combine (seq 0 (List.length (b_rules b))) (b_rules b)).
Lemma norm_lines env b n ds rs ac : rfold (fcl_block_line env) (mkBlock true n ds rs None None None ac) (norm_texts b) = Ok (mkBlock true n ds rs (b_conjunction b) (b_disjunction b) (b_implication b) ac).
Proof.
  assert (K : forall n, fcl_tnorm n <> "" /\ sforall firm (fcl_tnorm n) = true) by (intro m; destruct (tnorm_firm m) as (A & B & _); auto). assert (L : forall n, fcl_snorm n <> "" /\ sforall firm (fcl_snorm n) = true) by (intro m; destruct (snorm_firm m) as (A & B & _); auto).
  unfold norm_texts. rewrite rfold_join.
  assert (A : rfold (fcl_block_line env) (mkBlock true n ds rs None None None ac) (match b_conjunction b with Some _ => [trim (operator_text "AND" (fcl_tnorm (b_conjunction b)))] | None => [] end) = Ok (mkBlock true n ds rs (b_conjunction b) None None ac)).
  { destruct (b_conjunction b) as [m|]; [|reflexivity]. cbn [rfold]. unfold fcl_block_line. destruct (K (Some m)). rewrite operator_space by (assumption || discriminate || reflexivity). cbn [String.eqb Ascii.eqb Bool.eqb]. cbv zeta.
    rewrite (parse_operator_tnorm "AND" (Some m)) by (discriminate || reflexivity). reflexivity. }
  rewrite A. cbn [rbind]. clear A. rewrite rfold_join. set (c := b_conjunction b).
  assert (A : rfold (fcl_block_line env) (mkBlock true n ds rs c None None ac) (match b_disjunction b with Some _ => [trim (operator_text "OR" (fcl_snorm (b_disjunction b)))] | None => [] end) = Ok (mkBlock true n ds rs c (b_disjunction b) None ac)).
  { destruct (b_disjunction b) as [m|]; [|reflexivity]. cbn [rfold]. unfold fcl_block_line. destruct (L (Some m)). rewrite operator_space by (assumption || discriminate || reflexivity). cbn [String.eqb Ascii.eqb Bool.eqb]. cbv zeta.
    rewrite (parse_operator_snorm "OR" (Some m)) by (discriminate || reflexivity). reflexivity. }
  rewrite A. cbn [rbind]. clear A. set (j := b_disjunction b).
  destruct (b_implication b) as [m|]; [|reflexivity]. cbn [rfold]. unfold fcl_block_line. destruct (K (Some m)). rewrite operator_space by (assumption || discriminate || reflexivity). cbn [String.eqb Ascii.eqb Bool.eqb]. cbv zeta.
  rewrite (parse_operator_tnorm "ACT" (Some m)) by (discriminate || reflexivity). reflexivity.
Qed.
Lemma rule_lines env rs : Forall (fun r => clear_text (rl_text r)) rs -> forall k b,
  rfold (fcl_block_line env) b (map (fun p => trim (rule_line_text (Z.of_nat (Datatypes.S (fst p))) (snd p))) (combine (seq k (List.length rs)) rs)) = Ok (set_rules (b_rules b ++ map (printed_rule (T := T) env) rs)%list b).
Proof.
  intro F. induction F as [|r rs C F IH]; intros k b; [cbn; rewrite app_nil_r; destruct b; reflexivity|]. cbn [List.length seq combine map fst snd rfold]. rewrite (rule_line_read env b _ r C). cbn [rbind]. rewrite IH. cbn [b_rules set_rules]. rewrite <- app_assoc. reflexivity.
Qed.
Definition fcl_block_inside (b : block T) : list string :=
  (((match b_conjunction b with Some _ => [(indent ++ "AND : " ++ fcl_tnorm (b_conjunction b) ++ ";")%string] | None => [] end) ++
   (match b_disjunction b with Some _ => [(indent ++ "OR : " ++ fcl_snorm (b_disjunction b) ++ ";")%string] | None => [] end) ++
   (match b_implication b with Some _ => [(indent ++ "ACT : " ++ fcl_tnorm (b_implication b) ++ ";")%string] | None => [] end)) ++
   map (fun p => (indent ++ "RULE " ++ str_int (Z.of_nat (Datatypes.S (fst p))) ++ " : " ++ rl_text (snd p))%string)
     (combine (seq 0 (List.length (b_rules b))) (b_rules b)))%list.
Lemma fcl_block_inner b rest : (fcl_block indent b ++ "" :: rest)%list = (("RULEBLOCK " ++ b_name b)%string :: fcl_block_inside b ++ "END_RULEBLOCK" :: "" :: rest)%list.
Proof. unfold fcl_block, fcl_block_inside. cbn [app]. rewrite <- !app_assoc. reflexivity. Qed.
Lemma block_cleaned b : clear_block b -> Forall2 cleaned (fcl_block_inside b) (norm_texts b ++ rule_texts b).
Proof.
  intros (_ & _ & F). unfold fcl_block_inside, norm_texts, rule_texts.
  assert (I : forall key value, In key ["METHOD"; "ACCU"; "AND"; "OR"; "ACT"] -> value <> "" /\ sforall firm value = true /\ sforall calm value = true -> cleaned (indent ++ (key ++ " : ") ++ value ++ ";") (trim (operator_text key value))).
  { intros key value K (A & B & C). assert (Q := operator_cleaned indent indent_blank key value K A B C). unfold operator_text in Q at 1. rewrite !sapp_assoc in *. exact Q. }
  apply Forall2_app; [apply Forall2_app; [|apply Forall2_app]|].
  - assert (Q := tnorm_firm (b_conjunction b)). destruct (b_conjunction b); constructor; [|constructor]. apply (I "AND"); [cbn; tauto|exact Q].
  - assert (Q := snorm_firm (b_disjunction b)). destruct (b_disjunction b); constructor; [|constructor]. apply (I "OR"); [cbn; tauto|exact Q].
  - assert (Q := tnorm_firm (b_implication b)). destruct (b_implication b); constructor; [|constructor]. apply (I "ACT"); [cbn; tauto|exact Q].
  - generalize 0%nat. induction F as [|r rs C F IH]; intro k; cbn [List.length seq combine map]; constructor; auto. cbn [fst snd]. exact (rule_cleaned indent indent_blank _ r C).
Qed.
Lemma last_word n : sforall (fun c => negb (is_space c)) n = true -> after_last_space n = "".
Proof.
  induction n as [|c n IH]; [reflexivity|]. cbn [sforall after_last_space]. rewrite andb_true_iff, negb_true_iff. intros [A B]. destruct (Ascii.eqb_spec c " ") as [->|]; [discriminate A|auto].
Qed.
Lemma block_head n : clear_text n -> sforall (fun c => negb (is_space c)) n = true ->
  exists head, fcl_clean ("RULEBLOCK " ++ n) = Ok head /\ one_line head /\ first_token head = "RULEBLOCK" /\ head <> "" /\ after_last_space head = n.
Proof.
  intros C SN. assert (CL : clearb ("RULEBLOCK " ++ n) = true) by (apply clear_lead; [reflexivity|now apply clear_clearb]).
  destruct (clean_text indent indent_blank "R" ("ULEBLOCK " ++ n) eq_refl eq_refl CL) as (_ & _ & Q & L & NE). exists (trim ("RULEBLOCK " ++ n)).
  split; [exact Q|]. split; [exact L|]. split; [rewrite first_token_trim; now apply (first_token_space "RULEBLOCK" n)|]. split; [exact NE|].
  destruct (String.eqb_spec n "") as [->|NN]; [reflexivity|]. assert (E : trim ("RULEBLOCK" ++ " " ++ n) = "RULEBLOCK" ++ " " ++ n) by (apply trim_keep; assumption || reflexivity || discriminate).
  change ("RULEBLOCK " ++ n) with ("RULEBLOCK" ++ " " ++ n). rewrite E. cbn [append after_last_space Ascii.eqb Bool.eqb]. assert (F : find_sub " " n = None). { apply (find_char_none " "). rewrite lacks_sforall. eapply sforall_impl; [|exact SN]. intros c H. apply negb_true_iff in H. apply negb_true_iff. destruct (Ascii.eqb_spec c " ") as [->|]; [discriminate H|reflexivity]. }
  now rewrite F.
Qed.
Lemma content_clear n : clear_text n -> sforall (fun c => negb (is_space c)) n = true -> content n = n.
Proof. intros (_ & H & _) SN. unfold content. rewrite hash_id by exact H. now apply trim_word. Qed.
Lemma section_block b rest e : clear_block b ->
  fcl_loop resolution (fcl_block indent b ++ "" :: rest)%list e None =
  fcl_loop resolution rest (mkEngine (e_name e) (e_description e) (e_inputs e) (e_outputs e) (e_blocks e ++ [printed_block d (engine_env (e_inputs e) (e_outputs e)) (kept_block b)])%list) None.
Proof.
  intro C. assert (FI := cleaned_inner _ _ (block_cleaned b C)). destruct C as (CN & SN & F). destruct (block_head _ CN SN) as (head & Q & L & TK & NE & AL).
  rewrite fcl_block_inner. rewrite (loop_section resolution _ _ _ (norm_texts b ++ rule_texts b) "END_RULEBLOCK" _ e Q NE); [|now rewrite TK|exact (block_cleaned b (conj CN (conj SN F)))]. rewrite TK. unfold fcl_process. cbn [String.eqb Ascii.eqb Bool.eqb].
  unfold fcl_ruleblock. rewrite (proj2 (lines_back _ _ L FI)), (proj1 (lines_back _ _ L FI)). cbn [hd]. rewrite AL, rfold_join, norm_lines. cbn [rbind]. unfold rule_texts. rewrite (rule_lines _ _ F). cbn [rbind b_rules set_rules app].
  rewrite loop_blank. unfold printed_block. cbn [kept_block b_enabled b_name b_description b_rules b_conjunction b_disjunction b_implication b_activation printed_activation]. rewrite (content_clear _ CN SN). reflexivity.
Qed.
Lemma sections_blocks rest nm ds ins outs bs : Forall clear_block bs -> forall dn,
  fcl_loop resolution (flat_map (fun b => fcl_block indent b ++ [""])%list bs ++ rest)%list (mkEngine nm ds ins outs dn) None =
  fcl_loop resolution rest (mkEngine nm ds ins outs (dn ++ map (printed_block (T := T) d (engine_env ins outs)) (map kept_block bs))%list) None.
Proof.
  intro F. induction F as [|b bs C F IH]; intro dn; [cbn; now rewrite app_nil_r|]. cbn [flat_map map]. rewrite <- !app_assoc. change (([""] ++ flat_map (fun b => (fcl_block indent b ++ [""])%list) bs ++ rest)%list) with ("" :: (flat_map (fun b => (fcl_block indent b ++ [""])%list) bs ++ rest))%list.
  rewrite (section_block b _ _ C). cbn [e_name e_description e_inputs e_outputs e_blocks]. rewrite IH, <- app_assoc. reflexivity.
Qed.

(** ** all of it *)
Lemma section_vars (head : string) (tag : bool) raws ls rest e : head = (if tag then "VAR_INPUT" else "VAR_OUTPUT") -> Forall2 cleaned raws ls ->
  fcl_loop (T := T) resolution (head :: raws ++ "END_VAR" :: "" :: rest)%list e None = (do e <- rfold (fcl_var_line tag) e ls; fcl_loop resolution rest e None).
Proof.
  intros -> F. assert (FI := cleaned_inner _ _ F).
  assert (Q : fcl_clean (if tag then "VAR_INPUT" else "VAR_OUTPUT") = Ok (if tag then "VAR_INPUT" else "VAR_OUTPUT") /\ one_line (if tag then "VAR_INPUT" else "VAR_OUTPUT")) by (destruct tag; split; reflexivity).
  destruct Q as [Q L]. rewrite (loop_section resolution _ _ _ ls "END_VAR" _ e Q); [|destruct tag; discriminate|destruct tag; reflexivity|exact F].
  assert (E : fcl_process (T := T) resolution (first_token (if tag then "VAR_INPUT" else "VAR_OUTPUT")) (text_of ((if tag then "VAR_INPUT" else "VAR_OUTPUT") :: ls)) e = rfold (fcl_var_line tag) e ls).
  { transitivity (fcl_var tag (text_of ((if tag then "VAR_INPUT" else "VAR_OUTPUT") :: ls)) e); [destruct tag; reflexivity|]. unfold fcl_var. now rewrite (proj2 (lines_back _ _ L FI)). }
  rewrite E. destruct (rfold (fcl_var_line tag) e ls); cbn [rbind]; [apply loop_blank|reflexivity|reflexivity|reflexivity].
Qed.
Lemma comment_line : fcl_clean ("//Code automatically generated with " ++ library ++ ".") = Ok "".
Proof.
  unfold fcl_clean. assert (E : hd "" (split ("//Code automatically generated with " ++ library ++ ".") "//" false) = ""); [|rewrite E; reflexivity].
  unfold split, split_res, split_fuel. change (sempty ("//Code automatically generated with " ++ library ++ ".") || sempty "//")%bool with false. cbn match.
  generalize (String.length ("//Code automatically generated with " ++ library ++ ".")). intro fuel. cbn [split_loop].
  change (find_sub "//" ("//Code automatically generated with " ++ library ++ ".")) with (Some ("", "Code automatically generated with " ++ library ++ ".")). cbn match.
  generalize ("Code automatically generated with " ++ library ++ "."). intro s. destruct (split_loop fuel "//" false s); reflexivity.
Qed.
Lemma comment_loop rest (e : engine T) : fcl_loop resolution (("//Code automatically generated with " ++ library ++ ".")%string :: rest) e None = fcl_loop resolution rest e None.
Proof. set (c := ("//Code automatically generated with " ++ library ++ ".")%string). assert (E := comment_line). fold c in E. clearbody c. cbn [fcl_loop]. rewrite E. reflexivity. Qed.
Lemma name_line rest (e : engine T) : clear_text (e_name e) ->
  fcl_loop (T := T) resolution (("FUNCTION_BLOCK " ++ e_name e)%string :: rest) new_engine None = fcl_loop resolution rest (mkEngine (join (tokens (e_name e)) " ") "" [] [] []) None.
Proof.
  intro C. assert (CL : clearb ("FUNCTION_BLOCK " ++ e_name e) = true) by (apply clear_lead; [reflexivity|now apply clear_clearb]).
  destruct (clean_text indent indent_blank "F" ("UNCTION_BLOCK " ++ e_name e) eq_refl eq_refl CL) as (_ & _ & Q & L & NE).
  change (String "F" ("UNCTION_BLOCK " ++ e_name e)) with ("FUNCTION_BLOCK " ++ e_name e) in *. cbn [fcl_loop]. rewrite Q. cbn [rbind]. rewrite (sempty_no _ NE), first_token_trim, tokens_trim.
  assert (TK : tokens ("FUNCTION_BLOCK " ++ e_name e) = "FUNCTION_BLOCK" :: tokens (e_name e)) by (change ("FUNCTION_BLOCK " ++ e_name e) with ("FUNCTION_BLOCK" ++ String " " (e_name e)); now rewrite tokens_space by reflexivity).
  unfold first_token. rewrite TK. cbn [hd tl]. change (String.eqb "FUNCTION_BLOCK" "FUNCTION_BLOCK") with true. cbn match. destruct (tokens (e_name e)); reflexivity.
Qed.
Lemma name_line_one n : one_line (valid_name n).
Proof. unfold one_line. apply firm_lacks; [reflexivity|]. eapply sforall_impl; [apply name_firm|apply valid_chars]. Qed.
Lemma number_line (x : T) : lacks newline (str d x) = true.
Proof. apply firm_lacks; [reflexivity|]. apply (str_firm d N numbers). Qed.
Lemma joined_line a b : one_line a -> one_line b -> one_line (a ++ b).
Proof. unfold one_line. rewrite lacks_app. intros -> ->. reflexivity. Qed.
Lemma variable_lines v : clear_variable v -> Forall one_line (fcl_range d indent v :: fcl_terms d indent v).
Proof.
  intros [V F]. constructor.
  - unfold fcl_range, join_scalars. cbn [map join]. apply joined_line; [exact indent_line|]. unfold one_line. rewrite !lacks_app, !number_line. reflexivity.
  - unfold fcl_terms. apply Forall_map. eapply Forall_impl; [|exact F]. intros t C. apply joined_line; [exact indent_line|].
    assert (Q := text_calm_clear d numbers t C). apply clear_parts in Q. destruct Q as (Q & _). unfold term_text in Q. rewrite !lacks_app in Q. unfold one_line. rewrite !lacks_app. rewrite !andb_assoc in *. rewrite Q. reflexivity.
Qed.
Lemma operator_line key value : one_line key -> sforall firm value = true -> one_line (indent ++ key ++ value ++ ";").
Proof. intros K F. repeat apply joined_line; try assumption; [|reflexivity]. unfold one_line. now apply firm_lacks. Qed.
Lemma output_one_line o : clear_variable (o_var o) -> Forall one_line (fcl_output d indent o).
Proof.
  intro C. unfold fcl_output. cbn [app]. constructor; [apply joined_line; [reflexivity|apply name_line_one]|]. assert (Q := variable_lines _ C). inversion_clear Q. constructor; [assumption|].
  apply Forall_app. split; [assumption|]. apply Forall_app. split.
  - destruct (defuzzifier_firm (o_defuzzifier o)) as (_ & B & _). destruct (o_defuzzifier o); constructor; [|constructor]. now apply (operator_line "METHOD : ").
  - apply Forall_app. split.
    + destruct (snorm_firm (o_aggregation o)) as (_ & B & _). destruct (o_aggregation o); constructor; [|constructor]. now apply (operator_line "ACCU : ").
    + constructor; [|constructor; [reflexivity|constructor]]. apply joined_line; [exact indent_line|]. unfold one_line. rewrite !lacks_app, number_line. destruct (o_lock_previous o); reflexivity.
Qed.
Lemma block_one_line b : clear_block b -> Forall one_line (fcl_block (T := T) indent b).
Proof.
  intros ((CN & _) & _ & F). unfold fcl_block. cbn [app]. constructor; [now apply joined_line|]. repeat (apply Forall_app; split).
  - destruct (tnorm_firm (b_conjunction b)) as (_ & B & _). destruct (b_conjunction b); constructor; [|constructor]. now apply (operator_line "AND : ").
  - destruct (snorm_firm (b_disjunction b)) as (_ & B & _). destruct (b_disjunction b); constructor; [|constructor]. now apply (operator_line "OR : ").
  - destruct (tnorm_firm (b_implication b)) as (_ & B & _). destruct (b_implication b); constructor; [|constructor]. now apply (operator_line "ACT : ").
  - generalize 0%nat. induction F as [|r rs C F IH]; intro k; cbn [List.length seq combine map]; constructor; auto. cbn [fst snd]. apply joined_line; [exact indent_line|]. apply joined_line; [reflexivity|]. apply joined_line.
    + unfold one_line. apply firm_lacks; [reflexivity|]. eapply sforall_impl; [apply numeral_firm|apply int_numeral].
    + apply joined_line; [reflexivity|]. apply C.
  - constructor; [reflexivity|constructor].
Qed.
Lemma flat_lines {A} (f : A -> list string) l : Forall (fun x => Forall one_line (f x)) l -> Forall one_line (flat_map (fun x => f x ++ [""])%list l).
Proof. intro F. induction F as [|x l H F IH]; [constructor|]. cbn [flat_map]. apply Forall_app. split; [|exact IH]. apply Forall_app. split; [exact H|]. constructor; [reflexivity|constructor]. Qed.
Lemma lines_one_line e : clear_engine e -> Forall one_line (fcl_lines d library indent e).
Proof.
  intros (CN & CI & CO & CB & _). unfold fcl_lines. apply Forall_app. split; [|apply Forall_app; split; [|apply Forall_app; split; [|apply Forall_app; split; [|apply Forall_app; split; [|apply Forall_app; split; [|apply Forall_app; split; [|apply Forall_app; split]]]]]]].
  - apply Forall_cons; [apply joined_line; [reflexivity|]; apply joined_line; [exact library_line|reflexivity]|]. apply Forall_cons; [reflexivity|]. apply Forall_cons; [apply joined_line; [reflexivity|apply CN]|]. repeat (apply Forall_cons; [reflexivity|]). apply Forall_nil.
  - apply Forall_map. eapply Forall_impl; [|exact CI]. intros v _. apply joined_line; [exact indent_line|]. apply joined_line; [apply name_line_one|reflexivity].
  - repeat (apply Forall_cons; [reflexivity|]). apply Forall_nil.
  - apply Forall_map. eapply Forall_impl; [|exact CO]. intros v _. apply joined_line; [exact indent_line|]. apply joined_line; [apply name_line_one|reflexivity].
  - repeat (apply Forall_cons; [reflexivity|]). apply Forall_nil.
  - apply flat_lines. eapply Forall_impl; [|exact CI]. intros v C. assert (Q := variable_lines v C). inversion_clear Q. unfold fcl_input. cbn [app]. apply Forall_cons; [apply joined_line; [reflexivity|apply name_line_one]|]. apply Forall_cons; [assumption|].
    apply Forall_app. split; [assumption|]. apply Forall_cons; [reflexivity|apply Forall_nil].
  - apply flat_lines. eapply Forall_impl; [|exact CO]. intros o C. now apply output_one_line.
  - apply flat_lines. eapply Forall_impl; [|exact CB]. intros b C. now apply block_one_line.
  - repeat (apply Forall_cons; [reflexivity|]). apply Forall_nil.
Qed.
Lemma view_declared e : engine_view (map decl (e_inputs e)) (map decl_out (e_outputs e)) = declared (T := T) e.
Proof. unfold engine_view, declared. rewrite !map_map. reflexivity. Qed.
Theorem fcl_round e : clear_engine e -> fcl_import resolution (fcl_export d library indent e) = fcl_printed d resolution e.
Proof.
  intro C. assert (OL := lines_one_line e C). destruct C as (CN & CI & CO & CB & NI & NO). unfold fcl_import, fcl_export. rewrite getlines_text by exact OL.
  assert (VI : Forall (fun v : variable T => valid_name (v_name v) <> "") (e_inputs e)) by (eapply Forall_impl; [|exact CI]; intros v [A _]; exact A).
  assert (VO : Forall (fun o : output T => valid_name (v_name (o_var o)) <> "") (e_outputs e)) by (eapply Forall_impl; [|exact CO]; intros v [A _]; exact A).
  assert (DI : Forall2 cleaned (map (fun v => indent ++ valid_name (v_name v) ++ ": REAL;") (e_inputs e)) (map (fun v => valid_name (v_name v) ++ ": REAL") (e_inputs e))).
  { clear - VI indent_blank. induction VI as [|v vs V F IH]; cbn [map]; constructor; auto. apply (declared_line indent indent_blank); [exact V|apply valid_chars]. }
  assert (DO : Forall2 cleaned (map (fun o => indent ++ valid_name (v_name (o_var o)) ++ ": REAL;") (e_outputs e)) (map (fun o => valid_name (v_name (o_var o)) ++ ": REAL") (e_outputs e))).
  { clear - VO indent_blank. induction VO as [|v vs V F IH]; cbn [map]; constructor; auto. apply (declared_line indent indent_blank); [exact V|apply valid_chars]. }
  unfold fcl_lines. set (L1 := map (fun v => indent ++ valid_name (v_name v) ++ ": REAL;") (e_inputs e)) in *. set (L2 := map (fun o => indent ++ valid_name (v_name (o_var o)) ++ ": REAL;") (e_outputs e)) in *. set (B1 := flat_map _ (e_inputs e)). set (B2 := flat_map _ (e_outputs e)). set (B3 := flat_map _ (e_blocks e)).
  transitivity (fcl_loop (T := T) resolution (("FUNCTION_BLOCK " ++ e_name e)%string :: "" :: "VAR_INPUT" :: L1 ++ "END_VAR" :: "" :: "VAR_OUTPUT" :: L2 ++ "END_VAR" :: "" :: B1 ++ B2 ++ B3 ++ ["END_FUNCTION_BLOCK"])%list new_engine None).
  { cbn [app]. rewrite comment_loop, loop_blank. reflexivity. }
  rewrite (name_line _ e CN), loop_blank.
  rewrite (section_vars "VAR_INPUT" true _ _ _ _ eq_refl DI), vars_read_in by exact VI. cbn [rbind e_name e_description e_inputs e_outputs e_blocks app].
  rewrite (section_vars "VAR_OUTPUT" false _ _ _ _ eq_refl DO), vars_read_out by exact VO. cbn [rbind e_name e_description e_inputs e_outputs e_blocks app].
  assert (SI := sections_inputs d resolution indent N numbers indent_blank (e_inputs e) (B2 ++ B3 ++ ["END_FUNCTION_BLOCK"])%list (declared e) (join (tokens (e_name e)) " ") "" (map decl_out (e_outputs e)) [] CI [] NI (view_declared e)). cbn [app] in SI. fold B1 in SI. rewrite SI. clear SI.
  unfold fcl_printed. cbn [kept e_inputs e_outputs e_blocks].
  destruct (rmapM (printed_variable d (declared e)) (map kept_variable (e_inputs e))) as [ins|x| |] eqn:EI; cbn [rbind]; try reflexivity.
  assert (VW : engine_view ins (map decl_out (e_outputs e)) = declared e).
  { rewrite <- view_declared. apply view_eq; [|reflexivity]. clear - EI VI. revert ins EI. induction VI as [|v vs V F IH]; intros ins EI; cbn [map rmapM] in EI; [injection EI as <-; reflexivity|].
    destruct (printed_variable d (declared e) (kept_variable v)) as [u|x| |] eqn:E1; try discriminate. cbn [rbind] in EI. destruct (rmapM (printed_variable d (declared e)) (map kept_variable vs)) as [us|x| |] eqn:E2; try discriminate. cbn [rbind] in EI. injection EI as <-.
    cbn [map]. rewrite (printed_nv d _ v u V E1), (IH us eq_refl). reflexivity. }
  assert (SO := sections_outputs (e_outputs e) (B3 ++ ["END_FUNCTION_BLOCK"])%list (declared e) (join (tokens (e_name e)) " ") "" ins [] CO [] NO VW). cbn [app] in SO. fold B2 in SO. rewrite SO. clear SO.
  destruct (rmapM (printed_output d (declared e)) (map (kept_output resolution) (e_outputs e))) as [outs|x| |]; cbn [rbind]; try reflexivity.
  unfold B3. rewrite (sections_blocks ["END_FUNCTION_BLOCK"] _ _ _ _ _ CB). reflexivity.
Qed.
End Round.
