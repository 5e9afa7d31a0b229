(** Lines of the Fuzzy Control Language as exported and imported: terms, ranges, defaults, operators, rules. *)
From Coq Require Import ZArith List Bool String Ascii Arith Lia.
From Verif Require Import Base Op Norm Hedge Shape Discrete Defuzz Aggregated Text Function Rule Var Activation Engine Factory
  SpecText TextProofs TextProofs2 RuleProofs3 Fll SpecFll FllText FllLines FllExport FllRound FllRound2 FllFix Fis SpecFis FisBundle Fcl SpecFcl FclText.
Import ListNotations.
Local Open Scope string_scope.

(** characters of numbers *)
Definition numeral (c : ascii) : bool := (is_alnum c || Ascii.eqb c "-" || Ascii.eqb c ".")%bool.
Lemma numeral_firm c : numeral c = true -> firm c = true.
Proof. destruct c as [[] [] [] [] [] [] [] []]; reflexivity || discriminate. Qed.
Lemma numeral_calm c : numeral c = true -> calm c = true.
Proof. destruct c as [[] [] [] [] [] [] [] []]; reflexivity || discriminate. Qed.
Lemma name_firm c : name_char c = true -> firm c = true.
Proof. destruct c as [[] [] [] [] [] [] [] []]; reflexivity || discriminate. Qed.
Lemma name_calm c : name_char c = true -> calm c = true.
Proof. destruct c as [[] [] [] [] [] [] [] []]; reflexivity || discriminate. Qed.
Lemma firm_space s : sforall firm s = true -> sforall (fun c => negb (is_space c)) s = true.
Proof. apply sforall_impl. intro c. unfold firm. rewrite !negb_true_iff, !orb_false_iff. tauto. Qed.
Lemma firm_lacks c s : firm c = false -> sforall firm s = true -> lacks c s = true.
Proof. intros E. rewrite lacks_sforall. apply sforall_impl. intros x H. apply negb_true_iff. destruct (Ascii.eqb_spec x c); congruence. Qed.

Lemma tokens_sforall p s : forall cur, sforall p cur = true -> sforall p s = true -> Forall (fun w => sforall p w = true) (tokens_from cur s).
Proof.
  induction s as [|c s IH]; intros cur C H; cbn [tokens_from].
  - destruct (sempty cur); constructor; auto.
  - cbn [sforall] in H. apply andb_true_iff in H. destruct H as [H1 H2]. destruct (is_space c).
    + destruct (sempty cur); [|constructor; auto]; apply IH; auto.
    + apply IH; auto. rewrite sforall_app, C. cbn. now rewrite H1.
Qed.
Lemma pieces_closed s : lacks ";" s = true -> ~ In ";" (pieces_of s).
Proof.
  intros L H. assert (L2 : lacks ";" (space_out s) = true).
  { clear H. induction s as [|c s IH]; [reflexivity|]. cbn [lacks] in L. apply andb_true_iff in L. destruct L as [L1 L2]. cbn [space_out]. rewrite lacks_app, (IH L2), andb_true_r.
    unfold space_char. destruct (_ || _)%bool; [cbn [append char lacks]; now rewrite L1|]. destruct (Ascii.eqb c ":"); [reflexivity|]. destruct (Ascii.eqb c "="); [reflexivity|]. cbn [char lacks]. now rewrite L1. }
  rewrite lacks_sforall in L2. assert (F := tokens_sforall (fun x => negb (Ascii.eqb x ";")) (space_out s) "" eq_refl L2). rewrite Forall_forall in F. specialize (F _ H). discriminate F.
Qed.
Section Round.
Context {T : Type} `{S : Scalar T}.
Variables (d : nat) (resolution : Z).
Hypothesis N : printable (T := T) d.
Hypothesis numbers : forall x : T, sforall numeral (str d x) = true /\ dotted (str d x).
Local Notation trm t := (kept_term t).
Lemma params_loop n c ts : Forall (fun w => w <> "" /\ trim w = w) ts -> ~ In ";" ts -> forall ps, fcl_term_loop (T := T) (TParams n c ps) ts = TParams n c (ps ++ filter (fcl_parameter c) ts)%list.
Proof.
  intro F. induction F as [|t ts [_ H] F IH]; intros NI ps; [cbn; now rewrite app_nil_r|]. cbn [fcl_term_loop]. destruct (String.eqb_spec t ";") as [->|]; [destruct NI; left; reflexivity|].
  assert (N2 : ~ In ";" ts) by (intro; apply NI; now right). cbn [fcl_step filter]. rewrite H. destruct (fcl_parameter c t).
  - rewrite (IH N2), <- app_assoc. reflexivity.
  - apply (IH N2).
Qed.

Lemma str_firm (x : T) : str d x <> "" /\ sforall firm (str d x) = true.
Proof. split; [apply (pr_word d N x)|]. eapply sforall_impl; [apply numeral_firm|apply numbers]. Qed.
Lemma str_calm (x : T) : sforall calm (str d x) = true.
Proof. eapply sforall_impl; [apply numeral_calm|apply numbers]. Qed.
Lemma strs_firm l : Forall (fun w => w <> "" /\ sforall firm w = true) (map (str d) (l : list T)).
Proof. apply Forall_map, Forall_forall. intros x _. apply str_firm. Qed.
Lemma words_firm (t : term T) : Forall (fun w => w <> "" /\ sforall firm w = true) (term_words d t).
Proof.
  unfold term_words. destruct (tm_body t) as [s|xy|v|cs b|f].
  - apply Forall_app. split; [apply strs_firm|]. destruct (isEq (tm_height t) s_1); constructor; [apply str_firm|constructor].
  - apply Forall_app. split; [rewrite to_vector_words; apply strs_firm|]. destruct (isEq (tm_height t) s_1); constructor; [apply str_firm|constructor].
  - constructor; [apply str_firm|constructor].
  - apply strs_firm.
  - constructor.
Qed.
Lemma words_calm (t : term T) : Forall (fun w => sforall calm w = true) (term_words d t).
Proof.
  assert (M : forall l, Forall (fun w => sforall calm w = true) (map (str d) (l : list T))) by (intro l; apply Forall_map, Forall_forall; intros x _; apply str_calm).
  unfold term_words. destruct (tm_body t) as [s|xy|v|cs b|f].
  - apply Forall_app. split; [apply M|]. destruct (isEq (tm_height t) s_1); constructor; [apply str_calm|constructor].
  - apply Forall_app. split; [rewrite to_vector_words; apply M|]. destruct (isEq (tm_height t) s_1); constructor; [apply str_calm|constructor].
  - constructor; [apply str_calm|constructor].
  - apply M.
  - constructor.
Qed.
Lemma pieces_firm ws : Forall (fun w => w <> "" /\ sforall firm w = true) ws -> flat_map pieces_of ws = ws.
Proof. intro F. induction F as [|w ws [A B] F IH]; [reflexivity|]. cbn [flat_map]. rewrite IH, (firm_word w A B). reflexivity. Qed.
Lemma firm_parameter c w : sforall firm w = true -> fcl_parameter c w = true.
Proof.
  intro F. unfold fcl_parameter. destruct (String.eqb_spec w "(") as [->|]; [discriminate|]. destruct (String.eqb_spec w ")") as [->|]; [discriminate|]. destruct (String.eqb_spec w ",") as [->|]; [discriminate|].
  cbn [orb]. rewrite andb_false_r. reflexivity.
Qed.
Lemma filter_firm c ws : Forall (fun w => w <> "" /\ sforall firm w = true) ws -> filter (fcl_parameter c) ws = ws.
Proof. intro F. induction F as [|w ws [A B] F IH]; [reflexivity|]. cbn [filter]. rewrite (firm_parameter c w B), IH. reflexivity. Qed.
Lemma class_firm (b : tbody T) : body_class b <> "" /\ sforall firm (body_class b) = true /\ sforall calm (body_class b) = true /\ is_numeric (T := T) (body_class b) = false /\ body_class b <> "(".
Proof. destruct b as [s|xy|v|cs b|f]; [destruct s|..]; repeat split; reflexivity || discriminate. Qed.
Lemma class_parts (b : tbody T) : body_class b <> "" /\ sforall firm (body_class b) = true /\ is_numeric (T := T) (body_class b) = false /\ String.eqb (body_class b) "(" = false.
Proof. destruct (class_firm b) as (A & B & _ & C & D). repeat split; auto. now apply String.eqb_neq. Qed.

(** ** terms *)
Definition term_text (t : term T) : string := "TERM " ++ valid_name (tm_name t) ++ " := " ++ fcl_term d t.
Lemma term_pieces t : valid_name (tm_name t) <> "" -> pieces_of (term_text t) = ("TERM" :: valid_name (tm_name t) :: ":=" :: pieces_of (fcl_term d t))%list.
Proof.
  intro V. unfold term_text. change ("TERM " ++ valid_name (tm_name t) ++ " := " ++ fcl_term d t) with ("TERM" ++ " " ++ (valid_name (tm_name t) ++ " " ++ (":=" ++ " " ++ fcl_term d t))).
  rewrite !pieces_space. rewrite (firm_word (valid_name (tm_name t))); [reflexivity|exact V|]. eapply sforall_impl; [apply name_firm|apply valid_chars].
Qed.
Lemma text_calm_clear t : clear_term t -> clearb (term_text t) = true.
Proof.
  intros [V B]. unfold term_text. apply clear_lead; [reflexivity|]. apply clear_lead; [eapply sforall_impl; [apply name_calm|apply valid_chars]|]. apply clear_lead; [reflexivity|].
  assert (W : sforall calm (join (term_words d t) " ") = true) by (apply join_sforall; [reflexivity|apply words_calm]).
  destruct (class_firm (tm_body t)) as (_ & _ & C & _).
  assert (NF : (forall f, tm_body t <> TFunction f) -> clearb (body_class (tm_body t) ++ " " ++ term_parameters d t) = true).
  { intro H. rewrite (term_parameters_words d t H). apply calm_clear. rewrite !sforall_app, C, W. reflexivity. }
  unfold fcl_term. destruct (tm_body t) as [s|xy|v|cs b|f] eqn:E.
  - apply NF. discriminate.
  - apply calm_clear. apply join_sforall; [reflexivity|]. apply Forall_map, Forall_forall. intros [a b] _. cbn [fst snd]. rewrite !sforall_app, !str_calm. reflexivity.
  - apply calm_clear, str_calm.
  - apply NF. discriminate.
  - unfold term_parameters. rewrite E. apply clear_lead; [reflexivity|]. apply clear_lead; [reflexivity|]. now apply clear_clearb.
Qed.
Lemma points_pieces xy : pieces_of (join (map (fun p : T * T => "(" ++ str d (fst p) ++ ", " ++ str d (snd p) ++ ")") xy) " ") = flat_map (fun p => ["("; str d (fst p); ","; str d (snd p); ")"]) xy.
Proof.
  rewrite pieces_join. induction xy as [|[a b] xy IH]; [reflexivity|]. cbn [map flat_map]. rewrite IH. f_equal. cbn [fst snd]. destruct (str_firm a) as [NA FA]. destruct (str_firm b) as [NB FB].
  unfold pieces_of. rewrite !space_out_app, (space_out_firm _ FA), (space_out_firm _ FB). change (space_out "(") with " ( ". change (space_out ", ") with " ,  ". change (space_out ")") with " ) ".
  assert (Q : forall s u, tokens (s ++ " " ++ u) = (tokens s ++ tokens u)%list) by (intros s u; now apply tokens_space).
  change (" ( " ++ str d a ++ " ,  " ++ str d b ++ " ) ") with (" (" ++ " " ++ str d a ++ " " ++ "," ++ " " ++ " " ++ str d b ++ " " ++ ") "). rewrite !Q.
  assert (Q0 : forall u, tokens (" " ++ u) = tokens u) by (intro u; now apply (tokens_lead " ")). rewrite ?Q0, ?Q. rewrite (tokens_word (str d a)), (tokens_word (str d b)) by (split; auto using firm_space). reflexivity.
Qed.
Lemma points_filter xy : filter (fcl_parameter "Discrete") (flat_map (fun p => ["("; str d (fst p); ","; str d (snd p); ")"]) xy) = flat_map (fun p : T * T => [str d (fst p); str d (snd p)]) xy.
Proof.
  induction xy as [|[a b] xy IH]; [reflexivity|]. cbn [flat_map fst snd app]. destruct (str_firm a) as [_ FA]. destruct (str_firm b) as [_ FB]. cbn [filter].
  rewrite (firm_parameter _ _ FA), (firm_parameter _ _ FB), IH. reflexivity.
Qed.
Lemma read_numeric (x : T) : is_numeric (T := T) (str d x) = true.
Proof. unfold is_numeric. rewrite (reread_ok d N x). reflexivity. Qed.
Lemma build_words vw t : (forall f, tm_body t <> TFunction f) -> valid_name (tm_name t) <> "" ->
  build_term vw (body_class (tm_body t)) (valid_name (tm_name t)) (term_words d t) = printed_term d vw t.
Proof.
  intros NF V. unfold build_term. rewrite class_made. cbn [rbind]. assert (CW := configure_words d N vw t (valid_name (valid_name (tm_name t))) NF).
  rewrite (valid_idem _ V) in *. unfold term_update_reference. cbn [tm_name tm_height tm_body].
  destruct (tm_body t) as [s|xy|v|cs b|f] eqn:B; [..|destruct (NF f); reflexivity]; cbn [fresh_body tm_height tm_body tm_name] in *; (etransitivity; [exact CW|]); unfold printed_term; rewrite B; reflexivity.
Qed.
Lemma squeezed_formula s : lacks "#" s = true -> formula_content (squeezed s) = squeezed s.
Proof.
  intro H. unfold formula_content. assert (L : lacks "#" (squeezed s) = true).
  { unfold squeezed. clear - H. induction s as [|c s IH]; [reflexivity|]. cbn [lacks] in H. apply andb_true_iff in H. destruct H as [A B]. cbn [sfilter]. destruct (negb (is_space c)); [cbn [lacks]; rewrite A; auto|auto]. }
  rewrite hash_id by exact L. assert (W : sforall (fun c => negb (is_space c)) (squeezed s) = true) by apply sfilter_forall.
  rewrite rtrim_words by exact W. destruct (squeezed s) as [|c r] eqn:E; [reflexivity|]. rewrite words_one; [reflexivity|]. split; [discriminate|]. rewrite lacks_sforall. eapply sforall_impl; [|exact W]. intros x Q. cbv beta in *. apply negb_true_iff. apply negb_true_iff in Q. destruct (Ascii.eqb_spec x " "); [subst; discriminate|reflexivity].
Qed.
Lemma parse_fcl_term vw t : clear_term t -> fcl_parse_term vw (trim (term_text t)) = printed_term d vw (trm t).
Proof.
  intro CT. assert (CL := text_calm_clear t CT). destruct CT as [V B]. apply clear_parts in CL. destruct CL as (_ & _ & CS & _).
  unfold fcl_parse_term. fold (pieces_of (trim (term_text t))). rewrite pieces_trim. assert (NS := pieces_closed _ CS). assert (PW := pieces_words (term_text t)).
  rewrite (term_pieces t V) in *. set (name := valid_name (tm_name t)) in *. cbn [fcl_term_loop fcl_step]. rewrite String.eqb_refl. cbn [fcl_term_loop fcl_step]. 
  change (String.eqb ":=" ":=") with true. cbn match.
  assert (NS2 : ~ In ";" (pieces_of (fcl_term d t))) by (intro; apply NS; cbn; auto). assert (PW2 : Forall (fun w => w <> "" /\ trim w = w) (pieces_of (fcl_term d t))) by (inversion PW as [|? ? _ P1]; inversion P1 as [|? ? _ P2]; now inversion P2).
  destruct (class_parts (tm_body t)) as (C1 & C2 & C3 & C4).
  assert (SHAPED : (forall f, tm_body t <> TFunction f) -> fcl_term d t = body_class (tm_body t) ++ " " ++ term_parameters d t -> trm t = t ->
    match fcl_term_loop (T := T) (TClass name) (pieces_of (fcl_term d t)) with TParams name class params => build_term vw class name params | _ => Throw ESyntax end = printed_term d vw (trm t)).
  { intros NF E K. rewrite K. rewrite E, (term_parameters_words d t NF), pieces_space, pieces_join, (pieces_firm _ (words_firm t)), (firm_word _ C1 C2) in *. cbn [app fcl_term_loop fcl_step]. rewrite C3, C4.
    rewrite params_loop; [|now inversion PW2|intro; apply NS2; now right]. cbn [app]. rewrite (filter_firm _ _ (words_firm t)). now apply build_words. }
  destruct (tm_body t) as [s|xy|v|cs b|f] eqn:E.
  - rewrite <- E in SHAPED. apply SHAPED; [rewrite E; discriminate|unfold fcl_term; now rewrite E|unfold kept_term; now rewrite E].
  - unfold fcl_term in *. rewrite E in *. rewrite points_pieces in *. destruct xy as [|[a b] xy]; [congruence|]. assert (PF := points_filter ((a, b) :: xy)). cbn [flat_map app fst snd] in *. cbn [filter] in PF. change (fcl_parameter "Discrete" "(") with false in PF. cbn match in PF.
    set (rest := (str d a :: "," :: str d b :: ")" :: flat_map (fun p : T * T => ["("; str d (fst p); ","; str d (snd p); ")"]) xy)%list) in *.
    assert (PR : filter (fcl_parameter "Discrete") rest = str d a :: str d b :: flat_map (fun p : T * T => [str d (fst p); str d (snd p)]) xy) by exact PF. clear PF. clearbody rest. cbn [fcl_term_loop fcl_step].
    change (is_numeric (T := T) "(") with false. change (String.eqb "(" "(") with true. cbn match.
    rewrite params_loop; [|now inversion PW2|intro; apply NS2; now right]. cbn [app]. rewrite PR. assert (BW := build_words vw (trm t)). unfold kept_term in BW |- *. rewrite E in *. unfold term_words in BW. cbn [tm_body tm_name tm_height] in BW. rewrite (pr_one d N) in BW. rewrite app_nil_r in BW.
    apply BW; [discriminate|exact V].
  - unfold fcl_term in *. rewrite E in *. destruct (str_firm v) as [V1 V2]. rewrite (firm_word _ V1 V2). cbn [fcl_term_loop fcl_step]. rewrite read_numeric.
    assert (BW := build_words vw (trm t)). unfold kept_term in BW |- *. rewrite E in *. unfold term_words in BW. rewrite E in BW. apply BW; [discriminate|exact V].
  - rewrite <- E in SHAPED. apply SHAPED; [rewrite E; discriminate|unfold fcl_term; now rewrite E|unfold kept_term; now rewrite E].
  - unfold fcl_term, term_parameters in *. rewrite E in *. rewrite pieces_space in *. change (pieces_of (body_class (TFunction f))) with ["Function"] in *. cbn [app fcl_term_loop fcl_step].
    cbn [body_class] in C3. rewrite C3. change (String.eqb "Function" "(") with false. cbn match.
    rewrite params_loop; [|now inversion PW2|intro; apply NS2; now right]. cbn [app].
    assert (FA : forall l, filter (fcl_parameter "Function") l = l) by (induction l as [|x l IH]; [reflexivity|]; cbn [filter]; change (fcl_parameter "Function" x) with true; cbn match; now rewrite IH).
    rewrite FA. unfold build_term. assert (CM := class_made (TFunction f)). cbn [body_class fresh_body] in CM. rewrite CM. cbn [rbind]. unfold term_update_reference. cbn [tm_body tm_height tm_name].
    rewrite pieces_squeezed. unfold term_configure. cbn [tm_body tm_height tm_name]. unfold printed_term, printed_height, loaded_function, kept_term. rewrite E. cbn [tm_body tm_name fn_formula].
    destruct B as (_ & BH & _). rewrite (squeezed_formula _ BH).
    unfold fn_update_reference. cbn [fn_formula]. destruct (parse_empty_formula (T := T)) as [x PE].
    assert (UR : fst (fn_load default_table {| fn_formula := ""; fn_root := None; fn_vars := []; fn_engine := false |} "" true (vw_context vw)) =
               {| fn_formula := ""; fn_root := None; fn_vars := []; fn_engine := true |}) by (unfold fn_load; rewrite PE; reflexivity).
    rewrite UR. cbn [fn_engine]. unfold name. rewrite (valid_idem _ V).
    destruct (fn_load default_table _ (squeezed (fn_formula f)) true (vw_context vw)) as [f' [u|y| |]]; reflexivity.
Qed.
End Round.
