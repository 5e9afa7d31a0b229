(** Rules in the Fuzzy Inference System format: restoring a rule. *)
From Coq Require Import ZArith List Bool String Ascii Lia Permutation Sorting.Sorted.
From Verif Require Import Base Op Norm Hedge Shape Discrete Defuzz Aggregated Text Function FunctionProofs2 FunctionTable Rule Var Activation Engine Factory Fll Fis
  TextProofs TextProofs2 SpecText SpecFormula SpecRule SpecFll FllText FllExport RuleBundle EngineReady SpecFis FisRule.
Import ListNotations.
Local Open Scope string_scope.

Lemma chop_two c a b : lacks c a = true -> lacks c b = true -> chop c (a ++ String c b) = [a; b].
Proof. intros A B. rewrite chop_app, chop_lacks by auto. reflexivity. Qed.
Lemma split_two c a b : lacks c a = true -> lacks c b = true -> a <> "" -> b <> "" -> split (a ++ String c b) (char c) true = [a; b].
Proof.
  intros A B NA NB. rewrite split_words by (destruct a; discriminate). rewrite chop_two by auto. cbn [filter]. unfold nonempty.
  rewrite (proj2 (sempty_false a) NA), (proj2 (sempty_false b) NB). reflexivity.
Qed.
Lemma removelast_snoc {A} (l : list A) x : removelast (l ++ [x]) = l.
Proof. induction l as [|y l IH]; [reflexivity|]. cbn. rewrite IH. destruct (l ++ [x])%list eqn:E; [|reflexivity]. destruct l; discriminate. Qed.
Lemma last_snoc {A} (l : list A) x z : last (l ++ [x]) z = x.
Proof. induction l as [|y l IH]; [reflexivity|]. cbn. rewrite IH. destruct (l ++ [x])%list eqn:E; [|reflexivity]. destruct l; discriminate. Qed.
Lemma numeral_wordy w : w <> "" -> sforall numeral w = true -> wordy w.
Proof. intros N H. split; [exact N|]. now apply numeral_lacks. Qed.

(** the parts of a line *)
Lemma line_parts A C w conn : A <> [] -> Forall (fun t => t <> "" /\ sforall numeral t = true) A -> Forall (fun t => t <> "" /\ sforall numeral t = true) C ->
  w <> "" -> sforall numeral w = true -> conn = "1" \/ conn = "2" ->
  exists rest middle, 
  split (SpecRule.words A ++ ", " ++ SpecRule.words C ++ "(" ++ w ++ ") : " ++ conn) "," true = [SpecRule.words A; rest] /\
  split rest ":" true = [middle; " " ++ conn] /\ trim (" " ++ conn) = conn /\
  split (SpecRule.words A) " " true = A /\ split middle " " true = (C ++ [("(" ++ w ++ ")")%string])%list.
Proof.
  intros NA FA FC Nw Hw Hc.
  assert (LA : forall c, numeral c = false -> Ascii.eqb " " c = false -> lacks c (SpecRule.words A) = true).
  { intros c N0 N1. apply words_lacks; auto. eapply Forall_impl; [|exact FA]. intros t [_ H]. now apply numeral_lacks. }
  assert (LC : forall c, numeral c = false -> Ascii.eqb " " c = false -> lacks c (SpecRule.words C) = true).
  { intros c N0 N1. apply words_lacks; auto. eapply Forall_impl; [|exact FC]. intros t [_ H]. now apply numeral_lacks. }
  assert (Lw : forall c, numeral c = false -> lacks c w = true) by (intros; now apply numeral_lacks).
  set (middle := " " ++ SpecRule.words C ++ "(" ++ w ++ ") "). exists (middle ++ String ":" (" " ++ conn)), middle.
  assert (NW : SpecRule.words A <> "") by (destruct A as [|[|] ?]; [congruence|discriminate|discriminate]).
  split; [|split; [|split; [|split]]].
  - replace (SpecRule.words A ++ ", " ++ SpecRule.words C ++ "(" ++ w ++ ") : " ++ conn) with (SpecRule.words A ++ String "," (middle ++ String ":" (" " ++ conn))).
    + apply split_two; auto; [|discriminate]. unfold middle. rewrite !lacks_app, LC, Lw by reflexivity. destruct Hc as [-> | ->]; reflexivity.
    + unfold middle. rewrite !sapp_assoc. reflexivity.
  - apply (split_two ":"); [| |discriminate|destruct Hc as [-> | ->]; discriminate].
    + unfold middle. rewrite !lacks_app, LC, Lw by reflexivity. reflexivity.
    + destruct Hc as [-> | ->]; reflexivity.
  - destruct Hc as [-> | ->]; reflexivity.
  - rewrite split_space by auto. apply spec_words. eapply Forall_impl; [|exact FA]. intros t [N H]. now apply numeral_wordy.
  - rewrite split_space by discriminate. unfold middle. change (" " ++ SpecRule.words C ++ "(" ++ w ++ ") ") with ("" ++ " " ++ (SpecRule.words C ++ "(" ++ w ++ ") ")).
    rewrite words_app. change (SpecFll.words "") with (@nil string). cbn [app].
    assert (WC : forall s, SpecFll.words (SpecRule.words C ++ s) = (C ++ SpecFll.words s)%list).
    { intro s. clear - FC. induction FC as [|t C [N H] F IH]; [reflexivity|]. cbn [SpecRule.words]. rewrite !sapp_assoc, words_app, IH, words_one by (now apply numeral_wordy). reflexivity. }
    rewrite WC. f_equal. replace ("(" ++ w ++ ") ") with (("(" ++ w ++ ")") ++ " " ++ "") by (rewrite !sapp_assoc; reflexivity). rewrite words_app. change (SpecFll.words "") with (@nil string).
    rewrite app_nil_r. apply words_one. split; [discriminate|]. rewrite !lacks_app, Lw by reflexivity. reflexivity.
Qed.
Lemma unbracket w : sforall numeral w = true -> sfilter (fun c => negb (Ascii.eqb c "(" || Ascii.eqb c ")" || Ascii.eqb c " ")) ("(" ++ w ++ ")") = w.
Proof.
  intro H. cbn [append sfilter Ascii.eqb]. cbn. induction w as [|c w IH]; [reflexivity|]. cbn [append sforall] in *. apply andb_true_iff in H. destruct H as [A B]. cbn [sfilter].
  assert (Q : negb (Ascii.eqb c "(" || Ascii.eqb c ")" || Ascii.eqb c " ") = true).
  { destruct (Ascii.eqb_spec c "("); [subst; discriminate|]. destruct (Ascii.eqb_spec c ")"); [subst; discriminate|]. destruct (Ascii.eqb_spec c " "); [subst; discriminate|]. reflexivity. }
  rewrite Q. f_equal. apply IH. exact B.
Qed.

Section Sentences.
Variable env : penv.
Hypothesis names : fis_names env.

Lemma at_pos {A} (l : list A) i z : (i < List.length l)%nat -> nth_error l i = Some (nth i l z).
Proof. intro L. now apply nth_error_nth'. Qed.
Lemma pos_in l i n : nth_error l i = Some n -> @In string n l. Proof. apply nth_error_In. Qed.
(** the words of a proposition *)
Definition prop_words (p : proposition) : list string :=
  (name_of env (pr_var p) :: "is" :: map hedge_name (pr_hedges p) ++ match pr_term p with Some _ => [term_text env p] | None => [] end)%list.
Definition well_placed (p : proposition) : Prop :=
  variable_exists env (pr_var p) /\ match pr_term p with Some t => (t < List.length (terms_of env (pr_var p)))%nat | None => True end.
Lemma name_named p : well_placed p -> named env (name_of env (pr_var p)).
Proof.
  intros [V _]. unfold named, name_of. destruct (pr_var p) as [i|j]; cbn in V; [left|right; left]; apply nth_In; unfold inputs_of, outputs_of; now rewrite map_length.
Qed.
Lemma term_named p t : well_placed p -> pr_term p = Some t -> In (term_text env p) (terms_of env (pr_var p)).
Proof. intros [_ H] E. rewrite E in H. unfold term_text. rewrite E. now apply nth_In. Qed.
Lemma words_good p : well_placed p -> Forall (fun n => n <> "" /\ sforall name_char n = true /\ n <> "then" /\ n <> "with") (prop_words p).
Proof.
  intro W. unfold prop_words. apply Forall_cons; [apply (fn_chars env names), name_named, W|]. apply Forall_cons; [repeat split; discriminate|]. apply Forall_app. split.
  - apply Forall_forall. intros n I. apply in_map_iff in I. destruct I as (h & <- & _). apply hedge_chars.
  - destruct (pr_term p) as [t|] eqn:E; [|constructor]. constructor; [|constructor]. apply (fn_chars env names). right; right. exists (pr_var p). now apply (term_named p t).
Qed.
Lemma sentence_tokens p : well_placed p -> tokens (sentence env p) = prop_words p.
Proof.
  intro W. unfold sentence, prop_words. assert (G := words_good p W). unfold prop_words in G. inversion G as [|? ? (G1 & G2 & _) G']; subst. inversion G' as [|? ? _ G'']; subst. apply Forall_app in G''. destruct G'' as [GH GT].
  change (name_of env (pr_var p) ++ " is " ++ ?x) with (name_of env (pr_var p) ++ String " " ("is" ++ String " " x)).
  change (tokens (name_of env (pr_var p) ++ String " " ("is" ++ String " " (SpecRule.words (map hedge_name (pr_hedges p)) ++ term_text env p)))
    = (name_of env (pr_var p) :: "is" :: map hedge_name (pr_hedges p) ++ match pr_term p with Some _ => [term_text env p] | None => [] end)%list).
  rewrite !tokens_space by reflexivity. rewrite (tokens_word (name_of env (pr_var p))) by (now apply name_char_word). change (tokens "is") with ["is"]. cbn [app]. do 2 f_equal.
  rewrite tokens_words_app by (eapply Forall_impl; [|exact GH]; intros n (A & B & _); now apply name_char_word). f_equal.
  unfold term_text in *. destruct (pr_term p) as [t|]; [|reflexivity]. inversion GT as [|? ? (A & B & _) _]; subst. apply tokens_word. now apply name_char_word.
Qed.
Lemma sentence_hash p : well_placed p -> lacks "#" (sentence env p) = true.
Proof.
  intro W. unfold sentence. assert (G := words_good p W). unfold prop_words in G. inversion G as [|? ? (G1 & G2 & _) G']; subst. inversion G' as [|? ? _ G'']; subst. apply Forall_app in G''. destruct G'' as [GH GT].
  rewrite !lacks_app. rewrite (name_char_lacks "#" (name_of env (pr_var p))) by auto. rewrite words_lacks; [|reflexivity|eapply Forall_impl; [|exact GH]; intros n (_ & B & _); exact (name_char_lacks "#" n eq_refl B)].
  unfold term_text in *. destruct (pr_term p) as [t|]; [|reflexivity]. inversion GT as [|? ? (A & B & _) _]; subst. rewrite (name_char_lacks "#" _ eq_refl B). reflexivity.
Qed.
Lemma input_first p i : well_placed p -> pr_var p = VIn i -> names_variable env (name_of env (pr_var p)) (pr_var p).
Proof.
  intros [W _] E. rewrite E in *. cbn [variable_exists name_of] in *. apply nv_input. apply nodup_first; [apply (fn_inputs env names)|]. apply at_pos. unfold inputs_of. now rewrite map_length.
Qed.
Lemma term_first p t : well_placed p -> pr_term p = Some t -> first_named (term_text env p) (terms_of env (pr_var p)) t.
Proof. intros [_ W] E. rewrite E in W. unfold term_text. rewrite E. apply nodup_first; [apply (fn_terms env names)|]. now apply at_pos. Qed.
Lemma any_last p neg : pr_term p = None -> fis_hedges (pr_hedges p) neg 99 -> exists hs, pr_hedges p = (hs ++ [Any])%list /\ ~ In Any hs.
Proof.
  intros _ H. inversion H as [hs c K E1 E2 E3|hs c K E1 E2 E3]; inversion K; subst.
  - exists []. auto.
  - exists [Not]. split; [reflexivity|]. intros [Q|[]]; discriminate.
Qed.
Lemma premise_ok p i : well_placed p -> pr_var p = VIn i -> codable env p -> (In Any (pr_hedges p) <-> pr_term p = None) -> Premise env p (prop_words p).
Proof.
  intros W E (neg & c & H & C) A. unfold prop_words. destruct p as [v hs o]. cbn [pr_var pr_hedges pr_term] in *. destruct o as [t|].
  - apply premise_term; [eapply (input_first (mkProp v hs (Some t))); eauto|rewrite A; discriminate|exact (term_first (mkProp v hs (Some t)) t W eq_refl)|].
    apply (fn_hedge env names v). exact (term_named (mkProp v hs (Some t)) t W eq_refl).
  - subst c. destruct (any_last (mkProp v hs None) neg eq_refl H) as (hs' & Eh & NA). cbn in Eh. subst hs. rewrite app_nil_r, map_app. apply premise_any; [|exact NA].
    eapply (input_first (mkProp v (hs' ++ [Any])%list None)); eauto.
Qed.
Lemma conclusion_ok p j t : well_placed p -> pr_var p = VOut j -> pr_term p = Some t -> Conclusion env p (prop_words p).
Proof.
  intros W E Et. unfold prop_words. destruct p as [v hs o]. cbn [pr_var pr_hedges pr_term] in *. subst v o. apply conclusion.
  - destruct W as [W _]. cbn [variable_exists name_of pr_var] in *. apply nodup_first; [apply (fn_outputs env names)|]. apply at_pos. unfold outputs_of. now rewrite map_length.
  - exact (term_first (mkProp (VOut j) hs (Some t)) t W eq_refl).
  - apply (fn_hedge env names (VOut j)). exact (term_named (mkProp (VOut j) hs (Some t)) t W eq_refl).
Qed.
Lemma chain_and ps : Forall (fun p => Premise env p (prop_words p)) ps -> forall e ts, Antecedent env LAnd e ts ->
  Antecedent env LAnd (fold_left (fun e p => Opr "and" e (Prp p)) ps e) (ts ++ flat_map (fun t => "and" :: t) (map prop_words ps))%list.
Proof.
  induction 1 as [|p ps H F IH]; intros e ts A; [cbn; now rewrite app_nil_r|]. cbn [fold_left map flat_map].
  change ((ts ++ ("and" :: prop_words p) ++ ?x)%list) with (ts ++ ("and" :: prop_words p) ++ x)%list. rewrite app_assoc. apply IH. apply ante_and; [exact A|]. now apply ante_prop.
Qed.
Lemma chain_or ps : Forall (fun p => Premise env p (prop_words p)) ps -> forall e ts, Antecedent env LOr e ts ->
  Antecedent env LOr (fold_left (fun e p => Opr "or" e (Prp p)) ps e) (ts ++ flat_map (fun t => "or" :: t) (map prop_words ps))%list.
Proof.
  induction 1 as [|p ps H F IH]; intros e ts A; [cbn; now rewrite app_nil_r|]. cbn [fold_left map flat_map]. rewrite app_assoc. apply IH. apply ante_or; [exact A|]. now apply ante_atom, ante_prop.
Qed.
Lemma conclusions_ok ps : ps <> [] -> Forall (fun p => Conclusion env p (prop_words p)) ps -> Conclusions env ps (phrase "and" (map prop_words ps)).
Proof.
  intros N F. destruct F as [|p ps H F]; [congruence|]. clear N. revert p H. induction F as [|q ps H' F IH]; intros p H.
  - cbn. rewrite app_nil_r. now apply conclusions_one.
  - cbn [map phrase flat_map]. change (prop_words p ++ ("and" :: prop_words q) ++ ?x)%list with (prop_words p ++ "and" :: (prop_words q ++ x))%list.
    apply conclusions_and; [exact H|]. exact (IH q H').
Qed.
Lemma phrase_good kw ps : kw = "" /\ (List.length ps < 2)%nat \/ (kw <> "" /\ sforall name_char kw = true /\ kw <> "then" /\ kw <> "with") -> Forall well_placed ps ->
  Forall (fun n => n <> "" /\ sforall name_char n = true /\ n <> "then" /\ n <> "with") (phrase kw (map prop_words ps)).
Proof.
  intros K F. destruct F as [|p ps H F]; [constructor|]. cbn [map phrase]. apply Forall_app. split; [now apply words_good|].
  destruct K as [[_ K]|K]; [destruct ps; [constructor|cbn in K; lia]|]. induction F as [|q ps Hq F IH]; [constructor|]. cbn [map flat_map app]. apply Forall_cons; [exact K|]. apply Forall_app. split; [now apply words_good|exact IH].
Qed.
End Sentences.
