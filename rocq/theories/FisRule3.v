(** Rules in the Fuzzy Inference System format: the rule which is read is the rule which was written. *)
From Coq Require Import ZArith List Bool String Ascii Lia Permutation Sorting.Sorted.
From Verif Require Import Base Op Norm Hedge Shape Discrete Defuzz Aggregated Text Function FunctionProofs FunctionProofs2 FunctionTable Rule Var Activation Engine Factory Fll Fis
  TextProofs TextProofs2 SpecText SpecFormula SpecRule SpecFll FllText FllExport RuleBundle EngineReady SpecFis FisRule FisRule2.
Import ListNotations.
Local Open Scope string_scope.

Lemma Forall2_len {A B} (R : A -> B -> Prop) l m : Forall2 R l m -> List.length l = List.length m.
Proof. induction 1; cbn; congruence. Qed.
Section Restore.
Context {T : Type} `{S : Scalar T}.
Variable d : nat.
Variable e : engine T.
Let env := engine_env (e_inputs e) (e_outputs e).
Hypothesis names : fis_names env.
Hypothesis code_none : forall props v n, find (fun p => varref_eqb (pr_var p) v) props = None -> exists z : T, to_scalar (code_word d props v n) = Ok z /\ isEq z s_0 = true.
Hypothesis code_some : forall props v p, find (fun p => varref_eqb (pr_var p) v) props = Some p -> codable env p ->
  exists y : T, to_scalar (code_word d props v (List.length (terms_of env v))) = Ok y /\ isEq y s_0 = false /\
  translate_proposition y (terms_of env v) = Ok (SpecRule.words (map hedge_name (pr_hedges p)) ++ term_text env p).
Hypothesis weight_read : forall w : T, exists y, to_scalar (str d w) = Ok y /\ str d y = str d w.

Definition aligned (v : varref * nat) (pv : pvar) : Prop :=
  snd v = List.length (terms_of env (fst v)) /\ pv_terms pv = terms_of env (fst v) /\ pv_name pv = name_of env (fst v).
Lemma inputs_aligned : Forall2 aligned (input_sizes e) (pe_inputs env).
Proof.
  unfold input_sizes, env, engine_env at 1. cbn [pe_inputs].
  assert (G : forall l pre, e_inputs e = (pre ++ l)%list -> Forall2 aligned (number_from VIn (fun v => List.length (v_terms v)) (List.length pre) l) (map var_names l)).
  { induction l as [|x l IH]; intros pre E; [constructor|]. cbn [number_from map]. constructor.
    - assert (N : nth_error (pe_inputs env) (List.length pre) = Some (var_names x)).
      { unfold env, engine_env. cbn [pe_inputs]. rewrite E, map_app, nth_error_app2; rewrite map_length; [|lia]. now rewrite Nat.sub_diag. }
      unfold aligned. cbn [fst snd terms_of name_of]. rewrite N. cbn [var_names pv_terms pv_name]. split; [now rewrite map_length|]. split; [reflexivity|].
      unfold inputs_of. symmetry. apply nth_error_nth with (d := ""). rewrite nth_error_map, N. reflexivity.
    - specialize (IH (pre ++ [x])%list). rewrite app_length in IH. cbn [List.length] in IH. rewrite Nat.add_1_r in IH. apply IH. rewrite <- app_assoc. exact E. }
  exact (G (e_inputs e) [] eq_refl).
Qed.
Lemma outputs_aligned : Forall2 aligned (output_sizes e) (pe_outputs env).
Proof.
  unfold output_sizes, env, engine_env at 1. cbn [pe_outputs].
  assert (G : forall l pre, e_outputs e = (pre ++ l)%list -> Forall2 aligned (number_from VOut (fun o => List.length (v_terms (o_var o))) (List.length pre) l) (map (fun o => var_names (o_var o)) l)).
  { induction l as [|x l IH]; intros pre E; [constructor|]. cbn [number_from map]. constructor.
    - assert (N : nth_error (pe_outputs env) (List.length pre) = Some (var_names (o_var x))).
      { unfold env, engine_env. cbn [pe_outputs]. rewrite E, map_app, nth_error_app2; rewrite map_length; [|lia]. now rewrite Nat.sub_diag. }
      unfold aligned. cbn [fst snd terms_of name_of]. rewrite N. cbn [var_names pv_terms pv_name]. split; [now rewrite map_length|]. split; [reflexivity|].
      unfold outputs_of. symmetry. apply nth_error_nth with (d := ""). rewrite nth_error_map, N. reflexivity.
    - specialize (IH (pre ++ [x])%list). rewrite app_length in IH. cbn [List.length] in IH. rewrite Nat.add_1_r in IH. apply IH. rewrite <- app_assoc. exact E. }
  exact (G (e_outputs e) [] eq_refl).
Qed.
Lemma lengths : List.length (input_sizes e) = List.length (pe_inputs env) /\ List.length (output_sizes e) = List.length (pe_outputs env) /\
  List.length (e_inputs e) = List.length (pe_inputs env) /\ List.length (e_outputs e) = List.length (pe_outputs env).
Proof.
  repeat split; [apply (Forall2_len _ _ _ inputs_aligned)|apply (Forall2_len _ _ _ outputs_aligned)| |]; unfold env, engine_env; cbn; now rewrite map_length.
Qed.
Lemma placed f n ps : (forall i, (i < n)%nat -> variable_exists env (f i)) -> mentions_once f n ps -> Forall (codable env) ps -> Forall (well_placed env) ps.
Proof.
  intros V [_ M] C. rewrite Forall_forall in *. intros p I. destruct (M p I) as (i & E & L). split; [rewrite E; auto|]. destruct (C p I) as (neg & c & _ & K). destruct (pr_term p); tauto.
Qed.

(** what reading makes of the weight *)
Definition weight_after (w : T) : T := if isEq (reread d w) s_1 then s_1 else reread d w.
Theorem rule_restored r op ex : rl_antecedent r = Some ex -> fis_expressible env op ex (rl_consequent r) ->
  exists line r' ps cs, fis_rule d e r = Ok line /\ (forall b, fis_rule_line d env b line = Ok (set_rules (b_rules b ++ [r'])%list b)) /\
  Permutation ps (propositions_of ex) /\ StronglySorted before_of ps /\ Permutation cs (rl_consequent r) /\ StronglySorted before_of cs /\
  rl_enabled r' = true /\ rl_antecedent r' = chained op ps /\ rl_consequent r' = cs /\ rl_weight r' = weight_after (rl_weight r).
Proof.
  intros HA [Fop Fj Fin Fpr Fout Fco Fso]. destruct lengths as (L1 & L2 & L3 & L4).
  destruct (queue_ok op (expression_size ex) [ex]) as (props & ops & EB & PB & OB & LB); [cbn; lia|constructor; auto|].
  cbn [flat_map] in PB. rewrite app_nil_r in PB.
  assert (Fin' : mentions_once VIn (List.length (pe_inputs env)) props).
  { destruct Fin as [A B]. split; [eapply Permutation_NoDup; [apply Permutation_map, Permutation_sym, PB|exact A]|]. eapply Permutation_Forall; [apply Permutation_sym, PB|exact B]. }
  assert (Fpr' : Forall (fun p => codable env p /\ (In Any (pr_hedges p) <-> pr_term p = None)) props) by (eapply Permutation_Forall; [apply Permutation_sym, PB|exact Fpr]).
  assert (Cin : Forall (codable env) props) by (eapply Forall_impl; [|exact Fpr']; cbn; tauto).
  assert (Cout : Forall (codable env) (rl_consequent r)) by (eapply Forall_impl; [|exact Fco]; cbn; tauto).
  destruct (found_perm VIn props (List.length (pe_inputs env))) as [Pps Sps]; [congruence|apply Fin'|apply Fin'|reflexivity|].
  destruct (found_perm VOut (rl_consequent r) (List.length (pe_outputs env))) as [Pcs Scs]; [congruence|apply Fout|apply Fout|reflexivity|].
  set (ps := flat_map (found props) (map VIn (seq 0 (List.length (pe_inputs env))))) in *.
  set (cs := flat_map (found (rl_consequent r)) (map VOut (seq 0 (List.length (pe_outputs env))))) in *.
  assert (Wps : Forall (well_placed env) ps).
  { eapply Permutation_Forall; [apply Permutation_sym, Pps|]. eapply placed; [|exact Fin'|exact Cin]. cbn. auto. }
  assert (Wcs : Forall (well_placed env) cs).
  { eapply Permutation_Forall; [apply Permutation_sym, Pcs|]. eapply placed; [|exact Fout|exact Cout]. cbn. auto. }
  assert (Pre : Forall (fun p => Premise env p (prop_words env p)) ps).
  { rewrite Forall_forall in *. intros p I. assert (I' := Permutation_in _ Pps I). destruct Fin' as [_ M]. rewrite Forall_forall in M. destruct (M p I') as (i & E & _). destruct (Fpr' p I') as [C A]. eapply premise_ok; eauto. }
  assert (Con : Forall (fun p => Conclusion env p (prop_words env p)) cs).
  { rewrite Forall_forall in *. intros p I. assert (I' := Permutation_in _ Pcs I). destruct Fout as [_ M]. rewrite Forall_forall in M. destruct (M p I') as (i & E & _). destruct (Fco p I') as [C A].
    destruct (pr_term p) as [t|] eqn:Et; [|congruence]. eapply conclusion_ok; eauto. }
  assert (Nps : ps <> []).
  { intro Q. rewrite Q in Pps. apply Permutation_nil in Pps. rewrite Pps in PB. apply Permutation_nil in PB. clear - PB. induction ex as [p|n l IHl r IHr]; [discriminate|]. cbn in PB. apply app_eq_nil in PB. tauto. }
  assert (Ncs : cs <> []) by (intro Q; rewrite Q in Pcs; apply Permutation_nil in Pcs; auto).
  assert (Nin : input_sizes e <> []).
  { intro Q. rewrite Q in L1. cbn [List.length] in L1. destruct ps as [|p ps'] eqn:Ep; [congruence|]. assert (I : In p props) by (apply (Permutation_in _ Pps); left; reflexivity).
    destruct Fin' as [_ M]. rewrite Forall_forall in M. destruct (M p I) as (i & _ & Li). lia. }
  set (conn := match ops with [] => "1" | o :: _ => if String.eqb o "and" then "1" else if String.eqb o "or" then "2" else o end).
  assert (Kc : conn = "1" \/ conn = "2").
  { unfold conn. destruct OB as [|o ops E _]; [auto|]. rewrite <- E. destruct Fop as [-> | ->]; auto. }
  assert (ER : fis_rule d e r = Ok (SpecRule.words (map (fun v => code_word d props (fst v) (snd v)) (input_sizes e)) ++ ", " ++
    SpecRule.words (map (fun v => code_word d (rl_consequent r) (fst v) (snd v)) (output_sizes e)) ++ "(" ++ str d (rl_weight r) ++ ") : " ++ conn)).
  { unfold fis_rule. rewrite HA, EB. cbn [rbind]. rewrite (equal_all op ops OB). cbn [negb]. rewrite !codes_words. reflexivity. }
  destruct (str_numeral d (rl_weight r)) as [Nw Hw].
  destruct (line_parts (map (fun v => code_word d props (fst v) (snd v)) (input_sizes e)) (map (fun v => code_word d (rl_consequent r) (fst v) (snd v)) (output_sizes e)) (str d (rl_weight r)) conn)
    as (rest & middle & S1 & S2 & S3 & S4 & S5); auto.
  { destruct (input_sizes e); [congruence|discriminate]. }
  { apply Forall_forall. intros t I. apply in_map_iff in I. destruct I as (v & <- & _). apply word_numeral. }
  { apply Forall_forall. intros t I. apply in_map_iff in I. destruct I as (v & <- & _). apply word_numeral. }
  set (line := SpecRule.words (map (fun v => code_word d props (fst v) (snd v)) (input_sizes e)) ++ ", " ++
    SpecRule.words (map (fun v => code_word d (rl_consequent r) (fst v) (snd v)) (output_sizes e)) ++ "(" ++ str d (rl_weight r) ++ ") : " ++ conn) in *.
  assert (QI : @fis_propositions T S (map (fun v => code_word d props (fst v) (snd v)) (input_sizes e)) (pe_inputs env) = Ok (map (sentence env) ps)).
  { rewrite (propositions_ok d env code_none code_some props) with (2 := inputs_aligned); [|intros p I; rewrite Forall_forall in Cin; auto].
    unfold input_sizes. rewrite number_fst, L3. reflexivity. }
  assert (QO : @fis_propositions T S (map (fun v => code_word d (rl_consequent r) (fst v) (snd v)) (output_sizes e)) (pe_outputs env) = Ok (map (sentence env) cs)).
  { rewrite (propositions_ok d env code_none code_some (rl_consequent r)) with (2 := outputs_aligned); [|intros p I; rewrite Forall_forall in Cout; auto].
    unfold output_sizes. rewrite number_fst, L4. reflexivity. }
  set (kw := if Nat.ltb (List.length ps) 2 then "" else op).
  assert (KW : (if Nat.ltb (List.length (map (sentence env) ps)) 2 then Ok "" else if String.eqb conn "1" then Ok "and" else if String.eqb conn "2" then Ok "or" else Throw ESyntax) = Ok kw).
  { rewrite map_length. unfold kw. destruct (Nat.ltb_spec (List.length ps) 2) as [L|L]; [reflexivity|]. unfold conn. destruct OB as [|o ops E _].
    - exfalso. specialize (LB eq_refl). rewrite <- (Permutation_length Pps) in LB. change (List.length [ex]) with 1%nat in LB. lia.
    - rewrite <- E. destruct Fop as [-> | ->]; reflexivity. }
  destruct (weight_read (rl_weight r)) as (w & Ew & Ew2). assert (Rw : reread d (rl_weight r) = w) by (unfold reread; now rewrite Ew).
  set (text := "if " ++ join (map (sentence env) ps) (" " ++ kw ++ " ") ++ " then " ++ join (map (sentence env) cs) " and " ++ (if isEq w s_1 then "" else " with " ++ str d w)).
  assert (RT : fis_rule_text d env line = Ok text).
  { unfold fis_rule_text. rewrite S1, S2. rewrite S4, S5.
    destruct (map (fun v => code_word d (rl_consequent r) (fst v) (snd v)) (output_sizes e) ++ [("(" ++ str d (rl_weight r) ++ ")")%string])%list eqn:EP; [exfalso; now apply app_eq_nil in EP|].
    rewrite <- EP. rewrite last_snoc, removelast_snoc, S3, !map_length, L1, L2, !Nat.eqb_refl. cbn [negb]. rewrite QI. cbn [rbind]. rewrite QO. cbn [rbind].
    etransitivity; [|reflexivity]. rewrite KW. cbn [rbind]. rewrite (unbracket _ Hw), Ew. cbn [rbind]. reflexivity. }
  set (A := phrase kw (map (prop_words env) ps)). set (C := phrase "and" (map (prop_words env) cs)).
  assert (TM : forall l, Forall (well_placed env) l -> map tokens (map (sentence env) l) = map (prop_words env) l).
  { intros l F. rewrite map_map. apply map_ext_in. intros p I. apply sentence_tokens; auto. rewrite Forall_forall in F. auto. }
  assert (KG : kw = "" /\ (List.length ps < 2)%nat \/ (kw <> "" /\ sforall name_char kw = true /\ kw <> "then" /\ kw <> "with")).
  { unfold kw. destruct (Nat.ltb_spec (List.length ps) 2); [auto|]. right. destruct Fop as [-> | ->]; repeat split; discriminate. }
  assert (GA : Forall (fun n => n <> "" /\ sforall name_char n = true /\ n <> "then" /\ n <> "with") A) by (now apply phrase_good).
  assert (GC : Forall (fun n => n <> "" /\ sforall name_char n = true /\ n <> "then" /\ n <> "with") C) by (apply phrase_good; auto; right; repeat split; discriminate).
  assert (NTA : ~ In "then" A) by (intro I; rewrite Forall_forall in GA; destruct (GA _ I) as (_ & _ & Q & _); congruence).
  assert (NTC : ~ In "with" C) by (intro I; rewrite Forall_forall in GC; destruct (GC _ I) as (_ & _ & _ & Q); congruence).
  assert (TA : tokens (join (map (sentence env) ps) (" " ++ kw ++ " ")) = A).
  { rewrite tokens_phrase; [unfold A; now rewrite TM|]. rewrite map_length. destruct KG as [Q|(N & H & _)]; [auto|]. right. now apply name_char_word. }
  assert (TC : tokens (join (map (sentence env) cs) " and ") = C).
  { change " and " with (" " ++ "and" ++ " "). rewrite tokens_phrase; [unfold C; now rewrite TM|]. right. split; [discriminate|reflexivity]. }
  assert (LX : lex_from is_space (one_of special_chars) "" (SpecRule.words A) = A).
  { apply words_lex. eapply Forall_impl; [|exact GA]. intros n (N & H & _). now apply name_char_lexeme. }
  assert (AN : exists lv ex', chained op ps = Some ex' /\ Antecedent env lv ex' A).
  { unfold A. clear - Pre Nps Fop KG kw. destruct Pre as [|p l Hp F]; [congruence|]. cbn [chained map phrase]. unfold kw in *. cbn [List.length] in *. destruct l as [|q l].
    - cbn. rewrite app_nil_r. exists LAtom. eexists. split; [reflexivity|]. now apply ante_prop.
    - change (Nat.ltb (Datatypes.S (List.length (q :: l))) 2) with false in *. cbn iota. destruct Fop as [-> | ->].
      + exists LAnd. eexists. split; [reflexivity|]. apply chain_and; auto. now apply ante_atom, ante_prop.
      + exists LOr. eexists. split; [reflexivity|]. apply chain_or; auto. now apply ante_conj, ante_atom, ante_prop. }
  destruct AN as (lv & ex' & Ech & Ant).
  assert (CC : Conclusions env cs C) by (now apply conclusions_ok).
  destruct (str_numeral d w) as [Nw2 Hw2].
  assert (HF : lacks "#" text = true).
  { unfold text. rewrite !lacks_app. rewrite !join_lacks; [|reflexivity| | |].
    - destruct (isEq w s_1); [reflexivity|]. rewrite lacks_app, (numeral_lacks _ "#" eq_refl Hw2). reflexivity.
    - apply Forall_forall. intros s I. apply in_map_iff in I. destruct I as (p & <- & Ip). apply sentence_hash; auto. rewrite Forall_forall in Wcs. auto.
    - rewrite !lacks_app. destruct KG as [[-> _]|(_ & H & _)]; [reflexivity|]. rewrite (name_char_lacks "#" kw eq_refl H). reflexivity.
    - apply Forall_forall. intros s I. apply in_map_iff in I. destruct I as (p & <- & Ip). apply sentence_hash; auto. rewrite Forall_forall in Wps. auto. }
  set (w' := if isEq w s_1 then s_1 else w).
  assert (TT : RuleText (tokens text) A C (if isEq w s_1 then None else Some (str d w))).
  { unfold text. change ("if " ++ ?x) with ("if" ++ String " " x).
    change (RuleText (tokens ("if" ++ String " " (join (map (sentence env) ps) (" " ++ kw ++ " ") ++ String " " ("then" ++ String " " (join (map (sentence env) cs) " and " ++ (if isEq w s_1 then "" else " with " ++ str d w)))))) A C (if isEq w s_1 then None else Some (str d w))).
    rewrite !tokens_space by reflexivity. rewrite TA. change (tokens "if") with ["if"]. change (tokens "then") with ["then"]. cbn [app]. destruct (isEq w s_1).
    - rewrite sapp_nil_r, TC. now apply rule_plain.
    - change (join (map (sentence env) cs) " and " ++ " with " ++ str d w) with (join (map (sentence env) cs) " and " ++ String " " ("with" ++ String " " (str d w))).
      rewrite !tokens_space by reflexivity. rewrite TC, (tokens_word (str d w)) by (split; [exact Nw2|now apply numeral_solid]). change (tokens "with") with ["with"]. cbn [app]. now apply rule_with. }
  assert (LD : forall r0 : rule T, rule_load env text r0 = (mkRule true text w' s_0 false (SpecRule.words A) (Some ex') (SpecRule.words C) cs, Ok tt)).
  { intro r0. eapply (grammar_loads env text text A C _ lv ex' cs w' r0 (fn_plain env names)); [split; [now apply hash_free_lacks|left; reflexivity]|exact TT|rewrite LX; exact Ant|exact CC|].
    unfold w'. destruct (isEq w s_1); [reflexivity|]. rewrite Ew2. exact Ew. }
  exists line, (mkRule true text w' s_0 false (SpecRule.words A) (Some ex') (SpecRule.words C) cs), ps, cs. split; [exact ER|]. split.
  { intro b. unfold fis_rule_line. rewrite RT. cbn [rbind]. rewrite LD. reflexivity. }
  split; [rewrite Pps; exact PB|]. split; [exact Sps|]. split; [exact Pcs|]. split; [exact Scs|]. cbn [rl_enabled rl_antecedent rl_consequent rl_weight]. split; [reflexivity|]. split; [now symmetry|]. split; [reflexivity|].
  unfold weight_after. rewrite Rw. reflexivity.
Qed.
End Restore.
