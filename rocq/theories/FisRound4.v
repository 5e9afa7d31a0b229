(** Engines in the Fuzzy Inference System format: rules, and the whole. *)
From Coq Require Import ZArith List Bool String Ascii Arith Lia Permutation Sorting.Sorted.
From Verif Require Import Base Op Norm Hedge Shape Discrete Defuzz Aggregated Text Function Rule Var Activation Engine Factory
  SpecText TextProofs TextProofs2 RuleProofs3 SpecRule Fll SpecFll FllText FllLines FllExport FllRound FllRound2 FllFix FllSame Fis SpecFis FisRule FisRule2 FisRule3 FisBundle Fcl SpecFcl FclText FclRound FclRound2 FclRound3 FclRound4
  SpecFis2 FisText FisRound FisRound2 FisRound3.
Import ListNotations.
Local Open Scope string_scope.

Lemma unquote_newline s : lacks newline (unquote s) = lacks newline s.
Proof. induction s as [|c s IH]; [reflexivity|]. unfold unquote in *. cbn [sfilter]. destruct (Ascii.eqb_spec c "'") as [->|]; cbn [negb lacks]; rewrite IH; reflexivity. Qed.
Lemma propositions_nonempty ex : propositions_of ex <> [].
Proof. induction ex as [p|n l IH r _]; [discriminate|]. cbn [propositions_of]. intro E. now apply app_eq_nil in E. Qed.

Section Round.
Context {T : Type} `{S : Scalar T}.
Variables (d : nat) (resolution : Z) (library version : string).
Hypothesis N : printable (T := T) d.
Hypothesis numbers : forall x : T, sforall FclRound.numeral (str d x) = true /\ dotted (str d x).
Hypothesis library_line : one_line library.
Hypothesis version_name : plain_name version.

(** ** one line each *)
Lemma int_one n : one_line (str_int n).
Proof. destruct (int_facts n) as [_ B]. destruct (numeral_quiet _ B) as (_ & _ & _ & _ & _ & _ & _ & Q & _). exact Q. Qed.
Lemma name_one n : plain_name n -> one_line n.
Proof. intros [_ H]. now apply name_lacks. Qed.
Lemma system_one e : fis_text (e_name e) -> Forall one_line (fis_system (T := T) library version e ++ [""]).
Proof.
  intro H. assert (VN := name_one _ version_name). assert (EN : one_line (e_name e)) by apply H.
  assert (TT : forall n, one_line (fis_tnorm n)) by (intro n; apply (tnorm_text n)). assert (TS : forall n, one_line (fis_snorm n)) by (intro n; apply (snorm_text n)).
  assert (TZ : forall z, one_line (fis_defuzzifier z)) by (intro z; apply (defuzzifier_text z)). assert (TY : forall z, one_line (fis_type z)) by (intro z; apply (type_text z)). assert (IO := int_one).
  unfold fis_system. cbv zeta. cbn [app]. unfold one_line in *.
  repeat (constructor; [first [reflexivity | destruct (first_some _ _); rewrite !lacks_app, ?TT, ?TS, ?TZ; reflexivity | rewrite !lacks_app, ?library_line, ?EN, ?VN, ?TY, ?IO; reflexivity]|]). constructor.
Qed.
Lemma term_one t : fis_term_ok t -> one_line (fis_term d t).
Proof.
  intro H. unfold one_line. rewrite <- unquote_newline, (term_unquoted d numbers t H). destruct (text_facts d numbers t H) as (_ & _ & _ & _ & _ & _ & _ & Q). destruct (mclass_facts (tm_body t)) as [_ C].
  rewrite !lacks_app, Q, (name_lacks _ (mclass (tm_body t))) by (reflexivity || exact C). reflexivity.
Qed.
Lemma variable_one kind i v : one_line kind -> fis_variable_ok v -> Forall one_line (fis_variable d kind i v).
Proof.
  intros K [PN FT]. assert (IO := int_one). unfold fis_variable. apply Forall_app. split; [|apply Forall_app; split; [|constructor; [reflexivity|constructor]]].
  - assert (R : one_line (join_scalars d [v_minimum v; v_maximum v] " ")) by (apply (strs_lack d numbers newline [v_minimum v; v_maximum v]); reflexivity).
    rewrite (valid_keep _ (proj1 PN) (proj2 PN)). assert (NO := name_one _ PN). unfold one_line in *. repeat (constructor; [rewrite !lacks_app, ?K, ?IO, ?R, ?NO; reflexivity|]). constructor.
  - apply Forall_map. generalize 0%nat as k. clear - FT numbers IO. induction FT as [|t ts [A B] F IH]; intro k; [constructor|]. cbn [List.length seq combine]. constructor; [|apply IH]. cbn [fst snd].
    rewrite (valid_keep _ (proj1 B) (proj2 B)). assert (TO := term_one t A). assert (NO := name_one _ B). unfold one_line in *. rewrite !lacks_app, IO, NO, TO. reflexivity.
Qed.

(** ** rules *)
Section Rules.
Variable e : engine T.
Let env := engine_env (e_inputs e) (e_outputs e).
Lemma words_line ts : Forall (fun t => t <> "" /\ sforall FisRule.numeral t = true) ts -> forall c, FisRule.numeral c = false -> Ascii.eqb " " c = false -> lacks c (SpecRule.words ts) = true.
Proof. intros F c A B. apply words_lacks; [exact B|]. eapply Forall_impl; [|exact F]. intros t [_ H]. now apply FisRule.numeral_lacks. Qed.
Lemma rule_line r op ex line : rl_antecedent r = Some ex -> fis_expressible env op ex (rl_consequent r) -> fis_rule d e r = Ok line ->
  fis_clean line = Ok (Some line) /\ plain_line line.
Proof.
  intros HA [Fop FJ FI FP FO FC FS] H. unfold fis_rule in H. rewrite HA in H.
  destruct (queue_ok op (expression_size ex) [ex]) as (props & ops & EB & PB & OB & LB); [cbn; lia|repeat constructor; exact FJ|]. rewrite EB in H. cbn [rbind] in H. rewrite (equal_all op ops OB) in H. cbn [negb] in H. rewrite !codes_words in H. assert (HL : forall x y : string, Ok x = Ok y -> y = x) by congruence. apply HL in H. subst line.
  set (A := map (fun v => code_word d props (fst v) (snd v)) (input_sizes e)). set (C := map (fun v => code_word d (rl_consequent r) (fst v) (snd v)) (output_sizes e)).
  assert (FA : Forall (fun t => t <> "" /\ sforall FisRule.numeral t = true) A) by (apply Forall_map, Forall_forall; intros v _; apply word_numeral).
  assert (FCo : Forall (fun t => t <> "" /\ sforall FisRule.numeral t = true) C) by (apply Forall_map, Forall_forall; intros v _; apply word_numeral).
  set (conn := match ops with [] => "1" | o :: _ => if String.eqb o "and" then "1" else if String.eqb o "or" then "2" else o end).
  assert (Kc : conn = "1" \/ conn = "2") by (unfold conn; destruct OB as [|o ops E _]; [auto|]; rewrite <- E; destruct Fop as [-> | ->]; auto).
  assert (NA : A <> []).
  { intro Q. apply map_eq_nil in Q. assert (L : List.length (e_inputs e) = 0%nat) by (unfold input_sizes in Q; destruct (e_inputs e); [reflexivity|discriminate]).
    destruct FI as [_ M]. destruct (propositions_of ex) as [|p l] eqn:E; [exact (match propositions_nonempty ex E with end)|]. inversion M as [|? ? M1 _]; subst. destruct M1 as (i & _ & Li).
    unfold env, engine_env in Li. cbn [pe_inputs] in Li. rewrite map_length, L in Li. lia. }
  destruct (FisRule.str_numeral d (rl_weight r)) as [_ Hw].
  assert (L : forall c, FisRule.numeral c = false -> Ascii.eqb " " c = false -> lacks c (", (" ++ ") : 12") = true -> lacks c (SpecRule.words A ++ ", " ++ SpecRule.words C ++ "(" ++ str d (rl_weight r) ++ ") : " ++ conn) = true).
  { intros c X Y Z. rewrite lacks_app in Z. apply andb_true_iff in Z. destruct Z as [Z1 Z2]. rewrite !lacks_app, (words_line A FA c X Y), (words_line C FCo c X Y), (FisRule.numeral_lacks _ c X Hw). cbn [lacks] in Z1, Z2 |- *.
    apply andb_true_iff in Z1, Z2. destruct Z1 as [-> Z1], Z2 as [-> Z2]. apply andb_true_iff in Z1, Z2. destruct Z1 as [-> Z1], Z2 as [-> Z2]. apply andb_true_iff in Z1, Z2. destruct Z1 as [-> Z1], Z2 as [-> Z2]. apply andb_true_iff in Z2. destruct Z2 as [Z2 Z3]. apply andb_true_iff in Z3. destruct Z3 as [Z3 Z4].
    destruct Kc as [-> | ->]; cbn [lacks]; rewrite ?Z2, ?Z3, ?Z4; cbn [andb]; rewrite ?Z3; reflexivity || exact Z4. }
  clearbody A C conn. destruct A as [|a A]; [congruence|]. assert (Fa : a <> "" /\ sforall FisRule.numeral a = true) by (inversion FA; assumption). destruct Fa as [a1 a2].
  assert (a3 : sforall (fun c => negb (is_space c)) a = true) by now apply numeral_solid.
  assert (SH : SpecRule.words (a :: A) ++ ", " ++ SpecRule.words C ++ "(" ++ str d (rl_weight r) ++ ") : " ++ conn = a ++ (" " ++ SpecRule.words A ++ ", " ++ SpecRule.words C ++ "(" ++ str d (rl_weight r) ++ ") : ") ++ conn).
  { cbn [SpecRule.words]. rewrite !sapp_assoc. reflexivity. }
  split.
  - rewrite SH, clean_between; auto.
    + rewrite <- SH, unquote_id; [reflexivity|]. apply L; reflexivity.
    + intros x ->. discriminate a2.
    + destruct Kc as [-> | ->]; discriminate.
    + destruct Kc as [-> | ->]; reflexivity.
    + rewrite <- SH. apply quiet_all; apply L; reflexivity.
  - split; [apply L; reflexivity|]. rewrite SH. destruct a as [|c a]; [congruence|]. split; [discriminate|]. unfold fis_heading. cbn [append String.prefix]. destruct (ascii_dec "[" c) as [<-|]; [discriminate a2|reflexivity].
Qed.
End Rules.
End Round.
