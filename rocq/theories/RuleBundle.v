(** Consequences used by PropRule.v, printing of rules, and concrete engines. *)
From Coq Require Import ZArith List Bool String Ascii Arith Lia.
From Verif Require Import Base Op F64 Norm Hedge Text SpecText TextProofs TextProofs2 Function SpecFormula FunctionProofs FunctionProofs2 FunctionTable Rule SpecRule RuleProofs RuleProofs2 RuleProofs3.
Import ListNotations.
Local Open Scope string_scope.

Section B.
Context {T : Type} {S : Scalar T}.
Lemma rule_load_iff env text (r r' : rule T) : rule_load env text r = (r', Ok tt) <->
  exists body A C o e cs w, uncommented text body /\ RuleText (tokens body) A C o /\ antecedent_load env (words A) = Ok e /\ Conclusions env cs C /\
    match o with None => w = s_1 | Some t => to_scalar t = Ok w end /\
    r' = mkRule true text w s_0 false (words A) (Some e) (words C) cs.
Proof.
  rewrite load_iff. split.
  - intros (A & C & o & e & cs & w & H). exists (before_hash text), A, C, o, e, cs, w. split; [apply before_hash_spec|exact H].
  - intros (body & A & C & o & e & cs & w & U & H). apply before_hash_iff in U. subst body. exists A, C, o, e, cs, w. exact H.
Qed.
Lemma grammar_loads env text body A C o lv e cs w (r : rule T) : plain_names env ->
  uncommented text body -> RuleText (tokens body) A C o -> Antecedent env lv e (lex_from is_space (one_of special_chars) "" (words A)) ->
  Conclusions env cs C -> match o with None => w = s_1 | Some t => to_scalar t = Ok w end ->
  rule_load env text r = (mkRule true text w s_0 false (words A) (Some e) (words C) cs, Ok tt).
Proof.
  intros Pn U R A0 HC W. apply rule_load_iff. exists body, A, C, o, e, cs, w. split; [exact U|]. split; [exact R|]. split; [exact (antecedent_correct env lv e (words A) Pn A0)|].
  split; [exact HC|]. split; [exact W|reflexivity].
Qed.
Lemma accepted_postfix env s e : @antecedent_load T S env s = Ok e ->
  exists q, yard_tokens (@default_table T S) (lex_from is_space (one_of special_chars) "" s) = Ok q /\ Postfix env e q.
Proof. intro H. pose proof (@antecedent_total T S env s) as X. rewrite H in X. exact X. Qed.
Lemma full_in pw e t : In t (full pw e) -> t = "(" \/ t = ")" \/ uses t e \/ exists p, In t (pw p).
Proof.
  induction e as [p|n l IHl r IHr]; cbn [full uses]; [eauto|]. intros [E|I]; auto. apply in_app_iff in I. destruct I as [I|[E|I]].
  - destruct (IHl I) as [H|[H|[H|H]]]; auto 9.
  - auto 9.
  - apply in_app_iff in I. destruct I as [I|[I|[]]]; auto. destruct (IHr I) as [H|[H|[H|H]]]; auto 9.
Qed.
Lemma writable_uses env pw e t : writable env pw e -> uses t e -> t = "and" \/ t = "or".
Proof. induction e as [p|n l IHl r IHr]; cbn [writable uses]; [tauto|]. intros (H & L & R) [<-|[U|U]]; auto. Qed.
Lemma full_text env pw e : plain_names env -> writable env pw e -> (forall p t, In t (pw p) -> lexeme special_chars t) ->
  @antecedent_load T S env (join (full pw e) " ") = Ok e.
Proof.
  intros Pn W L. apply (antecedent_correct env LAtom e); auto. rewrite lex_join; [now apply full_antecedent|].
  apply Forall_forall. intros t I. apply full_in in I. destruct I as [-> |[-> |[U|[p I]]]]; try (apply lexemeb_ok; reflexivity); eauto.
  apply (writable_uses _ _ _ _ W) in U. destruct U as [-> | ->]; apply lexemeb_ok; reflexivity.
Qed.
Lemma precedence env a b c p q r s : plain_names env -> Premise env a p -> Premise env b q -> Premise env c r ->
  (lex_from is_space (one_of special_chars) "" s = p ++ "or" :: q ++ "and" :: r -> @antecedent_load T S env s = Ok (Opr "or" (Prp a) (Opr "and" (Prp b) (Prp c))))%list /\
  (lex_from is_space (one_of special_chars) "" s = p ++ "and" :: q ++ "or" :: r -> @antecedent_load T S env s = Ok (Opr "or" (Opr "and" (Prp a) (Prp b)) (Prp c)))%list /\
  (lex_from is_space (one_of special_chars) "" s = p ++ "and" :: q ++ "and" :: r -> @antecedent_load T S env s = Ok (Opr "and" (Opr "and" (Prp a) (Prp b)) (Prp c)))%list /\
  (lex_from is_space (one_of special_chars) "" s = p ++ "or" :: q ++ "or" :: r -> @antecedent_load T S env s = Ok (Opr "or" (Opr "or" (Prp a) (Prp b)) (Prp c)))%list.
Proof.
  intros Pn A B C. assert (X : forall lv e ts, Antecedent env lv e ts -> lex_from is_space (one_of special_chars) "" s = ts -> @antecedent_load T S env s = Ok e).
  { intros lv e ts H E. apply (antecedent_correct env lv e s Pn). unfold lex. rewrite E. exact H. }
  pose proof (ante_prop env a p A) as PA. pose proof (ante_prop env b q B) as PB. pose proof (ante_prop env c r C) as PC.
  split; [|split; [|split]]; eapply X.
  - apply ante_or; [apply ante_conj, ante_atom, PA|]. apply ante_and; [apply ante_atom, PB|exact PC].
  - replace (p ++ "and" :: q ++ "or" :: r)%list with ((p ++ "and" :: q) ++ "or" :: r)%list by now rewrite <- app_assoc.
    apply ante_or; [apply ante_conj, ante_and; [apply ante_atom, PA|exact PB]|apply ante_atom, PC].
  - replace (p ++ "and" :: q ++ "and" :: r)%list with ((p ++ "and" :: q) ++ "and" :: r)%list by now rewrite <- app_assoc.
    apply ante_and; [apply ante_and; [apply ante_atom, PA|exact PB]|exact PC].
  - replace (p ++ "or" :: q ++ "or" :: r)%list with ((p ++ "or" :: q) ++ "or" :: r)%list by now rewrite <- app_assoc.
    apply ante_or; [apply ante_or; [apply ante_conj, ante_atom, PA|apply ante_atom, PB]|apply ante_atom, PC].
Qed.
Lemma loaded_modify enabled env cs d s : consequent_load env s = Ok cs -> exists l, @consequent_modify T S enabled d cs = Ok l.
Proof. intro H. apply consequent_iff in H. eapply modify_total; eauto. Qed.
Lemma unloaded_refused enabled degree conj disj (r : rule T) : rule_loaded r = false ->
  rule_activate enabled degree conj disj r = Throw ERule /\ rule_trigger enabled r = Throw ERule.
Proof. intro H. unfold rule_activate, rule_trigger. rewrite H. auto. Qed.
End B.

(** * printing *)
Lemma nth_first n l i : first_named n l i -> nth i l "" = n.
Proof. intros [H _]. now apply nth_error_nth. Qed.
Lemma variable_name_of env n v : names_variable env n v -> variable_name env v = n.
Proof.
  intros [i [H _]|j _ [H _]]; unfold inputs_of, outputs_of in H; rewrite nth_error_map in H; simpl.
  - destruct (nth_error (pe_inputs env) i); [|discriminate]. now injection H.
  - destruct (nth_error (pe_outputs env) j); [|discriminate]. now injection H.
Qed.
Lemma output_name_of env n j : first_named n (outputs_of env) j -> variable_name env (VOut j) = n.
Proof.
  intros [H _]. unfold outputs_of in H. rewrite nth_error_map in H. simpl. destruct (nth_error (pe_outputs env) j); [|discriminate]. now injection H.
Qed.
Lemma word_nonempty w : word w -> w <> "". Proof. now intros [H _]. Qed.
Lemma word_hedge h : word (hedge_name h). Proof. destruct h; split; auto; discriminate. Qed.
Lemma tokens_spaced ts : Forall word ts -> forall s, tokens (spaced ts ++ s) = (ts ++ tokens s)%list.
Proof.
  induction 1 as [|t ts W F IH]; intro s; [reflexivity|]. change (spaced (t :: ts)) with (t ++ " " ++ spaced ts). rewrite !sapp_assoc.
  change (t ++ " " ++ spaced ts ++ s) with (t ++ String " " (spaced ts ++ s)). rewrite tokens_space by reflexivity. now rewrite tokens_word, IH.
Qed.
Lemma words_hedges hs : Forall word (map hedge_name hs).
Proof. apply Forall_forall. intros x I. apply in_map_iff in I. destruct I as (h & <- & _). apply word_hedge. Qed.
Lemma print_term env v n hs t r rest : variable_name env r = v -> nth t (terms_of env r) "" = n -> word v -> word n ->
  tokens (proposition_string env (mkProp r hs (Some t)) ++ String " " rest) = (v :: "is" :: map hedge_name hs ++ [n] ++ tokens rest)%list.
Proof.
  intros Hv Hn Wv Wn. unfold proposition_string. cbn [pr_var pr_hedges pr_term]. rewrite Hv, Hn. destruct hs as [|h hs].
  - simpl (match [] with [] => _ | _ => _ end). rewrite !sapp_assoc. change (v ++ "" ++ " is " ++ n ++ String " " rest) with (v ++ String " " ("is" ++ String " " (n ++ String " " rest))).
    rewrite tokens_space, tokens_word by auto. rewrite tokens_space by auto. rewrite tokens_space by auto. now rewrite (tokens_word n).
  - rewrite !sapp_assoc. cbn [append]. change (v ++ String " " (String "i" (String "s" (String " " ?x)))) with (v ++ String " " ("is" ++ String " " x)) || idtac.
    rewrite tokens_space, tokens_word by auto. change (String "i" (String "s" (String " " (spaced (map hedge_name (h :: hs)) ++ n ++ String " " rest)))) with ("is" ++ String " " (spaced (map hedge_name (h :: hs)) ++ n ++ String " " rest)).
    rewrite tokens_space by auto. rewrite tokens_spaced by apply words_hedges. rewrite tokens_space by auto. now rewrite (tokens_word n).
Qed.
Lemma print_any env v hs r rest : variable_name env r = v -> word v ->
  tokens (proposition_string env (mkProp r (hs ++ [Any]) None) ++ String " " rest) = (v :: "is" :: map hedge_name hs ++ ["any"] ++ tokens rest)%list.
Proof.
  intros Hv Wv. unfold proposition_string. cbn [pr_var pr_hedges pr_term]. rewrite Hv. remember (hs ++ [Any])%list as l. destruct l as [|h l]; [destruct hs; discriminate|].
  rewrite !sapp_assoc. cbn [append]. rewrite tokens_space, tokens_word by auto.
  change (String "i" (String "s" (String " " (spaced (map hedge_name (h :: l)) ++ String " " rest)))) with ("is" ++ String " " (spaced (map hedge_name (h :: l)) ++ String " " rest)).
  rewrite tokens_space by auto. rewrite tokens_spaced by apply words_hedges. rewrite Heql, map_app. cbn [map hedge_name]. rewrite <- app_assoc.
  change (String " " rest) with ("" ++ String " " rest). rewrite tokens_space by reflexivity. reflexivity.
Qed.
Lemma tokens_end s : tokens (s ++ String " " "") = tokens s.
Proof. rewrite tokens_space by reflexivity. simpl. now rewrite app_nil_r. Qed.
Lemma word_nth n l i : Forall word l -> first_named n l i -> word n.
Proof. intros F [H _]. apply nth_error_In in H. rewrite Forall_forall in F. auto. Qed.
Lemma consequent_prints env cs ts : Conclusions env cs ts -> Forall word (outputs_of env) -> (forall v, Forall word (terms_of env v)) ->
  consequent_load env (consequent_string env cs) = Ok cs.
Proof.
  intros C WO WT. apply consequent_iff. enough (E : tokens (consequent_string env cs) = ts) by now rewrite E.
  unfold consequent_string. induction C as [p ts [v j hs n t Hv Ht Hn]|p ts ps us [v j hs n t Hv Ht Hn] R IH].
  - cbn [map join]. rewrite <- tokens_end. rewrite (print_term env v n); auto using output_name_of, nth_first; eauto using word_nth.
  - destruct ps as [|q ps]; [inversion R|]. change (join (map (proposition_string env) (mkProp (VOut j) hs (Some t) :: q :: ps)) " and ") with
      (proposition_string env (mkProp (VOut j) hs (Some t)) ++ String " " ("and" ++ String " " (join (map (proposition_string env) (q :: ps)) " and "))).
    rewrite (print_term env v n); auto using output_name_of, nth_first; eauto using word_nth. rewrite tokens_space by reflexivity. rewrite IH.
    cbn [app]. rewrite <- app_assoc. reflexivity.
Qed.
Lemma premise_prints env p ts rest : Premise env p ts -> Forall word (inputs_of env) -> Forall word (outputs_of env) -> (forall v, Forall word (terms_of env v)) ->
  tokens (proposition_string env p ++ String " " rest) = (ts ++ tokens rest)%list.
Proof.
  intros P WI WO WT. assert (WV : forall v r, names_variable env v r -> word v) by (intros v r [i H|j _ H]; eauto using word_nth).
  destruct P as [v r hs n t Hv Hh Ht Hn|v r hs Hv Hh].
  - rewrite (print_term env v n); auto using variable_name_of, nth_first; eauto using word_nth. simpl. now rewrite <- app_assoc.
  - rewrite (print_any env v); auto using variable_name_of; eauto. simpl. now rewrite <- app_assoc.
Qed.
Lemma postfix_prints env e q : Postfix env e q -> Forall word (inputs_of env) -> Forall word (outputs_of env) -> (forall v, Forall word (terms_of env v)) ->
  tokens (expression_postfix env e) = q /\ ante_tokens env (tokens (expression_postfix env e)) = Ok e.
Proof.
  intros P WI WO WT. assert (E : forall rest, tokens (expression_postfix env e ++ String " " rest) = (q ++ tokens rest)%list).
  { induction P as [p ts P|n l r ts us N V L IHl R IHr]; intro rest; cbn [expression_postfix]; [now apply premise_prints|].
    rewrite !sapp_assoc. change (" " ++ expression_postfix env r ++ " " ++ n ++ " " ++ String " " rest) with (String " " (expression_postfix env r ++ String " " (n ++ String " " (String " " rest)))).
    rewrite IHl, IHr. rewrite tokens_space by reflexivity. rewrite tokens_word by (destruct N as [-> | ->]; split; auto; discriminate).
    change (String " " rest) with ("" ++ String " " rest). rewrite tokens_space by reflexivity. cbn [app]. now rewrite <- !app_assoc. }
  assert (E1 : tokens (expression_postfix env e) = q) by (rewrite <- tokens_end, E; simpl; now rewrite app_nil_r).
  split; auto. rewrite E1. now apply ante_tokens_iff.
Qed.

(** * a concrete engine: inputs a (x), b (x, y); output o (u, v) *)
Definition demo_env : penv := mkPenv [mkPvar "a" ["x"]; mkPvar "b" ["x"; "y"]] [mkPvar "o" ["u"; "v"]].
#[local] Hint Extern 9 (Scalar _) => exact (F64Scalar fp_default) : typeclass_instances.
Definition f64_eqb (a b : f64) : bool := @s_eqb f64 (F64Scalar fp_default) a b.

Definition env_names (env : penv) : list string :=
  (inputs_of env ++ outputs_of env ++ flat_map pv_terms (pe_inputs env) ++ flat_map pv_terms (pe_outputs env))%list.
Lemma env_names_all env v n : In n (terms_of env v) -> In n (env_names env).
Proof.
  unfold env_names. rewrite !in_app_iff. destruct v as [i|j]; simpl; intro I.
  - destruct (nth_error (pe_inputs env) i) as [x|] eqn:E; [|destruct I]. apply nth_error_In in E. right; right; left. apply in_flat_map. eauto.
  - destruct (nth_error (pe_outputs env) j) as [x|] eqn:E; [|destruct I]. apply nth_error_In in E. right; right; right. apply in_flat_map. eauto.
Qed.
Definition plainb (n : string) : bool := match kind_in documented n with None => negb (is_delimiter n) | _ => false end.
Lemma plainb_ok env : forallb plainb (env_names env) = true -> plain_names env.
Proof.
  intros H n I. rewrite forallb_forall in H. assert (J : In n (env_names env)).
  { destruct I as [I|[I|[v I]]]; [| |eapply env_names_all; eauto]; unfold env_names; rewrite !in_app_iff; auto. }
  specialize (H n J). unfold plainb in H. destruct (kind_in documented n); [discriminate|]. split; auto.
  unfold is_delimiter in H. intros [-> |[-> | ->]]; discriminate.
Qed.
Lemma demo_plain : plain_names demo_env. Proof. apply plainb_ok. reflexivity. Qed.
Lemma demo_rule : let '(r, o) := rule_load demo_env " if a is very x and (b is not y or o is any) then o is very u and o is v with 0.5 # comment" (rule_new "" s_1) in o = Ok tt /\
  rl_antecedent r = Some (Opr "and" (Prp (mkProp (VIn 0) [Very] (Some 0))) (Opr "or" (Prp (mkProp (VIn 1) [Not] (Some 1))) (Prp (mkProp (VOut 0) [Any] None)))) /\
  rl_consequent r = [mkProp (VOut 0) [Very] (Some 0); mkProp (VOut 0) [] (Some 1)] /\ f64_eqb (rl_weight r) (s_half) = true.
Proof. vm_compute. auto. Qed.

(** no text of the grammar ends with an operator *)
Lemma premise_last env p ts : Premise env p ts -> plain_names env -> last ts "" <> "and".
Proof.
  intros P Pn. pose proof (@premise_plain _ (F64Scalar fp_default) env p ts Pn P) as F. intro E. assert (N : ts <> []) by (destruct P; discriminate).
  apply (app_removelast_last "") in N. rewrite E in N. rewrite N in F. apply Forall_app in F. destruct F as [_ F]. apply Forall_inv in F. destruct F as [F _]. discriminate F.
Qed.
Lemma last_app_cons {A} (l : list A) x r d : last (l ++ x :: r) d = last (x :: r) d.
Proof. induction l as [|y l IH]; auto. cbn [app]. rewrite <- IH. destruct (l ++ x :: r)%list eqn:E; [destruct l; discriminate|reflexivity]. Qed.
Lemma antecedent_last env lv e ts : Antecedent env lv e ts -> plain_names env -> last ts "" <> "and".
Proof.
  induction 1 as [p ts P|e ts A IH|e ts A IH|l r ts us L IHl R IHr|e ts A IH|l r ts us L IHl R IHr]; intro Pn; auto.
  - eapply premise_last; eauto.
  - change ("(" :: ts ++ [")"])%list with (("(" :: ts) ++ [")"])%list. rewrite last_last. discriminate.
  - rewrite last_app_cons. apply antecedent_nonempty in R. destruct us; [congruence|]. change (last ("and" :: s :: us) "") with (last (s :: us) ""). auto.
  - rewrite last_app_cons. apply antecedent_nonempty in R. destruct us; [congruence|]. change (last ("or" :: s :: us) "") with (last (s :: us) ""). auto.
Qed.
Lemma odd_antecedents : exists env e, plain_names env /\
  antecedent_load env "a is x b is y and" = Ok e /\ antecedent_load env "a and is x b is y" = Ok e /\ antecedent_load env "a is x and b is y" = Ok e /\
  (forall lv e', ~ Antecedent env lv e' ["a"; "is"; "x"; "b"; "is"; "y"; "and"]).
Proof.
  exists demo_env. eexists. split; [exact demo_plain|]. split; [vm_compute; reflexivity|]. split; [vm_compute; reflexivity|]. split; [vm_compute; reflexivity|].
  intros lv e' A. apply antecedent_last in A; [|exact demo_plain]. now apply A.
Qed.
Definition max_env : penv := mkPenv [mkPvar "max" ["x"]; mkPvar "b" ["x"]] [].
Lemma first0 n l : first_named n (n :: l) 0. Proof. split; [reflexivity|]. intros k H. lia. Qed.
Lemma not_hedge t : hedge_of_name t = None -> ~ hedge_word t. Proof. apply hedge_of_none. Qed.
Lemma function_name : exists env e, Antecedent env LOr e ["max"; "is"; "x"; "and"; "b"; "is"; "x"] /\ antecedent_load env "max is x and b is x" = Throw ESyntax.
Proof.
  exists max_env, (Opr "and" (Prp (mkProp (VIn 0) [] (Some 0))) (Prp (mkProp (VIn 1) [] (Some 0)))). split; [|vm_compute; reflexivity].
  apply ante_conj. change ["max"; "is"; "x"; "and"; "b"; "is"; "x"] with (["max"; "is"; "x"] ++ "and" :: ["b"; "is"; "x"])%list. apply ante_and; [apply ante_atom|]; apply ante_prop.
  - apply (premise_term max_env "max" (VIn 0) [] "x" 0); [constructor; apply first0|auto|apply first0|now apply not_hedge].
  - apply (premise_term max_env "b" (VIn 1) [] "x" 0); [|auto|apply first0|now apply not_hedge]. apply find_variable_iff. reflexivity.
Qed.
Definition dash_env : penv := mkPenv [mkPvar "a-b" ["x"]] [].
Lemma operator_character : exists env e, plain_names env /\ Antecedent env LOr e (tokens "a-b is x") /\ antecedent_load env "a-b is x" = Throw ESyntax.
Proof.
  exists dash_env, (Prp (mkProp (VIn 0) [] (Some 0))). split; [apply plainb_ok; reflexivity|]. split; [|vm_compute; reflexivity]. apply ante_conj, ante_atom, ante_prop.
  apply (premise_term dash_env "a-b" (VIn 0) [] "x" 0); [constructor; apply first0|auto|apply first0|now apply not_hedge].
Qed.
Lemma infix_loses : exists env e e', antecedent_load env "(a is x or b is y) and b is x" = Ok e /\ antecedent_load env (expression_infix env e) = Ok e' /\ e <> e'.
Proof.
  exists demo_env, (Opr "and" (Opr "or" (Prp (mkProp (VIn 0) [] (Some 0))) (Prp (mkProp (VIn 1) [] (Some 1)))) (Prp (mkProp (VIn 1) [] (Some 0)))),
    (Opr "or" (Prp (mkProp (VIn 0) [] (Some 0))) (Opr "and" (Prp (mkProp (VIn 1) [] (Some 1))) (Prp (mkProp (VIn 1) [] (Some 0))))).
  split; [vm_compute; reflexivity|]. split; [vm_compute; reflexivity|]. discriminate.
Qed.
