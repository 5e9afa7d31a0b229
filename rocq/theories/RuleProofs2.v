(** From the text of antecedents and rules to trees; what happens when loading fails. *)
From Coq Require Import ZArith List Bool String Ascii Arith Lia.
From Verif Require Import Base Op Norm Hedge Text SpecText TextProofs TextProofs2 Function SpecFormula FunctionProofs FunctionProofs2 FunctionTable Rule SpecRule RuleProofs.
Import ListNotations.
Local Open Scope string_scope.

Lemma blank_lex bl sp s : all_chars (fun c => bl c = true) s -> lex_from bl sp "" s = [].
Proof. induction s as [|c s IH]; cbn [all_chars lex_from]; auto. intros [-> H]. cbn [flush app]. auto. Qed.
Lemma lex_not_blank sp s : lex_from is_space sp "" s <> [] -> sempty (trim s) = false.
Proof.
  intro N. destruct (sempty (trim s)) eqn:E; auto. apply sempty_spec, trim_blank in E. destruct N. now apply blank_lex.
Qed.
Lemma tokens_not_blank s : tokens s <> [] -> sempty (trim s) = false.
Proof.
  intro N. destruct (sempty (trim s)) eqn:E; auto. apply sempty_spec, trim_blank in E. destruct N. apply tokens_blank. apply sforall_all. exact E.
Qed.
Lemma blank_tokens s : sempty (trim s) = true -> tokens s = [].
Proof. intro E. apply sempty_spec, trim_blank in E. apply tokens_blank. apply sforall_all. exact E. Qed.
Lemma lex_words sp s : (forall c, is_space c = true -> sp c = false) -> Forall word (lex_from is_space sp "" s).
Proof.
  intro D. enough (H : forall cur, sforall (fun c => negb (is_space c)) cur = true -> Forall word (lex_from is_space sp cur s)) by now apply H.
  assert (Fl : forall cur, sforall (fun c => negb (is_space c)) cur = true -> Forall word (flush cur)).
  { intros [|c r] H; [constructor|]. apply Forall_cons; [|constructor]. split; [discriminate|exact H]. }
  induction s as [|c s IH]; intros cur H; cbn [lex_from]; auto.
  destruct (is_space c) eqn:E. { apply Forall_app. split; [auto|]. now apply IH. }
  destruct (sp c) eqn:F.
  - apply Forall_app. split; [auto|]. constructor; [|now apply IH]. split; [discriminate|]. simpl. now rewrite E.
  - apply IH. rewrite sforall_app. rewrite H. simpl. now rewrite E.
Qed.

(** * Consequents *)
Lemma conclusion_nonempty env ps ts : Conclusions env ps ts -> ts <> [] /\ ps <> [].
Proof. destruct 1 as [p ts C|p ts ps us C R]; destruct C; split; discriminate. Qed.
Lemma consequent_iff env s cs : consequent_load env s = Ok cs <-> Conclusions env cs (tokens s).
Proof.
  unfold consequent_load. destruct (sempty (trim s)) eqn:E.
  - split; [discriminate|]. intro C. apply conclusion_nonempty in C. destruct C as [C _]. now rewrite blank_tokens in C.
  - apply cons_tokens_iff.
Qed.
Lemma consequent_fails env s : (exists cs, Conclusions env cs (tokens s)) \/ consequent_load env s = Throw ESyntax.
Proof.
  unfold consequent_load. destruct (sempty (trim s)) eqn:E; auto. pose proof (cons_sound env (tokens s)) as H. destruct (cons_tokens env (tokens s)); eauto; try contradiction. subst. auto.
Qed.
Lemma conclusions_unique env s cs cs' : Conclusions env cs s -> Conclusions env cs' s -> cs = cs'.
Proof. intros A B. apply cons_tokens_iff in A, B. congruence. Qed.

(** * Antecedents *)
Section Ante.
Context {T : Type} {S : Scalar T}.
Notation dt := (@default_table T S).

Lemma antecedent_lex env s : lex special_chars s <> [] -> @antecedent_load T S env s = do q <- yard_tokens dt (lex special_chars s); ante_tokens env q.
Proof.
  intro N. unfold antecedent_load. rewrite (lex_not_blank _ _ N). unfold to_postfix, space_formula. destruct (@dt_spaced T S) as [E W]. rewrite E.
  destruct (space_lex special_chars s W) as (s' & -> & L). cbn [rbind]. rewrite L. fold (lex special_chars s). destruct (yard_tokens dt (lex special_chars s)) as [q| | |] eqn:Y; cbn [rbind]; auto.
  rewrite tokens_join; auto. apply Forall_forall. intros x I. apply (yard_tokens_in _ _ _ _ Y) in I. pose proof (tokens_words s') as F. rewrite L in F. rewrite Forall_forall in F. auto.
Qed.
Lemma antecedent_total env s : match @antecedent_load T S env s with Ok e => exists q, yard_tokens dt (lex special_chars s) = Ok q /\ Postfix env e q | Throw _ => True | _ => False end.
Proof.
  destruct (lex special_chars s) as [|t ts] eqn:E.
  - unfold antecedent_load. destruct (sempty (trim s)) eqn:B; auto. unfold to_postfix, space_formula. destruct (@dt_spaced T S) as [E1 W]. rewrite E1.
    destruct (space_lex special_chars s W) as (s' & -> & L). cbn [rbind]. rewrite L. fold (lex special_chars s). rewrite E. cbn. exact I.
  - rewrite antecedent_lex by (rewrite E; discriminate). rewrite E. unfold yard_tokens. pose proof (yard_safe dt (t :: ts) ([], [])) as A.
    destruct (yard dt ([], []) (t :: ts)) as [st| | |]; cbn [rbind]; auto. pose proof (end_safe (snd st) (fst st)) as B. destruct (yard_end (fst st) (snd st)) as [q| | |] eqn:Q; cbn [rbind]; auto.
    pose proof (ante_sound env q) as X. destruct (ante_tokens env q); auto. eauto.
Qed.
Lemma antecedent_sound env s e : @antecedent_load T S env s = Ok e -> antecedent_valid env e.
Proof. intro H. pose proof (antecedent_total env s) as X. rewrite H in X. destruct X as (q & _ & P). eapply postfix_valid; eauto. Qed.

(** every token of a premise is plain *)
Definition plain (t : string) : Prop := kind_in (sig_of dt) t = None /\ ~ delimiter t.
Lemma plain_doc t : kind_in documented t = None -> ~ delimiter t -> plain t.
Proof. intros K D. split; [|exact D]. rewrite <- dt_documented. exact K. Qed.
Lemma plain_is : plain "is". Proof. split; [reflexivity|]. intros [E|[E|E]]; discriminate. Qed.
Lemma plain_hedge h : plain (hedge_name h). Proof. split; [destruct h; reflexivity|]. intros [E|[E|E]]; destruct h; discriminate. Qed.
Lemma names_in env n v : names_variable env n v -> In n (inputs_of env) \/ In n (outputs_of env).
Proof. intros [i [H _]|j _ [H _]]; apply nth_error_In in H; auto. Qed.
Lemma premise_plain env p ts : plain_names env -> Premise env p ts -> Forall plain ts.
Proof.
  intros Pn P. assert (HS : forall hs, Forall plain (map hedge_name hs)).
  { intro hs. apply Forall_forall. intros x I. apply in_map_iff in I. destruct I as (h & <- & _). apply plain_hedge. }
  assert (V : forall v r, names_variable env v r -> plain v).
  { intros v r H. apply names_in in H. destruct (Pn v) as [K D]; [tauto|]. now apply plain_doc. }
  destruct P as [v r hs n t Hv Hh Ht Hn|v r hs Hv Hh]; constructor; eauto; constructor; auto using plain_is; apply Forall_app; split; auto.
  - constructor; auto. destruct (Pn n) as [K D]; [|now apply plain_doc]. right; right. exists r. destruct Ht as [Ht _]. now apply nth_error_In in Ht.
  - constructor; auto. exact (plain_hedge Any).
Qed.
Lemma yard_plain ts : Forall plain ts -> forall Q st, yard dt (Q, st) ts = Ok (Q ++ ts, st)%list.
Proof.
  induction 1 as [|t ts [K D] F IH]; intros Q st; cbn [yard]; [now rewrite app_nil_r|]. rewrite (step_operand dt) by auto. cbn [rbind]. rewrite IH, <- app_assoc. reflexivity.
Qed.

Definition level_prec (l : level) : Z := match l with LOr => 50 | LAnd => 60 | LAtom => 61 end.
Notation Hs := (@dt_sane T S).
Notation Hc := (@dt_consistent T S).
Lemma and_level : op_level dt "and" 60 true. Proof. eexists. split; [reflexivity|]. repeat split. Qed.
Lemma or_level : op_level dt "or" 50 true. Proof. eexists. split; [reflexivity|]. repeat split. Qed.
Lemma no_operator_variable env n : plain_names env -> n = "and" \/ n = "or" -> forall v, ~ names_variable env n v.
Proof. intros Pn H v N. apply names_in in N. destruct (Pn n) as [K _]; [tauto|]. destruct H as [-> | ->]; discriminate K. Qed.

Lemma yard_infix (op : string) q p ts us e1 e2 env pl pr : op = "and" \/ op = "or" -> plain_names env -> op_level dt op q true -> (p <= q)%Z -> pl = q -> (q < pr)%Z ->
  (forall Q st, blocked dt pl st -> exists a s, yard dt (Q, st) ts = Ok (Q ++ a, s ++ st)%list /\ Postfix env e1 (a ++ s) /\ above dt pl s) ->
  (forall Q st, blocked dt pr st -> exists a s, yard dt (Q, st) us = Ok (Q ++ a, s ++ st)%list /\ Postfix env e2 (a ++ s) /\ above dt pr s) ->
  forall Q st, blocked dt p st -> exists a s, yard dt (Q, st) (ts ++ op :: us) = Ok (Q ++ a, s ++ st)%list /\ Postfix env (Opr op e1 e2) (a ++ s) /\ above dt p s.
Proof.
  intros Hop Pn OL L -> Lr IHa IHb Q st B. destruct OL as (x & G & O & Pq & As). assert (OL : op_level dt op q true) by (exists x; auto).
  rewrite yard_app. destruct (IHa Q st) as (q1 & s1 & -> & P1 & A1). { apply blocked_mono with p; auto; lia. }
  cbn [rbind yard]. rewrite (step_op dt Hc _ _ op x) by auto. rewrite (pop_ops_spec dt Hs Hc op q true x s1 st G OL A1 p L B). cbn [rbind].
  destruct (IHb ((Q ++ q1) ++ s1)%list (op :: st)) as (q2 & s2 & E2 & P2 & A2). { simpl. right. exists q, true. split; auto. }
  rewrite E2. exists (q1 ++ s1 ++ q2)%list, (s2 ++ [op])%list. rewrite <- !app_assoc. cbn [app]. split; auto. split.
  - replace (q1 ++ s1 ++ q2 ++ s2 ++ [op])%list with ((q1 ++ s1) ++ (q2 ++ s2) ++ [op])%list by now rewrite <- !app_assoc.
    constructor; auto. now apply no_operator_variable.
  - apply Forall_app. split; [apply above_mono with pr; auto; lia|]. constructor; auto. exists q, true. auto.
Qed.
Lemma yard_antecedent env lv e ts : plain_names env -> Antecedent env lv e ts -> forall Q st, blocked dt (level_prec lv) st ->
  exists q s, yard dt (Q, st) ts = Ok (Q ++ q, s ++ st)%list /\ Postfix env e (q ++ s) /\ above dt (level_prec lv) s.
Proof.
  intros Pn H. induction H as [p ts P|e ts A IH|e ts A IH|l r ts us L IHl R IHr|e ts A IH|l r ts us L IHl R IHr]; intros Q st B.
  - exists ts, []. rewrite yard_plain by (eapply premise_plain; eauto). rewrite app_nil_r. repeat split; [now constructor|apply above_nil].
  - cbn [yard]. rewrite (step_open dt Hc). cbn [rbind]. rewrite yard_app. destruct (IH Q ("(" :: st) (blocked_paren _ _ _)) as (q1 & s1 & -> & P & Ab). cbn [rbind yard].
    rewrite (step_close dt Hc (level_prec LOr)) by (auto; eapply blocked_plain; eauto). cbn [rbind yard]. exists (q1 ++ s1)%list, []. rewrite <- app_assoc, app_nil_r. repeat split; auto. apply above_nil.
  - destruct (IH Q st) as (q & s & E & P & Ab). { apply blocked_mono with 60%Z; auto; simpl; lia. } exists q, s. repeat split; auto. apply above_mono with 61%Z; auto; simpl; lia.
  - eapply (yard_infix "and" 60 60 ts us l r env 60 61); auto; try lia. apply and_level.
  - destruct (IH Q st) as (q & s & E & P & Ab). { apply blocked_mono with 50%Z; auto; simpl; lia. } exists q, s. repeat split; auto. apply above_mono with 60%Z; auto; simpl; lia.
  - eapply (yard_infix "or" 50 50 ts us l r env 50 60); auto; try lia. apply or_level.
Qed.
Lemma antecedent_tokens env lv e ts : plain_names env -> Antecedent env lv e ts -> exists q, yard_tokens dt ts = Ok q /\ Postfix env e q.
Proof.
  intros Pn H. destruct (yard_antecedent env lv e ts Pn H [] []) as (q & s & E & P & A); [exact I|]. exists (q ++ s)%list. split; auto. unfold yard_tokens. rewrite E. cbn [rbind fst snd].
  rewrite app_nil_r. rewrite (yard_end_above dt Hc (level_prec lv)) by auto. reflexivity.
Qed.
Lemma antecedent_nonempty env lv e ts : Antecedent env lv e ts -> ts <> [].
Proof. induction 1 as [p ts P| | | | |]; auto; try discriminate; [destruct P; discriminate| |]; destruct ts; discriminate. Qed.
Lemma antecedent_correct env lv e s : plain_names env -> Antecedent env lv e (lex special_chars s) -> @antecedent_load T S env s = Ok e.
Proof.
  intros Pn H. rewrite antecedent_lex by (eapply antecedent_nonempty; eauto). destruct (antecedent_tokens env lv e _ Pn H) as (q & -> & P). cbn [rbind]. now apply ante_tokens_iff.
Qed.
Lemma antecedent_unambiguous env lv lv' e e' ts : plain_names env -> Antecedent env lv e ts -> Antecedent env lv' e' ts -> e = e'.
Proof.
  intros Pn A B. destruct (antecedent_tokens env lv e _ Pn A) as (q & Eq & P), (antecedent_tokens env lv' e' _ Pn B) as (q' & Eq' & P').
  assert (q = q') by congruence. subst q'. apply ante_tokens_iff in P, P'. congruence.
Qed.
Lemma full_antecedent env pw e : writable env pw e -> Antecedent env LAtom e (full pw e).
Proof.
  induction e as [p|n l IHl r IHr]; cbn [writable full]; [now constructor|]. intros (Hn & L & R).
  replace ("(" :: full pw l ++ n :: full pw r ++ [")"])%list with ("(" :: (full pw l ++ n :: full pw r) ++ [")"])%list by now rewrite <- app_assoc. apply ante_paren.
  destruct Hn as [-> | ->].
  - apply ante_conj, ante_and; [apply ante_atom|]; auto.
  - apply ante_or; [apply ante_conj|]; apply ante_atom; auto.
Qed.
End Ante.
