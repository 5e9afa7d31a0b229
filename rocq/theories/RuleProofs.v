(** Consequents and the postfix form of antecedents: the machines accept exactly the language of SpecRule.v. *)
From Coq Require Import ZArith List Bool String Ascii Arith Lia.
From Verif Require Import Base Op Norm Hedge Text SpecText TextProofs TextProofs2 Function SpecFormula FunctionProofs FunctionProofs2 FunctionTable Rule SpecRule.
Import ListNotations.
Local Open Scope string_scope.

Lemma find_name_spec n l : match find_name n l with Some i => first_named n l i | None => ~ In n l end.
Proof.
  induction l as [|m l IH]; simpl; auto. destruct (String.eqb_spec m n) as [->|D].
  - split; [reflexivity|]. intros k Hk. lia.
  - destruct (find_name n l) as [i|]; simpl.
    + destruct IH as [A B]. split; auto. intros [|k] Hk; simpl; [congruence|]. apply B. lia.
    + intros [E|I]; auto.
Qed.
Lemma first_named_unique n l i j : first_named n l i -> first_named n l j -> i = j.
Proof. intros [A B] [C D]. destruct (lt_eq_lt_dec i j) as [[L|E]|L]; auto; exfalso; [exact (D _ L A)|exact (B _ L C)]. Qed.
Lemma find_name_iff n l i : find_name n l = Some i <-> first_named n l i.
Proof.
  pose proof (find_name_spec n l) as H. split; intro E.
  - now rewrite E in H.
  - destruct (find_name n l) as [j|]; [f_equal; eapply first_named_unique; eauto|]. destruct H. destruct E as [E _]. now apply nth_error_In in E.
Qed.
Lemma find_name_none n l : find_name n l = None <-> ~ In n l.
Proof.
  pose proof (find_name_spec n l) as H. split; intro E; [now rewrite E in H|]. destruct (find_name n l) as [j|]; auto. destruct E. destruct H as [H _]. now apply nth_error_In in H.
Qed.
Lemma find_variable_iff env n v : find_variable env n = Some v <-> names_variable env n v.
Proof.
  unfold find_variable, find_input, find_output. split.
  - destruct (find_name n (map pv_name (pe_inputs env))) as [i|] eqn:E.
    + intros [= <-]. constructor. now apply find_name_iff.
    + destruct (find_name n (map pv_name (pe_outputs env))) as [j|] eqn:F; [|discriminate]. intros [= <-]. constructor; [now apply find_name_none|now apply find_name_iff].
  - intros [i H|j N H].
    + apply find_name_iff in H. unfold inputs_of in H. now rewrite H.
    + apply find_name_none in N. apply find_name_iff in H. unfold inputs_of, outputs_of in *. now rewrite N, H.
Qed.
Lemma find_variable_none env n : find_variable env n = None <-> forall v, ~ names_variable env n v.
Proof.
  split.
  - intros E v H. apply find_variable_iff in H. congruence.
  - intro H. destruct (find_variable env n) as [v|] eqn:E; auto. apply find_variable_iff in E. now destruct (H v).
Qed.
Lemma hedge_name_of h : hedge_of_name (hedge_name h) = Some h. Proof. destruct h; reflexivity. Qed.
Lemma hedge_of_iff t h : hedge_of_name t = Some h <-> hedge_name h = t.
Proof.
  split; [|intros <-; apply hedge_name_of]. unfold hedge_of_name. repeat match goal with |- context [String.eqb t ?x] => destruct (String.eqb_spec t x) as [->|?]; [intro X; injection X as <-; reflexivity|] end. discriminate.
Qed.
Lemma hedge_of_none t : hedge_of_name t = None <-> ~ hedge_word t.
Proof.
  split.
  - intros E [h H]. rewrite <- H, hedge_name_of in E. discriminate.
  - intro H. destruct (hedge_of_name t) as [h|] eqn:E; auto. destruct H. exists h. now apply hedge_of_iff.
Qed.
Lemma find_term_iff env v n t : find_term env v n = Some t <-> first_named n (terms_of env v) t. Proof. apply find_name_iff. Qed.

(** * Consequents *)
Lemma cons_loop_app env st ts us : cons_loop env st (ts ++ us) = do st' <- cons_loop env st ts; cons_loop env st' us.
Proof. revert st; induction ts as [|t ts IH]; intro st; cbn [cons_loop app]; auto. destruct (cons_step env st t); cbn [rbind]; auto. Qed.
Lemma cons_hedges env hs : forall p cs, cons_loop env (CHedgeTerm, p :: cs) (map hedge_name hs) = Ok (CHedgeTerm, mkProp (pr_var p) (pr_hedges p ++ hs) (pr_term p) :: cs).
Proof.
  induction hs as [|h hs IH]; intros p cs; cbn [map cons_loop].
  - rewrite app_nil_r. destruct p; reflexivity.
  - cbn [cons_step]. rewrite hedge_name_of. cbn [rbind]. rewrite IH. unfold add_hedge. cbn [pr_var pr_hedges pr_term]. now rewrite <- app_assoc.
Qed.
Lemma cons_conclusion env p ts cs : Conclusion env p ts -> cons_loop env (CVar, cs) ts = Ok (CAndWith, p :: cs).
Proof.
  destruct 1 as [v j hs n t Hv Ht Hn]. cbn [cons_loop cons_step]. unfold find_output. apply find_name_iff in Hv. unfold outputs_of in Hv. rewrite Hv. cbn [rbind cons_loop cons_step]. change (String.eqb "is" "is") with true. cbv iota. cbn [rbind].
  rewrite cons_loop_app, cons_hedges. cbn [rbind cons_loop cons_step]. apply hedge_of_none in Hn. rewrite Hn. cbn [pr_var].
  apply find_term_iff in Ht. rewrite Ht. cbn [rbind]. reflexivity.
Qed.
Lemma cons_complete env ps ts : Conclusions env ps ts -> forall cs, cons_loop env (CVar, cs) ts = Ok (CAndWith, rev ps ++ cs)%list.
Proof.
  induction 1 as [p ts C|p ts ps us C R IH]; intro cs.
  - now rewrite (cons_conclusion env p ts cs C).
  - rewrite cons_loop_app, (cons_conclusion env p ts cs C). cbn [rbind cons_loop cons_step]. simpl String.eqb. cbv iota. cbn [rbind]. rewrite IH. simpl. now rewrite <- app_assoc.
Qed.

(** what has been read when the machine is in a given state; [acc] are the finished conclusions with their words *)
Fixpoint cons_words (l : list (proposition * list string)) : list string :=
  match l with [] => [] | [x] => snd x | x :: l => cons_words l ++ "and" :: snd x end.
Definition cons_inv (env : penv) (st : cstate * list proposition) (seen : list string) : Prop :=
  exists done : list (proposition * list string), Forall (fun x => Conclusion env (fst x) (snd x)) done /\
  match fst st with
  | CVar => snd st = map fst done /\ seen = match done with [] => [] | _ => cons_words done ++ ["and"] end
  | CAndWith => done <> [] /\ snd st = map fst done /\ seen = cons_words done
  | CIs | CHedgeTerm => exists v j hs, first_named v (outputs_of env) j /\ snd st = mkProp (VOut j) hs None :: map fst done /\
      seen = (match done with [] => [] | _ => cons_words done ++ ["and"] end ++ v :: match fst st with CIs => [] | _ => "is" :: map hedge_name hs end) /\
      (fst st = CIs -> hs = [])
  end%list.
Lemma cons_words_cons x l : cons_words (x :: l) = (match l with [] => [] | _ => cons_words l ++ ["and"] end ++ snd x)%list.
Proof. destruct l; simpl; auto. now rewrite <- app_assoc. Qed.
Lemma cons_step_inv env st seen t : cons_inv env st seen -> match cons_step env st t with Ok st' => cons_inv env st' (seen ++ [t])%list | Throw e => e = ESyntax | _ => False end.
Proof.
  destruct st as [s cs]. intros (done & F & H). destruct s; cbn [fst snd] in H; cbn [cons_step].
  - destruct H as [-> ->]. unfold find_output. destruct (find_name t (map pv_name (pe_outputs env))) as [j|] eqn:E; auto.
    exists done. split; auto. cbn [fst snd]. exists t, j, []. split; [now apply find_name_iff|]. repeat split; auto.
  - destruct H as (v & j & hs & Hv & -> & -> & Hh). destruct (String.eqb_spec t "is") as [->|]; auto. exists done. split; auto. cbn [fst snd].
    exists v, j, hs. split; [exact Hv|]. repeat split; auto. all: try discriminate. rewrite (Hh eq_refl). simpl. rewrite <- app_assoc. reflexivity.
  - destruct H as (v & j & hs & Hv & -> & -> & _). destruct (hedge_of_name t) as [h|] eqn:E.
    + exists done. split; auto. cbn [fst snd]. exists v, j, (hs ++ [h])%list. split; [exact Hv|]. repeat split; auto. all: try discriminate.
      apply hedge_of_iff in E. rewrite map_app. simpl. rewrite E, <- app_assoc. reflexivity.
    + cbn [pr_var]. destruct (find_term env (VOut j) t) as [k|] eqn:G; auto.
      exists ((mkProp (VOut j) hs (Some k), v :: "is" :: map hedge_name hs ++ [t])%list :: done). split.
      { constructor; auto. cbn [fst snd]. constructor; auto; [now apply find_term_iff|now apply hedge_of_none]. }
      cbn [fst snd]. split; [discriminate|]. split; [reflexivity|]. rewrite cons_words_cons. cbn [snd]. rewrite <- app_assoc. reflexivity.
  - destruct H as (N & -> & ->). destruct (String.eqb_spec t "and") as [->|]; auto. exists done. split; auto. cbn [fst snd]. split; auto. destruct done; [now destruct N|reflexivity].
Qed.
Lemma cons_loop_inv env ts : forall st seen, cons_inv env st seen -> match cons_loop env st ts with Ok st' => cons_inv env st' (seen ++ ts)%list | Throw e => e = ESyntax | _ => False end.
Proof.
  induction ts as [|t ts IH]; intros st seen I; cbn [cons_loop]; [now rewrite app_nil_r|]. pose proof (cons_step_inv env st seen t I) as H.
  destruct (cons_step env st t) as [st'|e| |]; cbn [rbind]; auto. specialize (IH st' _ H). now rewrite <- app_assoc in IH.
Qed.
Lemma conclusions_snoc env ps ts p us : Conclusions env ps ts -> Conclusion env p us -> Conclusions env (ps ++ [p]) (ts ++ "and" :: us).
Proof.
  intros H C. induction H as [q ts Q|q ts ps ws Q R IH]; simpl.
  - apply conclusions_and; auto. now constructor.
  - rewrite <- app_assoc. simpl. now apply conclusions_and.
Qed.
Lemma cons_words_ok env done : Forall (fun x => Conclusion env (fst x) (snd x)) done -> done <> [] -> Conclusions env (rev (map fst done)) (cons_words done).
Proof.
  induction 1 as [|[p us] done C F IH]; intro N; [now destruct N|]. cbn [map rev fst snd] in *. destruct done as [|d done].
  - simpl. now constructor.
  - rewrite cons_words_cons. cbn [snd]. rewrite <- app_assoc. apply conclusions_snoc; auto. apply IH. discriminate.
Qed.
Lemma cons_sound env ts : match cons_tokens env ts with Ok cs => Conclusions env cs ts | Throw e => e = ESyntax | _ => False end.
Proof.
  unfold cons_tokens. pose proof (cons_loop_inv env ts (CVar, []) []) as H. destruct (cons_loop env (CVar, []) ts) as [[s cs]|e| |]; cbn [rbind fst snd].
  - specialize (H (ex_intro _ [] (conj (Forall_nil _) (conj eq_refl eq_refl)))). destruct H as (done & F & H). destruct s; cbn [fst snd] in H; auto. destruct H as (N & -> & E). simpl in E. subst ts. now apply cons_words_ok.
  - apply H. exists []. repeat split; auto.
  - apply H. exists []. repeat split; auto.
  - apply H. exists []. repeat split; auto.
Qed.
Lemma cons_tokens_iff env ts cs : cons_tokens env ts = Ok cs <-> Conclusions env cs ts.
Proof.
  split; intro H.
  - pose proof (cons_sound env ts) as X. now rewrite H in X.
  - unfold cons_tokens. rewrite (cons_complete env cs ts H []). cbn [rbind fst snd]. rewrite app_nil_r. now rewrite rev_involutive.
Qed.

(** * Postfix antecedents *)
Lemma ante_loop_app env st ts us : ante_loop env st (ts ++ us) = do st' <- ante_loop env st ts; ante_loop env st' us.
Proof. revert st; induction ts as [|t ts IH]; intro st; cbn [ante_loop app]; auto. destruct (ante_step env st t); cbn [rbind]; auto. Qed.
Lemma ante_hedges env hs : ~ In Any hs -> forall p es, ante_loop env (AHedgeTerm, Prp p :: es) (map hedge_name hs) = Ok (AHedgeTerm, Prp (mkProp (pr_var p) (pr_hedges p ++ hs) (pr_term p)) :: es).
Proof.
  induction hs as [|h hs IH]; intros N p es; cbn [map ante_loop].
  - rewrite app_nil_r. destruct p; reflexivity.
  - cbn [ante_step a_variable]. rewrite hedge_name_of. cbn [rbind]. replace (match h with Any => AVarAndOr | _ => AHedgeTerm end) with AHedgeTerm by (destruct h; auto; destruct N; left; auto).
    rewrite IH by (intro; apply N; now right). unfold add_hedge. cbn [pr_var pr_hedges pr_term]. now rewrite <- app_assoc.
Qed.
Lemma ante_premise env p ts s es : Premise env p ts -> a_variable s = true -> ante_loop env (s, es) ts = Ok (AVarAndOr, Prp p :: es).
Proof.
  intros P V. destruct P as [v r hs n t Hv Hh Ht Hn|v r hs Hv Hh].
  - cbn [ante_loop ante_step]. rewrite V. apply find_variable_iff in Hv. rewrite Hv. cbn [rbind ante_loop ante_step a_variable]. change (String.eqb "is" "is") with true. cbv iota. cbn [rbind].
    rewrite ante_loop_app, ante_hedges by auto. cbn [rbind ante_loop ante_step a_variable pr_var]. apply hedge_of_none in Hn. rewrite Hn. apply find_term_iff in Ht. rewrite Ht. reflexivity.
  - cbn [ante_loop ante_step]. rewrite V. apply find_variable_iff in Hv. rewrite Hv. cbn [rbind ante_loop ante_step a_variable]. change (String.eqb "is" "is") with true. cbv iota. cbn [rbind].
    rewrite ante_loop_app, ante_hedges by auto. cbn [rbind ante_loop ante_step a_variable pr_var]. change (hedge_of_name "any") with (Some Any). reflexivity.
Qed.
Lemma ante_complete env e ts : Postfix env e ts -> forall s es, a_variable s = true -> ante_loop env (s, es) ts = Ok (AVarAndOr, e :: es).
Proof.
  induction 1 as [p ts P|n l r ts us N V L IHl R IHr]; intros s es Vs.
  - now apply ante_premise.
  - rewrite !ante_loop_app, (IHl s es Vs). cbn [rbind]. rewrite ante_loop_app, (IHr AVarAndOr (l :: es) eq_refl). cbn [rbind ante_loop ante_step a_variable a_and_or].
    apply find_variable_none in V. rewrite V. destruct N as [-> | ->]; reflexivity.
Qed.
(** the words of the expressions on the stack (top first) *)
Fixpoint stack_words (l : list (expression * list string)) : list string := match l with [] => [] | x :: l => stack_words l ++ snd x end.
Definition ante_inv (env : penv) (st : astate * list expression) (seen : list string) : Prop :=
  exists done : list (expression * list string), Forall (fun x => Postfix env (fst x) (snd x)) done /\
  match fst st with
  | AVar => done = [] /\ snd st = [] /\ seen = []
  | AVarAndOr => snd st = map fst done /\ seen = stack_words done
  | AIs | AHedgeTerm => exists v r hs, names_variable env v r /\ ~ In Any hs /\ snd st = Prp (mkProp r hs None) :: map fst done /\
      seen = (stack_words done ++ v :: match fst st with AIs => [] | _ => "is" :: map hedge_name hs end) /\ (fst st = AIs -> hs = [])
  end%list.
Lemma ante_step_inv env st seen t : ante_inv env st seen -> match ante_step env st t with Ok st' => ante_inv env st' (seen ++ [t])%list | Throw e => e = ESyntax | _ => False end.
Proof.
  destruct st as [s es]. intros (done & F & H). destruct s; cbn [fst snd] in H; cbn [ante_step a_variable].
  - destruct H as (-> & -> & ->). destruct (find_variable env t) as [v|] eqn:E; cbn [a_and_or andb]; auto.
    exists []. split; [constructor|]. cbn [fst snd]. exists t, v, []. repeat split; auto. now apply find_variable_iff.
  - destruct H as (v & r & hs & Hv & Hn & -> & -> & Hh). destruct (String.eqb_spec t "is") as [->|]; auto. exists done. split; auto. cbn [fst snd].
    exists v, r, hs. repeat split; auto. all: try discriminate. rewrite (Hh eq_refl). simpl. rewrite <- app_assoc. reflexivity.
  - destruct H as (v & r & hs & Hv & Hn & -> & -> & _). destruct (hedge_of_name t) as [h|] eqn:E.
    + apply hedge_of_iff in E. assert (DA : h = Any \/ h <> Any) by (destruct h; auto; right; discriminate). destruct DA as [-> |NA].
      * exists ((Prp (mkProp r (hs ++ [Any]) None), v :: "is" :: map hedge_name hs ++ ["any"])%list :: done). split.
        { constructor; auto. cbn [fst snd]. constructor. now constructor. }
        cbn [fst snd]. split; [reflexivity|]. cbn [stack_words snd]. rewrite <- app_assoc. cbn [app]. simpl in E. now subst t.
      * replace (match h with Any => AVarAndOr | _ => AHedgeTerm end) with AHedgeTerm by (destruct h; auto; now destruct NA).
        exists done. split; auto. cbn [fst snd]. exists v, r, (hs ++ [h])%list. repeat split; auto. all: try discriminate.
        { rewrite in_app_iff. intros [I|[I|[]]]; auto. }
        rewrite map_app. simpl. rewrite E, <- app_assoc. reflexivity.
    + cbn [pr_var]. destruct (find_term env r t) as [k|] eqn:G; auto.
      exists ((Prp (mkProp r hs (Some k)), v :: "is" :: map hedge_name hs ++ [t])%list :: done). split.
      { constructor; auto. cbn [fst snd]. constructor. constructor; auto; [now apply find_term_iff|now apply hedge_of_none]. }
      cbn [fst snd]. split; [reflexivity|]. cbn [stack_words snd]. rewrite <- app_assoc. reflexivity.
  - destruct H as [-> ->]. destruct (find_variable env t) as [v|] eqn:E.
    + exists done. split; auto. cbn [fst snd]. exists t, v, []. repeat split; auto. now apply find_variable_iff.
    + cbn [a_and_or andb]. destruct (String.eqb t "and" || String.eqb t "or")%bool eqn:O; auto.
      destruct done as [|[r us] [|[l ts] done]]; cbn [map fst]; auto.
      apply Forall_inv in F as F1. apply Forall_inv_tail in F as F'. apply Forall_inv in F' as F2. apply Forall_inv_tail in F'. cbn [fst snd] in *.
      exists ((Opr t l r, ts ++ us ++ [t])%list :: done). split.
      { constructor; auto. cbn [fst snd]. constructor; auto; [|now apply find_variable_none]. apply orb_true_iff in O. rewrite !String.eqb_eq in O. exact O. }
      cbn [fst snd map]. split; [reflexivity|]. cbn [stack_words snd]. now rewrite <- !app_assoc.
Qed.
Lemma ante_loop_inv env ts : forall st seen, ante_inv env st seen -> match ante_loop env st ts with Ok st' => ante_inv env st' (seen ++ ts)%list | Throw e => e = ESyntax | _ => False end.
Proof.
  induction ts as [|t ts IH]; intros st seen I; cbn [ante_loop]; [now rewrite app_nil_r|]. pose proof (ante_step_inv env st seen t I) as H.
  destruct (ante_step env st t) as [st'|e| |]; cbn [rbind]; auto. specialize (IH st' _ H). now rewrite <- app_assoc in IH.
Qed.
Lemma ante_sound env ts : match ante_tokens env ts with Ok e => Postfix env e ts | Throw e => e = ESyntax | _ => False end.
Proof.
  assert (I0 : ante_inv env (AVar, []) []) by (exists []; repeat split; auto).
  unfold ante_tokens. pose proof (ante_loop_inv env ts (AVar, []) [] I0) as H. destruct (ante_loop env (AVar, []) ts) as [[s es]|e| |]; cbn [rbind fst snd]; auto.
  destruct H as (done & F & H). destruct s; cbn [fst snd a_variable] in *; auto.
  - destruct H as (_ & -> & _). reflexivity.
  - destruct H as [-> H]. simpl in H. subst ts. destruct done as [|[e us] [|d done]]; cbn [map fst]; auto. simpl. now apply Forall_inv in F.
Qed.
Lemma ante_tokens_iff env ts e : ante_tokens env ts = Ok e <-> Postfix env e ts.
Proof.
  split; intro H.
  - pose proof (ante_sound env ts) as X. now rewrite H in X.
  - unfold ante_tokens. rewrite (ante_complete env e ts H AVar []) by reflexivity. reflexivity.
Qed.

(** a loaded antecedent only refers to existing variables and terms *)
Lemma first_named_lt n l i : first_named n l i -> i < List.length l.
Proof. intros [H _]. apply nth_error_Some. congruence. Qed.
Lemma names_exists env n v : names_variable env n v -> variable_exists env v.
Proof. intros [i H|j _ H]; apply first_named_lt in H; unfold inputs_of, outputs_of in H; now rewrite map_length in H. Qed.
Lemma premise_is_valid env p ts : Premise env p ts -> premise_valid env p.
Proof.
  destruct 1 as [v r hs n t Hv Hh Ht Hn|v r hs Hv Hh]; split; cbn [pr_var pr_term pr_hedges]; eauto using names_exists.
  left. exists t. split; auto. now apply first_named_lt in Ht.
Qed.
Lemma postfix_valid env e ts : Postfix env e ts -> antecedent_valid env e.
Proof. induction 1; simpl; auto. eapply premise_is_valid; eauto. Qed.
