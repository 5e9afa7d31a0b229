(** Rule::load, RuleBlock::loadRules, and the degree of loaded antecedents. *)
From Coq Require Import ZArith List Bool String Ascii Arith Lia.
From Verif Require Import Base Op Norm Hedge Text SpecText TextProofs TextProofs2 Function SpecFormula FunctionProofs FunctionProofs2 FunctionTable Rule SpecRule RuleProofs RuleProofs2.
Import ListNotations.
Local Open Scope string_scope.

Lemma first_split (t : string) l : In t l -> exists a b, l = (a ++ t :: b)%list /\ ~ In t a.
Proof.
  induction l as [|x l IH]; intro I; [destruct I|]. destruct (string_dec x t) as [->|N].
  - exists [], l. auto.
  - destruct I as [E|I]; [congruence|]. destruct (IH I) as (a & b & -> & F). exists (x :: a), b. split; auto. intros [E|E]; auto.
Qed.
Lemma tokens_words_id ts : Forall word ts -> tokens (words ts) = ts.
Proof.
  induction 1 as [|t ts W F IH]; [reflexivity|]. cbn [words]. change (t ++ " " ++ words ts) with (t ++ String " " (words ts)). rewrite tokens_space by reflexivity. now rewrite tokens_word, IH.
Qed.
Lemma before_hash_spec text : uncommented text (before_hash text).
Proof.
  induction text as [|c r IH]; cbn [before_hash]. { split; simpl; auto. }
  destruct (Ascii.eqb_spec c "#") as [->|N]. { split; simpl; eauto. }
  destruct IH as [H IH]. split; [split; auto|]. destruct IH as [IH|[k IH]]; [left; now rewrite <- IH|right; exists k; simpl; now rewrite <- IH].
Qed.
Lemma uncommented_unique text a b : uncommented text a -> uncommented text b -> a = b.
Proof.
  revert a b; induction text as [|c r IH]; intros a b [Ha Ea] [Hb Eb].
  - destruct Ea as [<-|[k E]], Eb as [<-|[k' E']]; auto; try destruct a; try destruct b; discriminate.
  - destruct a as [|x a], b as [|y b]; auto.
    + destruct Ea as [E|[k E]]; [discriminate|]. injection E as -> ->. destruct Hb as [Hb _]. destruct Eb as [E|[k' E]]; injection E; intros; subst; now destruct Hb.
    + destruct Eb as [E|[k E]]; [discriminate|]. injection E as -> ->. destruct Ha as [Ha _]. destruct Ea as [E|[k' E]]; injection E; intros; subst; now destruct Ha.
    + destruct Ha as [Ha1 Ha], Hb as [Hb1 Hb]. assert (A : c = x /\ (r = a \/ exists k, r = a ++ String "#" k)) by (destruct Ea as [E|[k E]]; injection E; intros; subst; eauto).
      assert (B : c = y /\ (r = b \/ exists k, r = b ++ String "#" k)) by (destruct Eb as [E|[k E]]; injection E; intros; subst; eauto).
      destruct A as [-> A], B as [-> B]. f_equal. apply IH; split; auto.
Qed.
Lemma before_hash_iff text body : before_hash text = body <-> uncommented text body.
Proof. split; [intros <-; apply before_hash_spec|]. intro H. eapply uncommented_unique; eauto using before_hash_spec. Qed.

Section RL.
Context {T : Type} {S : Scalar T}.

Definition weight_of (o : option string) (w : T) : Prop := match o with None => w = s_1 | Some t => to_scalar t = Ok w end.
Lemma to_scalar_safe t : match @to_scalar T S t with Ok _ => True | Throw e => e = EConversion | _ => False end.
Proof. unfold to_scalar. cbv zeta. destruct (read_decimal t) as [[[neg m] e]|]; [destruct (isInf (s_dec m e))|]; destruct (String.eqb t "nan"), (String.eqb t "inf"), (String.eqb t "-inf"); auto. Qed.

Lemma loop_app (st : rstate * string * string * T) ts us : rule_loop st (ts ++ us) = do st' <- rule_loop st ts; rule_loop st' us.
Proof. revert st; induction ts as [|t ts IH]; intro st; cbn [rule_loop app]; auto. destruct (rule_step st t); cbn [rbind]; auto. Qed.
Lemma sapp_assoc3 a b c : (a ++ b) ++ c = a ++ b ++ c. Proof. apply sapp_assoc. Qed.
Lemma loop_if A : ~ In "then" A -> forall (a c : string) (w : T), rule_loop (SIf, a, c, w) A = Ok (SIf, a ++ words A, c, w).
Proof.
  induction A as [|t A IH]; intros N a c w; cbn [rule_loop words]; [now rewrite sapp_nil_r|]. cbn [rule_step]. destruct (String.eqb_spec t "then") as [->|]; [destruct N; now left|].
  cbn [rbind]. rewrite IH by (intro; apply N; now right). rewrite !sapp_assoc. reflexivity.
Qed.
Lemma loop_then C : ~ In "with" C -> forall (a c : string) (w : T), rule_loop (SThen, a, c, w) C = Ok (SThen, a, c ++ words C, w).
Proof.
  induction C as [|t C IH]; intros N a c w; cbn [rule_loop words]; [now rewrite sapp_nil_r|]. cbn [rule_step]. destruct (String.eqb_spec t "with") as [->|]; [destruct N; now left|].
  cbn [rbind]. rewrite IH by (intro; apply N; now right). rewrite !sapp_assoc. reflexivity.
Qed.
Lemma split_complete text A C o w : RuleText (tokens (before_hash text)) A C o -> weight_of o w -> rule_split text = Ok (words A, words C, w).
Proof.
  intros R W. unfold rule_split. destruct R as [A C NA NC|A C t NA NC].
  - cbn [rule_loop rule_step]. change (String.eqb "if" "if") with true. cbv iota. cbn [rbind]. rewrite loop_app, loop_if by auto. cbn [rbind rule_loop rule_step].
    change (String.eqb "then" "then") with true. cbv iota. cbn [rbind]. rewrite loop_then by auto. cbn [rbind]. simpl in W. now subst.
  - cbn [rule_loop rule_step]. change (String.eqb "if" "if") with true. cbv iota. cbn [rbind]. rewrite loop_app, loop_if by auto. cbn [rbind rule_loop rule_step].
    change (String.eqb "then" "then") with true. cbv iota. cbn [rbind]. rewrite loop_app, loop_then by auto. cbn [rbind rule_loop rule_step].
    change (String.eqb "with" "with") with true. cbv iota. cbn [rbind rule_loop rule_step]. simpl in W. rewrite W. reflexivity.
Qed.
Lemma split_sound text : match @rule_split T S text with
  | Ok (a, c, w) => exists A C o, RuleText (tokens (before_hash text)) A C o /\ a = words A /\ c = words C /\ weight_of o w
  | Throw _ => True | _ => False end.
Proof.
  unfold rule_split. destruct (tokens (before_hash text)) as [|t ts]; [exact I|]. cbn [rule_loop rule_step]. destruct (String.eqb_spec t "if") as [->|]; [|exact I]. cbn [rbind].
  destruct (in_dec string_dec "then" ts) as [I|N].
  2: { rewrite (loop_if ts N). cbn [rbind]. exact I. }
  destruct (first_split _ _ I) as (A & rest & -> & NA). rewrite loop_app, loop_if by auto. cbn [rbind rule_loop rule_step]. change (String.eqb "then" "then") with true. cbv iota. cbn [rbind].
  destruct (in_dec string_dec "with" rest) as [J|N].
  2: { rewrite (loop_then rest N). cbn [rbind]. exists A, rest, None. repeat split; auto. now constructor. }
  destruct (first_split _ _ J) as (C & more & -> & NC). rewrite loop_app, loop_then by auto. cbn [rbind rule_loop rule_step]. change (String.eqb "with" "with") with true. cbv iota. cbn [rbind].
  destruct more as [|w more]; cbn [rule_loop rbind]; [exact Logic.I|]. cbn [rule_step]. pose proof (to_scalar_safe w) as X. destruct (to_scalar w) as [v|e| |] eqn:E; cbn [rbind]; auto.
  destruct more as [|u more]; cbn [rule_loop rbind rule_step]; [|exact Logic.I]. exists A, C, (Some w). repeat split; auto. now constructor.
Qed.
Lemma rule_text_words text A C o : RuleText (tokens (before_hash text)) A C o -> Forall word A /\ Forall word C.
Proof.
  pose proof (tokens_words (before_hash text)) as F. intro R. remember (tokens (before_hash text)) as ts. destruct R as [A C _ _|A C w _ _]; apply Forall_inv_tail in F; apply Forall_app in F;
    destruct F as [F1 F2]; apply Forall_inv_tail in F2; auto. apply Forall_app in F2. tauto.
Qed.
(** a rule loads exactly when its text is a rule *)
Lemma load_iff env text (r r' : rule T) : rule_load env text r = (r', Ok tt) <->
  exists A C o e cs w, RuleText (tokens (before_hash text)) A C o /\ antecedent_load env (words A) = Ok e /\ Conclusions env cs C /\ weight_of o w /\
    r' = mkRule true text w s_0 false (words A) (Some e) (words C) cs.
Proof.
  split.
  - unfold rule_load. pose proof (split_sound text) as X. destruct (rule_split text) as [[[a c] w]|x| |]; try discriminate.
    destruct X as (A & C & o & R & -> & -> & W). pose proof (rule_text_words _ _ _ _ R) as [_ FC].
    destruct (antecedent_load env (words A)) as [e|x| |] eqn:E; try discriminate. destruct (consequent_load env (words C)) as [cs|x| |] eqn:F; try discriminate.
    intro H. injection H as <-. exists A, C, o, e, cs, w. repeat split; auto. apply consequent_iff in F. now rewrite tokens_words_id in F.
  - intros (A & C & o & e & cs & w & R & HA & HC & W & ->). unfold rule_load. rewrite (split_complete text A C o w R W), HA. pose proof (rule_text_words _ _ _ _ R) as [_ FC].
    assert (F : consequent_load env (words C) = Ok cs) by (apply consequent_iff; now rewrite tokens_words_id). now rewrite F.
Qed.
Lemma load_outcome env text (r : rule T) : snd (rule_load env text r) = Ok tt \/ exists e, snd (rule_load env text r) = Throw e.
Proof.
  unfold rule_load. pose proof (split_sound text) as X. destruct (rule_split text) as [[[a c] w]|x| |]; try contradiction; [|right; exists x; reflexivity].
  pose proof (@antecedent_total T S env a) as Y. destruct (antecedent_load env a) as [e|x| |]; try contradiction; [|right; exists x; reflexivity].
  destruct (consequent_fails env c) as [[cs H]|H].
  - apply consequent_iff in H. rewrite H. left; reflexivity.
  - rewrite H. right. eexists. reflexivity.
Qed.
Lemma load_failed_state env text (r r' : rule T) e : rule_load env text r = (r', Throw e) ->
  rule_loaded r' = false /\ rl_antecedent r' = None /\ rl_consequent r' = [] /\ rl_degree r' = s_0 /\ rl_triggered r' = false /\ rl_weight r' = rl_weight r /\ rl_text r' = text /\ rl_enabled r' = true.
Proof.
  unfold rule_load. destruct (rule_split text) as [[[a c] w]|x| |]; try (intro H; injection H as <- H; repeat split; fail).
  destruct (antecedent_load env a) as [ex|x| |]; try (intro H; injection H as <- H; repeat split; fail).
  destruct (consequent_load env c) as [cs|x| |]; try (intro H; injection H as <- H; repeat split; fail). discriminate.
Qed.
Lemma load_ok_state env text (r r' : rule T) : rule_load env text r = (r', Ok tt) -> rule_loaded r' = true /\ rl_degree r' = s_0 /\ rl_triggered r' = false /\ rl_text r' = text /\ rl_enabled r' = true.
Proof.
  intro H. apply load_iff in H. destruct H as (A & C & o & e & cs & w & R & HA & HC & W & ->). repeat split. unfold rule_loaded. cbn. apply conclusion_nonempty in HC. destruct HC as [_ N]. destruct cs; auto.
Qed.
(** the result of a successful load does not depend on the rule it is loaded into *)
Lemma load_fresh env text (r q r' : rule T) : rule_load env text r = (r', Ok tt) -> rule_load env text q = (r', Ok tt).
Proof. intro H. apply load_iff. apply load_iff in H. exact H. Qed.

(** loadRules *)
Lemma load_rules_each env rs i (r : rule T) : nth_error rs i = Some r -> nth_error (fst (load_rules env rs)) i = Some (fst (rule_load env (rl_text r) (if rule_loaded r then rule_unload r else r))).
Proof. intro H. unfold load_rules. cbn [fst]. rewrite !nth_error_map, H. reflexivity. Qed.
Lemma load_rules_loads env rs i (r r' : rule T) : nth_error rs i = Some r -> rule_load env (rl_text r) r = (r', Ok tt) -> nth_error (fst (load_rules env rs)) i = Some r' /\ rule_loaded r' = true.
Proof.
  intros H L. rewrite (load_rules_each env rs i r H). apply load_fresh with (q := if rule_loaded r then rule_unload r else r) in L. rewrite L. split; auto. eapply load_ok_state; eauto.
Qed.
Lemma load_rules_fails env rs i (r r' : rule T) e : nth_error rs i = Some r -> rule_load env (rl_text r) r = (r', Throw e) ->
  exists q, nth_error (fst (load_rules env rs)) i = Some q /\ rule_loaded q = false /\ rl_degree q = s_0 /\ rl_triggered q = false.
Proof.
  intros H L. rewrite (load_rules_each env rs i r H). set (r0 := if rule_loaded r then rule_unload r else r). destruct (rule_load env (rl_text r) r0) as [q o] eqn:E.
  exists q. split; auto. destruct (load_outcome env (rl_text r) r0) as [O|[x O]]; rewrite E in O; cbn [snd] in O; subst o.
  - apply load_fresh with (q := r) in E. rewrite E in L. discriminate.
  - apply load_failed_state in E. tauto.
Qed.
Lemma load_rules_ok env rs : snd (load_rules env rs) = Ok tt \/ snd (load_rules env rs) = Throw ERule.
Proof.
  unfold load_rules. cbn [snd]. induction rs as [|r rs IH]; cbn [map fold_right]; auto.
  destruct (load_outcome env (rl_text r) (if rule_loaded r then rule_unload r else r)) as [O|[x O]]; rewrite O; auto. destruct IH as [IH|IH]; rewrite IH; auto.
Qed.
Lemma load_rules_iff env rs : snd (load_rules env rs) = Ok tt <-> forall r : rule T, In r rs -> exists r', rule_load env (rl_text r) r = (r', Ok tt).
Proof.
  assert (Q : forall r : rule T, snd (rule_load env (rl_text r) (if rule_loaded r then rule_unload r else r)) = Ok tt <-> exists r', rule_load env (rl_text r) r = (r', Ok tt)).
  { intro r. set (r0 := if rule_loaded r then rule_unload r else r). split.
    - intro H. exists (fst (rule_load env (rl_text r) r0)). apply load_fresh with (r := r0). rewrite <- H. now destruct (rule_load env (rl_text r) r0).
    - intros [r' H]. apply load_fresh with (q := r0) in H. now rewrite H. }
  unfold load_rules. cbn [snd]. induction rs as [|r rs IH]; cbn [map fold_right]. { split; auto. intros _ r []. }
  destruct (load_outcome env (rl_text r) (if rule_loaded r then rule_unload r else r)) as [O|[x O]]; rewrite O.
  - rewrite IH. split.
    + intros H q [<-|I]; auto. now apply Q.
    + intros H q I. apply H. now right.
  - split.
    + destruct (fold_right _ _ _); discriminate.
    + intro H. specialize (H r (or_introl eq_refl)). apply Q in H. congruence.
Qed.

(** * degrees of loaded antecedents *)
Section Degree.
Variables (enabled : varref -> bool) (degree : varref -> nat -> res T) (conj : option tnorm) (disj : option snorm).
Lemma last_any hs : last (map Some (hs ++ [Any])) None = Some Any.
Proof. rewrite map_app. simpl. now rewrite last_last. Qed.
(** evaluation ends with a value, a missing norm that is used, or the failure of a membership that is consulted *)
Lemma degree_outcome env e : antecedent_valid env e ->
  (exists v, expression_degree enabled degree conj disj e = Ok v) \/
  (expression_degree enabled degree conj disj e = Throw EConjunction /\ conj = None /\ uses "and" e) \/
  (expression_degree enabled degree conj disj e = Throw EDisjunction /\ disj = None /\ uses "or" e) \/
  (exists v t, consults e v t /\ variable_exists env v /\ t < List.length (terms_of env v) /\ (forall x, degree v t <> Ok x) /\
    expression_degree enabled degree conj disj e = degree v t).
Proof.
  induction e as [p|n l IHl r IHr]; cbn [antecedent_valid expression_degree uses consults].
  - intros [V H]. unfold proposition_degree. destruct (enabled (pr_var p)); cbn [negb]; [|eauto]. destruct (last (map Some (pr_hedges p)) None) as [h|] eqn:E.
    + assert (DA : h = Any \/ h <> Any) by (destruct h; auto; right; discriminate). destruct DA as [-> |NA]; [left; eauto|].
      destruct H as [(t & Ht & L)|(hs & Hh)]. 2: { rewrite Hh, last_any in E. congruence. }
      rewrite Ht. assert (Z : (exists v, (do m <- degree (pr_var p) t; Ok (hedges_apply (pr_hedges p) m)) = Ok v) \/ ((forall x, degree (pr_var p) t <> Ok x) /\ (do m <- degree (pr_var p) t; Ok (hedges_apply (pr_hedges p) m)) = degree (pr_var p) t)).
      { destruct (degree (pr_var p) t); cbn [rbind]; eauto; right; split; auto; discriminate. }
      replace (match h with Any => Ok (hedges_apply (pr_hedges p) s_nan) | _ => do m <- degree (pr_var p) t; Ok (hedges_apply (pr_hedges p) m) end) with (do m <- degree (pr_var p) t; Ok (hedges_apply (pr_hedges p) m)) by (destruct h; auto; now destruct NA).
      destruct Z as [Z|[Z1 Z2]]; [now left|]. right; right; right. exists (pr_var p), t. repeat split; auto.
    + destruct H as [(t & Ht & L)|(hs & Hh)]. 2: { rewrite Hh, last_any in E. congruence. }
      rewrite Ht. destruct (degree (pr_var p) t) as [x|x| |] eqn:D; cbn [rbind]; eauto; right; right; right; exists (pr_var p), t; rewrite D; repeat split; auto; discriminate.
  - intros (Hn & Vl & Vr). specialize (IHl Vl). specialize (IHr Vr). destruct Hn as [-> | ->]; [change (String.eqb "and" "and") with true|change (String.eqb "or" "and") with false; change (String.eqb "or" "or") with true]; cbv iota.
    + destruct conj as [k|]; [|right; left; auto].
      destruct IHl as [[a ->]|[(-> & B & C)|[(-> & B & C)|(v & t & C & X & L & D & ->)]]]; cbn [rbind].
      * destruct IHr as [[b ->]|[(-> & B & C)|[(-> & B & C)|(v & t & C & X & L & D & ->)]]]; cbn [rbind]; [left; eauto|discriminate|right; right; left; auto|].
        right; right; right. exists v, t. repeat split; auto. destruct (degree v t); auto. now destruct (D a0).
      * discriminate.
      * right; right; left; auto.
      * right; right; right. exists v, t. repeat split; auto. destruct (degree v t); auto. now destruct (D a).
    + destruct disj as [k|]; [|right; right; left; auto].
      destruct IHl as [[a ->]|[(-> & B & C)|[(-> & B & C)|(v & t & C & X & L & D & ->)]]]; cbn [rbind].
      * destruct IHr as [[b ->]|[(-> & B & C)|[(-> & B & C)|(v & t & C & X & L & D & ->)]]]; cbn [rbind]; [left; eauto|right; left; auto|discriminate|].
        right; right; right. exists v, t. repeat split; auto. destruct (degree v t); auto. now destruct (D a0).
      * right; left; auto.
      * discriminate.
      * right; right; right. exists v, t. repeat split; auto. destruct (degree v t); auto. now destruct (D a).
Qed.
(** a loaded consequent adds its terms without failing *)
Lemma modify_total env cs d ts : Conclusions env cs ts -> exists l, @consequent_modify T S enabled d cs = Ok l.
Proof.
  intro C. unfold consequent_modify. pose proof (conclusion_nonempty env cs ts C) as [_ N]. destruct cs as [|p0 cs0]; [congruence|]. clear N. revert C. generalize (p0 :: cs0). clear p0 cs0. intros cs C.
  revert d. induction C as [p ts [v j hs n t Hv Ht Hn]|p ts ps us [v j hs n t Hv Ht Hn] R IH]; intro d; cbn [conclusions_modify pr_var pr_term pr_hedges].
  - destruct (enabled (VOut j)); cbn; eauto.
  - destruct (enabled (VOut j)); [|apply IH]. destruct (IH (hedges_apply hs d)) as (l & ->). cbn. eauto.
Qed.
End Degree.
End RL.
