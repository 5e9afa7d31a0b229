(** The shunting-yard parser against the grammar of SpecFormula.v. *)
From Coq Require Import ZArith List Bool String Ascii Arith Lia.
From Verif Require Import Base Op Text SpecText TextProofs TextProofs2 Function SpecFormula.
Import ListNotations.
Local Open Scope string_scope.

Section FP.
Context {T : Type} `{S : Scalar T}.

Definition kind_of (e : element T) : kind :=
  match el_operator e, el_fun e with
  | true, FnUnary _ => KPrefix (el_precedence e)
  | true, _ => KInfix (el_precedence e) (el_associativity e <? 0)%Z
  | false, FnUnary _ => KFun1
  | false, _ => KFun2
  end.
Definition sig_of (tb : table T) : signature := map (fun p => (fst p, kind_of (snd p))) tb.
(** a registered element: stored under its name, one or two arguments, prefix operators not left associative *)
Definition sane_element (e : element T) : Prop :=
  match el_fun e with
  | FnUnary _ => el_arity e = 1%Z /\ (el_operator e = true -> (0 <= el_associativity e)%Z)
  | FnBinary _ => el_arity e = 2%Z
  | FnNone => False
  end.
Definition sane (tb : table T) : Prop := forall k e, get_object tb k = Some e -> el_name e = k /\ sane_element e.

Lemma kind_sig tb t : kind_in (sig_of tb) t = option_map kind_of (get_object tb t).
Proof. induction tb as [|[k e] tb IH]; simpl; auto. destruct (String.eqb k t); auto. Qed.

Variable tb : table T.
Hypothesis Hs : sane tb.
Hypothesis Hc : consistent (sig_of tb).

Lemma not_registered t : delimiter t -> get_object tb t = None.
Proof. intro D. destruct Hc as [H _]. specialize (H t D). rewrite kind_sig in H. destruct (get_object tb t); auto. discriminate. Qed.

(** properties of registered names by kind *)
Lemma k_prefix t q : kind_in (sig_of tb) t = Some (KPrefix q) -> exists e f, get_object tb t = Some e /\ el_operator e = true /\ el_fun e = FnUnary f /\
  el_arity e = 1%Z /\ el_precedence e = q /\ (el_associativity e <? 0)%Z = false.
Proof.
  rewrite kind_sig. destruct (get_object tb t) as [e|] eqn:G; [|discriminate]. simpl. intro K. injection K as K. destruct (Hs _ _ G) as [_ SE].
  unfold kind_of in K. unfold sane_element in SE. destruct (el_operator e) eqn:O, (el_fun e) as [|f|f] eqn:F; try discriminate. injection K as <-.
  exists e, f. repeat split; auto; [apply SE|]. apply Z.ltb_ge. now apply SE.
Qed.
Lemma k_infix t q l : kind_in (sig_of tb) t = Some (KInfix q l) -> exists e f, get_object tb t = Some e /\ el_operator e = true /\ el_fun e = FnBinary f /\
  el_arity e = 2%Z /\ el_precedence e = q /\ (el_associativity e <? 0)%Z = l.
Proof.
  rewrite kind_sig. destruct (get_object tb t) as [e|] eqn:G; [|discriminate]. simpl. intro K. injection K as K. destruct (Hs _ _ G) as [_ SE].
  unfold kind_of in K. unfold sane_element in SE. destruct (el_operator e) eqn:O, (el_fun e) as [|f|f] eqn:F; try discriminate; try contradiction. injection K as <- <-.
  exists e, f. repeat split; auto.
Qed.
Lemma k_fun1 t : kind_in (sig_of tb) t = Some KFun1 -> exists e f, get_object tb t = Some e /\ el_operator e = false /\ el_fun e = FnUnary f /\ el_arity e = 1%Z.
Proof.
  rewrite kind_sig. destruct (get_object tb t) as [e|] eqn:G; [|discriminate]. simpl. intro K. injection K as K. destruct (Hs _ _ G) as [_ SE].
  unfold kind_of in K. unfold sane_element in SE. destruct (el_operator e) eqn:O, (el_fun e) as [|f|f] eqn:F; try discriminate; try contradiction.
  exists e, f. repeat split; auto. apply SE.
Qed.
Lemma k_fun2 t : kind_in (sig_of tb) t = Some KFun2 -> exists e f, get_object tb t = Some e /\ el_operator e = false /\ el_fun e = FnBinary f /\ el_arity e = 2%Z.
Proof.
  rewrite kind_sig. destruct (get_object tb t) as [e|] eqn:G; [|discriminate]. simpl. intro K. injection K as K. destruct (Hs _ _ G) as [_ SE].
  unfold kind_of in K. unfold sane_element in SE. destruct (el_operator e) eqn:O, (el_fun e) as [|f|f] eqn:F; try discriminate; try contradiction.
  exists e, f. repeat split; auto.
Qed.
Lemma registered_plain t e : get_object tb t = Some e -> t <> "(" /\ t <> ")" /\ t <> ",".
Proof. intro G. repeat split; intros ->; rewrite not_registered in G; discriminate || (unfold delimiter; auto). Qed.

(** operator tokens with their level *)
Definition op_level (t : string) (q : Z) (l : bool) : Prop := exists e, get_object tb t = Some e /\ el_operator e = true /\ el_precedence e = q /\ (el_associativity e <? 0)%Z = l.
Lemma level_kind t q l : op_level t q l -> exists k, kind_in (sig_of tb) t = Some k /\ prec_of k = Some (q, l).
Proof.
  intros (e & G & O & Q & L). rewrite kind_sig, G. simpl. eexists. split; [reflexivity|]. unfold kind_of. rewrite O. destruct (Hs _ _ G) as [_ SE]. unfold sane_element in SE.
  destruct (el_fun e); simpl; subst; auto. destruct SE as [_ SE]. f_equal. f_equal. symmetry. apply Z.ltb_ge. auto.
Qed.
Lemma level_agree s t q b c : op_level s q b -> op_level t q c -> b = c.
Proof. intros A B. apply level_kind in A, B. destruct A as (k & A1 & A2), B as (l & B1 & B2). destruct Hc as [_ [H _]]. exact (H s t k l q b c A1 B1 A2 B2). Qed.
Lemma prefix_top t s q r b : kind_in (sig_of tb) t = Some (KPrefix q) -> op_level s r b -> (r <= q)%Z.
Proof. intros A B. apply level_kind in B. destruct B as (l & B1 & B2). destruct Hc as [_ [_ H]]. exact (H t s q l r b A B1 B2). Qed.
Lemma pops_spec e1 e2 t1 t2 q1 q2 l1 l2 : get_object tb t1 = Some e1 -> get_object tb t2 = Some e2 -> op_level t1 q1 l1 -> op_level t2 q2 l2 ->
  pops e1 e2 = (if l1 then (q1 <=? q2) else (q1 <? q2))%Z.
Proof.
  intros G1 G2 (x & G1' & O1 & P1 & A1) (y & G2' & O2 & P2 & A2). assert (x = e1) by congruence. assert (y = e2) by congruence. subst x y.
  unfold pops. rewrite A1, P1, P2. destruct l1; simpl; auto. destruct (Z.eqb_spec q1 q2), (Z.ltb_spec q1 q2), (Z.leb_spec q1 q2); simpl; auto; lia.
Qed.

(** the stack keeps its top when an operator of level [p] or more arrives *)
Definition blocked (p : Z) (st : list string) : Prop :=
  match st with
  | [] => True
  | t :: _ => t = "(" \/ exists q l, op_level t q l /\ (q < p \/ (q <= p /\ l = false))%Z
  end.
Definition above (p : Z) (s : list string) : Prop := Forall (fun t => exists q l, op_level t q l /\ (p <= q)%Z) s.
Lemma above_mono p q s : (p <= q)%Z -> above q s -> above p s.
Proof. intros L. unfold above. apply Forall_impl. intros t (r & l & O & Q). exists r, l. split; auto. lia. Qed.

Lemma blocked_mono p q st : (p <= q)%Z -> blocked p st -> blocked q st.
Proof. intros L. destruct st as [|t st]; auto. simpl. intros [E|(r & l & O & D)]; auto. right. exists r, l. split; auto. destruct D as [D|[D F]]; [left; lia|right; split; [lia|auto]]. Qed.
Lemma pop_ops_spec op q l e s st : get_object tb op = Some e -> op_level op q l ->
  above (if l then q else q + 1)%Z s -> (forall p, (p <= q)%Z -> blocked p st -> pop_operators tb e (s ++ st) = (s, st)).
Proof.
  intros G O A p Hp B. induction A as [|t s (r & m & Ot & Hr) A IH].
  - simpl. destruct st as [|t st]; auto. simpl in B. simpl. destruct B as [->|(r & m & Ot & D)].
    + rewrite not_registered by (unfold delimiter; auto). reflexivity.
    + destruct Ot as (x & Gx & Ox). rewrite Gx. rewrite (pops_spec e x op t q r l m); auto. 2: exists x; auto.
      assert (X : (if l then q <=? r else q <? r)%Z = false).
      { destruct D as [D|[D ->]]; [destruct l; [apply Z.leb_gt|apply Z.ltb_ge]; lia|].
        destruct l; [|apply Z.ltb_ge; lia]. apply Z.leb_gt. destruct (Z.eq_dec r q) as [->|]; [|lia].
        assert (true = false) by (apply (level_agree op t q true false); [exact O|exists x; auto]). discriminate. }
      now rewrite X.
  - simpl. destruct Ot as (x & Gx & Ox). rewrite Gx. rewrite (pops_spec e x op t q r l m); auto. 2: exists x; auto.
    assert (X : (if l then q <=? r else q <? r)%Z = true) by (destruct l; [apply Z.leb_le|apply Z.ltb_lt]; lia).
    rewrite X, IH. reflexivity.
Qed.
Lemma pop_paren_spec p s st : above p s -> pop_to_paren (s ++ "(" :: st) = (s, "(" :: st).
Proof.
  induction 1 as [|t s (r & m & (x & Gx & _) & _) A IH]; [reflexivity|]. simpl. destruct (registered_plain _ _ Gx) as (N & _).
  apply String.eqb_neq in N. rewrite N, IH. reflexivity.
Qed.
Lemma yard_app st ts us : yard tb st (ts ++ us) = do st' <- yard tb st ts; yard tb st' us.
Proof. revert st; induction ts; intro st; simpl; auto. destruct (yard_step tb st a); simpl; auto. Qed.

Fixpoint post (e : expr) : list string :=
  match e with
  | Operand t => [t]
  | Pre op e | Call1 op e => post e ++ [op]
  | In_ op a b | Call2 op a b => post a ++ post b ++ [op]
  end.

Lemma step_operand Q st t : kind_in (sig_of tb) t = None -> ~ delimiter t -> yard_step tb (Q, st) t = Ok (Q ++ [t], st)%list.
Proof.
  intros K D. unfold yard_step. rewrite kind_sig in K. destruct (get_object tb t); [discriminate|].
  destruct (String.eqb_spec t ","); [destruct D; unfold delimiter; auto|]. destruct (String.eqb_spec t "("); [destruct D; unfold delimiter; auto|].
  destruct (String.eqb_spec t ")"); [destruct D; unfold delimiter; auto|]. reflexivity.
Qed.
Lemma step_open Q st : yard_step tb (Q, st) "(" = Ok (Q, "(" :: st).
Proof. unfold yard_step. rewrite not_registered by (unfold delimiter; auto). reflexivity. Qed.
Lemma step_op Q st op e : get_object tb op = Some e -> el_operator e = true -> yard_step tb (Q, st) op = (let '(q, s) := pop_operators tb e st in Ok (Q ++ q, op :: s)%list).
Proof. intros G O. unfold yard_step. rewrite G, O. destruct (registered_plain _ _ G) as (_ & _ & N). apply String.eqb_neq in N. now rewrite N. Qed.
Lemma step_comma p Q s st : above p s -> yard_step tb (Q, s ++ "(" :: st)%list "," = Ok (Q ++ s, "(" :: st)%list.
Proof. intro A. unfold yard_step. rewrite not_registered by (unfold delimiter; auto). simpl String.eqb. cbv iota. now rewrite (pop_paren_spec p). Qed.
Definition plain_top (st : list string) : Prop := match st with [] => True | t :: _ => t = "(" \/ exists q l, op_level t q l end.
Lemma step_close p Q s st : above p s -> plain_top st -> yard_step tb (Q, s ++ "(" :: st)%list ")" = Ok (Q ++ s, st)%list.
Proof.
  intros A B. unfold yard_step. rewrite not_registered by (unfold delimiter; auto). simpl String.eqb. cbv iota. rewrite (pop_paren_spec p) by auto.
  destruct st as [|t st]; auto. destruct B as [->|(q & l & x & G & O & _)].
  - now rewrite not_registered by (unfold delimiter; auto).
  - now rewrite G, O.
Qed.
Lemma step_close_fun p Q s st f e : above p s -> get_object tb f = Some e -> el_operator e = false ->
  yard_step tb (Q, s ++ "(" :: f :: st)%list ")" = Ok (Q ++ s ++ [f], st)%list.
Proof.
  intros A G O. unfold yard_step. rewrite not_registered by (unfold delimiter; auto). simpl String.eqb. cbv iota. rewrite (pop_paren_spec p) by auto.
  now rewrite G, O.
Qed.
Lemma blocked_plain p st : blocked p st -> plain_top st.
Proof. destruct st; simpl; auto. intros [H|(q & l & O & _)]; eauto. Qed.
Lemma above_nil p : above p []. Proof. constructor. Qed.
Lemma blocked_paren p st : blocked p ("(" :: st). Proof. simpl; auto. Qed.

Lemma yard_renders p e ts : Renders (sig_of tb) p e ts -> forall Q st, blocked p st ->
  exists q s, yard tb (Q, st) ts = Ok (Q ++ q, s ++ st)%list /\ (q ++ s)%list = post e /\ above p s.
Proof.
  induction 1 as [p t K D|p q e ts R IH|p op q e ts K L R IH|p op q a b ts us K L Ra IHa Rb IHb|p op q a b ts us K L Ra IHa Rb IHb
                 |p q f e ts K R IH|p q r f a b ts us K Ra IHa Rb IHb]; intros Q st B.
  - exists [t], []. cbn [yard]. rewrite step_operand by auto. simpl. repeat split; auto. apply above_nil.
  - cbn [yard]. rewrite step_open. cbn [rbind]. rewrite yard_app. destruct (IH Q ("(" :: st) (blocked_paren _ _)) as (q1 & s1 & -> & E & A). cbn [rbind yard].
    rewrite (step_close q) by (auto; eapply blocked_plain; eauto). cbn [rbind yard]. exists (post e), []. rewrite <- app_assoc, E. rewrite app_nil_r. repeat split; auto. apply above_nil.
  - destruct (k_prefix _ _ K) as (x & f & G & O & F & Ar & Pq & As). assert (OL : op_level op q false) by (exists x; auto).
    cbn [yard]. rewrite (step_op Q st op x) by auto.
    assert (PO : pop_operators tb x ([] ++ st) = ([], st)) by (eapply (pop_ops_spec op q false x [] st G OL (above_nil _) p); auto). cbn [app] in PO. rewrite PO. cbn [rbind].
    destruct (IH (Q ++ [])%list (op :: st)) as (q1 & s1 & E1 & E & A).
    { simpl. right. exists q, false. split; auto. right. split; [lia|auto]. }
    rewrite E1. exists q1, (s1 ++ [op])%list. rewrite app_nil_r, <- !app_assoc. cbn [app post]. rewrite <- E, <- app_assoc. split; auto. split; auto.
    apply Forall_app. split; [now apply above_mono with q|]. constructor; auto. exists q, false. auto.
  - destruct (k_infix _ _ _ K) as (x & f & G & O & F & Ar & Pq & As). assert (OL : op_level op q true) by (exists x; auto).
    rewrite yard_app. destruct (IHa Q st) as (q1 & s1 & -> & E1 & A1).
    { apply blocked_mono with p; auto; lia. }
    cbn [rbind yard]. rewrite (step_op _ _ op x) by auto. rewrite (pop_ops_spec op q true x s1 st G OL A1 p L B). cbn [rbind].
    destruct (IHb ((Q ++ q1) ++ s1)%list (op :: st)) as (q2 & s2 & E2 & E3 & A2).
    { simpl. right. exists q, true. split; auto. lia. }
    rewrite E2. exists (q1 ++ s1 ++ q2)%list, (s2 ++ [op])%list. rewrite <- !app_assoc. cbn [app post]. split; auto. split.
    { rewrite <- E1, <- E3, <- !app_assoc. reflexivity. }
    apply Forall_app. split; [apply above_mono with (q + 1)%Z; auto; lia|]. constructor; auto. exists q, true. auto.
  - destruct (k_infix _ _ _ K) as (x & f & G & O & F & Ar & Pq & As). assert (OL : op_level op q false) by (exists x; auto).
    rewrite yard_app. destruct (IHa Q st) as (q1 & s1 & -> & E1 & A1).
    { apply blocked_mono with p; auto; lia. }
    cbn [rbind yard]. rewrite (step_op _ _ op x) by auto. rewrite (pop_ops_spec op q false x s1 st G OL A1 p L B). cbn [rbind].
    destruct (IHb ((Q ++ q1) ++ s1)%list (op :: st)) as (q2 & s2 & E2 & E3 & A2).
    { simpl. right. exists q, false. split; auto. right. split; [lia|auto]. }
    rewrite E2. exists (q1 ++ s1 ++ q2)%list, (s2 ++ [op])%list. rewrite <- !app_assoc. cbn [app post]. split; auto. split.
    { rewrite <- E1, <- E3, <- !app_assoc. reflexivity. }
    apply Forall_app. split; [apply above_mono with q; auto; lia|]. constructor; auto. exists q, false. auto.
  - destruct (k_fun1 _ K) as (x & g & G & O & F & Ar). cbn [yard]. unfold yard_step at 1. rewrite G, O. cbn [negb rbind]. rewrite step_open. cbn [rbind].
    rewrite yard_app. destruct (IH Q ("(" :: f :: st) (blocked_paren _ _)) as (q1 & s1 & -> & E & A). cbn [rbind yard].
    rewrite (step_close_fun q _ _ _ _ x) by auto. cbn [rbind yard]. exists (post e ++ [f])%list, []. cbn [post app]. rewrite <- E, <- !app_assoc, app_nil_r. repeat split; auto. apply above_nil.
  - destruct (k_fun2 _ K) as (x & g & G & O & F & Ar). cbn [yard]. unfold yard_step at 1. rewrite G, O. cbn [negb rbind]. rewrite step_open. cbn [rbind].
    rewrite yard_app. destruct (IHa Q ("(" :: f :: st) (blocked_paren _ _)) as (q1 & s1 & -> & E & A). cbn [rbind yard].
    rewrite (step_comma q) by auto. cbn [rbind]. rewrite yard_app. destruct (IHb ((Q ++ q1) ++ s1)%list ("(" :: f :: st) (blocked_paren _ _)) as (q2 & s2 & -> & E2 & A2). cbn [rbind yard].
    rewrite (step_close_fun r _ _ _ _ x) by auto. cbn [rbind yard]. exists (post a ++ post b ++ [f])%list, []. cbn [post app]. rewrite <- E, <- E2, <- !app_assoc, app_nil_r. repeat split; auto. apply above_nil.
Qed.
Lemma yard_end_above p Q s : above p s -> yard_end Q s = Ok (Q ++ s)%list.
Proof.
  intro A; revert Q; induction A as [|t s (r & m & (x & Gx & _) & _) A IH]; intro Q; simpl; [now rewrite app_nil_r|].
  destruct (registered_plain _ _ Gx) as (N1 & N2 & _). apply String.eqb_neq in N1, N2. rewrite N1, N2. simpl. rewrite IH, <- app_assoc. reflexivity.
Qed.
Lemma yard_correct p e ts : Renders (sig_of tb) p e ts -> yard_tokens tb ts = Ok (post e).
Proof.
  intro R. unfold yard_tokens. destruct (yard_renders p e ts R [] [] I) as (q & s & -> & E & A). cbn [rbind fst snd]. rewrite app_nil_r. rewrite (yard_end_above p) by auto. simpl. now rewrite E.
Qed.

(** * trees *)
Inductive tree_of : expr -> node T -> Prop :=
| t_const t c : to_scalar t = Ok c -> tree_of (Operand t) (Node None None None "" c)
| t_var t : (forall c, to_scalar t <> Ok c) -> tree_of (Operand t) (Node None None None t s_nan)
| t_pre op e el n : get_object tb op = Some el -> tree_of e n -> tree_of (Pre op e) (Node (Some el) None (Some n) "" s_nan)
| t_call1 op e el n : get_object tb op = Some el -> tree_of e n -> tree_of (Call1 op e) (Node (Some el) None (Some n) "" s_nan)
| t_in op a b el m n : get_object tb op = Some el -> tree_of a m -> tree_of b n -> tree_of (In_ op a b) (Node (Some el) (Some m) (Some n) "" s_nan)
| t_call2 op a b el m n : get_object tb op = Some el -> tree_of a m -> tree_of b n -> tree_of (Call2 op a b) (Node (Some el) (Some m) (Some n) "" s_nan).

Lemma build_app st ts us : build tb st (ts ++ us) = do st' <- build tb st ts; build tb st' us.
Proof. revert st; induction ts; intro st; simpl; auto. destruct (build_step tb st a); simpl; auto. Qed.
Lemma build_one n st t e : get_object tb t = Some e -> el_arity e = 1%Z -> build_step tb (n :: st) t = Ok (Node (Some e) None (Some n) "" s_nan :: st).
Proof.
  intros G A. unfold build_step. rewrite G, A. replace (1 >? Z.of_nat (List.length (n :: st)))%Z with false; [reflexivity|]. symmetry. rewrite Z.gtb_ltb. apply Z.ltb_ge. simpl List.length. lia.
Qed.
Lemma build_two m n st t e : get_object tb t = Some e -> el_arity e = 2%Z -> build_step tb (n :: m :: st) t = Ok (Node (Some e) (Some m) (Some n) "" s_nan :: st).
Proof.
  intros G A. unfold build_step. rewrite G, A. replace (2 >? Z.of_nat (List.length (n :: m :: st)))%Z with false; [reflexivity|]. symmetry. rewrite Z.gtb_ltb. apply Z.ltb_ge. simpl List.length. lia.
Qed.
Lemma build_post e : well_formed (sig_of tb) e -> exists n, tree_of e n /\ forall st, build tb st (post e) = Ok (n :: st).
Proof.
  induction e as [t|op e IH|op a IHa b IHb|f e IH|f a IHa b IHb]; intro W; simpl in W.
  - destruct W as [K D]. rewrite kind_sig in K. destruct (get_object tb t) eqn:G; [discriminate|].
    assert (ND : is_delimiter t = false).
    { unfold is_delimiter. destruct (String.eqb_spec t "("); [destruct D; unfold delimiter; auto|]. destruct (String.eqb_spec t ")"); [destruct D; unfold delimiter; auto|].
      destruct (String.eqb_spec t ","); [destruct D; unfold delimiter; auto|]. reflexivity. }
    destruct (to_scalar t) as [c| | |] eqn:E.
    + exists (Node None None None "" c). split; [now constructor|]. intro st. cbn [post build]. unfold build_step. rewrite G, ND, E. reflexivity.
    + exists (Node None None None t s_nan). split; [constructor; congruence|]. intro st. cbn [post build]. unfold build_step. rewrite G, ND, E. reflexivity.
    + exists (Node None None None t s_nan). split; [constructor; congruence|]. intro st. cbn [post build]. unfold build_step. rewrite G, ND, E. reflexivity.
    + exists (Node None None None t s_nan). split; [constructor; congruence|]. intro st. cbn [post build]. unfold build_step. rewrite G, ND, E. reflexivity.
  - destruct W as [(q & K) W]. destruct (k_prefix _ _ K) as (x & f & G & O & F & Ar & _). destruct (IH W) as (n & Tn & B).
    eexists. split; [eapply t_pre; eauto|]. intro st. cbn [post]. rewrite build_app, B. cbn [rbind build]. rewrite (build_one _ _ _ x) by auto. reflexivity.
  - destruct W as [(q & l & K) [Wa Wb]]. destruct (k_infix _ _ _ K) as (x & f & G & O & F & Ar & _). destruct (IHa Wa) as (m & Tm & Bm), (IHb Wb) as (n & Tn & Bn).
    eexists. split; [eapply t_in; eauto|]. intro st. cbn [post]. rewrite !build_app, Bm. cbn [rbind]. rewrite build_app, Bn. cbn [rbind build]. rewrite (build_two _ _ _ _ x) by auto. reflexivity.
  - destruct W as [K W]. destruct (k_fun1 _ K) as (x & g & G & O & F & Ar). destruct (IH W) as (n & Tn & B).
    eexists. split; [eapply t_call1; eauto|]. intro st. cbn [post]. rewrite build_app, B. cbn [rbind build]. rewrite (build_one _ _ _ x) by auto. reflexivity.
  - destruct W as [K [Wa Wb]]. destruct (k_fun2 _ K) as (x & g & G & O & F & Ar). destruct (IHa Wa) as (m & Tm & Bm), (IHb Wb) as (n & Tn & Bn).
    eexists. split; [eapply t_call2; eauto|]. intro st. cbn [post]. rewrite !build_app, Bm. cbn [rbind]. rewrite build_app, Bn. cbn [rbind build]. rewrite (build_two _ _ _ _ x) by auto. reflexivity.
Qed.
Lemma renders_wf p e ts : Renders (sig_of tb) p e ts -> well_formed (sig_of tb) e.
Proof. induction 1; simpl; eauto. Qed.
Lemma parse_tokens p e ts : Renders (sig_of tb) p e ts -> exists n, tree_of e n /\ (do q <- yard_tokens tb ts; build_tree tb q) = Ok n.
Proof.
  intro R. rewrite (yard_correct p e ts R). destruct (build_post e (renders_wf _ _ _ R)) as (n & Tn & B). exists n. split; auto.
  cbn [rbind]. unfold build_tree. rewrite B. reflexivity.
Qed.

(** * from text to tokens *)
Fixpoint expand (c : ascii) (s : string) : string :=
  match s with "" => "" | String x r => if Ascii.eqb x c then " " ++ String c (" " ++ expand c r) else String x (expand c r) end.
Lemma first_here c r : first_occurrence (char c) (String c r) "" r.
Proof. split; auto. intros. simpl. lia. Qed.
Lemma replaced_skip c rep x s r : x <> c -> replaced (char c) rep s r -> replaced (char c) rep (String x s) (String x r).
Proof.
  intros N [s' NO|s' b a r' F H].
  - constructor. intros (b & a & E). destruct b as [|y b]; simpl in E; [injection E; congruence|]. injection E as _ E. apply NO. exists b, a. auto.
  - change (String x (b ++ rep ++ r')) with (String x b ++ rep ++ r'). econstructor; [|exact H].
    destruct F as [Fe Fm]. split; [simpl; now rewrite Fe|]. intros [|y b'] a' E; simpl in E; [injection E; congruence|]. injection E as _ E. specialize (Fm _ _ E). simpl. lia.
Qed.
Lemma replaced_expand c s r : replaced (char c) (" " ++ char c ++ " ") s r -> r = expand c s.
Proof.
  intro H. eapply replaced_unique; [exact H|]. clear H r. induction s as [|x s IH]; simpl.
  - constructor. intros (b & a & E). destruct b; discriminate.
  - destruct (Ascii.eqb_spec x c) as [->|N].
    + change (String " " (String c (String " " (expand c s)))) with ("" ++ (" " ++ char c ++ " ") ++ expand c s). econstructor; [apply first_here|exact IH].
    + now apply replaced_skip.
Qed.
Lemma replace_expand c s : replace_all s (char c) (" " ++ char c ++ " ") = Ok (expand c s).
Proof. destruct (replace_all_spec s (char c) (" " ++ char c ++ " ")) as (r & E & R); [discriminate|]. apply replaced_expand in R. unfold replace_all. now rewrite E, R. Qed.

Lemma lex_expand sp c cur s : is_space c = false -> lex_from is_space sp cur (expand c s) = lex_from is_space (fun x => (sp x || Ascii.eqb x c)%bool) cur s.
Proof.
  intro W. revert cur; induction s as [|x s IH]; intro cur; [reflexivity|]. cbn [expand]. destruct (Ascii.eqb_spec x c) as [->|N].
  - cbn [append lex_from]. rewrite W, Ascii.eqb_refl, orb_true_r. change (is_space " ") with true. cbv iota. f_equal.
    rewrite <- IH. destruct (sp c); cbn [flush append app]; reflexivity.
  - cbn [lex_from]. assert (E : Ascii.eqb x c = false) by now apply Ascii.eqb_neq. rewrite E, orb_false_r, !IH. reflexivity.
Qed.
Lemma lex_ext blank sp sp' cur s : (forall c, sp c = sp' c) -> lex_from blank sp cur s = lex_from blank sp' cur s.
Proof. intro E. revert cur; induction s as [|x s IH]; intro cur; simpl; auto. rewrite E, !IH. reflexivity. Qed.
Lemma lex_tokens cur s : tokens_from cur s = lex_from is_space (fun _ => false) cur s.
Proof. revert cur; induction s as [|x s IH]; intro cur; simpl; [destruct cur; reflexivity|]. rewrite <- !IH. destruct (is_space x); auto. destruct cur; reflexivity. Qed.
Definition one_of (cs : list ascii) (x : ascii) : bool := existsb (Ascii.eqb x) cs.
Lemma space_lex cs s : Forall (fun c => is_space c = false) cs -> exists s', space_loop (map char cs) s = Ok s' /\ tokens s' = lex_from is_space (one_of cs) "" s.
Proof.
  intro W. revert s; induction W as [|c cs W WS IH]; intro s; cbn [map space_loop]. { exists s. split; auto. apply lex_tokens. }
  rewrite replace_expand. cbn [rbind]. destruct (IH (expand c s)) as (s' & E & L). exists s'. split; auto. rewrite L, lex_expand by auto.
  apply lex_ext. intro x. simpl. apply orb_comm.
Qed.

(** tokens survive being joined by a space *)
Lemma pop_paren_in t stack q s : pop_to_paren stack = (q, s) -> In t (q ++ s) -> In t stack.
Proof. revert q s; induction stack as [|x st IH]; intros q s E I; simpl in E. { injection E as <- <-. auto. } destruct (String.eqb x "("); [injection E as <- <-; auto|]. destruct (pop_to_paren st) as [q' s'] eqn:E'. injection E as <- <-. destruct I as [->|I]; simpl; eauto. Qed.
Lemma pop_ops_in e t stack q s : pop_operators tb e stack = (q, s) -> In t (q ++ s) -> In t stack.
Proof.
  revert q s; induction stack as [|x st IH]; intros q s E I; simpl in E. { injection E as <- <-. auto. } destruct (get_object tb x) as [y|]; [|injection E as <- <-; auto].
  destruct (pops e y); [|injection E as <- <-; auto]. destruct (pop_operators tb e st) as [q' s'] eqn:E'. injection E as <- <-. destruct I as [->|I]; simpl; eauto.
Qed.
End FP.
