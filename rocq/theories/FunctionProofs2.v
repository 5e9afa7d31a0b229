(** Function: from text to tree, totality of parsing and evaluation, printing, and the state of the term. *)
From Coq Require Import ZArith List Bool String Ascii Arith Lia.
From Verif Require Import Base Op Text SpecText TextProofs TextProofs2 Function SpecFormula FunctionProofs.
Import ListNotations.
Local Open Scope string_scope.

Section FP2.
Context {T : Type} `{S : Scalar T}.
Variable tb : table T.

(** * every token of the postfix notation is a token of the formula *)
Lemma step_in st t st' : yard_step tb st t = Ok st' -> forall x, In x (fst st' ++ snd st') -> x = t \/ In x (fst st ++ snd st).
Proof.
  destruct st as [Q st]. unfold yard_step. cbn [fst snd].
  assert (PP : forall q s, pop_to_paren st = (q, s) -> s <> [] -> forall x, In x ((Q ++ q) ++ s) -> x = t \/ In x (Q ++ st)).
  { intros q s E _ x I. right. rewrite <- app_assoc in I. apply in_app_iff in I. apply in_app_iff. destruct I; auto. right. eapply pop_paren_in; eauto. }
  destruct (get_object tb t) as [e|] eqn:G.
  - destruct (negb (el_operator e)).
    + intros E x I. injection E as <-. cbn [fst snd] in I. apply in_app_iff in I. destruct I as [I|[<-|I]]; auto; right; apply in_app_iff; auto.
    + destruct (String.eqb t ",").
      * destruct (pop_to_paren st) as [q s] eqn:E. destruct s as [|y s]; [discriminate|]. intros F x I. injection F as <-. cbn [fst snd] in I. eapply PP; eauto. discriminate.
      * destruct (pop_operators tb e st) as [q s] eqn:E. intros F x I. injection F as <-. cbn [fst snd] in I. rewrite <- app_assoc in I.
        rewrite in_app_iff in I. rewrite in_app_iff. destruct I as [I|I]; auto. apply in_app_iff in I. destruct I as [I|[<-|I]]; auto; right; right; eapply pop_ops_in; try eassumption; apply in_app_iff; auto.
  - destruct (String.eqb t ",").
    + destruct (pop_to_paren st) as [q s] eqn:E. destruct s as [|y s]; [discriminate|]. intros F x I. injection F as <-. cbn [fst snd] in I. eapply PP; eauto. discriminate.
    + destruct (String.eqb t "("). { intros E x I. injection E as <-. cbn [fst snd] in I. apply in_app_iff in I. destruct I as [I|[<-|I]]; auto; right; apply in_app_iff; auto. }
      destruct (String.eqb t ")").
      2: { intros E x I. injection E as <-. cbn [fst snd] in I. rewrite <- app_assoc in I. apply in_app_iff in I. destruct I as [I|[<-|I]]; auto; right; apply in_app_iff; auto. }
      destruct (pop_to_paren st) as [q s] eqn:E. destruct s as [|y s]; [discriminate|].
      assert (A : forall x, In x ((Q ++ q) ++ s) -> x = t \/ In x (Q ++ st)).
      { intros x I. eapply PP; [reflexivity|discriminate|]. apply in_app_iff in I. apply in_app_iff. destruct I; auto. right. now right. }
      destruct s as [|f s]; [intros F x I; injection F as <-; auto|]. destruct (get_object tb f) as [ef|]; [|intros F x I; injection F as <-; auto].
      destruct (el_operator ef); intros F x I; injection F as <-; auto. cbn [fst snd] in I. apply A. rewrite <- !app_assoc in I. cbn [app] in I. now rewrite <- app_assoc.
Qed.
Lemma yard_in ts : forall st st', yard tb st ts = Ok st' -> forall x, In x (fst st' ++ snd st') -> In x ts \/ In x (fst st ++ snd st).
Proof.
  induction ts as [|t ts IH]; intros st st' E x I; cbn [yard] in E. { injection E as <-. auto. }
  destruct (yard_step tb st t) as [s1| | |] eqn:E1; try discriminate. cbn [rbind] in E. destruct (IH _ _ E x I) as [H|H]; [left; now right|].
  destruct (step_in _ _ _ E1 x H) as [->|K]; auto. left. now left.
Qed.
Lemma end_in s : forall Q q, yard_end Q s = Ok q -> q = (Q ++ s)%list.
Proof.
  induction s as [|t s IH]; intros Q q E; simpl in E. { injection E as <-. now rewrite app_nil_r. }
  destruct (String.eqb t "(" || String.eqb t ")")%bool; [discriminate|]. apply IH in E. subst. rewrite <- app_assoc. reflexivity.
Qed.
Lemma yard_tokens_in ts q x : yard_tokens tb ts = Ok q -> In x q -> In x ts.
Proof.
  unfold yard_tokens. destruct (yard tb ([], []) ts) as [st| | |] eqn:E; try discriminate. cbn [rbind]. intros F I. apply end_in in F. subst.
  destruct (yard_in _ _ _ E x I) as [H|H]; auto. destruct H.
Qed.
Lemma parse_split s : s <> "" -> parse tb s = do sp <- space_formula tb s; do q <- yard_tokens tb (tokens sp); build_tree tb q.
Proof.
  intro N. unfold parse, to_postfix. apply sempty_false in N. rewrite N. destruct (space_formula tb s) as [sp| | |]; cbn [rbind]; auto.
  destruct (yard_tokens tb (tokens sp)) as [q| | |] eqn:E; cbn [rbind]; auto. rewrite tokens_join; auto.
  apply Forall_forall. intros x I. apply (yard_tokens_in _ _ _ E) in I. pose proof (tokens_words sp) as W. rewrite Forall_forall in W. auto.
Qed.

(** * C38 *)
Definition spaced_by (cs : list ascii) : Prop := space_chars tb = map char cs /\ Forall (fun c => is_space c = false) cs.
Definition lex (cs : list ascii) (s : string) : list string := lex_from is_space (one_of cs) "" s.
Lemma parse_lex cs s : spaced_by cs -> s <> "" -> parse tb s = do q <- yard_tokens tb (lex cs s); build_tree tb q.
Proof.
  intros [E W] N. rewrite parse_split by auto. unfold space_formula. rewrite E. destruct (space_lex cs s W) as (s' & -> & L). cbn [rbind]. now rewrite L.
Qed.
Lemma lex_empty cs : lex cs "" = []. Proof. reflexivity. Qed.
Lemma renders_nonempty sg p e ts : Renders sg p e ts -> ts <> [].
Proof. destruct 1; try discriminate; destruct ts; discriminate. Qed.
Lemma parse_correct cs s p e : sane tb -> consistent (sig_of tb) -> spaced_by cs -> Renders (sig_of tb) p e (lex cs s) -> exists n, parse tb s = Ok n /\ tree_of tb e n.
Proof.
  intros Hs Hc Hd R. rewrite (parse_lex cs) by (auto; intros ->; apply renders_nonempty in R; now apply R).
  destruct (parse_tokens tb Hs Hc p e _ R) as (n & Tn & E). eauto.
Qed.
Lemma minimal_renders sg e : well_formed sg e -> forall p, Renders sg p e (minimal sg p e).
Proof.
  induction e as [t|op e IH|op a IHa b IHb|f e IH|f a IHa b IHb]; intros W p; simpl in W |- *.
  - now constructor.
  - destruct W as [(q & K) W]. rewrite K. destruct (Z.ltb_spec q p); unfold wrap.
    + apply r_paren with q. apply r_prefix with q; auto. lia.
    + apply r_prefix with q; auto.
  - destruct W as [(q & l & K) [Wa Wb]]. rewrite K. destruct l.
    + destruct (Z.ltb_spec q p); unfold wrap; [apply r_paren with q|]; apply r_left with q; auto; lia.
    + destruct (Z.ltb_spec q p); unfold wrap; [apply r_paren with q|]; apply r_right with q; auto; lia.
  - destruct W as [K W]. apply r_call1 with 0%Z; auto.
  - destruct W as [K [Wa Wb]]. apply r_call2 with 0%Z 0%Z; auto.
Qed.
(** a token that stands as one in the text *)
Definition lexeme (cs : list ascii) (w : string) : Prop :=
  (exists c, In c cs /\ is_space c = false /\ w = char c) \/ (w <> "" /\ all_chars (fun c => is_space c = false /\ ~ In c cs) w).
Lemma one_of_in cs c : one_of cs c = true <-> In c cs.
Proof. unfold one_of. rewrite existsb_exists. split; [intros (x & I & E); apply Ascii.eqb_eq in E; now subst|intro I; exists c; split; auto; apply Ascii.eqb_refl]. Qed.
Lemma lex_blank_app cs cur w rest : all_chars (fun c => is_space c = false /\ ~ In c cs) w -> lex_from is_space (one_of cs) cur (w ++ rest) = lex_from is_space (one_of cs) (cur ++ w) rest.
Proof.
  revert cur; induction w as [|c w IH]; intros cur A; simpl. { now rewrite sapp_nil_r. } destruct A as [[A1 A2] A3]. rewrite A1.
  assert (O : one_of cs c = false) by (destruct (one_of cs c) eqn:O; auto; apply one_of_in in O; contradiction). rewrite O, IH by auto. now rewrite sapp_assoc.
Qed.
Lemma lex_lexeme cs w c rest : lexeme cs w -> is_space c = true -> lex cs (w ++ String c rest) = w :: lex cs rest.
Proof.
  intros [(x & I & W & ->)|[N A]] Sp; unfold lex.
  - simpl. rewrite W. apply one_of_in in I. rewrite I. simpl. now rewrite Sp.
  - rewrite lex_blank_app by auto. simpl. rewrite Sp. destruct w; [congruence|]. reflexivity.
Qed.
Lemma lex_last cs w : lexeme cs w -> lex cs w = [w].
Proof.
  intros [(x & I & W & ->)|[N A]]; unfold lex.
  - simpl. rewrite W. apply one_of_in in I. now rewrite I.
  - rewrite <- (sapp_nil_r w) at 1. rewrite lex_blank_app by auto. simpl. destruct w; [congruence|]. reflexivity.
Qed.
Lemma lex_join cs ws : Forall (lexeme cs) ws -> lex cs (join ws " ") = ws.
Proof.
  induction 1 as [|w ws H F IH]; [reflexivity|]. destruct ws as [|v ws]; [now apply lex_last|].
  change (join (w :: v :: ws) " ") with (w ++ " " ++ join (v :: ws) " "). change (" " ++ join (v :: ws) " ") with (String " " (join (v :: ws) " ")). rewrite lex_lexeme by auto. now rewrite IH.
Qed.
Fixpoint names (e : expr) : list string :=
  match e with Operand t => [t] | Pre op e | Call1 op e => op :: names e | In_ op a b | Call2 op a b => op :: names a ++ names b end.
Lemma wrap_in b ts x : In x (wrap b ts) -> delimiter x \/ In x ts.
Proof. unfold wrap, delimiter. destruct b; auto. intros [<-|I]; auto. apply in_app_iff in I. destruct I as [I|[<-|[]]]; auto. Qed.
Lemma minimal_names sg e : forall p x, In x (minimal sg p e) -> delimiter x \/ In x (names e).
Proof.
  induction e as [t|op e IH|op a IHa b IHb|f e IH|f a IHa b IHb]; intros p x; cbn [minimal names]; auto.
  - destruct (kind_in sg op) as [[q| | |]|]; try contradiction. intro I. apply wrap_in in I. destruct I as [I|[<-|I]]; auto. { right; now left. } apply IH in I. destruct I; auto. right. now right.
  - destruct (kind_in sg op) as [[|q [|]| |]|]; try contradiction; intro I; apply wrap_in in I; destruct I as [I|I]; auto; apply in_app_iff in I;
      (destruct I as [I|[<-|I]]; [apply IHa in I; destruct I; auto|right; now left|apply IHb in I; destruct I; auto]; right; right; apply in_app_iff; auto).
  - unfold delimiter. intros [<-|[<-|I]]; auto. { right; now left. } apply in_app_iff in I. destruct I as [I|[<-|[]]]; auto. apply IH in I. destruct I; auto. right. now right.
  - unfold delimiter. intros [<-|[<-|I]]; auto. { right; now left. } apply in_app_iff in I. destruct I as [I|[<-|I]]; auto. { apply IHa in I. destruct I; auto. right; right; apply in_app_iff; auto. }
    apply in_app_iff in I. destruct I as [I|[<-|[]]]; auto. apply IHb in I. destruct I; auto. right; right; apply in_app_iff; auto.
Qed.
Definition delims_in (cs : list ascii) : Prop := In "("%char cs /\ In ")"%char cs /\ In ","%char cs.
Lemma parse_minimal cs e p : sane tb -> consistent (sig_of tb) -> spaced_by cs -> well_formed (sig_of tb) e -> Forall (lexeme cs) (names e) ->
  exists n, parse tb (join (minimal (sig_of tb) p e) " ") = Ok n /\ tree_of tb e n.
Proof.
  intros Hs Hc Hd W L. apply parse_correct with cs p; auto. rewrite lex_join; [now apply minimal_renders|].
  apply Forall_forall. intros x I. apply minimal_names in I. destruct I as [I|I]; [|rewrite Forall_forall in L; auto]. left.
  destruct Hd as [E _]. unfold space_chars in E. destruct cs as [|c1 [|c2 [|c3 cs]]]; try discriminate. simpl in E. injection E as E1 E2 E3 _. subst.
  destruct I as [-> | [-> | ->]]; eexists; simpl; (split; [|split; [|reflexivity]]); auto.
Qed.

(** evaluation *)
Definition operand_value (m : vars T) (t : string) : option T := match to_scalar t with Ok c => Some c | _ => vget m t end.
Definition name1 (f : string) : T -> T := match get_object tb f with Some e => match el_fun e with FnUnary g => g | _ => fun x => x end | None => fun x => x end.
Definition name2 (f : string) : T -> T -> T := match get_object tb f with Some e => match el_fun e with FnBinary g => g | _ => fun x _ => x end | None => fun x _ => x end.
Lemma eval_tree m e n : sane tb -> consistent (sig_of tb) -> well_formed (sig_of tb) e -> Forall (fun t => t <> "") (names e) -> tree_of tb e n ->
  node_evaluate m n = match value (operand_value m) name1 name2 e with Some v => Ok v | None => Throw EFunction end.
Proof.
  intros Hs Hc W N Tn. induction Tn as [t c E|t E|op e el n G Tn IH|op e el n G Tn IH|op a b el x y G Ta IHa Tb IHb|op a b el x y G Ta IHa Tb IHb]; simpl in W; cbn [node_evaluate value names] in *.
  - unfold operand_value. now rewrite E.
  - inversion N; subst. unfold operand_value. destruct (to_scalar t) eqn:E1; [destruct (E a); auto|..]; destruct t; try congruence; simpl; destruct (vget m _); auto.
  - destruct W as [(q & K) W]. destruct (k_prefix tb Hs _ _ K) as (el' & f & G' & O & F & _). assert (el' = el) by congruence. subst. rewrite F.
    inversion N; subst. rewrite IH by auto. assert (NF : name1 op = f) by (unfold name1; now rewrite G, F). rewrite NF. destruct (value _ _ _ e); reflexivity.
  - destruct W as [K W]. destruct (k_fun1 tb Hs _ K) as (el' & f & G' & O & F & _). assert (el' = el) by congruence. subst. rewrite F.
    inversion N; subst. rewrite IH by auto. assert (NF : name1 op = f) by (unfold name1; now rewrite G, F). rewrite NF. destruct (value _ _ _ e); reflexivity.
  - destruct W as [(q & l & K) [Wa Wb]]. destruct (k_infix tb Hs _ _ _ K) as (el' & f & G' & O & F & _). assert (el' = el) by congruence. subst. rewrite F.
    inversion N as [|? ? _ N']; subst. apply Forall_app in N'. destruct N'. rewrite IHa, IHb by auto. assert (NF : name2 op = f) by (unfold name2; now rewrite G, F). rewrite NF. destruct (value _ _ _ a), (value _ _ _ b); reflexivity.
  - destruct W as [K [Wa Wb]]. destruct (k_fun2 tb Hs _ K) as (el' & f & G' & O & F & _). assert (el' = el) by congruence. subst. rewrite F.
    inversion N as [|? ? _ N']; subst. apply Forall_app in N'. destruct N'. rewrite IHa, IHb by auto. assert (NF : name2 op = f) by (unfold name2; now rewrite G, F). rewrite NF. destruct (value _ _ _ a), (value _ _ _ b); reflexivity.
Qed.

(** * C39 *)
(** trees made by the parser: operators and functions are registered and have exactly their number of children *)
Inductive parsed : node T -> Prop :=
| pa_const c : parsed (Node None None None "" c)
| pa_var v : word v -> (forall c, to_scalar v <> Ok c) -> get_object tb v = None -> is_delimiter v = false -> parsed (Node None None None v s_nan)
| pa_one el f n : get_object tb (el_name el) = Some el -> word (el_name el) -> el_fun el = FnUnary f -> el_arity el = 1%Z -> parsed n ->
    parsed (Node (Some el) None (Some n) "" s_nan)
| pa_two el f m n : get_object tb (el_name el) = Some el -> word (el_name el) -> el_fun el = FnBinary f -> el_arity el = 2%Z -> parsed m -> parsed n ->
    parsed (Node (Some el) (Some m) (Some n) "" s_nan).
Definition safe {A} (r : res A) : Prop := match r with Ok _ => True | Throw _ => True | _ => False end.
Lemma build_step_proper st t : sane tb -> word t -> Forall parsed st -> match build_step tb st t with Ok st' => Forall parsed st' | Throw _ => True | _ => False end.
Proof.
  intros Hs N F. unfold build_step. destruct (get_object tb t) as [e|] eqn:G.
  - destruct (Hs _ _ G) as [NE SE]. subst t. unfold sane_element in SE. destruct (el_fun e) as [|f|f] eqn:Fn; [contradiction|..].
    + destruct SE as [A _]. rewrite A. destruct st as [|r st]; simpl Datatypes.length; [exact I|].
      replace (1 >? Z.of_nat (Datatypes.S (Datatypes.length st)))%Z with false by (symmetry; rewrite Z.gtb_ltb; apply Z.ltb_ge; lia). simpl. inversion F; subst. constructor; auto. eapply pa_one; eauto.
    + rewrite SE. destruct st as [|r [|l st]]; simpl Datatypes.length; [exact I|exact I|].
      replace (2 >? Z.of_nat (Datatypes.S (Datatypes.S (Datatypes.length st))))%Z with false by (symmetry; rewrite Z.gtb_ltb; apply Z.ltb_ge; lia). simpl.
      inversion F as [|? ? Pr F']; subst. inversion F'; subst. constructor; auto. eapply pa_two; eauto.
  - destruct (is_delimiter t) eqn:D; auto. destruct (to_scalar t) eqn:E; constructor; auto; try apply pa_const; apply pa_var; auto; congruence.
Qed.
Lemma build_proper ts : sane tb -> Forall word ts -> forall st, Forall parsed st -> match build tb st ts with Ok st' => Forall parsed st' | Throw _ => True | _ => False end.
Proof.
  intros Hs F. induction F as [|t ts N F IH]; intros st Fs; cbn [build]; auto. pose proof (build_step_proper st t Hs N Fs) as B.
  destruct (build_step tb st t); cbn [rbind]; auto. now apply IH.
Qed.
Lemma yard_safe ts : forall st, safe (yard tb st ts).
Proof.
  induction ts as [|t ts IH]; intro st; cbn [yard]; [exact I|].
  assert (A : safe (yard_step tb st t)).
  { destruct st as [Q st]. unfold yard_step. destruct (get_object tb t) as [e|].
    - destruct (negb (el_operator e)); [exact I|]. destruct (String.eqb t ","); [destruct (pop_to_paren st) as [q [|]]; exact I|]. destruct (pop_operators tb e st). exact I.
    - destruct (String.eqb t ","); [destruct (pop_to_paren st) as [q [|]]; exact I|]. destruct (String.eqb t "("); [exact I|]. destruct (String.eqb t ")"); [|exact I].
      destruct (pop_to_paren st) as [q [|y [|f s]]]; try exact I. destruct (get_object tb f) as [e|]; [|exact I]. destruct (el_operator e); exact I. }
  destruct (yard_step tb st t); cbn [rbind]; auto.
Qed.
Lemma end_safe s : forall Q, safe (yard_end Q s).
Proof. induction s as [|t s IH]; intro Q; simpl; [exact I|]. destruct (String.eqb t "(" || String.eqb t ")")%bool; [exact I|]. apply IH. Qed.
Lemma space_ok cs : Forall (fun c => c <> "") cs -> forall s, exists s', space_loop cs s = Ok s'.
Proof. induction 1 as [|c cs N F IH]; intro s; cbn [space_loop]; eauto. destruct (replace_all_spec s c (" " ++ c ++ " ") N) as (r & E & _). unfold replace_all. rewrite E. cbn [rbind]. apply IH. Qed.
Lemma parse_total s : sane tb -> get_object tb "" = None -> match parse tb s with Ok n => parsed n | Throw _ => True | _ => False end.
Proof.
  intros Hs He. destruct (string_dec s "") as [->|N]; [exact I|]. rewrite parse_split by auto.
  assert (NE : Forall (fun c => c <> "") (space_chars tb)).
  { unfold space_chars. apply Forall_app. split; [repeat constructor; discriminate|]. apply Forall_forall. intros x I. apply filter_In in I. destruct I as [I _].
    unfold available_operators in I. apply in_map_iff in I. destruct I as ([k e] & <- & I). apply filter_In in I. destruct I as [I _]. simpl. intros ->.
    clear Hs. induction tb as [|[k' e'] r IH]; simpl in He; [destruct I|]. destruct (String.eqb_spec k' ""); [discriminate|]. destruct I as [I|I]; auto. congruence. }
  unfold space_formula. destruct (space_ok _ NE s) as (sp & ->). cbn [rbind].
  destruct (yard_tokens tb (tokens sp)) as [q| | |] eqn:E; cbn [rbind].
  - unfold build_tree. assert (F : Forall word q).
    { apply Forall_forall. intros x I. apply (yard_tokens_in _ _ _ E) in I. pose proof (tokens_words sp) as W. rewrite Forall_forall in W. apply W in I. apply I. }
    pose proof (build_proper q Hs F [] (Forall_nil _)) as B. destruct (build tb [] q) as [st| | |]; cbn [rbind]; auto. destruct st as [|n [|]]; auto. now inversion B.
  - exact I.
  - unfold yard_tokens in E. pose proof (yard_safe (tokens sp) ([], [])) as A. destruct (yard tb ([], []) (tokens sp)) as [st| | |]; try contradiction; try discriminate. cbn [rbind] in E.
    pose proof (end_safe (snd st) (fst st)) as B. rewrite E in B. destruct B.
  - unfold yard_tokens in E. pose proof (yard_safe (tokens sp) ([], [])) as A. destruct (yard tb ([], []) (tokens sp)) as [st| | |]; try contradiction; try discriminate. cbn [rbind] in E.
    pose proof (end_safe (snd st) (fst st)) as B. rewrite E in B. destruct B.
Qed.
(** variables of a tree *)
Fixpoint free (n : node T) : list string :=
  let '(Node el l r v c) := n in
  ((match l with Some x => free x | None => [] end) ++ (match r with Some x => free x | None => [] end)
  ++ (match el with None => if sempty v then [] else [v] | Some _ => [] end))%list.
Lemma eval_total n : parsed n -> forall m, (exists v, node_evaluate m n = Ok v /\ forall x, In x (free n) -> vget m x <> None) \/
  (node_evaluate m n = Throw EFunction /\ exists x, In x (free n) /\ vget m x = None).
Proof.
  induction 1 as [c|v [N _] _ _ _|el f n _ _ F _ P IH|el f a b _ _ F _ Pa IHa Pb IHb]; intro m; cbn [node_evaluate free app].
  - left. exists c. split; auto.
  - apply sempty_false in N. rewrite N. cbn [negb]. destruct (vget m v) eqn:E; [left|right].
    + exists t. split; auto. intros x [<-|[]]. congruence.
    + split; auto. exists v. split; auto. now left.
  - rewrite F. destruct (IH m) as [(v & -> & A)|(-> & x & I & A)]; cbn [rbind].
    + left. exists (f v). split; auto. intros x I. apply in_app_iff in I. destruct I as [I|[]]; auto.
    + right. split; auto. exists x. split; auto. apply in_app_iff; auto.
  - rewrite F. destruct (IHa m) as [(v & -> & A)|(-> & x & I & A)]; cbn [rbind].
    + destruct (IHb m) as [(w & -> & B)|(-> & x & I & B)]; cbn [rbind].
      * left. exists (f v w). split; auto. intros x I. rewrite !in_app_iff in I. destruct I as [I|[I|[]]]; auto.
      * right. split; auto. exists x. split; auto. rewrite !in_app_iff; auto.
    + right. split; auto. exists x. split; auto. rewrite !in_app_iff; auto.
Qed.

(** * C40: printing *)
(** trees that differ in the constants only *)
Inductive alike (R : T -> T -> Prop) : node T -> node T -> Prop :=
| al_const c c' : R c c' -> alike R (Node None None None "" c) (Node None None None "" c')
| al_var v : alike R (Node None None None v s_nan) (Node None None None v s_nan)
| al_one el n n' : alike R n n' -> alike R (Node (Some el) None (Some n) "" s_nan) (Node (Some el) None (Some n') "" s_nan)
| al_two el m n m' n' : alike R m m' -> alike R n n' -> alike R (Node (Some el) (Some m) (Some n) "" s_nan) (Node (Some el) (Some m') (Some n') "" s_nan).
Inductive constant_of (c : T) : node T -> Prop :=
| co_here : constant_of c (Node None None None "" c)
| co_left el m r v k : constant_of c m -> constant_of c (Node el (Some m) r v k)
| co_right el n l v k : constant_of c n -> constant_of c (Node el l (Some n) v k).
(** the text of a constant is one token, not a name, and is read as [c'] *)
Definition reads_as (d : nat) (c c' : T) : Prop :=
  to_scalar (str d c) = Ok c' /\ word (str d c) /\ get_object tb (str d c) = None /\ is_delimiter (str d c) = false.
Lemma tokens_sep a b : tokens (a ++ " " ++ b) = (tokens a ++ tokens b)%list.
Proof. apply (tokens_space a b " "). reflexivity. Qed.
Lemma postfix_const d c : node_postfix d (Node None None None "" c) = str d c.
Proof. cbn [node_postfix]. destruct (negb (isNaN c)); reflexivity. Qed.
Lemma prefix_const d c : node_prefix d (Node None None None "" c) = str d c.
Proof. cbn [node_prefix]. destruct (negb (isNaN c)); auto. apply sapp_nil_r. Qed.
Lemma postfix_reads d R n : isNaN s_nan = true -> parsed n -> (forall c, constant_of c n -> exists c', reads_as d c c' /\ R c c') ->
  exists n', alike R n n' /\ forall st, build tb st (tokens (node_postfix d n)) = Ok (n' :: st).
Proof.
  intro NN. induction 1 as [c|v W E G D|el f n G W _ A P IH|el f a b G W _ A Pa IHa Pb IHb]; intro C.
  - destruct (C c (co_here c)) as (c' & (E & W & G & D) & Rc). exists (Node None None None "" c'). split; [now constructor|]. intro st.
    rewrite postfix_const, tokens_word by auto. cbn [build]. unfold build_step. rewrite G, D, E. reflexivity.
  - exists (Node None None None v s_nan). split; [constructor|]. intro st. cbn [node_postfix]. rewrite NN. cbn [negb]. destruct W as [W1 W2]. pose proof W1 as W1'. apply sempty_false in W1'.
    rewrite W1'. cbn [negb]. rewrite tokens_word by (split; auto). cbn [build]. unfold build_step. rewrite G, D.
    destruct (to_scalar v) eqn:E1; auto. destruct (E a); auto.
  - destruct IH as (n' & Al & B). { intros c Cc. apply C. now constructor. }
    eexists. split; [constructor; exact Al|]. intro st. cbn [node_postfix]. rewrite NN. cbn [negb sempty append node_value]. rewrite sapp_assoc, tokens_sep, (tokens_word (el_name el)) by auto.
    rewrite build_app, B. cbn [rbind build]. rewrite (build_one tb n' st (el_name el) el) by auto. reflexivity.
  - destruct IHa as (a' & Ala & Ba). { intros c Cc. apply C. now constructor. } destruct IHb as (b' & Alb & Bb). { intros c Cc. apply C. now constructor. }
    eexists. split; [constructor; [exact Ala|exact Alb]|]. intro st. cbn [node_postfix]. rewrite NN. cbn [negb sempty node_value]. rewrite !sapp_assoc, !tokens_sep, (tokens_word (el_name el)) by auto.
    rewrite build_app, Ba. cbn [rbind]. rewrite build_app, Bb. cbn [rbind build]. rewrite (build_two tb a' b' st (el_name el) el) by auto. reflexivity.
Qed.
Lemma alike_eq n m : alike eq n m -> n = m.
Proof. induction 1; congruence. Qed.
Lemma alike_text d n m : isNaN s_nan = true -> alike (fun c c' => str d c' = str d c /\ isNaN c' = isNaN c) n m ->
  node_postfix d m = node_postfix d n /\ node_prefix d m = node_prefix d n /\ node_infix d m = node_infix d n.
Proof.
  intro NN. induction 1 as [c c' [E1 E2]|v|el n n' Al (IH1 & IH2 & IH3)|el a b a' b' Ala (IHa1 & IHa2 & IHa3) Alb (IHb1 & IHb2 & IHb3)].
  - rewrite !postfix_const, !prefix_const. repeat split; auto. cbn [node_infix]. rewrite E1, E2. destruct (negb (isNaN c)); auto.
  - auto.
  - cbn [node_postfix node_prefix node_infix]. rewrite NN. cbn [negb sempty node_value]. rewrite IH1, IH2, IH3. auto.
  - cbn [node_postfix node_prefix node_infix]. rewrite NN. cbn [negb sempty node_value]. rewrite IHa1, IHa2, IHa3, IHb1, IHb2, IHb3. auto.
Qed.
(** the prefix text determines the tree: read backwards *)
Definition prefix_step (stack : list (node T)) (t : string) : list (node T) :=
  match get_object tb t with
  | Some e => match stack with
              | n :: rest => if (el_arity e =? 2)%Z then match rest with m :: rest' => Node (Some e) (Some n) (Some m) "" s_nan :: rest' | [] => [] end
                             else Node (Some e) None (Some n) "" s_nan :: rest
              | [] => []
              end
  | None => match to_scalar t with Ok v => mk_constant v :: stack | _ => mk_variable t :: stack end
  end.
Lemma prefix_reads d n : isNaN s_nan = true -> parsed n -> (forall c, constant_of c n -> reads_as d c c) ->
  forall st, fold_right (fun t s => prefix_step s t) st (tokens (node_prefix d n)) = n :: st.
Proof.
  intro NN. induction 1 as [c|v W E G D|el f n G W _ A P IH|el f a b G W _ A Pa IHa Pb IHb]; intros C st.
  - destruct (C c (co_here c)) as (E & W & G & D). rewrite prefix_const, tokens_word by auto. simpl. unfold prefix_step. now rewrite G, E.
  - cbn [node_prefix]. rewrite NN. cbn [negb]. destruct W as [W1 W2]. pose proof W1 as W1'. apply sempty_false in W1'. rewrite W1'. cbn [negb]. rewrite tokens_word by (split; auto). simpl. unfold prefix_step. rewrite G.
    destruct (to_scalar v) eqn:E1; auto. destruct (E a); auto.
  - cbn [node_prefix]. rewrite NN. cbn [negb sempty node_value]. change (el_name el ++ "" ++ " " ++ node_prefix d n) with (el_name el ++ " " ++ node_prefix d n). rewrite tokens_sep, (tokens_word (el_name el)) by auto. cbn [app fold_right]. rewrite IH by (intros c Cc; apply C; now constructor).
    unfold prefix_step. rewrite G, A. reflexivity.
  - cbn [node_prefix]. rewrite NN. cbn [negb sempty node_value]. rewrite !sapp_assoc, !tokens_sep, (tokens_word (el_name el)) by auto. cbn [app fold_right]. rewrite fold_right_app.
    rewrite IHb by (intros c Cc; apply C; now constructor). rewrite IHa by (intros c Cc; apply C; now constructor). unfold prefix_step. rewrite G, A. reflexivity.
Qed.
Lemma prefix_unique d m n : isNaN s_nan = true -> parsed m -> parsed n -> (forall c, constant_of c m -> reads_as d c c) -> (forall c, constant_of c n -> reads_as d c c) ->
  node_prefix d m = node_prefix d n -> m = n.
Proof.
  intros NN Pm Pn Cm Cn E. pose proof (prefix_reads d m NN Pm Cm []) as A. pose proof (prefix_reads d n NN Pn Cn []) as B. rewrite E in A. congruence.
Qed.
Lemma postfix_same d n : isNaN s_nan = true -> parsed n -> (forall c, constant_of c n -> reads_as d c c) -> build_tree tb (tokens (node_postfix d n)) = Ok n.
Proof.
  intros NN P C. destruct (postfix_reads d eq n NN P) as (n' & A & B). { intros c Cc. exists c. auto. }
  apply alike_eq in A. subst n'. unfold build_tree. rewrite B. reflexivity.
Qed.

(** * C41: the term *)
(** value of a name when the term is evaluated: x, or the engine's variable of that name (the last one), or what was left in the map *)
Fixpoint lookup_last (ctx : context T) (v : string) : option T :=
  match ctx with [] => None | (k, y) :: r => match lookup_last r v with Some z => Some z | None => if String.eqb k v then Some y else None end end.
Definition environment (ctx : context T) (x : T) (old : string -> option T) (v : string) : option T :=
  if String.eqb "x" v then Some x else match lookup_last ctx v with Some y => Some y | None => old v end.
Lemma vget_vset (m : vars T) k y v : vget (vset m k y) v = if String.eqb k v then Some y else vget m v.
Proof.
  induction m as [|[k' y'] m IH]; simpl; auto. destruct (String.eqb_spec k' k) as [->|N]; simpl.
  - destruct (String.eqb k v); auto.
  - destruct (String.eqb_spec k' v) as [->|N']; auto. destruct (String.eqb_spec k v); congruence.
Qed.
Lemma vget_fill ctx : forall (m : vars T) v, vget (fn_fill m ctx) v = match lookup_last ctx v with Some y => Some y | None => vget m v end.
Proof.
  unfold fn_fill. induction ctx as [|[k y] ctx IH]; intros m v; simpl; auto. rewrite IH, vget_vset. destruct (lookup_last ctx v); auto. destruct (String.eqb k v); auto.
Qed.
Lemma node_ind2 (Q : node T -> Prop) : (forall el l r v c, (forall x, l = Some x -> Q x) -> (forall x, r = Some x -> Q x) -> Q (Node el l r v c)) -> forall n, Q n.
Proof.
  intro H. fix F 1. intros [el l r v c]. apply H; intros x E.
  - destruct l as [y|]; [|discriminate]. injection E as <-. apply F.
  - destruct r as [y|]; [|discriminate]. injection E as <-. apply F.
Qed.
Lemma eval_ext n : forall m m', (forall v, In v (free n) -> vget m v = vget m' v) -> node_evaluate m n = node_evaluate m' n.
Proof.
  induction n as [el l r v c IHl IHr] using node_ind2. intros m m' E. cbn [node_evaluate free] in *.
  assert (L : forall x, l = Some x -> node_evaluate m x = node_evaluate m' x). { intros x Ex. apply (IHl x Ex). intros w I. apply E. subst l. rewrite !in_app_iff. auto. }
  assert (Rr : forall x, r = Some x -> node_evaluate m x = node_evaluate m' x). { intros x Ex. apply (IHr x Ex). intros w I. apply E. subst r. rewrite !in_app_iff. auto. }
  clear IHl IHr.
  destruct el as [e|].
  - destruct (el_fun e); auto; destruct l as [x|], r as [y|]; rewrite ?(L _ eq_refl), ?(Rr _ eq_refl); auto.
  - destruct (sempty v) eqn:Ev; cbn [negb]; auto. rewrite (E v); auto. rewrite !in_app_iff. right. right. now left.
Qed.
(** states reached by loading, when loading succeeds *)
Lemma load_ok st s eng ctx st' : fn_load tb st s eng ctx = (st', Ok tt) -> exists n, parse tb s = Ok n /\ fn_formula st' = s /\ fn_root st' = Some n /\ fn_engine st' = eng /\
  (exists v, node_evaluate (fn_vars st') n = Ok v) /\ (forall v, vget (fn_vars st') v = environment (if eng then ctx else []) s_0 (vget (fn_vars st)) v).
Proof.
  unfold fn_load. destruct (parse tb s) as [n| | |] eqn:E; try discriminate. unfold fn_membership. cbn [fn_root fn_engine fn_vars fn_formula].
  destruct (node_evaluate _ n) as [v| | |] eqn:Ev; cbn [rbind]; try discriminate. intro F. injection F as <-. exists n. cbn [fn_root fn_engine fn_vars fn_formula]. repeat split; eauto.
  intro w. unfold environment. rewrite vget_vset. destruct (String.eqb "x" w); auto. destruct eng; [apply vget_fill|reflexivity].
Qed.
Lemma membership_value st n ctx x : fn_root st = Some n -> snd (fn_membership st ctx x) = node_evaluate (fn_vars (fst (fn_membership st ctx x))) n /\
  forall v, vget (fn_vars (fst (fn_membership st ctx x))) v = environment (if fn_engine st then ctx else []) x (vget (fn_vars st)) v.
Proof.
  intro Rt. unfold fn_membership. rewrite Rt. cbn [fst snd fn_vars]. split; auto. intro v. rewrite vget_vset. unfold environment. destruct (String.eqb "x" v); auto. destruct (fn_engine st); [apply vget_fill|reflexivity].
Qed.
(** evaluation with given variables *)
Lemma evaluate_value st n locals : fn_root st = Some n -> let st' := fst (fn_evaluate st locals) in
  snd (fn_evaluate st locals) = node_evaluate (fn_vars st') n /\ fn_root st' = Some n /\
  forall v, vget (fn_vars st') v = match lookup_last locals v with Some y => Some y | None => vget (fn_vars st) v end.
Proof. intro Rt. unfold fn_evaluate. rewrite Rt. cbn [fst snd fn_vars fn_root]. repeat split; auto. intro v. apply vget_fill. Qed.
Lemma evaluate_given st n locals ctx x : fn_root st = Some n -> (forall v, In v (free n) -> In v (map fst locals)) ->
  snd (fn_evaluate (fst (fn_membership st ctx x)) locals) = snd (fn_evaluate st locals).
Proof.
  intros Rt G. assert (fn_root (fst (fn_membership st ctx x)) = Some n) as Rt' by (unfold fn_membership; rewrite Rt; reflexivity).
  destruct (evaluate_value _ n locals Rt) as (-> & _ & A). destruct (evaluate_value _ n locals Rt') as (-> & _ & B). apply eval_ext. intros v I.
  rewrite A, B. specialize (G v I). destruct (lookup_last locals v) eqn:E; auto. exfalso. clear - G E. induction locals as [|[k y] r IH]; simpl in *; auto.
  destruct (lookup_last r v); [discriminate|]. destruct (String.eqb_spec k v); [discriminate|]. destruct G as [J|J]; [congruence|auto].
Qed.
Lemma unloaded_throws (st : fstate T) : fn_formula (fn_unload st) = fn_formula st /\
  (forall ctx x, fn_membership (fn_unload st) ctx x = (fn_unload st, Throw EFunction)) /\ (forall locals, fn_evaluate (fn_unload st) locals = (fn_unload st, Throw EFunction)).
Proof. repeat split. Qed.
(** the memberships of a loaded term, for the engine's values at that time, independent of everything before the load *)
Lemma load_membership st st2 s eng ctx st' st2' : fn_load tb st s eng ctx = (st', Ok tt) -> fn_load tb st2 s eng ctx = (st2', Ok tt) ->
  (forall n v, parse tb s = Ok n -> In v (free n) -> v = "x" \/ (eng = true /\ In v (map fst ctx))) ->
  forall ctx' x, map fst ctx' = map fst ctx -> snd (fn_membership st' ctx' x) = snd (fn_membership st2' ctx' x).
Proof.
  intros A B F ctx' x M. destruct (load_ok _ _ _ _ _ A) as (n & P & _ & Rt & En & _). destruct (load_ok _ _ _ _ _ B) as (n2 & P2 & _ & R2 & En2 & _). assert (n2 = n) by congruence. subst n2.
  destruct (membership_value st' n ctx' x Rt) as [-> V1]. destruct (membership_value st2' n ctx' x R2) as [-> V2]. apply eval_ext. intros v I.
  rewrite V1, V2, En, En2. unfold environment. destruct (String.eqb_spec "x" v) as [|N]; auto. destruct (F n v P I) as [->|[-> J]]; [congruence|]. rewrite <- M in J.
  destruct (lookup_last ctx' v) eqn:LL; auto. exfalso. clear - J LL. induction ctx' as [|[k y] r IH]; simpl in *; auto. destruct (lookup_last r v); [discriminate|]. destruct (String.eqb_spec k v); [discriminate|]. destruct J as [J|J]; [congruence|auto].
Qed.
(** a loaded term always has a value *)
Lemma loaded_defined st s eng ctx st' : sane tb -> get_object tb "" = None -> fn_load tb st s eng ctx = (st', Ok tt) -> forall ctx' x, exists v, snd (fn_membership st' ctx' x) = Ok v.
Proof.
  intros Hs He A ctx' x. destruct (load_ok _ _ _ _ _ A) as (n & P & _ & Rt & En & (v & Ev) & _). pose proof (parse_total s Hs He) as PT. rewrite P in PT.
  destruct (membership_value st' n ctx' x Rt) as [-> V1]. destruct (eval_total n PT (fn_vars st')) as [(w & _ & D)|(E & _)]; [|congruence].
  destruct (eval_total n PT (fn_vars (fst (fn_membership st' ctx' x)))) as [(u & E & _)|(_ & y & I & N)]; [eauto|]. exfalso. apply (D y I). rewrite V1 in N. unfold environment in N.
  destruct (String.eqb "x" y); [discriminate|]. destruct (lookup_last _ y); [discriminate|auto].
Qed.
(** what a failed load leaves behind *)
Lemma load_failed st s eng ctx st' e : fn_load tb st s eng ctx = (st', Throw e) ->
  fn_formula st' = s /\ fn_engine st' = eng /\
  match parse tb s with Ok n => fn_root st' = Some n | _ => fn_root st' = fn_root st /\ fn_vars st' = fn_vars st end.
Proof.
  unfold fn_load. destruct (parse tb s) as [n| | |] eqn:E; try discriminate.
  - unfold fn_membership. cbn [fn_root fn_engine fn_vars fn_formula]. destruct (node_evaluate _ n); cbn [rbind]; try discriminate. intro F. injection F as <- _. auto.
  - intro F. injection F as <- _. auto.
Qed.
Lemma stale_membership st s eng ctx st' e n : fn_load tb st s eng ctx = (st', Throw e) -> parse tb s = Throw e -> fn_root st = Some n ->
  forall ctx' x, snd (fn_membership st' ctx' x) = node_evaluate (fn_vars (fst (fn_membership st' ctx' x))) n.
Proof. intros A P Rt ctx' x. destruct (load_failed _ _ _ _ _ _ A) as (_ & _ & B). rewrite P in B. destruct B as [B _]. apply membership_value. congruence. Qed.
End FP2.
