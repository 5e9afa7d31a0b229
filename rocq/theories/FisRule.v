(** Rules in the Fuzzy Inference System format: what is written and what is read. *)
From Coq Require Import ZArith List Bool String Ascii Lia Permutation Sorting.Sorted.
From Verif Require Import Base Op Norm Hedge Shape Discrete Defuzz Aggregated Text Function FunctionProofs2 FunctionTable Rule Var Activation Engine Factory Fll Fis
  TextProofs TextProofs2 SpecText SpecFormula SpecRule SpecFll FllText FllExport RuleBundle EngineReady SpecFis.
Import ListNotations.
Local Open Scope string_scope.

(** ** characters of numbers *)
Definition numeral (c : ascii) : bool := (is_digit c || existsb (Ascii.eqb c) ["-"; "."; "n"; "a"; "i"; "f"; "?"]%char)%bool.
Lemma digit_numeral m : (0 <= m < 10)%Z -> sforall numeral (char (digit_char m)) = true.
Proof.
  intro H. assert (C : exists k, (k < 10)%nat /\ m = Z.of_nat k) by (exists (Z.to_nat m); lia). destruct C as (k & K & ->). unfold digit_char. rewrite Nat2Z.id.
  do 10 (destruct k as [|k]; [reflexivity|]). lia.
Qed.
Lemma digits_numeral fuel : forall n, sforall numeral (int_digits fuel n) = true.
Proof.
  induction fuel as [|f IH]; intro n; [reflexivity|]. cbn [int_digits]. destruct (Z.ltb_spec n 10).
  - destruct (Z.leb_spec 0 n); [apply digit_numeral; lia|]. unfold digit_char. replace (Z.to_nat n) with 0%nat by lia. reflexivity.
  - rewrite sforall_app, IH. apply digit_numeral. apply Z.mod_pos_bound. lia.
Qed.
Lemma frac_numeral : forall k n, sforall numeral (frac_digits k n) = true.
Proof. induction k as [|k IH]; intro n; [reflexivity|]. cbn [frac_digits]. rewrite sforall_app, IH. apply digit_numeral. apply Z.mod_pos_bound. lia. Qed.
Lemma fixed_numeral k n : sforall numeral (fixed_text k n) = true.
Proof. unfold fixed_text, nat_text. rewrite sforall_app, digits_numeral. destruct (Nat.eqb k 0); [reflexivity|]. cbn [append sforall]. rewrite frac_numeral. reflexivity. Qed.
Lemma fixed_some k n : fixed_text k n <> "".
Proof.
  unfold fixed_text, nat_text. destruct (Z.ltb_spec (n / 10 ^ Z.of_nat k) 10) as [L|L].
  - cbn [int_digits]. apply Z.ltb_lt in L. rewrite L. discriminate.
  - cbn [int_digits]. destruct (Z.ltb_spec (n / 10 ^ Z.of_nat k) 10); [lia|]. destruct (int_digits _ _); discriminate.
Qed.
Section Str.
Context {T : Type} `{S : Scalar T}.
Lemma str_numeral d (x : T) : str d x <> "" /\ sforall numeral (str d x) = true.
Proof.
  unfold str. destruct (isNaN x); [split; [discriminate|reflexivity]|]. destruct (isInf x); [destruct (s_ltb x s_0); split; discriminate || reflexivity|].
  destruct (isEq_tol _ x s_0); [split; [apply fixed_some|apply fixed_numeral]|]. split.
  - destruct (s_ltb x s_0); [discriminate|apply fixed_some].
  - rewrite sforall_app, fixed_numeral. destruct (s_ltb x s_0); reflexivity.
Qed.
End Str.
Lemma numeral_lacks s c : numeral c = false -> sforall numeral s = true -> lacks c s = true.
Proof. intros N. rewrite lacks_sforall. apply sforall_impl. intros x H. destruct (Ascii.eqb_spec x c); [congruence|reflexivity]. Qed.
Lemma numeral_solid s : sforall numeral s = true -> sforall (fun c => negb (is_space c)) s = true.
Proof.
  apply sforall_impl. intros x H. destruct (is_space x) eqn:E; [|reflexivity]. exfalso.
  revert H E. clear. destruct x as [[] [] [] [] [] [] [] []]; cbv; congruence.
Qed.
(** ** the queue *)
Lemma equal_all op l : Forall (eq op) l -> equal_operators l = true.
Proof. induction 1 as [|a l -> H IH]; [reflexivity|]. destruct H as [|b l -> H]; [reflexivity|]. cbn [equal_operators]. rewrite String.eqb_refl. exact IH. Qed.
Definition sizes (l : list expression) : nat := fold_right (fun e n => (expression_size e + n)%nat) 0%nat l.
Lemma sizes_app a b : sizes (a ++ b) = (sizes a + sizes b)%nat.
Proof. induction a as [|x a IH]; [reflexivity|]. unfold sizes in *. cbn [app fold_right]. rewrite IH. lia. Qed.
Lemma queue_ok op : forall fuel q, (sizes q <= fuel)%nat -> Forall (joined_by op) q ->
  exists ps ops, breadth_first fuel q = Ok (ps, ops) /\ Permutation ps (flat_map propositions_of q) /\ Forall (eq op) ops /\
  (ops = [] -> List.length ps = List.length q).
Proof.
  induction fuel as [|fuel IH]; intros q H F; (destruct q as [|e q]; [exists [], []; repeat split; auto|]).
  - exfalso. cbn in H. destruct e; cbn in H; lia.
  - inversion F as [|? ? F1 F2]; subst. destruct e as [p|name l r].
    + cbn in H. destruct (IH q) as (ps & ops & E & Pm & O & L); [unfold sizes in *; lia|auto|]. exists (p :: ps), ops. cbn [breadth_first]. rewrite E. cbn [rbind fst snd]. repeat split; auto.
      * cbn. now constructor.
      * intro Q. cbn. f_equal. auto.
    + destruct F1 as (-> & Fl & Fr). destruct (IH (q ++ [l; r])%list) as (ps & ops & E & Pm & O & L).
      * rewrite sizes_app. cbn in *. unfold sizes in *. lia.
      * apply Forall_app. auto.
      * exists ps, (op :: ops). cbn [breadth_first]. rewrite E. cbn [rbind fst snd]. repeat split; auto; [|discriminate].
        rewrite flat_map_app in Pm. cbn [flat_map propositions_of] in *. rewrite app_nil_r in Pm. rewrite Pm. apply Permutation_app_comm.
Qed.

(** ** words *)
Lemma spec_words ts : Forall wordy ts -> SpecFll.words (SpecRule.words ts) = ts.
Proof.
  induction 1 as [|t ts H F IH]; [reflexivity|]. cbn [SpecRule.words]. rewrite words_app, IH, words_one by auto. reflexivity.
Qed.
Lemma words_lacks c ts : Ascii.eqb " " c = false -> Forall (fun t => lacks c t = true) ts -> lacks c (SpecRule.words ts) = true.
Proof. intros N. induction 1 as [|t ts H F IH]; [reflexivity|]. cbn [SpecRule.words]. rewrite !lacks_app, H, IH. cbn [lacks]. rewrite N. reflexivity. Qed.
Lemma tokens_words_app ts s : Forall word ts -> tokens (SpecRule.words ts ++ s) = (ts ++ tokens s)%list.
Proof.
  induction 1 as [|t ts H F IH]; [reflexivity|]. cbn [SpecRule.words]. rewrite !sapp_assoc. change (t ++ " " ++ SpecRule.words ts ++ s) with (t ++ String " " (SpecRule.words ts ++ s)).
  rewrite tokens_space, tokens_word, IH by auto. reflexivity.
Qed.
(** texts joined by a keyword *)
Definition phrase (kw : string) (l : list (list string)) : list string :=
  match l with [] => [] | x :: r => (x ++ flat_map (fun t => kw :: t) r)%list end.
Lemma tokens_phrase kw l : (kw = "" /\ List.length l < 2 \/ word kw)%nat -> tokens (join l (" " ++ kw ++ " ")) = phrase kw (map tokens l).
Proof.
  intro H. destruct l as [|x l]; [reflexivity|]. revert x H. induction l as [|y l IH]; intros x H; [cbn; now rewrite app_nil_r|].
  destruct H as [[_ H]|H]; [cbn in H; lia|]. change (join (x :: y :: l) (" " ++ kw ++ " ")) with (x ++ (" " ++ kw ++ " ") ++ join (y :: l) (" " ++ kw ++ " ")).
  rewrite !sapp_assoc. change (x ++ " " ++ kw ++ " " ++ join (y :: l) (" " ++ kw ++ " ")) with (x ++ String " " (kw ++ String " " (join (y :: l) (" " ++ kw ++ " ")))).
  rewrite !tokens_space by reflexivity. rewrite (tokens_word kw H), IH by auto. reflexivity.
Qed.
Lemma hash_free_lacks s : lacks "#" s = true -> hash_free s.
Proof. induction s as [|c s IH]; cbn; [auto|]. rewrite andb_true_iff, negb_true_iff. intros [A B]. split; [intros ->; discriminate|auto]. Qed.
Lemma join_lacks c l sep : lacks c sep = true -> Forall (fun t => lacks c t = true) l -> lacks c (join l sep) = true.
Proof. rewrite !lacks_sforall. intros H F. apply join_sforall; auto. eapply Forall_impl; [|exact F]. intros t L. rewrite <- lacks_sforall. exact L. Qed.

(** ** names *)
Definition name_of (env : penv) (v : varref) : string := match v with VIn i => nth i (inputs_of env) "" | VOut j => nth j (outputs_of env) "" end.
Lemma nodup_first l i n : NoDup l -> nth_error l i = Some n -> first_named n l i.
Proof.
  intros N E. split; [exact E|]. intros k L E'. assert (K : k = i); [|lia]. eapply NoDup_nth_error; [exact N| |congruence]. apply nth_error_Some. congruence.
Qed.
Lemma name_char_lexeme n : n <> "" -> sforall name_char n = true -> lexeme special_chars n.
Proof.
  intros N H. right. split; [exact N|]. apply sforall_all in H. revert H. clear. induction n as [|c n IH]; [auto|]. intros [A B]. split; [|auto]. split; [now apply name_not_space|].
  intro I. cbn in I. repeat (destruct I as [<-|I]; [discriminate|]). exact I.
Qed.
Lemma name_char_lacks c n : name_char c = false -> sforall name_char n = true -> lacks c n = true.
Proof. intros N. rewrite lacks_sforall. apply sforall_impl. intros x H. destruct (Ascii.eqb_spec x c); [congruence|reflexivity]. Qed.
Lemma hedge_chars h : hedge_name h <> "" /\ sforall name_char (hedge_name h) = true /\ hedge_name h <> "then" /\ hedge_name h <> "with".
Proof. destruct h; repeat split; discriminate. Qed.
Lemma name_char_word n : n <> "" -> sforall name_char n = true -> word n.
Proof. intros N H. split; [exact N|]. revert H. apply sforall_impl. intros c A. now rewrite name_not_space. Qed.

(** ** codes *)
Section Codes.
Context {T : Type} `{S : Scalar T}.
Variable d : nat.
Definition code_word (props : list proposition) (v : varref) (n : nat) : string :=
  let '(index, (negated, plus)) :=
    match find (fun p => varref_eqb (pr_var p) v) props with
    | None => (O, (false, s_0))
    | Some p =>
      (match pr_term p with Some t => if Nat.ltb t n then Datatypes.S t else O | None => O end,
       fold_left hedge_code (pr_hedges p) (false, s_0))
    end in
  (if negated : bool then "-" else "") ++
  (if isNaN plus then str_int (Z.of_nat index) ++ ".?" else str d (s_add (s_int (Z.of_nat index)) plus)).
Lemma code_split props v n : fis_code d props v n = code_word props v n ++ " ".
Proof.
  unfold fis_code, code_word. destruct (match find _ props with Some _ => _ | None => _ end) as [index [negated plus]]. now rewrite sapp_assoc.
Qed.
Lemma codes_words props vars : fis_codes d props vars = SpecRule.words (map (fun v => code_word props (fst v) (snd v)) vars).
Proof. induction vars as [|v vars IH]; [reflexivity|]. cbn [fis_codes fold_right map SpecRule.words]. fold (fis_codes d props vars). rewrite code_split, sapp_assoc, IH. reflexivity. Qed.
Lemma word_numeral props v n : code_word props v n <> "" /\ sforall numeral (code_word props v n) = true.
Proof.
  unfold code_word. destruct (match find _ props with Some _ => _ | None => _ end) as [index [negated plus]].
  assert (Q : forall s, s <> "" /\ sforall numeral s = true -> (if negated then "-" else "") ++ s <> "" /\ sforall numeral ((if negated then "-" else "") ++ s) = true).
  { intros s [A B]. destruct negated; [split; [discriminate|exact B]|split; auto]. }
  apply Q. destruct (isNaN plus); [|apply str_numeral]. unfold str_int. destruct (Z.ltb_spec (Z.of_nat index) 0); [lia|]. cbn [append]. unfold nat_text. split.
  - destruct (int_digits _ _); discriminate.
  - rewrite sforall_app, digits_numeral. reflexivity.
Qed.

Section Env.
Variable env : penv.
Definition term_text (p : proposition) : string := match pr_term p with Some t => nth t (terms_of env (pr_var p)) "" | None => "" end.
Definition sentence (p : proposition) : string := name_of env (pr_var p) ++ " is " ++ SpecRule.words (map hedge_name (pr_hedges p)) ++ term_text p.
Definition found (props : list proposition) (v : varref) : list proposition := match find (fun p => varref_eqb (pr_var p) v) props with Some p => [p] | None => [] end.
Lemma varref_eq a b : varref_eqb a b = true <-> a = b.
Proof. destruct a, b; cbn; rewrite ?Nat.eqb_eq; split; intro H; try congruence; try discriminate. Qed.
Lemma found_var props v p : find (fun p => varref_eqb (pr_var p) v) props = Some p -> In p props /\ pr_var p = v.
Proof. intro H. apply find_some in H. now rewrite varref_eq in H. Qed.

Hypothesis code_none : forall props v n, find (fun p => varref_eqb (pr_var p) v) props = None -> exists z : T, to_scalar (code_word props v n) = Ok z /\ isEq z s_0 = true.
Hypothesis code_some : forall props v p, find (fun p => varref_eqb (pr_var p) v) props = Some p -> codable env p ->
  exists y : T, to_scalar (code_word props v (List.length (terms_of env v))) = Ok y /\ isEq y s_0 = false /\
  translate_proposition y (terms_of env v) = Ok (SpecRule.words (map hedge_name (pr_hedges p)) ++ term_text p).

Lemma propositions_ok props : (forall p, In p props -> codable env p) -> forall vars pvs,
  Forall2 (fun v pv => snd v = List.length (terms_of env (fst v)) /\ pv_terms pv = terms_of env (fst v) /\ pv_name pv = name_of env (fst v)) vars pvs ->
  @fis_propositions T S (map (fun v => code_word props (fst v) (snd v)) vars) pvs = Ok (map sentence (flat_map (found props) (map fst vars))).
Proof.
  intros C. induction 1 as [|[v n] pv vars pvs (E & Et & En) F IH]; [reflexivity|]. cbn [map fst snd flat_map fis_propositions] in *. subst n. rewrite Et, En.
  destruct (find (fun p => varref_eqb (pr_var p) v) props) as [p|] eqn:Fp.
  - assert (Fd : found props v = [p]) by (unfold found; now rewrite Fp). rewrite Fd. destruct (found_var _ _ _ Fp) as [I V].
    destruct (code_some _ _ _ Fp (C p I)) as (y & E1 & E2 & E3). rewrite E1. cbn [rbind]. rewrite E2, E3. cbn [rbind]. rewrite IH. cbn [rbind app map]. unfold sentence at 2. rewrite V. reflexivity.
  - assert (Fd : found props v = []) by (unfold found; now rewrite Fp). rewrite Fd.
    destruct (code_none props v (List.length (terms_of env v)) Fp) as (z & E1 & E2). rewrite E1. cbn [rbind app]. rewrite E2. exact IH.
Qed.
End Env.
End Codes.

(** ** ordering *)
Lemma number_fst {A} f (size : A -> nat) l : forall i, map fst (number_from f size i l) = map f (seq i (List.length l)).
Proof. induction l as [|x l IH]; intro i; [reflexivity|]. cbn. now rewrite IH. Qed.
Lemma found_perm f props n : (forall i j, f i = f j -> i = j) -> NoDup (map pr_var props) -> Forall (fun p => exists i, pr_var p = f i /\ (i < n)%nat) props ->
  (forall i, position (f i) = i) ->
  Permutation (flat_map (found props) (map f (seq 0 n))) props /\ StronglySorted before_of (flat_map (found props) (map f (seq 0 n))).
Proof.
  intros Inj N F Ps.
  assert (Sorted : forall m i, StronglySorted before_of (flat_map (found props) (map f (seq i m))) /\ Forall (fun p => (i <= position (pr_var p))%nat) (flat_map (found props) (map f (seq i m)))).
  { induction m as [|m IH]; intro i; [split; constructor|]. cbn [seq map flat_map]. destruct (IH (Datatypes.S i)) as [A B].
    assert (B' : Forall (fun p => (i <= position (pr_var p))%nat) (flat_map (found props) (map f (seq (Datatypes.S i) m)))) by (eapply Forall_impl; [|exact B]; cbn; intros; lia).
    unfold found at 1 3. destruct (find _ props) as [p|] eqn:Fp; [|split; auto]. apply found_var in Fp. destruct Fp as [_ V]. cbn [app]. split.
    - constructor; [exact A|]. eapply Forall_impl; [|exact B]. intros q L. unfold before_of. rewrite V, Ps. cbn in L. lia.
    - constructor; [rewrite V, Ps; lia|exact B']. }
  split; [|apply Sorted]. apply NoDup_Permutation.
  - destruct (Sorted n 0%nat) as [A _]. induction A as [|p l A IH H]; constructor; auto. intro I. rewrite Forall_forall in H. apply H in I. unfold before_of in I. lia.
  - clear - N. apply (NoDup_map_inv _ _ N).
  - intro p. rewrite in_flat_map. split.
    + intros (v & _ & I). unfold found in I. destruct (find _ props) as [q|] eqn:Fq; [|contradiction]. destruct I as [<-|[]]. now apply found_var in Fq.
    + intro I. rewrite Forall_forall in F. destruct (F p I) as (i & V & L). exists (f i). split; [apply in_map, in_seq; lia|]. unfold found.
      destruct (find (fun p => varref_eqb (pr_var p) (f i)) props) as [q|] eqn:Fq.
      * left. apply found_var in Fq. destruct Fq as [Iq Vq]. clear - N I Iq V Vq. induction props as [|x l IH]; [contradiction|]. cbn in N. inversion N as [|? ? N1 N2]; subst.
        destruct I as [<-|I], Iq as [<-|Iq]; auto; exfalso; apply N1; [rewrite V, <- Vq|rewrite Vq, <- V]; now apply in_map.
      * exfalso. assert (H := find_none _ _ Fq p I). cbn in H. rewrite (proj2 (varref_eq _ _) V) in H. discriminate.
Qed.
