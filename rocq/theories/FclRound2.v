(** Lines of the Fuzzy Control Language as exported and imported: ranges, defaults, operators, rules. *)
From Coq Require Import ZArith List Bool String Ascii Arith Lia.
From Verif Require Import Base Op Norm Hedge Shape Discrete Defuzz Aggregated Text Function Rule Var Activation Engine Factory
  SpecText TextProofs TextProofs2 RuleProofs RuleProofs3 Fll SpecFll FllText FllLines FllExport FllRound FllRound2 FllFix Fis SpecFis FisBundle Fcl SpecFcl FclText FclRound.
Import ListNotations.
Local Open Scope string_scope.

Lemma rtrim_keep a b : sforall (fun c => negb (is_space c)) b = true -> b <> "" -> rtrim (a ++ b) = a ++ b.
Proof.
  intros B NB. induction a as [|c a IH]; [now apply rtrim_words|]. cbn [append]. rewrite rtrim_cons, IH. destruct (a ++ b) eqn:E; [|reflexivity]. destruct a; cbn [append] in E; [congruence|discriminate E].
Qed.
Lemma trim_keep a m b : sforall (fun c => negb (is_space c)) a = true -> a <> "" -> sforall (fun c => negb (is_space c)) b = true -> b <> "" -> trim (a ++ m ++ b) = a ++ m ++ b.
Proof. intros A NA B NB. rewrite trim_lr, ltrim_word by assumption. rewrite <- sapp_assoc. now apply rtrim_keep. Qed.
Lemma trim_first c r : is_space c = false -> exists r', trim (String c r) = String c r'.
Proof.
  intro E. rewrite trim_lr. cbn [ltrim]. rewrite E, rtrim_cons, E. destruct (rtrim r); eexists; reflexivity.
Qed.
(** a line that starts with a letter *)
Lemma shown_line c r : is_space c = false -> Ascii.eqb c "%" = false -> shown (trim (String c r)) = trim (String c r) /\ trim (String c r) <> "".
Proof. intros A B. destruct (trim_first c r A) as (r' & ->). cbn [shown]. rewrite B. split; [reflexivity|discriminate]. Qed.
Lemma first_token_trim s : first_token (trim s) = first_token s.
Proof. unfold first_token. now rewrite tokens_trim. Qed.
Lemma first_token_space w s : word w -> first_token (w ++ " " ++ s) = w.
Proof. intro W. unfold first_token. change (" " ++ s) with (String " " s). rewrite tokens_space by reflexivity. rewrite (tokens_word w W). reflexivity. Qed.
Lemma trim_one_line s : lacks newline s = true -> one_line (trim s).
Proof. apply trim_lacks. Qed.

Lemma digit_any n : (n < 10)%Z -> is_digit (digit_char n) = true.
Proof.
  intro H. unfold digit_char. assert (C : (Z.to_nat n < 10)%nat) by lia. set (i := Z.to_nat n) in *. clearbody i. do 10 (destruct i as [|i]; [reflexivity|]). lia.
Qed.
Lemma int_digit_chars fuel : forall n, sforall is_digit (int_digits fuel n) = true.
Proof.
  induction fuel as [|fuel IH]; intro n; [reflexivity|]. cbn [int_digits]. destruct (Z.ltb_spec n 10) as [L|L].
  - cbn [char sforall]. now rewrite digit_any.
  - rewrite sforall_app, IH. cbn [char sforall]. rewrite digit_any; [reflexivity|]. apply Z.mod_pos_bound. lia.
Qed.
Lemma frac_digit_chars k : forall n, sforall is_digit (frac_digits k n) = true.
Proof.
  induction k as [|k IH]; intro n; [reflexivity|]. cbn [frac_digits]. rewrite sforall_app, IH. cbn [char sforall]. rewrite digit_any; [reflexivity|]. apply Z.mod_pos_bound. lia.
Qed.
Lemma digit_numeral c : is_digit c = true -> numeral c = true.
Proof. intro H. unfold numeral, is_alnum. now rewrite H. Qed.
Lemma digit_dotless s : sforall is_digit s = true -> lacks "." s = true.
Proof. rewrite lacks_sforall. apply sforall_impl. intros c H. apply negb_true_iff. destruct (Ascii.eqb_spec c "."); [subst; discriminate|reflexivity]. Qed.
Lemma int_numeral n : sforall numeral (str_int n) = true.
Proof.
  unfold str_int, nat_text. rewrite sforall_app. assert (H : sforall numeral (int_digits (Datatypes.S (Z.to_nat (Z.log2 (Z.abs n)))) (Z.abs n)) = true) by (eapply sforall_impl; [apply digit_numeral|apply int_digit_chars]).
  rewrite H. destruct (n <? 0)%Z; reflexivity.
Qed.

Section Round.
Context {T : Type} `{S : Scalar T}.
Variables (d : nat) (resolution : Z).
Hypothesis N : printable (T := T) d.
Hypothesis numbers : forall x : T, sforall numeral (str d x) = true /\ dotted (str d x).

(** ** ranges *)
Definition range_text (v : variable T) : string := "RANGE := (" ++ join_scalars d [v_minimum v; v_maximum v] " .. " ++ ")".
Lemma number_colon (x : T) : lacks ":" (str d x) = true.
Proof. apply firm_lacks; [reflexivity|]. apply (str_firm d N numbers). Qed.
Lemma parse_fcl_range v : fcl_parse_range (T := T) (trim (range_text v)) = Ok (reread d (v_minimum v), reread d (v_maximum v)).
Proof.
  unfold range_text, join_scalars. cbn [map join]. set (a := str d (v_minimum v)). set (b := str d (v_maximum v)).
  assert (E : trim ("RANGE := (" ++ (a ++ " .. " ++ b) ++ ")") = "RANGE := (" ++ (a ++ " .. " ++ b) ++ ")").
  { change ("RANGE := (" ++ (a ++ " .. " ++ b) ++ ")") with ("RANGE" ++ (" := (" ++ (a ++ " .. " ++ b) ++ ")")). rewrite <- (sapp_assoc " := ("). apply trim_keep; reflexivity || discriminate. }
  rewrite E. unfold fcl_parse_range. change ("RANGE := (" ++ (a ++ " .. " ++ b) ++ ")") with ("RANGE " ++ ":=" ++ (" (" ++ (a ++ " .. " ++ b) ++ ")")).
  rewrite two_parts_assign; [|reflexivity|discriminate|rewrite !lacks_app; unfold a, b; rewrite !number_colon; reflexivity|discriminate]. cbn [rbind snd].
  assert (K : forall x : T, sfilter (fun c => negb (Ascii.eqb c "(" || Ascii.eqb c ")" || Ascii.eqb c " " || Ascii.eqb c ";")) (str d x) = str d x).
  { intro x. apply sfilter_id. eapply sforall_impl; [|apply (numbers x)]. intro c. destruct c as [[] [] [] [] [] [] [] []]; reflexivity || discriminate. }
  rewrite !sfilter_app. unfold a, b. rewrite !K. 
  change (sfilter _ " (" ++ (str d (v_minimum v) ++ sfilter _ " .. " ++ str d (v_maximum v)) ++ sfilter _ ")") with ((str d (v_minimum v) ++ ".." ++ str d (v_maximum v)) ++ ""). rewrite sapp_nil_r.
  destruct (numbers (v_minimum v)) as [_ DA]. destruct (numbers (v_maximum v)) as [_ DB].
  rewrite two_parts_find; [|apply (str_firm d N numbers)|discriminate|apply (str_firm d N numbers)|now apply dots_first|now apply dots_none]. cbn [rbind fst snd]. rewrite !(reread_ok d N). reflexivity.
Qed.

(** ** defaults *)
Definition default_text (o : output T) : string := "DEFAULT := " ++ str d (o_default o) ++ (if o_lock_previous o then " | NC" else "").
Lemma parse_fcl_default o : fcl_parse_default (T := T) (trim (default_text o)) = Ok (reread d (o_default o), o_lock_previous o).
Proof.
  unfold default_text. set (x := str d (o_default o)). destruct (str_firm d N numbers (o_default o)) as [NX FX]. fold x in NX, FX. assert (SX := firm_space x FX).
  assert (CX : lacks ":" x = true) by now apply firm_lacks. assert (BX : lacks "|" x = true).
  { rewrite lacks_sforall. eapply sforall_impl; [|apply (numbers (o_default o))]. intro c. destruct c as [[] [] [] [] [] [] [] []]; reflexivity || discriminate. }
  assert (TX : forall a b, blank a = true -> blank b = true -> trim (a ++ x ++ b) = x) by (intros a b A B; rewrite trim_lead by exact A; rewrite trim_lr, ltrim_word by assumption; rewrite rtrim_tail by exact B; now apply rtrim_words).
  destruct (o_lock_previous o).
  - change ("DEFAULT := " ++ x ++ " | NC") with ("DEFAULT" ++ " := " ++ x ++ " | NC"). rewrite <- (sapp_assoc " := "). change " | NC" with (" | " ++ "NC"). rewrite <- (sapp_assoc (" := " ++ x)).
    rewrite trim_keep by (reflexivity || discriminate). rewrite !sapp_assoc. unfold fcl_parse_default. change ("DEFAULT" ++ " := " ++ x ++ " | " ++ "NC") with ("DEFAULT " ++ ":=" ++ (" " ++ x ++ " | NC")).
    rewrite two_parts_assign; [|reflexivity|discriminate|rewrite !lacks_app, CX; reflexivity|discriminate]. cbn [rbind snd].
    assert (E : split (" " ++ x ++ " | NC") "|" true = [" " ++ x ++ " "; " NC"]).
    { change (" " ++ x ++ " | NC") with (" " ++ x ++ " " ++ String "|" " NC"). rewrite <- (sapp_assoc x " "), <- (sapp_assoc " "). etransitivity; [apply (split_words "|"); discriminate|]. rewrite chop_app by (rewrite !lacks_app, BX; reflexivity). reflexivity. }
    rewrite E. cbn match. rewrite (TX " " " ") by reflexivity. unfold x. rewrite (reread_ok d N). reflexivity.
  - rewrite sapp_nil_r. change ("DEFAULT := " ++ x) with ("DEFAULT" ++ " := " ++ x). rewrite trim_keep by (reflexivity || discriminate || assumption).
    unfold fcl_parse_default. change ("DEFAULT" ++ " := " ++ x) with ("DEFAULT " ++ ":=" ++ (" " ++ x)).
    rewrite two_parts_assign; [|reflexivity|discriminate|rewrite !lacks_app, CX; reflexivity|discriminate]. cbn [rbind snd].
    assert (E : split (" " ++ x) "|" true = [" " ++ x]).
    { etransitivity; [apply (split_words "|"); discriminate|]. rewrite chop_lacks by (rewrite lacks_app, BX; reflexivity). reflexivity. }
    rewrite E. cbn match. assert (TX2 := TX " " "" eq_refl eq_refl). rewrite sapp_nil_r in TX2. rewrite TX2. unfold x. rewrite (reread_ok d N). reflexivity.
Qed.

(** ** operators *)
Lemma tnorm_firm n : fcl_tnorm n <> "" /\ sforall firm (fcl_tnorm n) = true /\ sforall calm (fcl_tnorm n) = true.
Proof. destruct n as [[]|]; repeat split; discriminate. Qed.
Lemma snorm_firm n : fcl_snorm n <> "" /\ sforall firm (fcl_snorm n) = true /\ sforall calm (fcl_snorm n) = true.
Proof. destruct n as [[]|]; repeat split; discriminate. Qed.
Lemma defuzzifier_firm z : fcl_defuzzifier z <> "" /\ sforall firm (fcl_defuzzifier z) = true /\ sforall calm (fcl_defuzzifier z) = true.
Proof. destruct z as [[k n|k ty]|]; [destruct k|destruct k|]; repeat split; discriminate. Qed.
Definition operator_text (key value : string) : string := key ++ " : " ++ value.
Lemma operator_trim key value : key <> "" -> sforall firm key = true -> value <> "" -> sforall firm value = true -> trim (operator_text key value) = (key ++ " ") ++ ": " ++ value.
Proof. intros K FK V FV. unfold operator_text. rewrite trim_keep by auto using firm_space. now rewrite sapp_assoc. Qed.
Lemma operator_token key value : key <> "" -> sforall firm key = true -> first_token (trim (operator_text key value)) = key.
Proof. intros K FK. rewrite first_token_trim. unfold operator_text. change (" : " ++ value) with (" " ++ (": " ++ value)). apply first_token_space. split; auto using firm_space. Qed.
Lemma key_colon key : key <> "" -> sforall firm key = true -> lacks ":" (key ++ " ") = true /\ (key ++ " ")%string <> "".
Proof. intros K FK. split; [rewrite lacks_app, (firm_lacks ":" key) by (reflexivity || assumption); reflexivity|destruct key; discriminate]. Qed.
Lemma parse_operator_tnorm key n : key <> "" -> sforall firm key = true -> fcl_parse_tnorm (trim (operator_text key (fcl_tnorm n))) = Ok n.
Proof. intros K FK. destruct (tnorm_firm n) as (A & B & _). rewrite operator_trim by assumption. destruct (key_colon key K FK). now apply fcl_tnorms. Qed.
Lemma parse_operator_snorm key n : key <> "" -> sforall firm key = true -> fcl_parse_snorm (trim (operator_text key (fcl_snorm n))) = Ok n.
Proof. intros K FK. destruct (snorm_firm n) as (A & B & _). rewrite operator_trim by assumption. destruct (key_colon key K FK). now apply fcl_snorms. Qed.
Lemma parse_operator_defuzzifier key z : key <> "" -> sforall firm key = true -> fcl_parse_defuzzifier resolution (trim (operator_text key (fcl_defuzzifier z))) = Ok (option_map (like resolution) z).
Proof. intros K FK. destruct (defuzzifier_firm z) as (A & B & _). rewrite operator_trim by assumption. destruct (key_colon key K FK). now apply fcl_defuzzifiers. Qed.

(** ** rules *)
Definition rule_line_text (i : Z) (r : rule T) : string := "RULE " ++ str_int i ++ " : " ++ rl_text r.
Lemma rule_line_trim i r : trim (rule_line_text i r) = ("RULE " ++ str_int i ++ " ") ++ String ":" (rtrim (" " ++ rl_text r)) /\ lacks ":" ("RULE " ++ str_int i ++ " ") = true.
Proof.
  assert (FI : sforall firm (str_int i) = true) by (eapply sforall_impl; [apply numeral_firm|apply int_numeral]). split.
  - unfold rule_line_text. change ("RULE " ++ str_int i ++ " : " ++ rl_text r) with ("RULE" ++ (" " ++ str_int i ++ (" :" ++ (" " ++ rl_text r)))). rewrite trim_lr, ltrim_word by (reflexivity || discriminate).
    rewrite <- (sapp_assoc (str_int i)), <- (sapp_assoc " "), <- (sapp_assoc "RULE"). rewrite rtrim_app.
    + rewrite !sapp_assoc. reflexivity.
    + change " :" with (" " ++ ":"). rewrite <- (sapp_assoc (str_int i)), <- (sapp_assoc " "), <- (sapp_assoc "RULE"). apply rtrim_keep; reflexivity || discriminate.
    + discriminate.
  - rewrite !lacks_app, (firm_lacks ":" _ eq_refl FI). reflexivity.
Qed.
Lemma rule_line_read env b i r : clear_text (rl_text r) -> fcl_block_line env b (trim (rule_line_text i r)) = Ok (set_rules (b_rules b ++ [printed_rule env r])%list b).
Proof.
  intros (_ & CH & _). destruct (rule_line_trim i r) as [E L]. unfold fcl_block_line.
  assert (K : before_space (trim (rule_line_text i r)) = "RULE").
  { rewrite E. unfold before_space. change (("RULE " ++ str_int i ++ " ") ++ String ":" (rtrim (" " ++ rl_text r))) with ("RULE" ++ String " " ((str_int i ++ " ") ++ String ":" (rtrim (" " ++ rl_text r)))).
    assert (Q : find_sub " " ("RULE" ++ String " " ((str_int i ++ " ") ++ String ":" (rtrim (" " ++ rl_text r)))) = Some ("RULE", ((str_int i ++ " ") ++ String ":" (rtrim (" " ++ rl_text r))))) by now apply (find_char " ").
    now rewrite Q. }
  rewrite K. cbn [String.eqb Ascii.eqb Bool.eqb]. cbv zeta. rewrite E.
  assert (Q : find_sub ":" (("RULE " ++ str_int i ++ " ") ++ String ":" (rtrim (" " ++ rl_text r))) = Some ("RULE " ++ str_int i ++ " ", rtrim (" " ++ rl_text r))) by now apply (find_char ":").
  rewrite Q. cbn [rbind]. rewrite trim_rtrim, trim_lead by reflexivity.
  assert (C : content (rl_text r) = trim (rl_text r)) by (unfold content; now rewrite hash_id).
  unfold printed_rule. rewrite C. set (c := trim (rl_text r)).
  assert (O : snd (rule_load env c (rule_new (T := T) c s_1)) = Ok tt \/ exists x, snd (rule_load env c (rule_new (T := T) c s_1)) = Throw x) by apply load_outcome.
  destruct (rule_load env c (rule_new c s_1)) as [r1 out]. cbn [snd fst] in *. destruct O as [-> |[x ->]]; reflexivity.
Qed.
Lemma rule_line_token i r : first_token (trim (rule_line_text i r)) = "RULE".
Proof. rewrite first_token_trim. unfold rule_line_text. change ("RULE " ++ str_int i ++ " : " ++ rl_text r) with ("RULE" ++ " " ++ (str_int i ++ " : " ++ rl_text r)). now apply first_token_space. Qed.
Lemma operator_space key value : key <> "" -> sforall firm key = true -> value <> "" -> sforall firm value = true -> before_space (trim (operator_text key value)) = key.
Proof.
  intros K FK V FV. rewrite operator_trim by assumption. rewrite sapp_assoc. unfold before_space. change (" " ++ ": " ++ value) with (String " " (": " ++ value)).
  assert (Q : find_sub " " (key ++ String " " (": " ++ value)) = Some (key, ": " ++ value)) by (apply (find_char " "); now apply firm_lacks). now rewrite Q.
Qed.
End Round.
