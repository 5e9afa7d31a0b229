(** Whole engines in the Fuzzy Control Language. *)
From Coq Require Import ZArith List Bool String Ascii Arith Lia.
From Verif Require Import Base Op Norm Hedge Shape Discrete Defuzz Aggregated Text Function Rule Var Activation Engine Factory
  SpecText SpecRule TextProofs TextProofs2 RuleProofs RuleProofs3 Fll SpecFll FllText FllLines FllExport FllRound FllRound2 FllFix Fis SpecFis FisBundle Fcl SpecFcl FclText FclRound FclRound2.
Import ListNotations.
Local Open Scope string_scope.

(** ** sections *)
(** words which open or close something *)
Definition fcl_keywords : list string :=
  ["FUNCTION_BLOCK"; "END_FUNCTION_BLOCK"; "VAR_INPUT"; "VAR_OUTPUT"; "FUZZIFY"; "DEFUZZIFY"; "RULEBLOCK"; "END_VAR"; "END_FUZZIFY"; "END_DEFUZZIFY"; "END_RULEBLOCK"].
Definition inner (l : string) : Prop := one_line l /\ l <> "" /\ mem (first_token l) fcl_keywords = false.
(** a raw line and what is left of it *)
Definition cleaned (raw l : string) : Prop := fcl_clean raw = Ok l /\ inner l.
Lemma not_keyword t k : mem t fcl_keywords = false -> In k fcl_keywords -> String.eqb t k = false.
Proof.
  intros H I. destruct (String.eqb_spec t k) as [->|]; [|reflexivity]. exfalso. unfold mem in H. rewrite <- not_true_iff_false in H. apply H. apply existsb_exists. exists k. split; [exact I|apply String.eqb_refl].
Qed.
Lemma no_closing t : mem t fcl_keywords = false -> closing_tag t = None.
Proof. intro H. unfold closing_tag. rewrite !(fun k => not_keyword t k H) by (cbn; tauto). reflexivity. Qed.
Lemma sempty_no s : s <> "" -> sempty s = false.
Proof. destruct s; [congruence|reflexivity]. Qed.
Lemma closings tag closing : closing_tag tag = Some closing -> In tag fcl_keywords /\ In closing fcl_keywords /\ String.eqb tag "FUNCTION_BLOCK" = false /\ String.eqb tag "END_FUNCTION_BLOCK" = false /\
  String.eqb closing "FUNCTION_BLOCK" = false /\ String.eqb closing "END_FUNCTION_BLOCK" = false /\ first_token closing = closing /\ fcl_clean closing = Ok closing /\ closing <> "".
Proof.
  unfold closing_tag. destruct (String.eqb_spec tag "VAR_INPUT") as [->|_]; [intro E; injection E as <-; cbn; repeat split; reflexivity || discriminate || tauto|].
  destruct (String.eqb_spec tag "VAR_OUTPUT") as [->|_]; [intro E; injection E as <-; cbn; repeat split; reflexivity || discriminate || tauto|]. cbn [orb].
  destruct (String.eqb_spec tag "FUZZIFY") as [->|_]; [intro E; injection E as <-; cbn; repeat split; reflexivity || discriminate || tauto|].
  destruct (String.eqb_spec tag "DEFUZZIFY") as [->|_]; [intro E; injection E as <-; cbn; repeat split; reflexivity || discriminate || tauto|].
  destruct (String.eqb_spec tag "RULEBLOCK") as [->|_]; [intro E; injection E as <-; cbn; repeat split; reflexivity || discriminate || tauto|]. discriminate.
Qed.

Section Round.
Context {T : Type} `{S : Scalar T}.
Variables (d : nat) (resolution : Z) (library indent : string).
Hypothesis N : printable (T := T) d.
Hypothesis numbers : forall x : T, sforall numeral (str d x) = true /\ dotted (str d x).
Hypothesis indent_blank : blank indent = true.
Hypothesis indent_line : one_line indent.
Hypothesis library_line : one_line library.

Lemma loop_inner raws ls rest e tag closing text : closing_tag tag = Some closing -> Forall2 cleaned raws ls ->
  fcl_loop (T := T) resolution (raws ++ rest) e (Some (tag, closing, text)) = fcl_loop resolution rest e (Some (tag, closing, text ++ text_of ls)).
Proof.
  intros C F. revert text. induction F as [|raw l raws ls [Q (_ & NE & K)] F IH]; intro text; [cbn [app text_of fold_right]; now rewrite sapp_nil_r|].
  cbn [app fcl_loop]. rewrite Q. cbn [rbind]. rewrite (sempty_no l NE). destruct (closings tag closing C) as (_ & IC & _).
  rewrite (not_keyword _ "FUNCTION_BLOCK" K) by (cbn; tauto). rewrite (not_keyword _ "END_FUNCTION_BLOCK" K) by (cbn; tauto). rewrite (not_keyword _ _ K IC), (no_closing _ K).
  rewrite IH. do 2 f_equal. cbn [text_of fold_right]. now rewrite !sapp_assoc.
Qed.
Lemma loop_section raw_head head raws ls closing rest e : fcl_clean raw_head = Ok head -> head <> "" -> closing_tag (first_token head) = Some closing -> Forall2 cleaned raws ls ->
  fcl_loop (T := T) resolution (raw_head :: raws ++ closing :: rest) e None = (do e <- fcl_process resolution (first_token head) (text_of (head :: ls)) e; fcl_loop resolution rest e None).
Proof.
  intros Q NE C F. cbn [fcl_loop]. rewrite Q. cbn [rbind]. rewrite (sempty_no head NE). destruct (closings _ _ C) as (_ & _ & A1 & A2 & A3 & A4 & A5 & A6 & A7). rewrite A1, A2, C.
  rewrite (loop_inner raws ls _ _ _ _ _ C F). cbn [fcl_loop]. rewrite A6. cbn [rbind]. rewrite (sempty_no closing A7), A5, A3, A4, String.eqb_refl.
  replace ((head ++ char newline) ++ text_of ls) with (text_of (head :: ls)); [reflexivity|]. cbn [text_of fold_right]. now rewrite sapp_assoc.
Qed.
Lemma loop_blank rest e : fcl_loop (T := T) resolution ("" :: rest) e None = fcl_loop resolution rest e None.
Proof. reflexivity. Qed.
Lemma lines_back head ls : one_line head -> Forall inner ls -> getlines (text_of (head :: ls)) = head :: ls /\ section_lines (text_of (head :: ls)) = ls.
Proof.
  intros H F. assert (E : getlines (text_of (head :: ls)) = head :: ls) by (apply getlines_text; constructor; [exact H|]; eapply Forall_impl; [|exact F]; intros l (A & _); exact A).
  unfold section_lines. rewrite E. auto.
Qed.
Lemma cleaned_inner raws ls : Forall2 cleaned raws ls -> Forall inner ls.
Proof. intro F. induction F as [|r l raws ls [_ H] F IH]; constructor; auto. Qed.
(** lines that start with a letter *)
Lemma clean_text c s : is_space c = false -> Ascii.eqb c "%" = false -> clearb (String c s) = true ->
  fcl_clean (indent ++ String c s ++ ";") = Ok (trim (String c s)) /\ fcl_clean (indent ++ String c s) = Ok (trim (String c s)) /\ fcl_clean (String c s) = Ok (trim (String c s)) /\
  one_line (trim (String c s)) /\ trim (String c s) <> "".
Proof.
  intros A B C. destruct (shown_line c s A B) as [E NE]. rewrite (clean_closed indent _ indent_blank C), (clean_line indent _ indent_blank C). assert (Q := clean_line "" _ eq_refl C). cbn [append] in Q. rewrite Q, !E.
  repeat split; auto. apply trim_lacks. now apply clear_parts in C.
Qed.

(** ** declarations *)
Lemma declared_line n : n <> "" -> sforall name_char n = true -> cleaned (indent ++ n ++ ": REAL;") (n ++ ": REAL").
Proof.
  intros V F. assert (FF : sforall firm n = true) by (eapply sforall_impl; [apply name_firm|exact F]). assert (SF := firm_space n FF).
  assert (E : trim (n ++ ": REAL") = n ++ ": REAL") by (change ": REAL" with (": " ++ "REAL"); apply trim_keep; assumption || reflexivity || discriminate).
  assert (CL : clearb (n ++ ": REAL") = true) by (apply calm_clear; rewrite sforall_app; rewrite (sforall_impl name_char calm n) by (assumption || apply name_calm); reflexivity).
  destruct n as [|c n]; [congruence|]. cbn [sforall] in F, SF. apply andb_true_iff in F. destruct F as [F1 F2]. apply andb_true_iff in SF. destruct SF as [SF1 _]. apply negb_true_iff in SF1.
  assert (NP : Ascii.eqb c "%" = false) by (destruct (Ascii.eqb_spec c "%"); [subst; discriminate F1|reflexivity]).
  cbn [append] in *. destruct (clean_text c (n ++ ": REAL") SF1 NP CL) as (Q & _ & _ & L & NE). rewrite E in *. split.
  - rewrite <- Q. f_equal. cbn [append]. now rewrite sapp_assoc.
  - split; [exact L|]. split; [exact NE|].
    assert (TK : first_token (String c (n ++ ": REAL")) = String c n ++ ":").
    { change (String c (n ++ ": REAL")) with (String c n ++ ":" ++ " " ++ "REAL"). rewrite <- sapp_assoc. apply first_token_space. split; [discriminate|]. rewrite sforall_app, (firm_space _ FF). reflexivity. }
    rewrite TK. unfold mem. rewrite <- not_true_iff_false. intro H. apply existsb_exists in H. destruct H as (k & I & H). apply String.eqb_eq in H.
    assert (NC : lacks ":" k = true) by (cbn in I; repeat (destruct I as [<-|I]; [reflexivity|]); contradiction). rewrite <- H, lacks_app in NC. cbn [lacks] in NC. rewrite andb_false_r in NC. discriminate.
Qed.
Lemma declared_read input e n : n <> "" -> sforall name_char n = true -> fcl_var_line (T := T) input e (n ++ ": REAL") =
  Ok (if input then mkEngine (e_name e) (e_description e) (e_inputs e ++ [named_variable n])%list (e_outputs e) (e_blocks e)
      else mkEngine (e_name e) (e_description e) (e_inputs e) (e_outputs e ++ [set_var (named_variable n) new_output])%list (e_blocks e)).
Proof.
  intros V F. unfold fcl_var_line.
  assert (Q : two_parts (n ++ ": REAL") ":" = Ok (n, " REAL")) by (apply (two_parts_at ":"); auto; discriminate || apply firm_lacks; [reflexivity|]; eapply sforall_impl; [apply name_firm|exact F]).
  rewrite Q. cbn [rbind fst]. rewrite (valid_keep n V F). reflexivity.
Qed.
Definition decl (v : variable T) : variable T := named_variable (valid_name (v_name v)).
Definition decl_out (o : output T) : output T := set_var (decl (o_var o)) new_output.
Lemma vars_read_in vs : Forall (fun v => valid_name (v_name v) <> "") vs -> forall e,
  rfold (fcl_var_line true) e (map (fun v : variable T => valid_name (v_name v) ++ ": REAL") vs) = Ok (mkEngine (e_name e) (e_description e) (e_inputs e ++ map decl vs)%list (e_outputs e) (e_blocks e)).
Proof.
  intro F. induction F as [|v vs V F IH]; intro e; [cbn; rewrite app_nil_r; destruct e; reflexivity|]. cbn [map rfold]. rewrite declared_read by (assumption || apply valid_chars). cbn [rbind]. rewrite IH.
  cbn [e_name e_description e_inputs e_outputs e_blocks]. now rewrite <- app_assoc.
Qed.
Lemma vars_read_out vs : Forall (fun o => valid_name (v_name (o_var o)) <> "") vs -> forall e,
  rfold (fcl_var_line false) e (map (fun o : output T => valid_name (v_name (o_var o)) ++ ": REAL") vs) = Ok (mkEngine (e_name e) (e_description e) (e_inputs e) (e_outputs e ++ map decl_out vs)%list (e_blocks e)).
Proof.
  intro F. induction F as [|v vs V F IH]; intro e; [cbn; rewrite app_nil_r; destruct e; reflexivity|]. cbn [map rfold]. rewrite declared_read by (assumption || apply valid_chars). cbn [rbind]. rewrite IH.
  cbn [e_name e_description e_inputs e_outputs e_blocks]. now rewrite <- app_assoc.
Qed.

(** ** lines of variables *)
Lemma term_cleaned t : clear_term t -> cleaned (indent ++ term_text d t ++ ";") (trim (term_text d t)).
Proof.
  intro C. assert (CL := text_calm_clear d numbers t C). unfold term_text in *. change ("TERM " ++ ?s) with (String "T" ("ERM " ++ s)) in *.
  destruct (clean_text "T" _ eq_refl eq_refl CL) as (Q & _ & _ & L & NE). split; [exact Q|]. split; [exact L|]. split; [exact NE|]. rewrite first_token_trim.
  change (String "T" ("ERM " ++ ?s)) with ("TERM" ++ " " ++ s). now rewrite first_token_space.
Qed.
Lemma term_token t : first_token (trim (term_text (T := T) d t)) = "TERM".
Proof. rewrite first_token_trim. unfold term_text. change ("TERM " ++ ?s) with ("TERM" ++ " " ++ s). now apply first_token_space. Qed.
Lemma range_token v : first_token (trim (range_text (T := T) d v)) = "RANGE".
Proof. rewrite first_token_trim. unfold range_text. change ("RANGE := (" ++ ?s) with ("RANGE" ++ " " ++ (":= (" ++ s)). now apply first_token_space. Qed.
Lemma range_cleaned v : cleaned (indent ++ range_text d v ++ ";") (trim (range_text d v)).
Proof.
  assert (CL : clearb (range_text (T := T) d v) = true).
  { unfold range_text, join_scalars. cbn [map join]. apply calm_clear. rewrite !sforall_app, !(str_calm d numbers). reflexivity. }
  assert (TK := range_token v). unfold range_text in *. change ("RANGE := (" ++ ?s) with (String "R" ("ANGE := (" ++ s)) in *.
  destruct (clean_text "R" _ eq_refl eq_refl CL) as (Q & _ & _ & L & NE). split; [exact Q|]. split; [exact L|]. split; [exact NE|]. now rewrite TK.
Qed.
Lemma default_token o : first_token (trim (default_text (T := T) d o)) = "DEFAULT".
Proof. rewrite first_token_trim. unfold default_text. change ("DEFAULT := " ++ ?s) with ("DEFAULT" ++ " " ++ (":= " ++ s)). now apply first_token_space. Qed.
Lemma default_cleaned o : cleaned (indent ++ default_text d o ++ ";") (trim (default_text d o)).
Proof.
  assert (CL : clearb (default_text (T := T) d o) = true).
  { unfold default_text. apply calm_clear. rewrite !sforall_app, !(str_calm d numbers). destruct (o_lock_previous o); reflexivity. }
  assert (TK := default_token o). unfold default_text in *. change ("DEFAULT := " ++ ?s) with (String "D" ("EFAULT := " ++ s)) in *.
  destruct (clean_text "D" _ eq_refl eq_refl CL) as (Q & _ & _ & L & NE). split; [exact Q|]. split; [exact L|]. split; [exact NE|]. now rewrite TK.
Qed.
Lemma operator_cleaned key value : In key ["METHOD"; "ACCU"; "AND"; "OR"; "ACT"] -> value <> "" -> sforall firm value = true -> sforall calm value = true ->
  cleaned (indent ++ operator_text key value ++ ";") (trim (operator_text key value)).
Proof.
  intros I V FV CV. assert (FK : key <> "" /\ sforall firm key = true /\ sforall calm key = true /\ mem key fcl_keywords = false /\ exists c r, key = String c r /\ is_space c = false /\ Ascii.eqb c "%" = false).
  { cbn in I. repeat (destruct I as [<-|I]; [repeat split; try discriminate; eexists; eexists; split; [reflexivity|split; reflexivity]|]). contradiction. }
  destruct FK as (K1 & K2 & K3 & K4 & c & r & E & A & B). assert (CL : clearb (operator_text key value) = true) by (unfold operator_text; apply calm_clear; rewrite !sforall_app, K3, CV; reflexivity).
  assert (TK := operator_token key value K1 K2). unfold operator_text in *. rewrite E in *. cbn [append] in *.
  destruct (clean_text c _ A B CL) as (Q & _ & _ & L & NE). split; [exact Q|]. split; [exact L|]. split; [exact NE|]. rewrite TK. now rewrite E in K4 || exact K4.
Qed.
Lemma rule_cleaned i r : clear_text (rl_text r) -> cleaned (indent ++ rule_line_text i r) (trim (rule_line_text (T := T) i r)).
Proof.
  intro C. assert (CL : clearb (rule_line_text i r) = true).
  { unfold rule_line_text. apply clear_lead; [reflexivity|]. apply clear_lead; [eapply sforall_impl; [apply numeral_calm|apply int_numeral]|]. apply clear_lead; [reflexivity|]. now apply clear_clearb. }
  assert (TK := rule_line_token i r). unfold rule_line_text in *. change ("RULE " ++ ?s) with (String "R" ("ULE " ++ s)) in *.
  destruct (clean_text "R" _ eq_refl eq_refl CL) as (_ & Q & _ & L & NE). split; [exact Q|]. split; [exact L|]. split; [exact NE|]. now rewrite TK.
Qed.

(** ** input variables *)
Lemma put_at_length {A} (l : list A) x y r : put_at (List.length l) x (l ++ y :: r)%list = (l ++ x :: r)%list.
Proof. induction l as [|a l IH]; [reflexivity|]. cbn [List.length app put_at]. now rewrite IH. Qed.
Lemma nth_length {A} (l : list A) y r : nth_error (l ++ y :: r)%list (List.length l) = Some y.
Proof. induction l as [|a l IH]; [reflexivity|]. exact IH. Qed.
Lemma find_length n l r : ~ In n l -> find_name n (l ++ n :: r)%list = Some (List.length l).
Proof.
  induction l as [|a l IH]; intro H; cbn [app find_name]; [now rewrite String.eqb_refl|]. destruct (String.eqb_spec a n) as [->|]; [destruct H; left; reflexivity|]. rewrite IH; [reflexivity|]. intro; apply H; now right.
Qed.
Definition nv (v : variable T) : string * T := (v_name v, v_value v).
Lemma view_eq ins ins' outs outs' : map nv ins = map nv ins' -> map (fun o => nv (o_var o)) outs = map (fun o => nv (o_var o)) outs' -> engine_view ins outs = engine_view (T := T) ins' outs'.
Proof.
  intros A B. unfold engine_view. f_equal.
  - assert (H : forall l, map (@v_value T) l = map snd (map nv l)) by (intro l; now rewrite map_map). now rewrite !H, A.
  - unfold nv in *. now rewrite A, B.
Qed.
Lemma rfold_terms {A} (f : A -> string -> res A) vw (get : A -> variable T) (put : variable T -> A -> A) (good : A -> Prop) ts :
  (forall a t, good a -> clear_term t -> f a (trim (term_text d t)) = (do u <- fcl_parse_term vw (trim (term_text d t)); Ok (put (set_terms (v_terms (get a) ++ [u])%list (get a)) a))) ->
  (forall a ts, good a -> good (put (set_terms ts (get a)) a)) -> (forall a v, get (put v a) = v) -> (forall a v w, put v (put w a) = put v a) -> (forall a, put (get a) a = a) ->
  Forall clear_term ts -> forall a, good a ->
  rfold f a (map (fun t => trim (term_text d t)) ts) = (do us <- rmapM (printed_term d vw) (map kept_term ts); Ok (put (set_terms (v_terms (get a) ++ us)%list (get a)) a)).
Proof.
  intros FT GP PG PP PI F. induction F as [|t ts C F IH]; intros a G.
  - cbn [map rfold rmapM rbind]. rewrite app_nil_r. assert (E : set_terms (v_terms (get a)) (get a) = get a) by (destruct (get a); reflexivity). now rewrite E, PI.
  - cbn [map rfold rmapM]. rewrite (FT a t G C), (parse_fcl_term d N numbers vw t C). destruct (printed_term d vw (kept_term t)) as [u|x| |]; cbn [rbind]; try reflexivity.
    rewrite IH by auto. destruct (rmapM (printed_term d vw) (map kept_term ts)) as [us|x| |]; cbn [rbind]; try reflexivity. rewrite PG, PP. cbn [v_terms set_terms]. rewrite <- app_assoc. reflexivity.
Qed.
Definition input_texts (v : variable T) : list string := (trim (range_text d v) :: map (fun t => trim (term_text d t)) (v_terms v))%list.
Lemma set_terms_again ts us (v : variable T) : set_terms ts (set_terms us v) = set_terms ts v.
Proof. reflexivity. Qed.
Lemma input_lines e i v vw : clear_variable v -> (forall w, nv w = nv (decl v) -> engine_view (put_at i w (e_inputs e)) (e_outputs e) = vw) ->
  rfold (fcl_input_line e i) (decl v) (input_texts v) = printed_variable d vw (kept_variable v).
Proof.
  intros [V F] VW. unfold input_texts. cbn [rfold]. unfold fcl_input_line at 1. rewrite range_token. cbn [fcl_key String.eqb Ascii.eqb Bool.eqb].
  unfold fcl_key. change (String.eqb "RANGE" "RANGE") with true. cbn match. rewrite (parse_fcl_range d N numbers v). cbn [rbind fst snd].
  rewrite (rfold_terms (fcl_input_line e i) vw (fun v => v) (fun w _ => w) (fun w => nv w = nv (decl v)) (v_terms v)); auto.
  - unfold printed_variable. cbn [kept_variable v_terms]. destruct (rmapM (printed_term d vw) (map kept_term (v_terms v))) as [us|x| |]; cbn [rbind]; try reflexivity.
    cbn [kept_variable v_name v_minimum v_maximum v_enabled v_lock_range v_description]. rewrite (valid_idem _ V). reflexivity.
  - intros a t G C. unfold fcl_input_line. rewrite term_token. unfold fcl_key. change (String.eqb "TERM" "RANGE") with false. change (String.eqb "TERM" "ENABLED") with false. change (String.eqb "TERM" "TERM") with true. cbn match.
    rewrite (VW a G). reflexivity.
Qed.
Lemma input_cleaned v : clear_variable v -> Forall2 cleaned (fcl_range d indent v :: fcl_terms d indent v) (input_texts v).
Proof.
  intros [V F]. unfold input_texts. constructor.
  - assert (Q := range_cleaned v). unfold range_text in *. unfold fcl_range. rewrite !sapp_assoc in Q. exact Q.
  - unfold fcl_terms. induction F as [|t ts C F IH]; cbn [map]; constructor; auto. assert (Q := term_cleaned t C). unfold term_text in *. rewrite !sapp_assoc in Q. exact Q.
Qed.
Lemma head_clean key n : key = "FUZZIFY" \/ key = "DEFUZZIFY" -> n <> "" -> sforall name_char n = true ->
  fcl_clean (key ++ " " ++ n) = Ok (key ++ " " ++ n) /\ one_line (key ++ " " ++ n) /\ first_token (key ++ " " ++ n) = key /\ (key ++ " " ++ n)%string <> "" /\
  forall ls, Forall inner ls -> fcl_name (text_of ((key ++ " " ++ n)%string :: ls)) = Ok n.
Proof.
  intros K V F. assert (CN : sforall calm n = true) by (eapply sforall_impl; [apply name_calm|exact F]). assert (FN : sforall firm n = true) by (eapply sforall_impl; [apply name_firm|exact F]).
  assert (E : trim (key ++ " " ++ n) = key ++ " " ++ n) by (destruct K as [-> | ->]; apply trim_keep; auto using firm_space; discriminate).
  assert (CL : clearb (key ++ " " ++ n) = true) by (destruct K as [-> | ->]; apply calm_clear; rewrite !sforall_app, CN; reflexivity).
  assert (Q : fcl_clean (key ++ " " ++ n) = Ok (key ++ " " ++ n) /\ one_line (key ++ " " ++ n)).
  { rewrite <- E at 2 3. destruct K as [-> | ->]; [destruct (clean_text "F" ("UZZIFY " ++ n) eq_refl eq_refl CL) as (_ & _ & Q & L & _)|destruct (clean_text "D" ("EFUZZIFY " ++ n) eq_refl eq_refl CL) as (_ & _ & Q & L & _)]; split; assumption. }
  destruct Q as [Q L]. split; [exact Q|]. split; [exact L|]. split; [destruct K as [-> | ->]; now apply first_token_space|]. split; [destruct K as [-> | ->]; discriminate|].
  intros ls FL. unfold fcl_name. rewrite (proj1 (lines_back _ ls L FL)). cbn [hd]. assert (FS : find_sub " " (key ++ " " ++ n) = Some (key, n)) by (apply (find_char " " key n); destruct K as [-> | ->]; reflexivity).
  rewrite FS. now rewrite (valid_keep n V F).
Qed.
Lemma section_input v dn todo rest e vw : clear_variable v -> e_inputs e = (dn ++ decl v :: todo)%list -> ~ In (valid_name (v_name v)) (map (@v_name T) dn) -> engine_view (e_inputs e) (e_outputs e) = vw ->
  fcl_loop resolution (fcl_input d indent v ++ "" :: rest)%list e None =
  (do u <- printed_variable d vw (kept_variable v); fcl_loop resolution rest (mkEngine (e_name e) (e_description e) (dn ++ u :: todo)%list (e_outputs e) (e_blocks e)) None).
Proof.
  intros C EI NI VW. destruct C as [V F]. assert (FI := cleaned_inner _ _ (input_cleaned v (conj V F))).
  destruct (head_clean "FUZZIFY" (valid_name (v_name v)) (or_introl eq_refl) V (valid_chars _)) as (Q & L & TK & NE & NM).
  assert (R : (fcl_input d indent v ++ "" :: rest)%list = (("FUZZIFY" ++ " " ++ valid_name (v_name v))%string :: (fcl_range d indent v :: fcl_terms d indent v) ++ "END_FUZZIFY" :: "" :: rest)%list).
  { unfold fcl_input. cbn [app]. rewrite <- app_assoc. reflexivity. }
  rewrite R. rewrite (loop_section _ _ _ (input_texts v) "END_FUZZIFY" _ e Q NE); [|now rewrite TK|exact (input_cleaned v (conj V F))]. rewrite TK. unfold fcl_process. cbn [String.eqb Ascii.eqb Bool.eqb].
  change (fcl_process (T := T) resolution "FUZZIFY") with (fcl_fuzzify (T := T)) || idtac. unfold fcl_fuzzify. rewrite (NM _ FI). cbn [rbind]. rewrite EI, map_app. cbn [map].
  change (v_name (decl v)) with (valid_name (v_name v)). rewrite (find_length _ _ _ NI), map_length, nth_length.
  rewrite (proj2 (lines_back _ _ L FI)). rewrite (input_lines e (List.length dn) v vw (conj V F)).
  - destruct (printed_variable d vw (kept_variable v)) as [u|x| |]; cbn [rbind]; try reflexivity. rewrite put_at_length. apply loop_blank.
  - intros w G. rewrite <- VW, EI, put_at_length. apply view_eq; [|reflexivity]. rewrite !map_app. cbn [map]. now rewrite G.
Qed.
Lemma printed_nv vw v u : valid_name (v_name v) <> "" -> printed_variable d vw (kept_variable v) = Ok u -> nv u = nv (decl v).
Proof.
  intros V H. unfold printed_variable in H. destruct (rmapM (printed_term d vw) (v_terms (kept_variable v))); try discriminate. cbn [rbind] in H. injection H as <-. unfold nv. cbn [v_name v_value kept_variable]. now rewrite (valid_idem _ V).
Qed.
Lemma sections_inputs vs rest vw nm ds outs bs : Forall clear_variable vs -> forall dn, NoDup (map (@v_name T) dn ++ map (fun v => valid_name (v_name v)) vs)%list -> engine_view (dn ++ map decl vs)%list outs = vw ->
  fcl_loop resolution (flat_map (fun v => fcl_input d indent v ++ [""])%list vs ++ rest)%list (mkEngine nm ds (dn ++ map decl vs)%list outs bs) None =
  (do us <- rmapM (printed_variable d vw) (map kept_variable vs); fcl_loop resolution rest (mkEngine nm ds (dn ++ us)%list outs bs) None).
Proof.
  intro F. induction F as [|v vs C F IH]; intros dn ND VW; [reflexivity|]. cbn [flat_map map rmapM]. rewrite <- !app_assoc. change (([""] ++ flat_map (fun v => (fcl_input d indent v ++ [""])%list) vs ++ rest)%list) with ("" :: (flat_map (fun v => (fcl_input d indent v ++ [""])%list) vs ++ rest))%list.
  rewrite (section_input v dn (map decl vs) _ _ vw C); [| | |exact VW]; [| reflexivity | cbn [map] in ND; apply NoDup_remove_2 in ND; intro I; apply ND; apply in_or_app; now left].
  destruct (printed_variable d vw (kept_variable v)) as [u|x| |] eqn:E; cbn [rbind]; try reflexivity. cbn [e_name e_description e_outputs e_blocks].
  assert (NU := printed_nv vw v u (proj1 C) E). assert (EQ : forall r, (dn ++ u :: r)%list = ((dn ++ [u]) ++ r)%list) by (intro r; now rewrite <- app_assoc).
  rewrite EQ, IH.
  - destruct (rmapM (printed_variable d vw) (map kept_variable vs)) as [us|x| |]; cbn [rbind]; try reflexivity. now rewrite <- EQ.
  - rewrite map_app, <- app_assoc. cbn [map app]. assert (NN : v_name u = valid_name (v_name v)) by (injection NU as A _; exact A). rewrite NN. exact ND.
  - rewrite <- VW. apply view_eq; [|reflexivity]. rewrite <- EQ, !map_app. cbn [map]. now rewrite NU.
Qed.
End Round.
