(** Sections of variables in the Fuzzy Inference System format, read back. *)
From Coq Require Import ZArith List Bool String Ascii Arith Lia.
From Verif Require Import Base Op Norm Hedge Shape Discrete Defuzz Aggregated Text Function Rule Var Activation Engine Factory
  SpecText TextProofs TextProofs2 RuleProofs3 Fll SpecFll FllText FllLines FllExport FllRound FllRound2 FllFix FllSame Fis SpecFis FisRule2 FisBundle Fcl SpecFcl FclText FclRound FclRound2 FclRound3 FclRound4 SpecFis2 FisText FisRound.
Import ListNotations.
Local Open Scope string_scope.

Local Notation solid_text s := (sforall (fun c => negb (is_space c)) s = true).
Lemma clean_between a m b : a <> "" -> solid_text a -> (forall r, a <> String "%" r) -> b <> "" -> solid_text b -> quiet (a ++ m ++ b) = true ->
  fis_clean (a ++ m ++ b) = Ok (Some (unquote (a ++ m ++ b))).
Proof.
  intros A FA P B FB Q. assert (E : trim (a ++ m ++ b) = a ++ m ++ b) by now apply trim_keep.
  destruct a as [|c a]; [congruence|]. cbn [append] in *. cbn [sforall] in FA. apply andb_true_iff in FA. destruct FA as [FA _]. apply negb_true_iff in FA.
  apply clean_ok; auto. destruct (Ascii.eqb_spec c "%") as [->|]; [destruct (P a); reflexivity|reflexivity].
Qed.
Lemma at_first c s : at_ (String c s) 0 = Ok c. Proof. reflexivity. Qed.
Lemma get_snoc s c : get (String.length s) (s ++ char c) = Some c.
Proof. induction s as [|x s IH]; [reflexivity|exact IH]. Qed.
Lemma at_final s c : at_ (s ++ char c) (Z.of_nat (String.length (s ++ char c)) - 1) = Ok c.
Proof.
  unfold at_. assert (L : String.length (s ++ char c) = Datatypes.S (String.length s)) by (clear; induction s as [|x s IH]; [reflexivity|]; cbn [append String.length]; now rewrite IH).
  rewrite L. destruct (Z.ltb_spec (Z.of_nat (Datatypes.S (String.length s)) - 1) 0); [lia|]. replace (Z.to_nat (Z.of_nat (Datatypes.S (String.length s)) - 1)) with (String.length s) by lia. now rewrite get_snoc.
Qed.
Lemma chop_final s c : substring 0 (String.length (s ++ char c) - 1) (s ++ char c) = s.
Proof.
  assert (L : String.length (s ++ char c) = Datatypes.S (String.length s)) by (clear; induction s as [|x s IH]; [reflexivity|]; cbn [append String.length]; now rewrite IH).
  rewrite L. cbn [Nat.sub]. rewrite Nat.sub_0_r. clear L. induction s as [|x s IH]; [reflexivity|]. cbn [append String.length substring]. now rewrite IH.
Qed.

Section Round.
Context {T : Type} `{S : Scalar T}.
Variables (d : nat) (resolution : Z).
Hypothesis N : printable (T := T) d.
Hypothesis numbers : forall x : T, sforall numeral (str d x) = true /\ dotted (str d x).

Definition heading (kind : string) (i : nat) : string := "[" ++ kind ++ str_int (Z.of_nat (Datatypes.S i)) ++ "]".
Definition range_line (v : variable T) : string := "Range=[" ++ (str d (v_minimum v) ++ " " ++ str d (v_maximum v)) ++ "]".
Definition mf_line (p : nat * term T) : string := ("MF" ++ str_int (Z.of_nat (Datatypes.S (fst p)))) ++ "=" ++ (tm_name (snd p) ++ ":" ++ mclass (tm_body (snd p)) ++ ",[" ++ ftext d (tm_body (snd p)) ++ "]").
Definition variable_lines (v : variable T) : list string :=
  ("Name=" ++ v_name v) :: range_line v :: ("NumMFs=" ++ str_int (Z.of_nat (List.length (v_terms v)))) :: map mf_line (combine (seq 0 (List.length (v_terms v))) (v_terms v)).
Definition fis_variable_ok (v : variable T) : Prop := plain_name (v_name v) /\ Forall (fun t => fis_term_ok t /\ plain_name (tm_name t)) (v_terms v).

Lemma int_facts n : str_int n <> "" /\ sforall numeral (str_int n) = true.
Proof. split; [apply int_solid|apply int_numeral]. Qed.
Lemma name_raw n : plain_name n -> fis_clean ("Name='" ++ n ++ "'") = Ok (Some ("Name=" ++ n)) /\ plain_line ("Name=" ++ n).
Proof.
  intros [NE NC]. split.
  - rewrite clean_between; try reflexivity; try discriminate.
    + rewrite !unquote_app, (unquote_id n) by (now apply name_lacks). change (unquote "Name='") with "Name=". change (unquote "'") with "". now rewrite sapp_nil_r.
    + apply quiet_all; rewrite !lacks_app, (name_lacks _ n) by (reflexivity || exact NC); reflexivity.
  - split; [|split; [discriminate|reflexivity]]. unfold one_line. rewrite lacks_app, (name_lacks _ n) by (reflexivity || exact NC). reflexivity.
Qed.
Lemma range_raw v : fis_clean ("Range=[" ++ join_scalars d [v_minimum v; v_maximum v] " " ++ "]") = Ok (Some (range_line v)) /\ plain_line (range_line v).
Proof.
  assert (L : forall c, numeral c = false -> Ascii.eqb " " c = false -> lacks c (str d (v_minimum v) ++ " " ++ str d (v_maximum v)) = true).
  { intros c A B. assert (Q := strs_lack d numbers c [v_minimum v; v_maximum v] A B). exact Q. }
  change (join_scalars d [v_minimum v; v_maximum v] " ") with (str d (v_minimum v) ++ " " ++ str d (v_maximum v)). unfold range_line. set (m := str d (v_minimum v) ++ " " ++ str d (v_maximum v)) in *. split.
  - rewrite clean_between; try reflexivity; try discriminate.
    + rewrite !unquote_app, (unquote_id m) by (now apply L). reflexivity.
    + apply quiet_all; rewrite !lacks_app, (L _) by reflexivity; reflexivity.
  - split; [|split; [discriminate|reflexivity]]. unfold one_line. rewrite !lacks_app, (L _) by reflexivity. reflexivity.
Qed.
Lemma count_raw key n : plain_name key -> (forall r, key <> String "[" r) -> fis_clean (key ++ "=" ++ str_int n) = Ok (Some (key ++ "=" ++ str_int n)) /\ plain_line (key ++ "=" ++ str_int n).
Proof.
  intros [KE KC] KH. destruct (int_facts n) as [IE IN]. destruct (numeral_quiet _ IN) as (_ & Q1 & _ & _ & _ & _ & _ & Q2 & _ & Q3). split.
  - rewrite clean_between; auto; try discriminate.
    + rewrite unquote_id; [reflexivity|]. rewrite !lacks_app, Q1, (name_lacks _ key) by (reflexivity || exact KC). reflexivity.
    + now apply name_solid.
    + intros r ->. discriminate KC.
    + apply firm_space. eapply sforall_impl; [apply numeral_firm|exact IN].
    + apply quiet_all; rewrite !lacks_app, (name_lacks _ key) by (reflexivity || exact KC); [|now rewrite Q3]. assert (H : lacks "#" (str_int n) = true) by (destruct (numeral_quiet _ IN) as (QQ & _); unfold quiet in QQ; apply andb_true_iff in QQ; apply QQ). now rewrite H.
  - split; [|split].
    + unfold one_line. rewrite !lacks_app, Q2, (name_lacks _ key) by (reflexivity || exact KC). reflexivity.
    + destruct key; [congruence|discriminate].
    + destruct key as [|c key]; [congruence|]. unfold fis_heading. cbn [append String.prefix]. destruct (ascii_dec "[" c) as [<-|]; [destruct (KH key); reflexivity|reflexivity].
Qed.
Lemma mf_raw k t : fis_term_ok t -> plain_name (tm_name t) ->
  fis_clean ("MF" ++ str_int (Z.of_nat (Datatypes.S k)) ++ "='" ++ valid_name (tm_name t) ++ "':" ++ fis_term d t) = Ok (Some (mf_line (k, t))) /\ plain_line (mf_line (k, t)).
Proof.
  intros H [NE NC]. rewrite (valid_keep _ NE NC). destruct (int_facts (Z.of_nat (Datatypes.S k))) as [IE IN]. set (z := str_int (Z.of_nat (Datatypes.S k))) in *. destruct (numeral_quiet z IN) as (Q0 & Q1 & _ & _ & _ & _ & _ & Q2 & _ & Q3).
  assert (Q4 : lacks "#" z = true) by (unfold quiet in Q0; apply andb_true_iff in Q0; apply Q0).
  destruct (text_facts d numbers t H) as (F0 & F1 & F2 & F3 & F4 & F5 & F6 & F7). destruct (mclass_facts (tm_body t)) as [CE CC]. split.
  - destruct (term_raw d t H) as (a & E & A1 & A2). assert (TU := term_unquoted d numbers t H).
    assert (R : ("MF" ++ z ++ "='" ++ tm_name t ++ "':" ++ fis_term d t) = ("MF" ++ (z ++ "='" ++ tm_name t ++ "':" ++ a ++ ftext d (tm_body t)) ++ "]")) by (rewrite E, !sapp_assoc; reflexivity).
    rewrite R, clean_between; try reflexivity; try discriminate.
    + rewrite <- R, !unquote_app, TU, (unquote_id z Q1), (unquote_id (tm_name t)) by (now apply name_lacks). unfold mf_line. cbn [fst snd]. fold z. rewrite !sapp_assoc. reflexivity.
    + assert (R2 : ("MF" ++ (z ++ "='" ++ tm_name t ++ "':" ++ a ++ ftext d (tm_body t)) ++ "]") = ("MF" ++ z ++ "='" ++ tm_name t ++ "':" ++ a) ++ ftext d (tm_body t) ++ char "]") by (rewrite !sapp_assoc; reflexivity).
      rewrite R2, quiet_app, quiet_close by (reflexivity || (rewrite !lacks_app, ?A1, ?A2, ?Q3, ?Q4, (name_lacks _ (tm_name t)) by (reflexivity || exact NC); reflexivity)). exact F0.
  - split; [|split; [discriminate|reflexivity]]. unfold mf_line, one_line. cbn [fst snd]. fold z. rewrite !lacks_app, Q2, F7, (name_lacks _ (tm_name t)), (name_lacks _ (mclass (tm_body t))) by (reflexivity || assumption). reflexivity.
Qed.
Lemma heading_facts kind i : kind = "Input" \/ kind = "Output" -> fis_clean (heading kind i) = Ok (Some (heading kind i)) /\ one_line (heading kind i) /\ heading kind i <> "" /\ fis_heading (heading kind i) = true.
Proof.
  intro K. destruct (int_facts (Z.of_nat (Datatypes.S i))) as [IE IN]. unfold heading. set (z := str_int (Z.of_nat (Datatypes.S i))) in *. destruct (numeral_quiet z IN) as (Q0 & Q1 & _ & _ & _ & _ & _ & Q2 & _ & Q3).
  assert (Q4 : lacks "#" z = true) by (unfold quiet in Q0; apply andb_true_iff in Q0; apply Q0). repeat split.
  - assert (R : "[" ++ kind ++ z ++ "]" = "[" ++ (kind ++ z) ++ "]") by (now rewrite sapp_assoc). rewrite R, clean_between; try reflexivity; try discriminate.
    + rewrite unquote_id; [reflexivity|]. rewrite !lacks_app, Q1. destruct K as [-> | ->]; reflexivity.
    + apply quiet_all; rewrite !lacks_app, ?Q3, ?Q4; destruct K as [-> | ->]; reflexivity.
  - unfold one_line. rewrite !lacks_app, Q2. destruct K as [-> | ->]; reflexivity.
  - destruct K as [-> | ->]; discriminate.
  - destruct K as [-> | ->]; unfold fis_heading; cbn [append]; destruct (z ++ "]"); reflexivity.
Qed.
Lemma variable_cleans kind i v : kind = "Input" \/ kind = "Output" -> fis_variable_ok v -> cleans (fis_variable d kind i v) (heading kind i :: variable_lines v) /\ Forall plain_line (variable_lines v).
Proof.
  intros K [PN FT]. destruct (heading_facts kind i K) as (H1 & _). destruct (name_raw _ PN) as [N1 N2]. destruct (range_raw v) as [R1 R2].
  destruct (count_raw "NumMFs" (Z.of_nat (List.length (v_terms v)))) as [C1 C2]; [split; [discriminate|reflexivity]|discriminate|].
  assert (M : cleans (map (fun p => "MF" ++ str_int (Z.of_nat (Datatypes.S (fst p))) ++ "='" ++ valid_name (tm_name (snd p)) ++ "':" ++ fis_term d (snd p))%string (combine (seq 0 (List.length (v_terms v))) (v_terms v)) ++ [""])%list
                     (map mf_line (combine (seq 0 (List.length (v_terms v))) (v_terms v))) /\ Forall plain_line (map mf_line (combine (seq 0 (List.length (v_terms v))) (v_terms v)))).
  { generalize 0%nat as k. clear - FT N numbers. induction FT as [|t ts [A B] F IH]; intro k.
    - split; [apply cl_skip; [reflexivity|constructor]|constructor].
    - cbn [List.length seq combine map app]. destruct (IH (Datatypes.S k)) as [I1 I2]. destruct (mf_raw k t A B) as [M1 M2]. split; [apply cl_line; [exact M1|exact I1]|constructor; assumption]. }
  destruct M as [M1 M2]. split.
  - unfold fis_variable, variable_lines. cbn [app]. apply cl_line; [exact H1|]. rewrite (valid_keep _ (proj1 PN) (proj2 PN)). apply cl_line; [exact N1|]. apply cl_line; [exact R1|]. apply cl_line; [exact C1|exact M1].
  - unfold variable_lines. repeat (constructor; [assumption|]). exact M2.
Qed.

(** ** reading the lines *)
Lemma equals_two key value : lacks "=" key = true -> lacks "=" value = true -> key <> "" -> value <> "" -> split (key ++ "=" ++ value) "=" true = [key; value].
Proof. intros. now apply (split_two "="). Qed.
Lemma parse_fis_range v : fis_parse_range ("[" ++ (str d (v_minimum v) ++ " " ++ str d (v_maximum v)) ++ "]") = Ok (reread d (v_minimum v), reread d (v_maximum v)).
Proof.
  destruct (str_firm d N numbers (v_minimum v)) as [A1 A2]. destruct (str_firm d N numbers (v_maximum v)) as [B1 B2]. destruct (numeral_quiet _ (proj1 (numbers (v_minimum v)))) as (_ & _ & _ & _ & _ & _ & _ & _ & A3 & _).
  destruct (numeral_quiet _ (proj1 (numbers (v_maximum v)))) as (_ & _ & _ & _ & _ & _ & _ & _ & B3 & _).
  unfold fis_parse_range. assert (E : split ("[" ++ (str d (v_minimum v) ++ " " ++ str d (v_maximum v)) ++ "]") " " true = [String "[" (str d (v_minimum v)); str d (v_maximum v) ++ char "]"]).
  { assert (R : "[" ++ (str d (v_minimum v) ++ " " ++ str d (v_maximum v)) ++ "]" = String "[" (str d (v_minimum v)) ++ String " " (str d (v_maximum v) ++ "]")) by (rewrite !sapp_assoc; reflexivity).
    rewrite R. apply (split_two " "); [exact A3|rewrite lacks_app, B3; reflexivity|discriminate|destruct (str d (v_maximum v)); discriminate]. }
  rewrite E, at_first, at_final. cbn [rbind]. change (negb (Ascii.eqb "[" "[") || negb (Ascii.eqb "]" "]"))%bool with false. cbn match. rewrite chop_final. change (sdrop 1 (String "[" (str d (v_minimum v)))) with (str d (v_minimum v)).
  now rewrite !(reread_ok d N).
Qed.
Definition bare (v : variable T) : variable T := set_v_name (v_name v) new_variable.
Lemma key_name vw n v : plain_name n -> fis_key vw "Name" n v = Some (Ok (set_v_name n v)).
Proof. intros [A B]. unfold fis_key. change (String.eqb "Name" "Name") with true. cbn match. now rewrite (valid_keep n A B). Qed.
Lemma mf_key k : "MF" ++ str_int (Z.of_nat (Datatypes.S k)) <> "" /\ lacks "=" ("MF" ++ str_int (Z.of_nat (Datatypes.S k))) = true /\ trim ("MF" ++ str_int (Z.of_nat (Datatypes.S k))) = "MF" ++ str_int (Z.of_nat (Datatypes.S k)).
Proof.
  destruct (int_facts (Z.of_nat (Datatypes.S k))) as [IE IN]. destruct (numeral_quiet _ IN) as (_ & _ & Q & _). split; [discriminate|]. split; [now rewrite lacks_app, Q|]. apply trim_word. rewrite sforall_app. cbn [sforall andb].
  apply firm_space. eapply sforall_impl; [apply numeral_firm|exact IN].
Qed.
Lemma mf_value t : fis_term_ok t -> plain_name (tm_name t) -> let value := tm_name t ++ ":" ++ mclass (tm_body t) ++ ",[" ++ ftext d (tm_body t) ++ "]" in
  value <> "" /\ lacks "=" value = true /\ trim value = value.
Proof.
  intros H [NE NC]. destruct (text_facts d numbers t H) as (_ & _ & F & _). destruct (mclass_facts (tm_body t)) as [CE CC]. cbv zeta. split; [destruct (tm_name t); [congruence|discriminate]|]. split.
  - rewrite !lacks_app, F, (name_lacks _ (tm_name t)), (name_lacks _ (mclass (tm_body t))) by (reflexivity || assumption). reflexivity.
  - assert (R : tm_name t ++ ":" ++ mclass (tm_body t) ++ ",[" ++ ftext d (tm_body t) ++ "]" = tm_name t ++ (":" ++ mclass (tm_body t) ++ ",[" ++ ftext d (tm_body t)) ++ "]") by (rewrite !sapp_assoc; reflexivity).
    rewrite R. apply trim_keep; auto using name_solid; discriminate.
Qed.
Lemma read_terms {A} (f : A -> string -> res A) vw (get : A -> variable T) (put : variable T -> A -> A) (good : A -> Prop) ts :
  (forall a k t, good a -> fis_term_ok t -> plain_name (tm_name t) -> f a (mf_line (k, t)) = (do u <- printed_term d vw (fis_kept_term t); Ok (put (set_terms (v_terms (get a) ++ [u])%list (get a)) a))) ->
  (forall a ts, good a -> good (put (set_terms ts (get a)) a)) -> (forall a v, get (put v a) = v) -> (forall a v w, put v (put w a) = put v a) -> (forall a, put (get a) a = a) ->
  Forall (fun t => fis_term_ok t /\ plain_name (tm_name t)) ts -> forall k a, good a ->
  rfold f a (map mf_line (combine (seq k (List.length ts)) ts)) = (do us <- rmapM (printed_term d vw) (map fis_kept_term ts); Ok (put (set_terms (v_terms (get a) ++ us)%list (get a)) a)).
Proof.
  intros FT GP PG PP PI F. induction F as [|t ts [C1 C2] F IH]; intros k a G.
  - cbn [map rfold rmapM rbind List.length seq combine]. rewrite app_nil_r. assert (E : set_terms (v_terms (get a)) (get a) = get a) by (destruct (get a); reflexivity). now rewrite E, PI.
  - cbn [List.length seq combine map rfold rmapM]. rewrite (FT a k t G C1 C2). destruct (printed_term d vw (fis_kept_term t)) as [u|x| |]; cbn [rbind]; try reflexivity.
    rewrite IH by auto. destruct (rmapM (printed_term d vw) (map fis_kept_term ts)) as [us|x| |]; cbn [rbind]; try reflexivity. rewrite PG, PP. cbn [v_terms set_terms]. rewrite <- app_assoc. reflexivity.
Qed.
Lemma key_range vw v w : fis_key vw "Range" ("[" ++ (str d (v_minimum v) ++ " " ++ str d (v_maximum v)) ++ "]") w = Some (Ok (set_range (reread d (v_minimum v)) (reread d (v_maximum v)) w)).
Proof. unfold fis_key. change (String.eqb "Range" "Name") with false. change (String.eqb "Range" "Enabled") with false. change (String.eqb "Range" "Range") with true. cbn match. now rewrite parse_fis_range. Qed.
Lemma key_count vw value w : fis_key vw "NumMFs" value w = Some (Ok w).
Proof. reflexivity. Qed.
Lemma key_mf vw k t w : fis_term_ok t -> plain_name (tm_name t) ->
  fis_key vw ("MF" ++ str_int (Z.of_nat (Datatypes.S k))) (tm_name t ++ ":" ++ mclass (tm_body t) ++ ",[" ++ ftext d (tm_body t) ++ "]") w = Some (do u <- printed_term d vw (fis_kept_term t); Ok (set_terms (v_terms w ++ [u])%list w)).
Proof.
  intros H K. rewrite <- (parse_fis_term d N numbers vw t H K). set (z := str_int (Z.of_nat (Datatypes.S k))). unfold fis_key. change ("MF" ++ z) with (String "M" (String "F" z)).
  change (String.eqb (String "M" (String "F" z)) "Name") with false. change (String.eqb (String "M" (String "F" z)) "Enabled") with false. change (String.eqb (String "M" (String "F" z)) "Range") with false. cbn match.
  assert (E : substring 0 2 (String "M" (String "F" z)) = "MF") by (cbn [substring]; destruct z; reflexivity). rewrite E. change (String.eqb "MF" "MF") with true. reflexivity.
Qed.
Lemma range_split v : split (range_line v) "=" true = ["Range"; "[" ++ (str d (v_minimum v) ++ " " ++ str d (v_maximum v)) ++ "]"] /\
  trim ("[" ++ (str d (v_minimum v) ++ " " ++ str d (v_maximum v)) ++ "]") = "[" ++ (str d (v_minimum v) ++ " " ++ str d (v_maximum v)) ++ "]".
Proof.
  split; [|apply trim_keep; reflexivity || discriminate]. unfold range_line. change ("Range=[" ++ (str d (v_minimum v) ++ " " ++ str d (v_maximum v)) ++ "]") with ("Range" ++ "=" ++ ("[" ++ (str d (v_minimum v) ++ " " ++ str d (v_maximum v)) ++ "]")).
  apply equals_two; try reflexivity; try discriminate. rewrite !lacks_app. destruct (numeral_quiet _ (proj1 (numbers (v_minimum v)))) as (_ & _ & Q1 & _). destruct (numeral_quiet _ (proj1 (numbers (v_maximum v)))) as (_ & _ & Q2 & _). now rewrite Q1, Q2.
Qed.
Lemma name_split n : plain_name n -> split ("Name=" ++ n) "=" true = ["Name"; n] /\ trim n = n.
Proof. intros [A B]. split; [|apply trim_word; now apply name_solid]. apply (equals_two "Name" n); try reflexivity; try discriminate; auto. now apply name_lacks. Qed.
Lemma count_split n : split ("NumMFs=" ++ str_int n) "=" true = ["NumMFs"; str_int n] /\ trim (str_int n) = str_int n.
Proof.
  destruct (int_facts n) as [A B]. destruct (numeral_quiet _ B) as (_ & _ & Q & _). split; [apply (equals_two "NumMFs"); try reflexivity; try discriminate; auto|].
  apply trim_word, firm_space. eapply sforall_impl; [apply numeral_firm|exact B].
Qed.
Lemma mf_split k t : fis_term_ok t -> plain_name (tm_name t) -> split (mf_line (k, t)) "=" true = ["MF" ++ str_int (Z.of_nat (Datatypes.S k)); tm_name t ++ ":" ++ mclass (tm_body t) ++ ",[" ++ ftext d (tm_body t) ++ "]"].
Proof. intros H K. destruct (mf_key k) as (A1 & A2 & _). destruct (mf_value t H K) as (B1 & B2 & _). apply equals_two; assumption. Qed.

Lemma read_input e v : fis_variable_ok v -> rfold (fis_input_line e) new_variable (variable_lines v) = printed_variable d (engine_view (e_inputs e ++ [bare v]) (e_outputs e)) (fis_kept_variable v).
Proof.
  intros [PN FT]. unfold variable_lines. cbn [rfold]. unfold fis_input_line at 1. destruct (name_split _ PN) as [E1 E2]. rewrite E1. change (trim "Name") with "Name". rewrite E2, (key_name _ _ _ PN). cbn [rbind].
  unfold fis_input_line at 1. destruct (range_split v) as [E3 E4]. rewrite E3. change (trim "Range") with "Range". rewrite E4, key_range. cbn [rbind].
  unfold fis_input_line at 1. destruct (count_split (Z.of_nat (List.length (v_terms v)))) as [E5 E6]. rewrite E5. change (trim "NumMFs") with "NumMFs". rewrite key_count. cbn [rbind].
  rewrite (read_terms (fis_input_line e) (engine_view (e_inputs e ++ [bare v]) (e_outputs e)) (fun v => v) (fun w _ => w) (fun w => nv w = nv (bare v)) (v_terms v)); auto.
  - unfold printed_variable. cbn [fis_kept_variable v_terms]. destruct (rmapM _ (map fis_kept_term (v_terms v))) as [us|x| |]; cbn [rbind]; try reflexivity.
    cbn [fis_kept_variable v_name v_minimum v_maximum v_enabled v_lock_range v_description]. rewrite !(plain_valid _ PN). reflexivity.
  - intros a k t G H K. unfold fis_input_line. rewrite (mf_split k t H K). rewrite (proj2 (proj2 (mf_key k))), (proj2 (proj2 (mf_value t H K))), (key_mf _ k t a H K).
    assert (VW : engine_view (e_inputs e ++ [a]) (e_outputs e) = engine_view (e_inputs e ++ [bare v]) (e_outputs e)) by (apply view_eq; [rewrite !map_app; cbn [map]; now rewrite G|reflexivity]).
    now rewrite VW.
Qed.
Definition bare_output (o : output T) : output T := set_var (bare (o_var o)) new_output.
Lemma read_output e o : fis_variable_ok (o_var o) -> rfold (fis_output_line e) new_output (variable_lines (o_var o)) =
  (do v <- printed_variable d (engine_view (e_inputs e) (e_outputs e ++ [bare_output o])) (fis_kept_variable (o_var o)); Ok (mkOutput v [] None None s_nan s_nan false)).
Proof.
  intros [PN FT]. unfold variable_lines. cbn [rfold]. unfold fis_output_line at 1. destruct (name_split _ PN) as [E1 E2]. rewrite E1. cbv zeta. change (trim "Name") with "Name". rewrite E2, (key_name _ _ _ PN). cbn [rbind].
  unfold fis_output_line at 1. destruct (range_split (o_var o)) as [E3 E4]. rewrite E3. cbv zeta. change (trim "Range") with "Range". rewrite E4, key_range. cbn [rbind].
  unfold fis_output_line at 1. destruct (count_split (Z.of_nat (List.length (v_terms (o_var o))))) as [E5 E6]. rewrite E5. cbv zeta. change (trim "NumMFs") with "NumMFs". rewrite key_count. cbn [rbind].
  rewrite (read_terms (fis_output_line e) (engine_view (e_inputs e) (e_outputs e ++ [bare_output o])) (@o_var T) set_var (fun w => nv (o_var w) = nv (bare (o_var o))) (v_terms (o_var o))); auto.
  - unfold printed_variable. cbn [fis_kept_variable v_terms]. destruct (rmapM _ (map fis_kept_term (v_terms (o_var o)))) as [us|x| |]; cbn [rbind]; try reflexivity.
    cbn [fis_kept_variable v_name v_minimum v_maximum v_enabled v_lock_range v_description]. rewrite !(plain_valid _ PN). reflexivity.
  - intros a k t G H K. unfold fis_output_line. rewrite (mf_split k t H K). cbv zeta. rewrite (proj2 (proj2 (mf_key k))), (proj2 (proj2 (mf_value t H K))), (key_mf _ k t (o_var a) H K).
    assert (VW : engine_view (e_inputs e) (e_outputs e ++ [a]) = engine_view (e_inputs e) (e_outputs e ++ [bare_output o])) by (apply view_eq; [reflexivity|rewrite !map_app; cbn [map]; f_equal; f_equal; exact G]).
    rewrite VW. destruct (printed_term d _ (fis_kept_term t)); reflexivity.
  - intros [w fz ag z pr df lp]. reflexivity.
Qed.
End Round.
