(** Lines of FCL and FIS files which switch variables and rule blocks on and off. *)
From Coq Require Import ZArith List Bool String Ascii Arith Lia.
From Verif Require Import Base Op Norm Hedge Shape Discrete Defuzz Aggregated Text Function Rule Var Activation Engine Factory
  SpecText TextProofs TextProofs2 RuleProofs RuleProofs3 Fll SpecFll FllText FllLines FllExport FllRound FllRound2 FllFix Fis SpecFis FisBundle FisRule2 Fcl SpecFcl FclText FclRound FclRound2 SpecSwitch.
Import ListNotations.
Local Open Scope string_scope.

Lemma padded_trim w s : padded w s -> sforall (fun c => negb (is_space c)) w = true -> trim s = w.
Proof. intros (l & r & -> & L & R) W. rewrite trim_lead by exact L. rewrite trim_rl, rtrim_tail by exact R. rewrite <- trim_rl. now apply trim_word. Qed.
Lemma trim_padded w s : trim s = w -> padded w s.
Proof. intros <-. destruct (trim_split s) as (l & r & E & L & R). exists l, r. auto. Qed.
Lemma blank_lacks c s : is_space c = false -> blank s = true -> lacks c s = true.
Proof.
  intros C B. rewrite lacks_sforall. unfold blank in B. induction s as [|x s IH]; [reflexivity|]. cbn [sforall] in B |- *. apply andb_true_iff in B. destruct B as [B1 B2]. rewrite (IH B2), andb_true_r. apply negb_true_iff. destruct (Ascii.eqb_spec x c) as [->|]; [congruence|reflexivity].
Qed.
Section Lines.
Context {T : Type} `{S : Scalar T}.
Lemma flag_solid b : sforall (fun c => negb (is_space c)) (flag b) = true. Proof. destruct b; reflexivity. Qed.
Lemma flag_lacks b s : padded (flag b) s -> lacks ":" s = true /\ s <> "".
Proof.
  intros (l & r & -> & L & R). split; [|destruct l, b; discriminate]. rewrite !lacks_app, (blank_lacks _ l), (blank_lacks _ r) by (reflexivity || assumption). destruct b; reflexivity.
Qed.
Lemma parse_gap gap value : blank gap = true -> lacks ":" value = true -> value <> "" -> two_parts ("ENABLED " ++ gap ++ ":" ++ value) ":" = Ok ("ENABLED " ++ gap, value).
Proof.
  intros G V1 V2. change (":" ++ value) with (String ":" value). rewrite <- sapp_assoc3. apply (two_parts_at ":" ("ENABLED " ++ gap) value); [rewrite lacks_app, (blank_lacks _ gap) by (reflexivity || assumption); reflexivity|discriminate|exact V1|exact V2].
Qed.
Lemma parse_flag b gap value : blank gap = true -> padded (flag b) value -> fcl_parse_enabled ("ENABLED " ++ gap ++ ":" ++ value) = Ok b.
Proof.
  intros G V. destruct (flag_lacks b value V) as [V1 V2]. unfold fcl_parse_enabled. rewrite parse_gap by assumption. cbn [rbind snd]. rewrite (padded_trim _ _ V (flag_solid b)). destruct b; reflexivity.
Qed.
Lemma parse_other gap value : blank gap = true -> lacks ":" value = true -> (forall b, ~ padded (flag b) value) -> fcl_parse_enabled ("ENABLED " ++ gap ++ ":" ++ value) = Throw ESyntax.
Proof.
  intros G L N. unfold fcl_parse_enabled. destruct (String.eqb_spec value "") as [->|NE].
  - change (":" ++ "") with (String ":" ""). rewrite <- sapp_assoc3. unfold two_parts. change ":" with (char ":") at 2. rewrite split_words by discriminate. rewrite chop_app by (rewrite lacks_app, (blank_lacks _ gap) by (reflexivity || assumption); reflexivity). reflexivity.
  - rewrite parse_gap by assumption. cbn [rbind snd]. destruct (String.eqb_spec (trim value) "TRUE") as [E|_]; [destruct (N true); now apply trim_padded|]. destruct (String.eqb_spec (trim value) "FALSE") as [E|_]; [destruct (N false); now apply trim_padded|reflexivity].
Qed.
Lemma key_token rest : first_token ("ENABLED " ++ rest) = "ENABLED".
Proof. apply (first_token_space "ENABLED" rest). split; [discriminate|reflexivity]. Qed.
Lemma block_token rest : before_space ("ENABLED " ++ rest) = "ENABLED".
Proof. unfold before_space. assert (Q : find_sub " " ("ENABLED " ++ rest) = Some ("ENABLED", rest)) by (cbn; now destruct rest). now rewrite Q. Qed.
Lemma trim_line gap value : blank gap = true -> (exists b, padded (flag b) value) \/ lacks ":" value = true -> exists value', trim ("ENABLED " ++ gap ++ ":" ++ value) = "ENABLED " ++ gap ++ ":" ++ value' /\ trim value' = trim value /\ (lacks ":" value = true -> lacks ":" value' = true).
Proof.
  intros G _. exists (rtrim value). split; [|split; [apply trim_rtrim|intro L; rewrite lacks_sforall in *; now apply rtrim_sforall]]. rewrite trim_lr. change ("ENABLED " ++ gap ++ ":" ++ value) with ("ENABLED" ++ (" " ++ gap ++ ":" ++ value)) at 1. rewrite ltrim_word by (reflexivity || discriminate).
  replace ("ENABLED" ++ " " ++ gap ++ ":" ++ value) with (("ENABLED " ++ gap ++ ":") ++ value) by (rewrite !sapp_assoc3; reflexivity). rewrite rtrim_app; [rewrite !sapp_assoc3; reflexivity| |discriminate].
  rewrite <- sapp_assoc3. apply rtrim_keep; [reflexivity|discriminate].
Qed.
Theorem fcl_switch value line : switch_line value line ->
  (forall b, padded (flag b) value -> (forall e i v, fcl_input_line e i v line = Ok (switched b v)) /\ (forall resolution e i o, fcl_output_line resolution e i o line = Ok (switched_output b o)) /\ (forall env l, fcl_block_line env l line = Ok (switched_block b l))) /\
  (lacks ":" value = true -> (forall b, ~ padded (flag b) value) -> (forall e i v, fcl_input_line e i v line = Throw ESyntax) /\ (forall resolution e i o, fcl_output_line resolution e i o line = Throw ESyntax) /\ (forall env l, fcl_block_line env l line = Throw ESyntax)).
Proof.
  intros (gap & -> & G). split.
  - intros b V. assert (Q := parse_flag b gap value G V). split; [|split].
    + intros e i v. unfold fcl_input_line. rewrite key_token. unfold fcl_key. cbn [String.eqb Ascii.eqb Bool.eqb]. rewrite Q. reflexivity.
    + intros resolution e i o. unfold fcl_output_line. destruct (trim_line gap value G ltac:(left; eauto)) as (v' & E & T1 & _). rewrite E. rewrite key_token. unfold fcl_key. cbn [String.eqb Ascii.eqb Bool.eqb].
      rewrite (parse_flag b gap v' G) by (apply trim_padded; rewrite T1; exact (padded_trim _ _ V (flag_solid b))). reflexivity.
    + intros env l. unfold fcl_block_line. rewrite block_token. cbn [String.eqb Ascii.eqb Bool.eqb]. rewrite Q. reflexivity.
  - intros L N. assert (Q := parse_other gap value G L N). split; [|split].
    + intros e i v. unfold fcl_input_line. rewrite key_token. unfold fcl_key. cbn [String.eqb Ascii.eqb Bool.eqb]. rewrite Q. reflexivity.
    + intros resolution e i o. unfold fcl_output_line. destruct (trim_line gap value G ltac:(right; exact L)) as (v' & E & T1 & L'). rewrite E. rewrite key_token. unfold fcl_key. cbn [String.eqb Ascii.eqb Bool.eqb].
      rewrite (parse_other gap v' G (L' L)) by (intros b P; apply (N b), trim_padded; rewrite <- T1; exact (padded_trim _ _ P (flag_solid b))). reflexivity.
    + intros env l. unfold fcl_block_line. rewrite block_token. cbn [String.eqb Ascii.eqb Bool.eqb]. rewrite Q. reflexivity.
Qed.
Lemma padded_lacks c w s : is_space c = false -> padded w s -> lacks c w = true -> w <> "" -> lacks c s = true /\ s <> "".
Proof.
  intros C (l & r & -> & L & R) W N. split; [rewrite !lacks_app, W, (blank_lacks _ l), (blank_lacks _ r) by assumption; reflexivity|]. destruct l; [|discriminate]. destruct w; [congruence|discriminate].
Qed.
Lemma setting_parts key value line : setting key value line -> plain_value key -> plain_value value -> exists k v, split line "=" true = [k; v] /\ trim k = key /\ trim v = value.
Proof.
  intros (k & v & -> & K & V) (K1 & K2 & K3) (V1 & V2 & V3). exists k, v. destruct (padded_lacks "=" key k eq_refl K K3 K1) as [A1 A2]. destruct (padded_lacks "=" value v eq_refl V V3 V1) as [B1 B2].
  split; [exact (split_two "=" k v A1 B1 A2 B2)|]. split; apply padded_trim; assumption.
Qed.
Theorem fis_switch key value line : setting key value line -> plain_value value ->
  (key = "Enabled" -> (forall x, to_scalar value = Ok x -> (forall e v, fis_input_line e v line = Ok (switched (isEq x s_1) v)) /\ (forall e o, fis_output_line e o line = Ok (switched_output (isEq x s_1) o)))) /\
  (key = "LockRange" -> forall x, to_scalar value = Ok x -> forall e o, fis_output_line e o line = Ok (range_locked (isEq x s_1) o)) /\
  (key = "LockPrevious" -> forall x, to_scalar value = Ok x -> forall e o, fis_output_line e o line = Ok (previous_locked (isEq x s_1) o)) /\
  (key = "Default" -> forall x, to_scalar value = Ok x -> forall e o, fis_output_line e o line = Ok (defaulted x o)) /\
  (In key ["LockRange"; "LockPrevious"; "Default"] -> forall e v, fis_input_line e v line = Throw EImport) /\
  (In key ["Enabled"; "LockRange"; "LockPrevious"; "Default"] -> (forall x : T, to_scalar value <> Ok x) -> forall e o o', fis_output_line e o line <> Ok o').
Proof.
  intros ST V. assert (KP : In key ["Enabled"; "LockRange"; "LockPrevious"; "Default"] -> exists k v, split line "=" true = [k; v] /\ trim k = key /\ trim v = value).
  { intro K. apply (setting_parts key value line ST); [|exact V]. cbn [In] in K. repeat (destruct K as [<- | K]; [split; [discriminate|split; reflexivity]|]). destruct K. }
  repeat split.
  all: intros; subst; try (destruct KP as (k & w & E & E1 & E2); [cbn [In] in *; intuition|]).
  - unfold fis_input_line. rewrite E, E1, E2. unfold fis_key. cbn [String.eqb Ascii.eqb Bool.eqb]. rewrite H0. reflexivity.
  - unfold fis_output_line. rewrite E, E1, E2. unfold fis_key. cbn [String.eqb Ascii.eqb Bool.eqb]. rewrite H0. reflexivity.
  - unfold fis_output_line. rewrite E. cbv zeta. rewrite E1, E2. unfold fis_key. cbn [String.eqb Ascii.eqb Bool.eqb substring]. rewrite H0. reflexivity.
  - unfold fis_output_line. rewrite E. cbv zeta. rewrite E1, E2. unfold fis_key. cbn [String.eqb Ascii.eqb Bool.eqb substring]. rewrite H0. reflexivity.
  - unfold fis_output_line. rewrite E. cbv zeta. rewrite E1, E2. unfold fis_key. cbn [String.eqb Ascii.eqb Bool.eqb substring]. rewrite H0. reflexivity.
  - unfold fis_input_line. rewrite E, E1, E2. cbn [In] in H. repeat (destruct H as [<- | H]; [reflexivity|]). destruct H.
  - unfold fis_output_line. rewrite E. cbv zeta. rewrite E1, E2. cbn [In] in H. repeat (destruct H as [<- | H]; [unfold fis_key; cbn [String.eqb Ascii.eqb Bool.eqb substring]; destruct (to_scalar value) as [x| | |]; try discriminate; now destruct (H0 x)|]). destruct H.
Qed.
(** ** LOCK *)
Lemma lock_trim gap value : blank gap = true -> trim ("LOCK " ++ gap ++ ":" ++ value) = "LOCK " ++ gap ++ ":" ++ rtrim value.
Proof.
  intro G. rewrite trim_lr. change ("LOCK " ++ gap ++ ":" ++ value) with ("LOCK" ++ (" " ++ gap ++ ":" ++ value)) at 1. rewrite ltrim_word by (reflexivity || discriminate).
  replace ("LOCK" ++ " " ++ gap ++ ":" ++ value) with (("LOCK " ++ gap ++ ":") ++ value) by (rewrite !sapp_assoc3; reflexivity). rewrite rtrim_app; [rewrite !sapp_assoc3; reflexivity| |discriminate].
  rewrite <- sapp_assoc3. apply rtrim_keep; [reflexivity|discriminate].
Qed.
Lemma lock_parse gap value : blank gap = true -> fcl_parse_locks ("LOCK " ++ gap ++ ":" ++ value) = match map trim (split value "|" true) with
    | [f] => if (String.eqb f "PREVIOUS" || String.eqb f "RANGE")%bool then Ok (String.eqb f "PREVIOUS", String.eqb f "RANGE") else Throw ESyntax
    | [a; b] => if ((String.eqb a "PREVIOUS" || String.eqb b "PREVIOUS") && (String.eqb a "RANGE" || String.eqb b "RANGE"))%bool then Ok (true, true) else Throw ESyntax
    | _ => Throw ESyntax
    end.
Proof.
  intro G. unfold fcl_parse_locks. change (":" ++ value) with (String ":" value). rewrite <- sapp_assoc3.
  assert (Q : find_sub ":" (("LOCK " ++ gap) ++ String ":" value) = Some ("LOCK " ++ gap, value)) by (apply (find_char ":"); rewrite lacks_app, (blank_lacks _ gap) by (reflexivity || assumption); reflexivity).
  now rewrite Q.
Qed.
Lemma split_single s : lacks "|" s = true -> split s "|" true = [s] \/ exists x, split s "|" true = [x] /\ trim x = trim s.
Proof.
  intro L. destruct (String.eqb_spec s "") as [->|N]; [right; exists ""; split; reflexivity|left]. change "|" with (char "|"). rewrite split_words by exact N. rewrite chop_lacks by exact L. cbn [filter]. unfold nonempty. destruct s; [congruence|reflexivity].
Qed.
Lemma padded_rtrim w s : padded w s -> sforall (fun c => negb (is_space c)) w = true -> padded w (rtrim s).
Proof. intros P W. apply trim_padded. rewrite trim_rtrim. now apply padded_trim. Qed.
Lemma rtrim_bar a b : rtrim (a ++ "|" ++ b) = a ++ "|" ++ rtrim b.
Proof. rewrite <- !sapp_assoc3. apply rtrim_app; [apply rtrim_keep; [reflexivity|discriminate]|destruct a; discriminate]. Qed.
Lemma asks_rtrim p r s : asks p r s -> asks p r (rtrim s).
Proof.
  intros [t A|t A|a b A B|a b A B].
  - apply asks_previous. now apply padded_rtrim.
  - apply asks_range. now apply padded_rtrim.
  - rewrite rtrim_bar. apply asks_both; [exact A|now apply padded_rtrim].
  - rewrite rtrim_bar. apply asks_both_back; [exact A|now apply padded_rtrim].
Qed.
Lemma lock_asked p r gap value : blank gap = true -> asks p r value -> fcl_parse_locks ("LOCK " ++ gap ++ ":" ++ value) = Ok (p, r).
Proof.
  intros G A. rewrite lock_parse by exact G. destruct A as [t A|t A|a b A B|a b A B].
  - destruct (padded_lacks "|" _ t eq_refl A eq_refl ltac:(discriminate)) as [L _]. assert (P := padded_trim _ _ A eq_refl). destruct (split_single t L) as [->|(x & -> & E)]; cbn [map]; [rewrite P|rewrite E, P]; reflexivity.
  - destruct (padded_lacks "|" _ t eq_refl A eq_refl ltac:(discriminate)) as [L _]. assert (P := padded_trim _ _ A eq_refl). destruct (split_single t L) as [->|(x & -> & E)]; cbn [map]; [rewrite P|rewrite E, P]; reflexivity.
  - destruct (padded_lacks "|" _ a eq_refl A eq_refl ltac:(discriminate)) as [L1 N1]. destruct (padded_lacks "|" _ b eq_refl B eq_refl ltac:(discriminate)) as [L2 N2].
    rewrite (split_two "|" a b L1 L2 N1 N2 : split (a ++ "|" ++ b) "|" true = [a; b]). cbn [map]. rewrite (padded_trim _ _ A eq_refl), (padded_trim _ _ B eq_refl). reflexivity.
  - destruct (padded_lacks "|" _ a eq_refl A eq_refl ltac:(discriminate)) as [L1 N1]. destruct (padded_lacks "|" _ b eq_refl B eq_refl ltac:(discriminate)) as [L2 N2].
    rewrite (split_two "|" a b L1 L2 N1 N2 : split (a ++ "|" ++ b) "|" true = [a; b]). cbn [map]. rewrite (padded_trim _ _ A eq_refl), (padded_trim _ _ B eq_refl). reflexivity.
Qed.
Lemma lock_other gap value : blank gap = true -> lacks "|" value = true -> ~ padded "PREVIOUS" value -> ~ padded "RANGE" value -> fcl_parse_locks ("LOCK " ++ gap ++ ":" ++ value) = Throw ESyntax.
Proof.
  intros G L N1 N2. rewrite lock_parse by exact G. assert (Q : exists x, split value "|" true = [x] /\ trim x = trim value) by (destruct (split_single value L) as [->|E]; eauto). destruct Q as (x & -> & E). cbn [map]. rewrite E.
  destruct (String.eqb_spec (trim value) "PREVIOUS") as [F|_]; [destruct N1; now apply trim_padded|]. destruct (String.eqb_spec (trim value) "RANGE") as [F|_]; [destruct N2; now apply trim_padded|reflexivity].
Qed.
Lemma lock_token rest : first_token ("LOCK " ++ rest) = "LOCK".
Proof. apply (first_token_space "LOCK" rest). split; [discriminate|reflexivity]. Qed.
Theorem fcl_lock value line : lock_line value line ->
  (forall p r, asks p r value -> forall resolution e i o, fcl_output_line resolution e i o line = Ok (range_locked r (previous_locked p o))) /\
  (lacks "|" value = true -> (forall p r, ~ asks p r value) -> forall resolution e i o, fcl_output_line resolution e i o line = Throw ESyntax) /\
  (forall e i v, fcl_input_line e i v line = Throw ESyntax) /\
  (forall env l, fcl_block_line env l line = Throw ESyntax).
Proof.
  intros (gap & -> & G). split; [|split; [|split]].
  - intros p r A resolution e i o. unfold fcl_output_line. rewrite (lock_trim gap value G), lock_token. unfold fcl_key. cbn [String.eqb Ascii.eqb Bool.eqb]. rewrite (lock_asked p r gap _ G (asks_rtrim _ _ _ A)). reflexivity.
  - intros L N resolution e i o. unfold fcl_output_line. rewrite (lock_trim gap value G), lock_token. unfold fcl_key. cbn [String.eqb Ascii.eqb Bool.eqb]. rewrite (lock_other gap (rtrim value) G); [reflexivity|rewrite lacks_sforall in *; now apply rtrim_sforall| |].
    + intro P. apply (N true false), asks_previous, trim_padded. rewrite <- trim_rtrim. exact (padded_trim _ _ P eq_refl).
    + intro P. apply (N false true), asks_range, trim_padded. rewrite <- trim_rtrim. exact (padded_trim _ _ P eq_refl).
  - intros e i v. unfold fcl_input_line. rewrite lock_token. reflexivity.
  - intros env l. unfold fcl_block_line. assert (Q : before_space ("LOCK " ++ gap ++ ":" ++ value) = "LOCK") by (unfold before_space; assert (Q : find_sub " " ("LOCK " ++ (gap ++ ":" ++ value)) = Some ("LOCK", gap ++ ":" ++ value)) by (apply (find_char " " "LOCK"); reflexivity); now rewrite Q). rewrite Q. reflexivity.
Qed.
End Lines.
