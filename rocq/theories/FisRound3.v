(** Engines in the Fuzzy Inference System format: what is imported is what was exported. *)
From Coq Require Import ZArith List Bool String Ascii Arith Lia Permutation Sorting.Sorted.
From Verif Require Import Base Op Norm Hedge Shape Discrete Defuzz Aggregated Text Function Rule Var Activation Engine Factory
  SpecText TextProofs TextProofs2 RuleProofs3 SpecRule Fll SpecFll FllText FllLines FllExport FllRound FllRound2 FllFix FllSame Fis SpecFis FisRule FisRule2 FisRule3 FisBundle Fcl SpecFcl FclText FclRound FclRound2 FclRound3 FclRound4
  SpecFis2 FisText FisRound FisRound2.
Import ListNotations.
Local Open Scope string_scope.

Lemma first_fold {A B} (f : A -> option B) l : forall acc, fold_left (fun acc x => match acc with Some b => Some b | None => f x end) l (Some acc) = Some acc.
Proof. induction l as [|x l IH]; intro acc; [reflexivity|apply IH]. Qed.
Lemma first_some_given {A B} (f : A -> option B) dflt l : match first_some f l with Some b => b | None => dflt end = first_given dflt (map f l).
Proof. unfold first_some. induction l as [|x l IH]; [reflexivity|]. cbn [fold_left map first_given]. destruct (f x); [now rewrite first_fold|exact IH]. Qed.

Lemma first_some_option {A B} (f : A -> option B) l : first_some f l = match first_some (fun x => option_map Some (f x)) l with Some b => b | None => None end.
Proof. unfold first_some. induction l as [|x l IH]; [reflexivity|]. cbn [fold_left]. destruct (f x); cbn [option_map]; [now rewrite !first_fold|exact IH]. Qed.

Section Round.
Context {T : Type} `{S : Scalar T}.
Variables (d : nat) (resolution : Z) (library version : string).
Hypothesis N : printable (T := T) d.
Hypothesis numbers : forall x : T, sforall FclRound.numeral (str d x) = true /\ dotted (str d x).
Hypothesis library_line : one_line library.
Hypothesis version_name : plain_name version.

(** ** the system *)
Definition and_name (e : engine T) : string := fis_tnorm (first_given Minimum (map (@b_conjunction T) (e_blocks e))).
Definition or_name (e : engine T) : string := fis_snorm (first_given Maximum (map (@b_disjunction T) (e_blocks e))).
Definition imp_name (e : engine T) : string := fis_tnorm (first_given Minimum (map (@b_implication T) (e_blocks e))).
Definition agg_name (e : engine T) : string := fis_snorm (all_aggregation e).
Definition defuzz_name (e : engine T) : string := fis_defuzzifier (all_defuzzifier e).
Definition system_lines (e : engine T) : list string :=
  ["Name=" ++ e_name e; "Type=" ++ fis_type (engine_type e); "Version=" ++ version; "NumInputs=" ++ str_int (Z.of_nat (List.length (e_inputs e)));
   "NumOutputs=" ++ str_int (Z.of_nat (List.length (e_outputs e))); "NumRules=" ++ str_int (Z.of_nat (fold_left (fun n b => n + List.length (b_rules b))%nat (e_blocks e) O));
   "AndMethod=" ++ and_name e; "OrMethod=" ++ or_name e; "ImpMethod=" ++ imp_name e; "AggMethod=" ++ agg_name e; "DefuzzMethod=" ++ defuzz_name e].
Lemma fis_text_facts s : fis_text s -> quiet s = true /\ lacks "'" s = true /\ lacks "=" s = true /\ lacks newline s = true.
Proof. intros (A & B & C & D & E). repeat split; auto. unfold quiet. now rewrite B, (slashed_none s C). Qed.
Lemma quoted_raw key s : plain_name key -> (forall r, key <> String "[" r) -> fis_text s -> fis_clean (key ++ "='" ++ s ++ "'") = Ok (Some (key ++ "=" ++ s)) /\ plain_line (key ++ "=" ++ s).
Proof.
  intros [KE KC] KH H. destruct (fis_text_facts s H) as (A & B & C & D). split.
  - assert (R : key ++ "='" ++ s ++ "'" = key ++ ("='" ++ s) ++ "'") by (now rewrite sapp_assoc). rewrite R, clean_between; try reflexivity; try discriminate; auto.
    + rewrite <- R, !unquote_app, (unquote_id s B), (unquote_id key) by (now apply name_lacks). change (unquote "='") with "=". change (unquote "'") with "". now rewrite sapp_nil_r.
    + now apply name_solid.
    + intros r ->. discriminate KC.
    + assert (R2 : key ++ ("='" ++ s) ++ "'" = (key ++ "='") ++ s ++ char "'") by (rewrite !sapp_assoc; reflexivity). rewrite R2, quiet_app, quiet_close by (reflexivity || (rewrite lacks_app, (name_lacks _ key) by (reflexivity || exact KC); reflexivity)). exact A.
  - split; [|split].
    + unfold one_line. rewrite !lacks_app, D, (name_lacks _ key) by (reflexivity || exact KC). reflexivity.
    + destruct key; [congruence|discriminate].
    + destruct key as [|c key]; [congruence|]. unfold fis_heading. cbn [append String.prefix]. destruct (ascii_dec "[" c) as [<-|]; [destruct (KH key); reflexivity|reflexivity].
Qed.
Lemma calm_text s : sforall (fun c => name_char c || Ascii.eqb c " ")%bool s = true -> fis_text s.
Proof.
  intro F. assert (L : forall c, (name_char c || Ascii.eqb c " ")%bool = false -> lacks c s = true).
  { intros c E. rewrite lacks_sforall. eapply sforall_impl; [|exact F]. intros x H. apply negb_true_iff. destruct (Ascii.eqb_spec x c) as [->|]; [rewrite E in H; discriminate|reflexivity]. }
  split; [apply L; reflexivity|]. split; [apply L; reflexivity|]. split; [|split; apply L; reflexivity]. intro O. apply find_sub_none in O; [exact O|]. apply slashed_find, slashed_lacks, L. reflexivity.
Qed.
Lemma tnorm_text n : fis_text (fis_tnorm n). Proof. destruct n; now apply calm_text. Qed.
Lemma snorm_text n : fis_text (fis_snorm n). Proof. destruct n; now apply calm_text. Qed.
Lemma defuzzifier_text z : fis_text (fis_defuzzifier z). Proof. destruct z as [[k ?|k ?]|]; [destruct k|destruct k|]; now apply calm_text. Qed.
Lemma type_text ty : fis_text (fis_type ty). Proof. destruct ty; now apply calm_text. Qed.
Lemma version_raw : fis_clean ("Version=" ++ version) = Ok (Some ("Version=" ++ version)) /\ plain_line ("Version=" ++ version).
Proof.
  destruct version_name as [VE VC]. split.
  - change ("Version=" ++ version) with ("Version=" ++ "" ++ version). rewrite clean_between; try reflexivity; try discriminate; auto.
    + rewrite unquote_id; [reflexivity|]. rewrite !lacks_app, (name_lacks _ version) by (reflexivity || exact VC). reflexivity.
    + now apply name_solid.
    + apply quiet_all; rewrite !lacks_app, (name_lacks _ version) by (reflexivity || exact VC); reflexivity.
  - split; [|split; [discriminate|reflexivity]]. unfold one_line. rewrite lacks_app, (name_lacks _ version) by (reflexivity || exact VC). reflexivity.
Qed.
Lemma system_cleans e : fis_text (e_name e) -> cleans (fis_system library version e ++ [""]) ("[System]" :: system_lines e) /\ Forall plain_line (system_lines e).
Proof.
  intro H. assert (QR : forall key s, plain_name key -> (forall r, key <> String "[" r) -> fis_text s -> fis_clean (key ++ "='" ++ s ++ "'") = Ok (Some (key ++ "=" ++ s)) /\ plain_line (key ++ "=" ++ s)) by exact quoted_raw.
  destruct version_raw as [V1 V2].
  assert (K : forall key, plain_name (String key "") -> True) by auto.
  destruct (quoted_raw "Name" (e_name e)) as [A1 A2]; [split; [discriminate|reflexivity]|discriminate|exact H|].
  destruct (quoted_raw "Type" (fis_type (engine_type e))) as [B1 B2]; [split; [discriminate|reflexivity]|discriminate|apply type_text|].
  destruct (count_raw "NumInputs" (Z.of_nat (List.length (e_inputs e)))) as [C1 C2]; [split; [discriminate|reflexivity]|discriminate|].
  destruct (count_raw "NumOutputs" (Z.of_nat (List.length (e_outputs e)))) as [D1 D2]; [split; [discriminate|reflexivity]|discriminate|].
  destruct (count_raw "NumRules" (Z.of_nat (fold_left (fun n b => n + List.length (b_rules b))%nat (e_blocks e) O))) as [E1 E2]; [split; [discriminate|reflexivity]|discriminate|].
  destruct (quoted_raw "AndMethod" (and_name e)) as [F1 F2]; [split; [discriminate|reflexivity]|discriminate|apply tnorm_text|].
  destruct (quoted_raw "OrMethod" (or_name e)) as [G1 G2]; [split; [discriminate|reflexivity]|discriminate|apply snorm_text|].
  destruct (quoted_raw "ImpMethod" (imp_name e)) as [I1 I2]; [split; [discriminate|reflexivity]|discriminate|apply tnorm_text|].
  destruct (quoted_raw "AggMethod" (agg_name e)) as [J1 J2]; [split; [discriminate|reflexivity]|discriminate|apply snorm_text|].
  destruct (quoted_raw "DefuzzMethod" (defuzz_name e)) as [L1 L2]; [split; [discriminate|reflexivity]|discriminate|apply defuzzifier_text|].
  split; [|unfold system_lines; repeat (constructor; [assumption|]); constructor].
  assert (O1 : forall (A : Type) (f : A -> string) df dn (o : option A), dn = f df -> match o with Some a => f a | None => dn end = f (match o with Some a => a | None => df end)) by (intros A f df dn [a|] ->; reflexivity).
  unfold fis_system. cbv zeta. rewrite !(O1 tnorm fis_tnorm Minimum "min" _ eq_refl), !(O1 snorm fis_snorm Maximum "max" _ eq_refl), !first_some_given.
  assert (DZ : first_some (@o_defuzzifier T) (e_outputs e) = all_defuzzifier e).
  { unfold all_defuzzifier. rewrite <- (first_some_given (fun o => option_map Some (o_defuzzifier o))). apply first_some_option. }
  rewrite DZ. unfold system_lines. cbn [app]. apply cl_skip; [apply clean_comment|]. apply cl_skip; [reflexivity|]. apply cl_line; [reflexivity|].
  do 11 (apply cl_line; [assumption|]). apply cl_skip; [reflexivity|constructor].
Qed.
Lemma system_split key s : plain_name key -> fis_text s -> exists vs, split (key ++ "=" ++ s) "=" true = key :: vs /\ join vs "" = s /\ trim key = key.
Proof.
  intros [KE KC] H. destruct (fis_text_facts s H) as (_ & _ & E & _). destruct s as [|c s].
  - exists []. split; [|split; [reflexivity|apply trim_word; now apply name_solid]].
    etransitivity; [apply (split_words "=" (key ++ char "=")); destruct key; [congruence|discriminate]|]. change (char "=") with (String "=" ""). rewrite (chop_app "=" key "") by (now apply name_lacks). cbn [chop]. destruct key; [congruence|reflexivity].
  - exists [String c s]. split; [|split; [reflexivity|apply trim_word; now apply name_solid]]. apply equals_two; auto; [now apply name_lacks|discriminate].
Qed.
Lemma system_read e nm ds ins outs bs m : fis_text (e_name e) -> trim (e_name e) = e_name e ->
  rfold (fis_system_line (T := T)) (mkEngine nm ds ins outs bs, m) (system_lines e) =
  Ok (mkEngine (e_name e) ds ins outs bs, mkMethods (and_name e) (or_name e) (imp_name e) (agg_name e) (defuzz_name e)).
Proof.
  intros H TR. assert (FS : forall key s st, plain_name key -> fis_text s -> trim s = s -> fis_system_line (T := T) st (key ++ "=" ++ s) =
    let '(e, m) := st in let value := s in if String.eqb key "Name" then Ok (mkEngine value (e_description e) (e_inputs e) (e_outputs e) (e_blocks e), m)
    else if String.eqb key "AndMethod" then Ok (e, mkMethods value (m_or m) (m_imp m) (m_agg m) (m_defuzz m))
    else if String.eqb key "OrMethod" then Ok (e, mkMethods (m_and m) value (m_imp m) (m_agg m) (m_defuzz m))
    else if String.eqb key "ImpMethod" then Ok (e, mkMethods (m_and m) (m_or m) value (m_agg m) (m_defuzz m))
    else if String.eqb key "AggMethod" then Ok (e, mkMethods (m_and m) (m_or m) (m_imp m) value (m_defuzz m))
    else if String.eqb key "DefuzzMethod" then Ok (e, mkMethods (m_and m) (m_or m) (m_imp m) (m_agg m) value)
    else if existsb (String.eqb key) ["Type"; "Version"; "NumInputs"; "NumOutputs"; "NumRules"; "NumMFs"] then Ok st
    else Throw EImport).
  { intros key s [e0 m0] K F TS. destruct (system_split key s K F) as (vs & E & J & TK). unfold fis_system_line. rewrite E, TK, J, TS. reflexivity. }
  assert (IT : forall n, fis_text (str_int n) /\ trim (str_int n) = str_int n).
  { intro n. destruct (int_facts n) as [_ B]. split; [|apply trim_word, firm_space; eapply sforall_impl; [apply numeral_firm|exact B]]. destruct (numeral_quiet _ B) as (Q & B1 & B2 & _ & _ & _ & _ & B3 & _ & B4). unfold quiet in Q. apply andb_true_iff in Q.
    split; [exact B3|]. split; [apply Q|]. split; [|auto]. intro O. apply find_sub_none in O; [exact O|]. now apply slashed_find, slashed_lacks. }
  assert (TT : forall n, trim (fis_tnorm n) = fis_tnorm n) by (intros []; reflexivity). assert (TS : forall n, trim (fis_snorm n) = fis_snorm n) by (intros []; reflexivity).
  assert (TD : forall z, trim (fis_defuzzifier z) = fis_defuzzifier z) by (intros [[[] ?|[] ?]|]; reflexivity). assert (TY : forall ty, trim (fis_type ty) = fis_type ty) by (intros []; reflexivity).
  assert (VT : fis_text version /\ trim version = version).
  { destruct version_name as [VE VC]. split; [apply calm_text; eapply sforall_impl; [|exact VC]; intros c ->; reflexivity|apply trim_word; now apply name_solid]. }
  assert (PK : forall k, k <> "" -> sforall name_char k = true -> plain_name k) by (intros; split; assumption).
  unfold system_lines. cbn [rfold].
  rewrite (FS "Name" (e_name e)) by (assumption || (split; [discriminate|reflexivity])). cbn [rbind e_description e_inputs e_outputs e_blocks String.eqb Ascii.eqb Bool.eqb].
  rewrite (FS "Type" (fis_type (engine_type e))) by (apply type_text || apply TY || (split; [discriminate|reflexivity])). cbn [rbind String.eqb Ascii.eqb Bool.eqb existsb orb].
  rewrite (FS "Version" version) by (apply VT || (split; [discriminate|reflexivity])). cbn [rbind String.eqb Ascii.eqb Bool.eqb existsb orb].
  rewrite (FS "NumInputs" (str_int (Z.of_nat (List.length (e_inputs e))))) by (apply IT || (split; [discriminate|reflexivity])). cbn [rbind String.eqb Ascii.eqb Bool.eqb existsb orb].
  rewrite (FS "NumOutputs" (str_int (Z.of_nat (List.length (e_outputs e))))) by (apply IT || (split; [discriminate|reflexivity])). cbn [rbind String.eqb Ascii.eqb Bool.eqb existsb orb].
  rewrite (FS "NumRules" (str_int (Z.of_nat (fold_left (fun n b => n + List.length (b_rules b))%nat (e_blocks e) O)))) by (apply IT || (split; [discriminate|reflexivity])). cbn [rbind String.eqb Ascii.eqb Bool.eqb existsb orb].
  rewrite (FS "AndMethod" (and_name e)) by (apply tnorm_text || apply TT || (split; [discriminate|reflexivity])). cbn [rbind String.eqb Ascii.eqb Bool.eqb m_and m_or m_imp m_agg m_defuzz].
  rewrite (FS "OrMethod" (or_name e)) by (apply snorm_text || apply TS || (split; [discriminate|reflexivity])). cbn [rbind String.eqb Ascii.eqb Bool.eqb m_and m_or m_imp m_agg m_defuzz].
  rewrite (FS "ImpMethod" (imp_name e)) by (apply tnorm_text || apply TT || (split; [discriminate|reflexivity])). cbn [rbind String.eqb Ascii.eqb Bool.eqb m_and m_or m_imp m_agg m_defuzz].
  rewrite (FS "AggMethod" (agg_name e)) by (apply snorm_text || apply TS || (split; [discriminate|reflexivity])). cbn [rbind String.eqb Ascii.eqb Bool.eqb m_and m_or m_imp m_agg m_defuzz].
  rewrite (FS "DefuzzMethod" (defuzz_name e)) by (apply defuzzifier_text || apply TD || (split; [discriminate|reflexivity])). reflexivity.
Qed.
End Round.
