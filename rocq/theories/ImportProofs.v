(** Texts which importers do not accept. *)
From Coq Require Import ZArith List Bool String Ascii Arith Lia.
From Verif Require Import Base Op Norm Shape Discrete Defuzz Aggregated Text Function Rule Var Activation Engine Factory
  SpecText TextProofs TextProofs2 Fll SpecFll FllText FllLines FllExport Fis Fcl SpecFcl FclText FclRound3 FisText SpecImport.
Import ListNotations.
Local Open Scope string_scope.

(** ** lines *)
Lemma split_upto sep s : hd "" (split s sep false) = if sempty sep then s else upto sep s.
Proof.
  unfold split, split_res, split_fuel. destruct (sempty sep) eqn:N; [rewrite orb_true_r; reflexivity|]. rewrite orb_false_r. destruct s as [|c s].
  - cbn [sempty hd upto]. destruct sep; [discriminate N|reflexivity].
  - cbn [sempty]. set (t := String c s). assert (G : forall fuel, (String.length t < fuel)%nat -> exists l, split_loop fuel sep false t = Ok (upto sep t :: l)).
    { clearbody t. clear c s. assert (NS : sep <> "") by (destruct sep; discriminate). intros fuel F.
      assert (U : match find_sub sep t with Some (b, _) => upto sep t = b | None => upto sep t = t end).
      { clear F. induction t as [|c t IH]; cbn [find_sub upto]; [destruct (prefix sep ""); reflexivity|]. destruct (prefix sep (String c t)); [reflexivity|]. destruct (find_sub sep t) as [[b a]|]; now rewrite IH. }
      destruct fuel; [lia|]. cbn [split_loop]. destruct (find_sub sep t) as [[b a]|] eqn:E.
      - destruct (split_loop_enough sep false NS fuel a) as (l & _ & L); [apply find_sub_some in E; assert (Q := first_shorter _ _ _ _ NS E); lia|]. rewrite L. cbn [rbind]. unfold keep. rewrite andb_false_r, U. cbn [app]. eauto.
      - rewrite U. unfold keep. rewrite andb_false_r. eauto. }
    destruct (G (Datatypes.S (String.length t))) as [l ->]; [lia|]. reflexivity.
Qed.
Lemma sfilter_without c s : sfilter (fun x => negb (Ascii.eqb x c)) s = without c s.
Proof. induction s as [|x s IH]; [reflexivity|]. cbn [sfilter without]. rewrite IH. now destruct (Ascii.eqb x c). Qed.
Lemma replace_char c s : replace_all s (char c) "" = Ok (without c s).
Proof.
  destruct (String.eqb_spec s "") as [->|N]; [reflexivity|]. rewrite replace_split by (assumption || discriminate). rewrite (split_chop c s N). f_equal.
  clear N. induction s as [|x s IH]; [reflexivity|]. cbn [chop without]. destruct (Ascii.eqb x c).
  - rewrite <- IH. destruct (chop c s) eqn:E; [now apply chop_nonempty in E|reflexivity].
  - rewrite <- IH. destruct (chop c s) as [|p [|q ps]] eqn:E; [now apply chop_nonempty in E|reflexivity|reflexivity].
Qed.
Lemma fcl_clean_content raw : fcl_clean raw = Ok (fcl_content raw).
Proof.
  unfold fcl_clean, fcl_content. rewrite !split_upto. cbn [sempty]. change ";" with (char ";"). rewrite replace_char. cbn [rbind]. unfold percent. destruct (trim _) as [|c s]; [reflexivity|]. reflexivity.
Qed.
Lemma fis_clean_content raw : fis_clean raw = Ok (if sempty (fis_content raw) then None else Some (without "'" (fis_content raw))).
Proof.
  unfold fis_clean, fis_content. rewrite !split_upto. cbn [sempty]. unfold percent. destruct (trim _) as [|c s]; [reflexivity|]. destruct (Ascii.eqb c "%"); [reflexivity|]. cbn [sempty].
  change "'" with (char "'"). rewrite replace_char. reflexivity.
Qed.
Lemma upto_lacks c p s : lacks c s = true -> lacks c (upto p s) = true.
Proof. induction s as [|x s IH]; cbn [upto lacks]; destruct (prefix p _); auto. cbn [lacks]. rewrite !andb_true_iff. intros [A B]. auto. Qed.
Lemma without_lacks c x s : lacks c s = true -> lacks c (without x s) = true.
Proof. induction s as [|y s IH]; cbn [without lacks]; auto. rewrite andb_true_iff. intros [A B]. destruct (Ascii.eqb y x); auto. cbn [lacks]. now rewrite A, IH. Qed.
Lemma percent_lacks c s : lacks c s = true -> lacks c (percent s) = true.
Proof. unfold percent. destruct s as [|x s]; auto. destruct (Ascii.eqb x "%"); auto. Qed.
Lemma fcl_content_line raw : one_line raw -> one_line (fcl_content raw).
Proof. unfold one_line, fcl_content. intro H. apply percent_lacks, trim_lacks, without_lacks, upto_lacks, upto_lacks, H. Qed.
Lemma fis_content_line raw : one_line raw -> one_line (without "'" (fis_content raw)).
Proof. unfold one_line, fis_content. intro H. apply without_lacks, percent_lacks, trim_lacks, upto_lacks, upto_lacks, H. Qed.
Lemma contents_lines content text : content "" = "" -> filter nonempty (map content (getlines text)) = contents content text.
Proof.
  intro E. unfold contents. rewrite getlines_chop. induction (chop newline text) as [|p [|q ps] IH]; [reflexivity| |].
  - cbn [dropend]. destruct p as [|c p]; [|reflexivity]. cbn [sempty map filter]. rewrite E. reflexivity.
  - change (dropend (p :: q :: ps)) with (p :: dropend (q :: ps)). cbn [map filter]. rewrite IH. reflexivity.
Qed.
Lemma contents_one content text : (forall raw, one_line raw -> one_line (content raw)) -> Forall one_line (contents content text).
Proof. intro H. apply Forall_forall. intros l I. unfold contents in I. apply filter_In in I. destruct I as [I _]. apply in_map_iff in I. destruct I as (raw & <- & I). apply H, (chop_free _ _ _ I). Qed.
Lemma rfold_bad {A B} (f : A -> B -> res A) x p q : (forall a r, f a x <> Ok r) -> forall a r, rfold f a (p ++ x :: q) <> Ok r.
Proof.
  intros H a r. rewrite rfold_app. destruct (rfold f a p) as [b| | |]; try discriminate. cbn [rbind rfold]. specialize (H b). destruct (f b x) as [c| | |]; try discriminate. exfalso. now apply (H c).
Qed.
Lemma two_parts_bad c s r : List.length (fields c s) <> 2%nat -> two_parts s (char c) <> Ok r.
Proof.
  intro H. unfold two_parts. destruct (String.eqb_spec s "") as [->|N]; [discriminate|]. rewrite split_words by exact N. fold (fields c s). destruct (fields c s) as [|a [|b [|]]]; try discriminate. now destruct H.
Qed.

(** ** Fuzzy Control Language *)
Section FclReject.
Context {T : Type} `{S : Scalar T}.
Variable resolution : Z.
Fixpoint run (ls : list string) (e : engine T) (block : option (string * string * string)) : res (engine T) :=
  match ls with
  | [] => match block with None => Ok e | Some _ => Throw ESyntax end
  | line :: ls =>
    let token := word1 line in
    if String.eqb token "FUNCTION_BLOCK" then
      run ls (match tl (tokens line) with [] => e | names => mkEngine (join names " ") (e_description e) (e_inputs e) (e_outputs e) (e_blocks e) end) block
    else if String.eqb token "END_FUNCTION_BLOCK" then match block with None => Ok e | Some _ => Throw ESyntax end
    else match block with
    | None => match closing_tag token with None => Throw ESyntax | Some closing => run ls e (Some (token, closing, line ++ char newline)) end
    | Some (tag, closing, text) =>
      if String.eqb token closing then do e <- fcl_process resolution tag text e; run ls e None
      else match closing_tag token with Some _ => Throw ESyntax | None => run ls e (Some (tag, closing, text ++ line ++ char newline)) end
    end
  end.
Lemma loop_run raws : forall e block, fcl_loop resolution raws e block = run (filter nonempty (map fcl_content raws)) e block.
Proof.
  induction raws as [|raw raws IH]; intros e block; [reflexivity|]. cbn [fcl_loop map filter]. rewrite fcl_clean_content. cbn [rbind]. unfold nonempty at 1. destruct (sempty (fcl_content raw)); cbn [negb]; [apply IH|].
  cbn [run]. change (first_token (fcl_content raw)) with (word1 (fcl_content raw)). destruct (String.eqb _ "FUNCTION_BLOCK"); [apply IH|]. destruct (String.eqb _ "END_FUNCTION_BLOCK"); [reflexivity|]. destruct block as [[[tag closing] text]|].
  - destruct (String.eqb _ closing); [|destruct (closing_tag _); [reflexivity|apply IH]]. destruct (fcl_process resolution tag text e); [apply IH|reflexivity|reflexivity|reflexivity].
  - destruct (closing_tag _); [apply IH|reflexivity].
Qed.
Lemma import_run text : fcl_import resolution text = run (contents fcl_content text) new_engine None.
Proof. unfold fcl_import. rewrite loop_run, contents_lines by reflexivity. reflexivity. Qed.
Ltac literals := cbn [existsb fst snd]; repeat match goal with |- context [String.eqb (String ?a ?b) (String ?c ?d)] => let v := eval compute in (String.eqb (String a b) (String c d)) in change (String.eqb (String a b) (String c d)) with v end; cbn [andb orb]; rewrite ?orb_false_r; apply String.eqb_sym.
Lemma tags t : match closing_tag t with
  | Some c => mem t openings = true /\ In t openings /\ forall w, existsb (fun p => String.eqb (fst p) t && String.eqb (snd p) w) sections = String.eqb w c
  | None => mem t openings = false /\ ~ In t openings end.
Proof.
  unfold closing_tag, mem, openings, sections. cbn [map fst snd existsb In].
  destruct (String.eqb_spec t "VAR_INPUT") as [->|N1]; [cbn [orb]; split; [reflexivity|]; split; [auto 10|]; intro w; literals|].
  destruct (String.eqb_spec t "VAR_OUTPUT") as [->|N2]; [cbn [orb]; split; [reflexivity|]; split; [auto 10|]; intro w; literals|].
  destruct (String.eqb_spec t "FUZZIFY") as [->|N3]; [cbn [orb]; split; [reflexivity|]; split; [auto 10|]; intro w; literals|].
  destruct (String.eqb_spec t "DEFUZZIFY") as [->|N4]; [cbn [orb]; split; [reflexivity|]; split; [auto 10|]; intro w; literals|].
  destruct (String.eqb_spec t "RULEBLOCK") as [->|N5]; [cbn [orb]; split; [reflexivity|]; split; [auto 10|]; intro w; literals|].
  cbn [orb]. split; [reflexivity|]. intros [Q|[Q|[Q|[Q|[Q|[]]]]]]; congruence.
Qed.
Definition opened (block : option (string * string * string)) : option string := option_map (fun b => fst (fst b)) block.
(** the lines of the open section *)
Definition sound (block : option (string * string * string)) : Prop :=
  match block with None => True | Some (tag, closing, text) => closing_tag tag = Some closing /\ exists h ls, text = text_of (h :: ls) /\ Forall one_line (h :: ls) end.
Lemma one_more h ls l : text_of (h :: ls) ++ l ++ char newline = text_of (h :: ls ++ [l]).
Proof. change (h :: ls ++ [l])%list with ((h :: ls) ++ [l])%list. rewrite text_of_app. cbn [text_of fold_right]. now rewrite sapp_nil_r. Qed.
Lemma no_block w : w = "FUNCTION_BLOCK" \/ w = "END_FUNCTION_BLOCK" -> closing_tag w = None.
Proof. intros [-> | ->]; reflexivity. Qed.
Lemma run_app before : forall rest e block r, Forall one_line before -> sound block -> ~ In "END_FUNCTION_BLOCK" (map word1 before) -> run (before ++ rest) e block = Ok r ->
  exists e' block', run rest e' block' = Ok r /\ sound block' /\ opened block' = open_after (opened block) (map word1 before).
Proof.
  induction before as [|l before IH]; intros rest e block r F SB N H; [exists e, block; auto|]. inversion F as [|? ? L F2]; subst. cbn [map] in N. cbn [app run map open_after] in *.
  assert (N2 : ~ In "END_FUNCTION_BLOCK" (map word1 before)) by (intro Q; apply N; now right). assert (NE : word1 l <> "END_FUNCTION_BLOCK") by (intro Q; apply N; now left).
  destruct (String.eqb_spec (word1 l) "FUNCTION_BLOCK") as [E|NF].
  - destruct (IH _ _ block r F2 SB N2 H) as (e' & b' & R1 & R2 & R3). exists e', b'. split; [exact R1|]. split; [exact R2|]. rewrite R3. f_equal. destruct block as [[[tag closing] text]|]; cbn [opened option_map fst].
    + destruct SB as [C _]. assert (Q := tags tag). rewrite C in Q. destruct Q as (_ & _ & Q). rewrite Q, E. destruct (String.eqb_spec "FUNCTION_BLOCK" closing) as [<-|]; [|reflexivity]. destruct (closings _ _ C) as (_ & _ & _ & _ & X & _). discriminate X.
    + assert (Q := tags (word1 l)). rewrite E, (no_block "FUNCTION_BLOCK") in Q by auto. rewrite E. now rewrite (proj1 Q).
  - destruct (String.eqb_spec (word1 l) "END_FUNCTION_BLOCK") as [E|_]; [congruence|]. assert (Q := tags (word1 l)). destruct block as [[[tag closing] text]|]; cbn [opened option_map fst].
    + destruct SB as (C & h & ls & -> & FL). assert (Q2 := tags tag). rewrite C in Q2. destruct Q2 as (_ & _ & Q2). rewrite Q2. destruct (String.eqb (word1 l) closing).
      * destruct (fcl_process resolution tag (text_of (h :: ls)) e) as [e1| | |]; try discriminate. exact (IH rest e1 None r F2 I N2 H).
      * destruct (closing_tag (word1 l)); [discriminate|]. rewrite one_more in H. apply (IH rest e _ r F2) in H; [exact H| |exact N2]. split; [exact C|]. exists h, (ls ++ [l])%list. split; [reflexivity|]. inversion FL; subst. constructor; [assumption|]. apply Forall_app. auto.
    + destruct (closing_tag (word1 l)) as [closing|] eqn:C; [|discriminate]. rewrite (proj1 Q). apply (IH rest e _ r F2) in H; [exact H| |exact N2]. split; [exact C|]. exists l, []. split; [cbn; now rewrite ?sapp_nil_r|]. constructor; auto.
Qed.
Ltac other_key K := repeat match goal with |- context [String.eqb ?k ?t] => let Q := fresh in destruct (String.eqb_spec k t) as [Q|Q]; [exfalso; apply K; rewrite Q; clear; cbn; auto 20|clear Q] end; try discriminate.
Lemma process_bad tag closing h p l q e r : closing_tag tag = Some closing -> Forall one_line (h :: p ++ l :: q) -> fcl_alien tag l -> fcl_process resolution tag (text_of (h :: p ++ l :: q)) e <> Ok r.
Proof.
  intros C F A. assert (SL : section_lines (text_of (h :: p ++ l :: q)) = (p ++ l :: q)%list) by (unfold section_lines; rewrite getlines_text by exact F; reflexivity).
  unfold fcl_process, fcl_alien in *. destruct (String.eqb_spec tag "VAR_INPUT") as [->|N1]; [|destruct (String.eqb_spec tag "VAR_OUTPUT") as [->|N2]]; cbn [orb] in A.
  - unfold fcl_var. rewrite SL. apply rfold_bad. intros a x. unfold fcl_var_line. assert (TP := two_parts_bad ":" l). change (char ":") with ":" in TP. destruct (two_parts l ":") as [y| | |]; try discriminate. exfalso. exact (TP y A eq_refl).
  - unfold fcl_var. rewrite SL. apply rfold_bad. intros a x. unfold fcl_var_line. assert (TP := two_parts_bad ":" l). change (char ":") with ":" in TP. destruct (two_parts l ":") as [y| | |]; try discriminate. exfalso. exact (TP y A eq_refl).
  - destruct (String.eqb_spec tag "FUZZIFY") as [->|N3].
    + unfold fcl_fuzzify. destruct (fcl_name _); try discriminate. cbn [rbind]. destruct (find_name _ _); [|discriminate]. destruct (nth_error _ _); [|discriminate]. rewrite SL.
      match goal with |- context [rfold ?f ?a ?ls] => assert (G : forall x, rfold f a ls <> Ok x) by (apply rfold_bad; intros b x; unfold fcl_input_line, fcl_key; change (first_token l) with (word1 l); other_key A); destruct (rfold f a ls) as [v'| | |] end; try discriminate. exfalso. exact (G v' eq_refl).
    + destruct (String.eqb_spec tag "DEFUZZIFY") as [->|N4].
      * unfold fcl_defuzzify. destruct (fcl_name _); try discriminate. cbn [rbind]. destruct (find_name _ _); [|discriminate]. destruct (nth_error _ _); [|discriminate]. rewrite SL.
        match goal with |- context [rfold ?f ?a ?ls] => assert (G : forall x, rfold f a ls <> Ok x); [|destruct (rfold f a ls) as [v'| | |]; try discriminate; exfalso; exact (G v' eq_refl)] end.
        apply rfold_bad. intros b x. unfold fcl_output_line, fcl_key. assert (TK : first_token (trim l) = word1 l). { unfold first_token, word1. destruct (trim_split l) as (a0 & z0 & E0 & B1 & B2). rewrite E0 at 2. rewrite tokens_lead by exact B1. now rewrite tokens_tail. } rewrite TK. other_key A.
      * destruct (String.eqb_spec tag "RULEBLOCK") as [->|N5]; [|discriminate]. unfold fcl_ruleblock. rewrite SL.
        match goal with |- context [rfold ?f ?a ?ls] => assert (G : forall x, rfold f a ls <> Ok x); [|destruct (rfold f a ls) as [v'| | |]; try discriminate; exfalso; exact (G v' eq_refl)] end.
        apply rfold_bad. intros b x. unfold fcl_block_line. assert (K : ~ In (before_space l) ["AND"; "OR"; "ACT"; "ENABLED"; "RULE"]). { intro K. destruct (A _ K) as [A1 A2]. unfold before_space in *. destruct (find_sub " " l) as [[u v]|] eqn:E; [|congruence]. apply find_sub_some in E. destruct E as [-> _]. apply A2. exists v. now rewrite sapp_assoc. }
        other_key K.
Qed.
Lemma inside_bad tag closing h p l rest : closing_tag tag = Some closing -> fcl_alien tag l -> Forall one_line rest -> forall q e r, Forall one_line (h :: p ++ l :: q) ->
  run rest e (Some (tag, closing, text_of (h :: p ++ l :: q))) <> Ok r.
Proof.
  intros C A F. induction F as [|m rest M F IH]; intros q e r FL; [discriminate|]. cbn [run]. destruct (String.eqb (word1 m) "FUNCTION_BLOCK"); [now apply IH|]. destruct (String.eqb (word1 m) "END_FUNCTION_BLOCK"); [discriminate|].
  destruct (String.eqb (word1 m) closing).
  - assert (B := process_bad tag closing h p l q e). destruct (fcl_process _ _ _ e) as [e1| | |]; try discriminate. exfalso. exact (B e1 C FL A eq_refl).
  - destruct (closing_tag (word1 m)); [discriminate|]. rewrite one_more. replace ((p ++ l :: q) ++ [m])%list with (p ++ l :: (q ++ [m]))%list by (rewrite <- app_assoc; reflexivity). apply IH. inversion FL as [|? ? FH FT]; subst. constructor; [exact FH|]. apply Forall_app in FT. destruct FT as [FT1 FT2]. inversion FT2; subst. apply Forall_app. split; [exact FT1|]. constructor; [assumption|]. apply Forall_app. auto.
Qed.
Theorem fcl_contents_only text text' : contents fcl_content text = contents fcl_content text' -> fcl_import (T := T) resolution text = fcl_import resolution text'.
Proof. intro H. now rewrite !import_run, H. Qed.
Theorem fcl_refused text before l after e : contents fcl_content text = (before ++ l :: after)%list -> ~ In "END_FUNCTION_BLOCK" (map word1 before) -> fcl_rejected before l -> fcl_import resolution text <> Ok e.
Proof.
  intros E N [NF RJ] H. rewrite import_run, E in H. assert (F : Forall one_line (before ++ l :: after)) by (rewrite <- E; apply contents_one, fcl_content_line). apply Forall_app in F. destruct F as [F1 F2]. inversion F2 as [|? ? L F3]; subst.
  destruct (run_app before _ _ None _ F1 I N H) as (e' & block & R1 & SB & OP). cbn [opened option_map] in OP. rewrite <- OP in RJ. cbn [run] in R1. destruct (String.eqb_spec (word1 l) "FUNCTION_BLOCK") as [|_]; [congruence|]. destruct block as [[[tag closing] text']|]; cbn [opened option_map fst] in RJ.
  - destruct (String.eqb_spec (word1 l) "END_FUNCTION_BLOCK") as [|NE]; [discriminate|]. destruct SB as (C & h & ls & -> & FL). assert (Q := tags tag). rewrite C in Q. destruct Q as (_ & _ & Q).
    destruct (String.eqb_spec (word1 l) closing) as [EC|NC].
    + destruct RJ as [RJ|[RJ|[RJ _]]]; [congruence| |].
      * rewrite EC in RJ. assert (Q2 := tags closing). destruct (closings _ _ C) as (_ & IC & _). assert (Z : closing_tag closing = None) by (unfold closing_tag in C |- *; repeat match type of C with context [String.eqb ?a ?b] => destruct (String.eqb a b) end; try discriminate; injection C as <-; reflexivity). rewrite Z in Q2. now destruct Q2.
      * apply RJ. specialize (Q (word1 l)). rewrite EC, String.eqb_refl in Q. apply existsb_exists in Q. destruct Q as ([a b] & I1 & I2). cbn [fst snd] in I2. apply andb_true_iff in I2. destruct I2 as [I2 I3]. apply String.eqb_eq in I2, I3. subst a b. now rewrite EC.
    + assert (Q2 := tags (word1 l)). destruct (closing_tag (word1 l)) eqn:C2; [discriminate|]. destruct RJ as [RJ|[RJ|[_ RJ]]]; [congruence|now destruct Q2|]. rewrite one_more in R1. apply (inside_bad tag closing h ls l after C RJ F3 [] e' e); [|exact R1]. inversion FL; subst. constructor; [assumption|]. apply Forall_app. split; [assumption|]. constructor; [exact L|constructor].
  - destruct RJ as [NE RJ]. destruct (String.eqb_spec (word1 l) "END_FUNCTION_BLOCK") as [|_]; [congruence|]. assert (Q2 := tags (word1 l)). destruct (closing_tag (word1 l)) eqn:C2; [destruct Q2 as (_ & Q2 & _); now apply RJ|discriminate].
Qed.
Theorem fcl_unclosed text t e : ~ In "END_FUNCTION_BLOCK" (map word1 (contents fcl_content text)) -> open_after None (map word1 (contents fcl_content text)) = Some t -> fcl_import resolution text <> Ok e.
Proof.
  intros N O H. rewrite import_run in H. rewrite <- (app_nil_r (contents fcl_content text)) in H. apply (run_app _ _ _ None) in H; [|apply contents_one, fcl_content_line|exact I|exact N]. destruct H as (e' & block & R1 & _ & OP). cbn [opened option_map] in OP. rewrite O in OP. destruct block; [discriminate|discriminate OP].
Qed.
(** accepted texts: the end of the function block or of the text is reached outside of sections, after which nothing matters *)
Theorem fcl_rest text text' before l after after' : contents fcl_content text = (before ++ l :: after)%list -> contents fcl_content text' = (before ++ l :: after')%list ->
  word1 l = "END_FUNCTION_BLOCK" -> fcl_import (T := T) resolution text = fcl_import resolution text'.
Proof.
  intros E E' W. rewrite !import_run, E, E'. clear E E'. generalize (@None (string * string * string)) as block. generalize (@new_engine T). induction before as [|m before IH]; intros e block; cbn [app run].
  - rewrite W. reflexivity.
  - destruct (String.eqb (word1 m) "FUNCTION_BLOCK"); [apply IH|]. destruct (String.eqb (word1 m) "END_FUNCTION_BLOCK"); [reflexivity|]. destruct block as [[[tag closing] text0]|].
    + destruct (String.eqb (word1 m) closing); [destruct (fcl_process _ _ _ e); [apply IH|reflexivity|reflexivity|reflexivity]|]. destruct (closing_tag (word1 m)); [reflexivity|apply IH].
    + destruct (closing_tag (word1 m)); [apply IH|reflexivity].
Qed.
End FclReject.
(** ** Fuzzy Inference System files *)
Lemma heading_prefix line : fis_heading line = match heading_of line with Some _ => true | None => false end.
Proof. unfold fis_heading, heading_of, headings. cbn [find]. repeat destruct (prefix _ line); reflexivity. Qed.
Lemma prefix_line p a b : lacks newline p = true -> prefix p (a ++ String newline b) = prefix p a.
Proof.
  revert a. induction p as [|c p IH]; intros a L; [destruct a; reflexivity|]. cbn [lacks] in L. apply andb_true_iff in L. destruct L as [L1 L2]. apply negb_true_iff in L1. destruct a as [|x a]; cbn [append prefix].
  - destruct (ascii_dec c newline) as [->|]; [rewrite Ascii.eqb_refl in L1; discriminate|reflexivity].
  - destruct (ascii_dec c x); [now apply IH|reflexivity].
Qed.
Lemma heading_join h ls : heading_of (join (h :: ls) (char newline)) = heading_of h.
Proof.
  destruct ls as [|l ls]; [reflexivity|]. change (join (h :: l :: ls) (char newline)) with (h ++ String newline (join (l :: ls) (char newline))). unfold heading_of, headings. cbn [find]. now rewrite !prefix_line by reflexivity.
Qed.
Lemma join_more h ls l : join (h :: ls) (char newline) ++ char newline ++ l = join (h :: ls ++ [l]) (char newline).
Proof.
  revert h. induction ls as [|m ls IH]; intro h; [reflexivity|]. change (join (h :: m :: ls) (char newline)) with (h ++ char newline ++ join (m :: ls) (char newline)). change (join (h :: (m :: ls) ++ [l]) (char newline)) with (h ++ char newline ++ join (m :: ls ++ [l]) (char newline)). rewrite <- IH. now rewrite !sapp_assoc.
Qed.
Lemma dropend_in p l q : l <> "" -> exists q', dropend (p ++ l :: q) = (p ++ l :: q')%list.
Proof.
  intro N. induction p as [|x p IH].
  - destruct q as [|y q]; [exists []; cbn; destruct l; [congruence|reflexivity]|]. exists (dropend (y :: q)). reflexivity.
  - destruct IH as [q' E]. exists q'. cbn [app]. change (dropend (x :: p ++ l :: q)) with (match (p ++ l :: q)%list with [] => if sempty x then [] else [x] | _ => x :: dropend (p ++ l :: q) end). rewrite E. destruct p; reflexivity.
Qed.
Section FisReject.
Context {T : Type} `{S : Scalar T}.
Variables (d : nat) (resolution : Z).
Definition gather (acc : list string) (line : string) : res (list string) :=
  if fis_heading line then Ok (acc ++ [line])%list else match acc with [] => Throw EImport | _ => Ok (removelast acc ++ [(last acc "" ++ char newline ++ line)%string])%list end.
Definition unquoted (text : string) : list string := map (without "'") (contents fis_content text).
Lemma sections_gather raws : forall acc, rfold fis_section_line acc raws = rfold gather acc (map (without "'") (filter nonempty (map fis_content raws))).
Proof.
  induction raws as [|raw raws IH]; intro acc; [reflexivity|]. cbn [rfold map filter]. unfold fis_section_line at 1. rewrite fis_clean_content. unfold nonempty at 1. destruct (sempty (fis_content raw)); cbn [rbind negb]; [apply IH|].
  cbn [map rfold]. unfold gather at 1. destruct (fis_heading _); [apply IH|]. destruct acc; [reflexivity|apply IH].
Qed.
Definition finish_fis (sections : list string) : res (engine T) :=
  do st <- rfold (fis_section d) (new_engine, mkMethods "" "" "" "" "") sections;
  let '(e, m) := st in
  configure_names resolution (translate_tnorm (m_and m)) (translate_snorm (m_or m)) (translate_tnorm (m_imp m)) (translate_snorm (m_agg m)) (translate_defuzzifier (m_defuzz m)) (activation_class (@General T)) e.
Lemma fis_gather text : fis_import d resolution text = do sections <- rfold gather [] (unquoted text); finish_fis sections.
Proof. unfold fis_import, unquoted. rewrite sections_gather, contents_lines by reflexivity. reflexivity. Qed.
Lemma no_section before : section_after before = None -> before <> [] -> rfold gather [] before = Throw EImport.
Proof.
  intros H N. destruct before as [|l r]; [congruence|]. cbn [section_after] in H. destruct (section_after r); [discriminate|]. cbn [rfold]. unfold gather at 1. rewrite heading_prefix, H. reflexivity.
Qed.
(** the last section *)
Lemma gathered before : forall acc secs, rfold gather acc before = Ok secs -> Forall one_line before ->
  match section_after before with
  | Some h => exists done_ hd_ body, secs = (done_ ++ [join (hd_ :: body) (char newline)])%list /\ heading_of hd_ = Some h /\ Forall one_line (hd_ :: body)
  | None => (exists body, Forall one_line body /\ forall done_ hd_ b0, acc = (done_ ++ [join (hd_ :: b0) (char newline)])%list -> secs = (done_ ++ [join (hd_ :: b0 ++ body) (char newline)])%list) end.
Proof.
  induction before as [|l before IH]; intros acc secs H F.
  - cbn [rfold] in H. injection H as <-. exists []. split; [constructor|]. intros dn h b0 ->. now rewrite app_nil_r.
  - inversion F as [|? ? L F2]; subst. cbn [rfold] in H. destruct (gather acc l) as [acc1| | |] eqn:G; try discriminate. cbn [rbind] in H. specialize (IH acc1 secs H F2). cbn [section_after]. destruct (section_after before) as [h|]; [exact IH|]. destruct IH as (body & FB & IH).
    unfold gather in G. rewrite heading_prefix in G. destruct (heading_of l) as [h|] eqn:HL.
    + injection G as <-. exists acc, l, body. split; [exact (IH acc l [] eq_refl)|]. split; [exact HL|]. constructor; assumption.
    + destruct acc as [|a acc]; [discriminate|]. assert (G' : forall x y : list string, Ok x = Ok y -> y = x) by congruence. apply G' in G. subst acc1. exists (l :: body). split; [constructor; assumption|]. intros dn h b0 E. rewrite (IH dn h (b0 ++ [l])%list); [rewrite <- app_assoc; reflexivity|]. rewrite E, removelast_last, last_last, join_more. reflexivity.
Qed.
Definition bad_section (h l : string) (sec : string) : Prop := exists hd_ p q, sec = join (hd_ :: p ++ l :: q) (char newline) /\ heading_of hd_ = Some h /\ Forall one_line (hd_ :: p ++ l :: q).
Lemma stays h l after : Forall one_line after -> forall acc secs, Exists (bad_section h l) acc -> rfold gather acc after = Ok secs -> Exists (bad_section h l) secs.
Proof.
  intro F. induction F as [|m after M F IH]; intros acc secs X H; [cbn [rfold] in H; injection H as <-; exact X|]. cbn [rfold] in H. destruct (gather acc m) as [acc1| | |] eqn:G; try discriminate. cbn [rbind] in H. refine (IH acc1 secs _ H). clear IH H. unfold gather in G. destruct (fis_heading m).
  - injection G as <-. apply Exists_app. now left.
  - destruct acc as [|a acc]; [inversion X|]. assert (G' : forall x y : list string, Ok x = Ok y -> y = x) by congruence. apply G' in G. subst acc1. destruct (exists_last (l := a :: acc) ltac:(discriminate)) as (dn & x & E). rewrite E in *. rewrite removelast_last, last_last. apply Exists_app in X. apply Exists_app. destruct X as [X|X]; [now left|right]. inversion X as [? ? B|? ? B]; subst; [|inversion B].
    destruct B as (hd_ & p & q & -> & HH & FF). constructor. exists hd_, p, (q ++ [m])%list. rewrite join_more. split; [now rewrite <- app_assoc|]. split; [exact HH|]. inversion FF as [|? ? A B]; subst. constructor; [exact A|]. apply Forall_app in B. destruct B as [B1 B2]. inversion B2; subst. apply Forall_app. split; [exact B1|]. constructor; [assumption|]. apply Forall_app. auto.
Qed.
Lemma section_in hd_ p l q : l <> "" -> Forall one_line (hd_ :: p ++ l :: q) -> exists q', section_lines (join (hd_ :: p ++ l :: q) (char newline)) = (p ++ l :: q')%list.
Proof.
  intros N F. unfold section_lines. rewrite getlines_chop, chop_glue by (discriminate || exact F). destruct (dropend_in (hd_ :: p) l q N) as [q' E]. cbn [app] in E. rewrite E. exists q'. reflexivity.
Qed.
Ltac other_key K := repeat match goal with |- context [String.eqb ?k ?t] => let Q := fresh in destruct (String.eqb_spec k t) as [Q|Q]; [exfalso; apply K; rewrite Q; clear; cbn; auto 20|clear Q] end; try discriminate.
Lemma key_bad vw (v : variable T) key value keys : incl input_keys keys -> ~ In key keys -> ~ starts "MF" key -> fis_key vw key value v = None.
Proof.
  intros I K M. unfold fis_key. assert (K2 : ~ In key input_keys) by (intro Q; now apply K, I). 
  destruct (String.eqb_spec key "Name") as [Q|_]; [exfalso; apply K2; rewrite Q; cbn; auto 20|]. destruct (String.eqb_spec key "Enabled") as [Q|_]; [exfalso; apply K2; rewrite Q; cbn; auto 20|]. destruct (String.eqb_spec key "Range") as [Q|_]; [exfalso; apply K2; rewrite Q; cbn; auto 20|].
  destruct (String.eqb_spec (substring 0 2 key) "MF") as [Q|_]; [exfalso; apply M|].
  - destruct key as [|a [|b r]]; try discriminate Q. cbn in Q. destruct r; injection Q as -> ->; eexists; reflexivity.
  - destruct (String.eqb_spec key "NumMFs") as [Q|_]; [exfalso; apply K2; rewrite Q; cbn; auto 20|reflexivity].
Qed.
Lemma bad_fails h l sec st r : l <> "" -> fis_alien h l -> bad_section h l sec -> fis_section d st sec <> Ok r.
Proof.
  intros N A (hd_ & p & q & -> & HH & F). destruct (section_in hd_ p l q N F) as [q' SL]. assert (HJ := heading_join hd_ (p ++ l :: q)). rewrite HH in HJ. set (sec := join (hd_ :: p ++ l :: q) (char newline)) in *. clearbody sec.
  destruct st as [e m]. unfold fis_section. unfold heading_of, headings in HJ. cbn [find] in HJ. unfold fis_alien in A.
  destruct (prefix "[System]" sec).
  { injection HJ as <-. cbn [String.eqb] in A. unfold fis_import_system. rewrite SL. revert r. apply rfold_bad. intros [e0 m0] x. unfold fis_system_line. change "=" with (char "="). rewrite split_words by exact N. fold (fields "=" l). destruct (fields "=" l) as [|key values]; [discriminate|]. cbn [hd] in A. cbn [existsb]. rewrite !orb_false_r. change (String.eqb "[System]" "[System]") with true in A. cbv iota in A. other_key A. }
  destruct (prefix "[Input" sec).
  { injection HJ as <-. change (no_pair input_keys l) in A. unfold fis_import_input. rewrite SL.
    match goal with |- context [rfold ?f ?a ?ls] => assert (G : forall x, rfold f a ls <> Ok x); [|destruct (rfold f a ls) as [v'| | |]; try discriminate; exfalso; exact (G v' eq_refl)] end.
    apply rfold_bad. intros v x. unfold fis_input_line. change "=" with (char "="). rewrite split_words by exact N. fold (fields "=" l). unfold no_pair in A. destruct (fields "=" l) as [|key [|value [|]]]; try discriminate. rewrite (key_bad _ _ _ _ input_keys) by (apply incl_refl || tauto). discriminate. }
  destruct (prefix "[Output" sec).
  { injection HJ as <-. change (no_pair output_keys l) in A. unfold fis_import_output. rewrite SL.
    match goal with |- context [rfold ?f ?a ?ls] => assert (G : forall x, rfold f a ls <> Ok x); [|destruct (rfold f a ls) as [v'| | |]; try discriminate; exfalso; exact (G v' eq_refl)] end.
    apply rfold_bad. intros v x. unfold fis_output_line. change "=" with (char "="). rewrite split_words by exact N. fold (fields "=" l). unfold no_pair in A. destruct (fields "=" l) as [|key [|value [|]]]; try discriminate. destruct A as [A1 A2]. rewrite (key_bad _ _ _ _ output_keys) by (try assumption; intros z Z; apply in_or_app; now left). other_key A1. }
  destruct (prefix "[Rules]" sec); [|discriminate HJ]. injection HJ as <-. change (match fields "," l with [_; rest] => List.length (fields ":" rest) <> 2%nat | _ => True end) in A. unfold fis_import_rules. rewrite SL.
  match goal with |- context [rfold ?f ?a ?ls] => assert (G : forall x, rfold f a ls <> Ok x); [|destruct (rfold f a ls) as [v'| | |]; try discriminate; exfalso; exact (G v' eq_refl)] end.
  apply rfold_bad. intros v x. unfold fis_rule_line, fis_rule_text. change "," with (char ","). rewrite split_words by exact N. fold (fields "," l). destruct (fields "," l) as [|first [|rest [|]]] eqn:FE; try discriminate.
  assert (NR : rest <> ""). { assert (Q := nonempty_pieces "," l). fold (fields "," l) in Q. rewrite FE in Q. inversion Q as [|? ? _ Q2]; subst. inversion Q2 as [|? ? Q3 _]; subst. apply Q3. }
  change ":" with (char ":"). rewrite split_words by exact NR. fold (fields ":" rest). destruct (fields ":" rest) as [|a [|b [|]]]; try discriminate. now destruct A.
Qed.
Theorem fis_contents_only text text' : unquoted text = unquoted text' -> fis_import (T := T) d resolution text = fis_import d resolution text'.
Proof. intro H. now rewrite !fis_gather, H. Qed.
Theorem fis_refused text before l after e : unquoted text = (before ++ l :: after)%list -> fis_rejected before l -> fis_import d resolution text <> Ok e.
Proof.
  intros E (N & NH & A) H. rewrite fis_gather, E, rfold_app in H. assert (F : Forall one_line (before ++ l :: after)).
  { rewrite <- E. unfold unquoted. apply Forall_forall. intros x I. apply in_map_iff in I. destruct I as (y & <- & I). unfold contents in I. apply filter_In in I. destruct I as [I _]. apply in_map_iff in I. destruct I as (raw & <- & I). apply fis_content_line, (chop_free _ _ _ I). }
  apply Forall_app in F. destruct F as [F1 F2]. inversion F2 as [|? ? L F3]; subst. destruct (section_after before) as [h|] eqn:SA.
  - destruct (rfold gather [] before) as [acc| | |] eqn:G; try discriminate. cbn [rbind] in H. assert (Q := gathered before [] acc G F1). rewrite SA in Q. destruct Q as (dn & hd_ & body & -> & HH & FF). cbn [rfold] in H. unfold gather at 1 in H. rewrite heading_prefix, NH in H.
    destruct (dn ++ [join (hd_ :: body) (char newline)])%list as [|z zs] eqn:Z; [destruct dn; discriminate|]. rewrite <- Z in H. cbn [rbind] in H. rewrite removelast_last, last_last, join_more in H.
    destruct (rfold gather _ after) as [secs| | |] eqn:G2; try discriminate. cbn [rbind] in H. apply (stays h l after F3) in G2.
    + unfold finish_fis in H. apply Exists_exists in G2. destruct G2 as (sec & I & B). apply in_split in I. destruct I as (s1 & s2 & ->). assert (X := rfold_bad (fis_section d) sec s1 s2 (fun st r => bad_fails h l sec st r N A B) (new_engine, mkMethods "" "" "" "" "")). destruct (rfold _ _ (s1 ++ sec :: s2)) as [y| | |]; try discriminate. exact (X y eq_refl).
    + apply Exists_app. right. constructor. exists hd_, body, []. split; [reflexivity|]. split; [exact HH|]. inversion FF; subst. constructor; [assumption|]. apply Forall_app. split; [assumption|]. constructor; [exact L|constructor].
  - destruct before as [|b before].
    + cbn [rfold rbind app] in H. unfold gather at 1 in H. rewrite heading_prefix, NH in H. discriminate.
    + rewrite (no_section _ SA) in H by discriminate. discriminate.
Qed.
End FisReject.
