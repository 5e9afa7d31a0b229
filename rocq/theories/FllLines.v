(** Import of FLL texts seen as import of key-value pairs. *)
From Coq Require Import ZArith List Bool String Ascii Arith Lia.
From Verif Require Import Base Op Norm Shape Discrete Defuzz Aggregated Text Function Rule Var Activation Engine Factory
  SpecText TextProofs TextProofs2 Fll SpecFll FllText.
Import ListNotations.
Local Open Scope string_scope.

Section Lines.
Context {T : Type} `{S : Scalar T}.
Variable resolution : Z.

Definition pair_text (p : string * string) : string := fst p ++ ":" ++ snd p.
Definition good_pair (p : string * string) : Prop := lacks ":" (fst p) = true /\ one_line (fst p) /\ one_line (snd p).
Lemma pair_line p : good_pair p -> lacks newline (pair_text p) = true /\ pair_text p <> "".
Proof.
  intros (_ & A & B). unfold pair_text, one_line in *. split; [rewrite !lacks_app, A, B; reflexivity|]. destruct (fst p); discriminate.
Qed.
Lemma pair_parse p : good_pair p -> parse_key_value (pair_text p) ":" = Ok p.
Proof. intros (A & _). unfold parse_key_value, pair_text. change (find_sub ":" (fst p ++ ":" ++ snd p)) with (find_sub (char ":") (fst p ++ String ":" (snd p))). rewrite (find_char ":" (fst p) (snd p) A). now destruct p. Qed.
Lemma pair_lines ps : Forall good_pair ps -> getlines (join (map pair_text ps) (char newline)) = map pair_text ps.
Proof. intro F. apply getlines_join. apply Forall_map. eapply Forall_impl; [|exact F]. intros p. apply pair_line. Qed.

(** the loops over the lines of a block, over pairs *)
Definition block_pairs (tag : string) (ps : list (string * string)) (e : engine T) : res (engine T) :=
  process_tag resolution tag (join (map pair_text ps) (char newline)) e.

Definition state : Type := engine T * string * list (string * string).
Definition import_pair (st : state) (p : string * string) : res state :=
  let '(e, tag, ps) := st in
  let '(key, value) := p in
  if String.eqb key "Engine" then Ok (mkEngine value (e_description e) (e_inputs e) (e_outputs e) (e_blocks e), tag, ps)
  else if (String.eqb key "description" && match ps with [] => true | _ => false end)%bool then
    Ok (mkEngine (e_name e) value (e_inputs e) (e_outputs e) (e_blocks e), tag, ps)
  else if (String.eqb key "InputVariable" || String.eqb key "OutputVariable" || String.eqb key "RuleBlock")%bool then
    do e <- block_pairs tag ps e; Ok (e, key, [p])
  else if sempty tag then Throw EImport
  else Ok (e, tag, (ps ++ [p])%list).
Definition import_content (st : state) (line : string) : res state :=
  if sempty (content line) then Ok st else match key_value line with None => Throw EImport | Some p => import_pair st p end.
Definition concrete (st : state) : engine T * string * list string := let '(e, tag, ps) := st in (e, tag, map pair_text ps).
Definition sound_state (st : state) : Prop := Forall good_pair (snd st).

Lemma key_value_good line p : one_line line -> key_value line = Some p -> good_pair p.
Proof.
  unfold one_line, key_value, good_pair. intros L. destruct (find_sub ":" (content line)) as [[k v]|] eqn:E; [|discriminate]. intro H. injection H as <-.
  change ":" with (char ":") in E. destruct (chop_cases ":" (content line)) as [[N _]|(a & b & Q & N & _)].
  - rewrite (find_char_none _ _ N) in E. discriminate.
  - rewrite Q, (find_char _ _ _ N) in E. injection E as -> ->. assert (LC : lacks newline (content line) = true).
    { unfold content. apply trim_lacks. rewrite lacks_sforall in *. now apply hash_sforall. }
    rewrite Q, lacks_app in LC. simpl in LC. apply andb_true_iff in LC. destruct LC as [LA LB]. cbn [fst snd].
    unfold one_line. auto using trim_lacks.
Qed.
Lemma import_line_pairs st line : one_line line -> sound_state st ->
  import_line resolution (concrete st) line = (do st' <- import_content st line; Ok (concrete st')) /\
  (forall st', import_content st line = Ok st' -> sound_state st').
Proof.
  intros L G. destruct st as [[e tag] ps]. unfold import_line, concrete, import_content, import_pair. rewrite hash_split. fold (content line).
  destruct (sempty (content line)); [split; [reflexivity|intros st' H; injection H as <-; exact G]|].
  assert (KV := key_value_good line). unfold key_value in *. destruct (find_sub ":" (content line)) as [[k v]|]; [|split; [reflexivity|discriminate]].
  specialize (KV _ L eq_refl). set (key := trim k) in *. set (value := trim v) in *.
  destruct (String.eqb key "Engine"); [split; [reflexivity|intros st' H; injection H as <-; exact G]|].
  assert (M : match map pair_text ps with [] => true | _ => false end = match ps with [] => true | _ => false end) by (destruct ps; reflexivity).
  rewrite M. destruct (String.eqb key "description" && _)%bool; [split; [reflexivity|intros st' H; injection H as <-; exact G]|].
  destruct (String.eqb key "InputVariable" || _ || _)%bool.
  - unfold block_pairs. destruct (process_tag resolution tag _ e); cbn [rbind]; (split; [reflexivity|]); try discriminate.
    intros st' H. injection H as <-. constructor; [exact KV|constructor].
  - destruct (sempty tag); [split; [reflexivity|discriminate]|]. split.
    + cbn [rbind]. rewrite map_app. reflexivity.
    + intros st' H. injection H as <-. apply Forall_app. split; [exact G|constructor; [exact KV|constructor]].
Qed.
Lemma import_lines_pairs ls : Forall one_line ls -> forall st, sound_state st ->
  rfold (import_line resolution) (concrete st) ls = (do st' <- rfold import_content st ls; Ok (concrete st')).
Proof.
  intro F. induction F as [|l ls L F IH]; intros st G; [reflexivity|]. simpl rfold. destruct (import_line_pairs st l L G) as [E N]. rewrite E.
  destruct (import_content st l) as [st'|x| |]; cbn [rbind]; auto.
Qed.
Lemma skip_empty ls : forall st, rfold import_content st (filter nonempty ls) = rfold import_content st ls.
Proof.
  induction ls as [|l ls IH]; intro st; [reflexivity|]. cbn [filter]. unfold nonempty at 1. destruct l as [|c l].
  - simpl. exact (IH st).
  - cbn [sempty negb rfold]. destruct (import_content st (String c l)); cbn [rbind]; auto.
Qed.
Definition finish (st : state) : res (engine T) := let '(e, tag, ps) := st in block_pairs tag ps e.
Definition import_all (ls : list string) : res (engine T) := do st <- rfold import_content (new_engine, "", []) ls; finish st.
(** the importer works on lines *)
Theorem import_by_lines text : fll_import resolution (char newline) text = import_all (chop newline text).
Proof.
  unfold fll_import, import_all. rewrite import_lines. change (new_engine, "", @nil string) with (concrete (new_engine, "", [])).
  rewrite import_lines_pairs; [|eapply Forall_impl; [|apply (nonempty_pieces newline)]; simpl; tauto|constructor].
  rewrite skip_empty. destruct (rfold import_content _ (chop newline text)) as [[[e tag] ps]|x| |]; reflexivity.
Qed.
Lemma import_joined ls : ls <> [] -> Forall one_line ls -> fll_import resolution (char newline) (join ls (char newline)) = import_all ls.
Proof. intros N F. rewrite import_by_lines, chop_glue; auto. Qed.

(** ** what the lines of an accepted text satisfy *)
Lemma rfold_app {A B} (f : A -> B -> res A) l l' a : rfold f a (l ++ l') = (do a <- rfold f a l; rfold f a l').
Proof. revert a; induction l as [|x l IH]; intro a; [reflexivity|]. simpl. destruct (f a x); cbn [rbind]; auto. Qed.
Lemma state_app st ls ls' : rfold import_content st (ls ++ ls') = (do st <- rfold import_content st ls; rfold import_content st ls').
Proof. apply rfold_app. Qed.
(** comments and blank lines *)
Lemma content_only ls : forall ls' st, filter nonempty (map content ls) = filter nonempty (map content ls') ->
  rfold import_content st ls = rfold import_content st ls'.
Proof.
  assert (K : forall ls st, rfold import_content st ls = rfold (fun st c => match find_sub ":" c with Some (k, v) => import_pair st (trim k, trim v) | None => Throw EImport end) st (filter nonempty (map content ls))).
  { clear ls. induction ls as [|l ls IH]; intro st; [reflexivity|]. cbn [map filter rfold]. unfold import_content at 1, nonempty at 1. unfold key_value.
    destruct (sempty (content l)); cbn [negb rbind]; [apply IH|]. cbn [rfold]. destruct (find_sub ":" (content l)) as [[k v]|]; cbn [rbind]; auto.
    destruct (import_pair st (trim k, trim v)); cbn [rbind]; auto. }
  intros ls' st H. rewrite !K. now rewrite H.
Qed.
Lemma tag_state ls : forall st st', rfold import_content st ls = Ok st' ->
  snd (fst st') = match block_after ls with Some b => b | None => snd (fst st) end.
Proof.
  induction ls as [|l ls IH]; intros st st' H; [injection H as <-; reflexivity|]. simpl in H. destruct (import_content st l) as [st1|x| |] eqn:E; try discriminate.
  cbn [rbind] in H. rewrite (IH _ _ H). cbn [block_after]. destruct (block_after ls); auto. clear H IH. revert E. unfold import_content, key_of, import_pair.
  destruct (sempty (content l)) eqn:C.
  - intro H. injection H as <-. apply sempty_spec in C. unfold key_value. rewrite C. reflexivity.
  - destruct (key_value l) as [[k v]|]; [|discriminate]. destruct st as [[e tag] ps]. cbn [fst snd].
    assert (M : mem k block_names = (String.eqb k "InputVariable" || String.eqb k "OutputVariable" || String.eqb k "RuleBlock")%bool) by (simpl; rewrite orb_false_r, <- orb_assoc; reflexivity).
    destruct (String.eqb_spec k "Engine") as [Q|Q]; [intro H; injection H as <-; subst k; reflexivity|].
    destruct (String.eqb_spec k "description") as [Q2|Q2].
    + subst k. destruct ps; [intro H; injection H as <-; reflexivity|]. cbn [andb]. change (String.eqb "description" "InputVariable" || String.eqb "description" "OutputVariable" || String.eqb "description" "RuleBlock")%bool with false.
      cbn match. destruct (sempty tag); [discriminate|]. intro H. injection H as <-. reflexivity.
    + cbn [andb]. rewrite M. destruct (String.eqb k "InputVariable" || _ || _)%bool.
      * destruct (block_pairs tag ps e); cbn [rbind]; try discriminate. intro H. injection H as <-. reflexivity.
      * destruct (sempty tag); [discriminate|]. intro H. injection H as <-. reflexivity.
Qed.
(** every pair put into a block is read with that block *)
Lemma pending ls p : Forall one_line ls -> forall st e, sound_state st -> In p (snd st) -> (do st <- rfold import_content st ls; finish st) = Ok e ->
  exists ps e0 e1, In p ps /\ Forall good_pair ps /\ block_pairs (snd (fst st)) ps e0 = Ok e1.
Proof.
  intro F. induction F as [|l ls L F IH]; intros [[e0 tag] ps] e G I H; cbn [snd fst] in *.
  - simpl in H. eauto 6.
  - simpl in H. destruct (import_content (e0, tag, ps) l) as [[[e1 tag1] ps1]|x| |] eqn:E; try discriminate. cbn [rbind] in H.
    assert (D : In p ps1 /\ tag1 = tag \/ exists e1, block_pairs tag ps e0 = Ok e1).
    { clear H IH. revert E. unfold import_content, import_pair. destruct (sempty (content l)); [intro H; injection H as <- <- <-; auto|].
      destruct (key_value l) as [[k v]|]; [|discriminate]. destruct (String.eqb k "Engine"); [intro H; injection H as <- <- <-; auto|].
      destruct (String.eqb k "description" && _)%bool; [intro H; injection H as <- <- <-; auto|].
      destruct (String.eqb k "InputVariable" || _ || _)%bool.
      - destruct (block_pairs tag ps e0) eqn:B; cbn [rbind]; try discriminate. intros _. eauto.
      - destruct (sempty tag); [discriminate|]. intro H. injection H as <- <- <-. left. split; auto. apply in_or_app. auto. }
    destruct (import_line_pairs _ _ L G) as [_ G1]. specialize (G1 _ E).
    destruct D as [[I1 ->]|(e2 & B)]; [|eauto 6]. exact (IH (e1, tag, ps1) e G1 I1 H).
Qed.
Lemma rfold_in {A B} (f : A -> B -> res A) l : forall a r x, rfold f a l = Ok r -> In x l -> exists a' r', f a' x = Ok r'.
Proof.
  induction l as [|y l IH]; intros a r x H I; [destruct I|]. simpl in H. destruct (f a y) as [a'| | |] eqn:E; try discriminate. cbn [rbind] in H.
  destruct I as [<-|I]; eauto.
Qed.
Lemma input_keys vw v r k x : input_line vw v (pair_text (k, x)) = Ok r -> good_pair (k, x) -> In k (keys_of "InputVariable").
Proof.
  intros H G. unfold input_line in H. rewrite (pair_parse _ G) in H. cbn [rbind] in H. unfold variable_key in H.
  repeat (match type of H with context [String.eqb k ?t] => destruct (String.eqb_spec k t) as [Q|Q]; [subst k; clear; cbn; auto 20|clear Q] end; cbn match in H; cbn [orb andb] in H). discriminate.
Qed.
Lemma output_keys vw v r k x : output_line resolution vw v (pair_text (k, x)) = Ok r -> good_pair (k, x) -> In k (keys_of "OutputVariable").
Proof.
  intros H G. unfold output_line in H. rewrite (pair_parse _ G) in H. cbn [rbind] in H. unfold variable_key in H.
  repeat (match type of H with context [String.eqb k ?t] => destruct (String.eqb_spec k t) as [Q|Q]; [subst k; clear; cbn; auto 20|clear Q] end; cbn match in H; cbn [orb andb] in H). discriminate.
Qed.
Lemma block_keys env b r k x : block_line env b (pair_text (k, x)) = Ok r -> good_pair (k, x) -> In k (keys_of "RuleBlock").
Proof.
  intros H G. unfold block_line in H. rewrite (pair_parse _ G) in H. cbn [rbind] in H.
  repeat (match type of H with context [String.eqb k ?t] => destruct (String.eqb_spec k t) as [Q|Q]; [subst k; clear; cbn; auto 20|clear Q] end; cbn match in H; cbn [orb andb] in H). discriminate.
Qed.
Lemma block_pairs_keys tag ps e e1 k x : tag <> "" -> Forall good_pair ps -> block_pairs tag ps e = Ok e1 -> In (k, x) ps -> In k (keys_of tag).
Proof.
  intros N G H I. unfold block_pairs, process_tag in H. destruct (sempty tag) eqn:E; [apply sempty_spec in E; congruence|].
  assert (Gx : good_pair (k, x)) by (rewrite Forall_forall in G; auto). apply (in_map pair_text) in I.
  destruct (String.eqb_spec tag "InputVariable") as [->|_].
  - unfold process_input in H. rewrite pair_lines in H by auto. destruct (rfold _ _ _) eqn:F in H; try discriminate. destruct (rfold_in _ _ _ _ _ F I) as (a' & r' & Q). exact (input_keys _ _ _ _ _ Q Gx).
  - destruct (String.eqb_spec tag "OutputVariable") as [->|_].
    + unfold process_output in H. rewrite pair_lines in H by auto. destruct (rfold _ _ _) eqn:F in H; try discriminate. destruct (rfold_in _ _ _ _ _ F I) as (a' & r' & Q). exact (output_keys _ _ _ _ _ Q Gx).
    + destruct (String.eqb_spec tag "RuleBlock") as [->|_]; [|discriminate].
      unfold process_block in H. rewrite pair_lines in H by auto. destruct (rfold _ _ _) eqn:F in H; try discriminate. destruct (rfold_in _ _ _ _ _ F I) as (a' & r' & Q). exact (block_keys _ _ _ _ _ Q Gx).
Qed.
End Lines.
