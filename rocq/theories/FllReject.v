(** Lines that stop the import. *)
From Coq Require Import ZArith List Bool String Ascii Arith Lia.
From Verif Require Import Base Op Norm Shape Discrete Defuzz Aggregated Text Function Rule Var Activation Engine Factory
  SpecText TextProofs TextProofs2 Fll SpecFll FllText FllLines FllExport FllRound FllRound2.
Import ListNotations.
Local Open Scope string_scope.

Section Reject.
Context {T : Type} `{S : Scalar T}.
Variable resolution : Z.

Ltac no_key K := repeat match goal with |- context [String.eqb ?k ?t] => let Q := fresh in destruct (String.eqb_spec k t) as [Q|Q]; [exfalso; apply K; subst k; clear; cbn; auto 20|clear Q] end; cbn [orb andb]; reflexivity.
Lemma input_bad vw v k x : ~ In k (keys_of "InputVariable") -> input_pair (T := T) vw v (k, x) = Throw EImport.
Proof. intro K. unfold input_pair, variable_key. cbn [fst snd]. no_key K. Qed.
Lemma output_bad vw o k x : ~ In k (keys_of "OutputVariable") -> output_pair (T := T) resolution vw o (k, x) = Throw EImport.
Proof. intro K. unfold output_pair, variable_key. no_key K. Qed.
Lemma block_bad env b k x : ~ In k (keys_of "RuleBlock") -> block_pair (T := T) env b (k, x) = Throw EImport.
Proof. intro K. unfold block_pair. cbn [rbind]. no_key K. Qed.
Lemma rfold_bad {A B} (f : A -> B -> res A) x p q a r : rfold f a (p ++ q) = Ok r -> (forall a, f a x = Throw EImport) -> rfold f a (p ++ x :: q) = Throw EImport.
Proof.
  rewrite !rfold_app. destruct (rfold f a p) as [a1| | |]; try discriminate. cbn [rbind rfold]. intros _ H. now rewrite H.
Qed.
Lemma block_pairs_bad tag p q k x (e e1 : engine T) : Forall good_pair (p ++ q) -> good_pair (k, x) -> In tag block_names -> ~ In k (keys_of tag) ->
  block_pairs resolution tag (p ++ q) e = Ok e1 -> block_pairs resolution tag (p ++ (k, x) :: q) e = Throw EImport.
Proof.
  intros G Gx I K H. assert (G2 : Forall good_pair (p ++ (k, x) :: q)) by (apply Forall_app in G; destruct G; apply Forall_app; auto).
  unfold block_pairs in *. unfold block_names in I. destruct I as [<-|[<-|[<-|[]]]].
  - change (process_tag resolution "InputVariable") with (process_input (T := T)) in *. unfold process_input in *. rewrite !pair_lines in * by assumption.
    rewrite !(rfold_pairs _ _ (input_line_pair _)) in * by assumption. set (f := input_pair _) in *. destruct (rfold f new_variable (p ++ q)) as [v| | |] eqn:R; try discriminate.
    rewrite (rfold_bad f (k, x) p q _ _ R) by (intro; now apply input_bad). reflexivity.
  - change (process_tag resolution "OutputVariable") with (process_output (T := T) resolution) in *. unfold process_output in *. rewrite !pair_lines in * by assumption.
    rewrite !(rfold_pairs _ _ (output_line_pair _ _)) in * by assumption. set (f := output_pair _ _) in *. destruct (rfold f new_output (p ++ q)) as [v| | |] eqn:R; try discriminate.
    rewrite (rfold_bad f (k, x) p q _ _ R) by (intro; now apply output_bad). reflexivity.
  - change (process_tag resolution "RuleBlock") with (process_block (T := T)) in *. unfold process_block in *. rewrite !pair_lines in * by assumption.
    rewrite !(rfold_pairs _ _ (block_line_pair _)) in * by assumption. set (f := block_pair _) in *. destruct (rfold f new_block (p ++ q)) as [v| | |] eqn:R; try discriminate.
    rewrite (rfold_bad f (k, x) p q _ _ R) by (intro; now apply block_bad). reflexivity.
Qed.
Lemma insert_bad ls k x tag : Forall one_line ls -> good_pair (k, x) -> In tag block_names -> ~ In k (keys_of tag) -> forall p q (e e1 : engine T),
  p <> [] -> Forall good_pair (p ++ q) -> (do st <- rfold (import_content resolution) (e, tag, (p ++ q)%list) ls; finish resolution st) = Ok e1 ->
  (do st <- rfold (import_content resolution) (e, tag, (p ++ (k, x) :: q)%list) ls; finish resolution st) = Throw EImport.
Proof.
  intros F Gx I K. induction F as [|l ls L F IH]; intros p q e e1 NP G H.
  - cbn [rfold rbind finish] in *. exact (block_pairs_bad _ _ _ _ _ _ _ G Gx I K H).
  - cbn [rfold] in *. assert (NT : sempty tag = false) by (unfold block_names in I; destruct I as [<-|[<-|[<-|[]]]]; reflexivity).
    unfold import_content at 1 in H. unfold import_content at 1. destruct (sempty (content l)); [exact (IH p q e e1 NP G H)|].
    assert (KG := key_value_good l). destruct (key_value l) as [[a b]|]; [|discriminate]. specialize (KG _ L eq_refl). unfold import_pair in *.
    destruct (String.eqb a "Engine"); [exact (IH p q _ e1 NP G H)|]. destruct p as [|p0 p]; [congruence|]. cbn [app] in *. rewrite !andb_false_r in *.
    destruct (String.eqb a "InputVariable" || _ || _)%bool.
    + destruct (block_pairs resolution tag (p0 :: (p ++ q)) e) as [e2| | |] eqn:B; try discriminate.
      change (p0 :: (p ++ (k, x) :: q))%list with ((p0 :: p) ++ (k, x) :: q)%list. change (p0 :: (p ++ q))%list with ((p0 :: p) ++ q)%list in B.
      rewrite (block_pairs_bad tag (p0 :: p) q k x e e2 G Gx I K B). reflexivity.
    + rewrite NT in *. cbn [rbind] in *. change (p0 :: (p ++ (k, x) :: q))%list with ((p0 :: p) ++ (k, x) :: q)%list. rewrite <- app_assoc.
      apply (IH (p0 :: p) (q ++ [(a, b)])%list e e1); [discriminate| |].
      * rewrite app_assoc. apply Forall_app. split; [exact G|]. constructor; [exact KG|constructor].
      * rewrite app_assoc. exact H.
Qed.
Lemma sound_after ls : Forall one_line ls -> forall st st', sound_state st -> rfold (import_content (T := T) resolution) st ls = Ok st' -> sound_state st'.
Proof.
  intro F. induction F as [|l ls L F IH]; intros st st' G H; [injection H as <-; exact G|]. cbn [rfold] in H.
  destruct (import_line_pairs resolution st l L G) as [_ G1]. destruct (import_content resolution st l) as [st1| | |]; try discriminate. exact (IH _ _ (G1 _ eq_refl) H).
Qed.
(** inside a block some pair has been read *)
Lemma tag_pairs ls : forall st st' : @state T, (snd (fst st) <> "" -> snd st <> []) -> rfold (import_content resolution) st ls = Ok st' -> snd (fst st') <> "" -> snd st' <> [].
Proof.
  induction ls as [|l ls IH]; intros st st' G H; [injection H as <-; exact G|]. cbn [rfold] in H. destruct (import_content resolution st l) as [st1| | |] eqn:E; try discriminate. cbn [rbind] in H.
  refine (IH st1 st' _ H). clear IH H. destruct st as [[e tag] ps]. unfold import_content in E. destruct (sempty (content l)); [injection E as <-; exact G|].
  destruct (key_value l) as [[k v]|]; [|discriminate]. unfold import_pair in E. cbn [fst snd] in *.
  destruct (String.eqb k "Engine"); [injection E as <-; exact G|]. destruct (String.eqb k "description" && _)%bool; [injection E as <-; exact G|].
  destruct (String.eqb k "InputVariable" || _ || _)%bool; [destruct (block_pairs resolution tag ps e); try discriminate; injection E as <-; discriminate|].
  destruct (sempty tag); [discriminate|]. injection E as <-. cbn [fst snd]. intros _. destruct ps; discriminate.
Qed.
Theorem rejected_throws before l after (e : engine T) : Forall one_line (before ++ l :: after) -> rejected before l ->
  import_all resolution (before ++ after) = Ok e -> import_all (T := T) resolution (before ++ l :: after) = Throw EImport.
Proof.
  intros F [NC K] H. apply Forall_app in F. destruct F as [F1 F2]. inversion F2 as [|? ? L F3]; subst.
  unfold import_all in *. rewrite state_app in *. destruct (rfold (import_content resolution) (new_engine, "", []) before) as [st| | |] eqn:B; try discriminate. cbn [rbind] in *.
  cbn [rfold]. unfold import_content at 1. destruct (sempty (content l)) eqn:C; [apply sempty_spec in C; congruence|].
  assert (KG := key_value_good l). destruct (key_value l) as [[k v]|]; [|reflexivity]. specialize (KG _ L eq_refl). destruct K as (KE & KB & K).
  assert (TG := tag_state resolution before _ _ B). assert (G : sound_state st) by (refine (sound_after _ F1 _ _ _ B); constructor).
  assert (NP := tag_pairs before (new_engine, "", []) st (fun Q => False_ind _ (Q eq_refl)) B). destruct st as [[e0 tag] ps]. cbn [fst snd] in *. unfold import_pair.
  destruct (String.eqb_spec k "Engine") as [|_]; [congruence|].
  destruct (String.eqb_spec k "InputVariable") as [Q|_]; [exfalso; apply KB; subst k; cbn; auto|]. destruct (String.eqb_spec k "OutputVariable") as [Q|_]; [exfalso; apply KB; subst k; cbn; auto|].
  destruct (String.eqb_spec k "RuleBlock") as [Q|_]; [exfalso; apply KB; subst k; cbn; auto|]. cbn [orb].
  destruct (block_after before) as [b|] eqn:BA.
  - assert (I := block_after_name _ _ BA). subst tag. assert (NT : sempty b = false) by (unfold block_names in I; destruct I as [<-|[<-|[<-|[]]]]; reflexivity).
    assert (NB : b <> "") by (intros ->; discriminate). specialize (NP NB). destruct ps as [|p0 ps]; [congruence|]. rewrite andb_false_r, NT. cbn [rbind].
    apply (insert_bad after k v b F3 KG I K (p0 :: ps) [] e0 e NP); rewrite app_nil_r; [exact G|exact H].
  - subst tag. destruct (String.eqb_spec k "description") as [|_]; [congruence|]. reflexivity.
Qed.
(** texts *)
Theorem text_throws text before l after (e : engine T) : chop newline text = (before ++ l :: after)%list -> rejected before l -> before <> [] \/ after <> [] ->
  fll_import resolution (char newline) (join (before ++ after)%list (char newline)) = Ok e -> fll_import resolution (char newline) text = Throw EImport.
Proof.
  intros E R1 NE H. assert (F : Forall one_line (before ++ l :: after)) by (apply Forall_forall; intros p I; rewrite <- E in I; exact (chop_free _ _ _ I)).
  assert (F2 : Forall one_line (before ++ after)) by (apply Forall_app in F; destruct F as [F1 F2]; inversion F2; apply Forall_app; auto).
  rewrite import_joined in H; [|destruct before, after; try discriminate; destruct NE; congruence|exact F2]. rewrite import_by_lines, E. exact (rejected_throws _ _ _ _ F R1 H).
Qed.
Theorem text_fails text before l after (e : engine T) : chop newline text = (before ++ l :: after)%list -> rejected before l ->
  fll_import resolution (char newline) text <> Ok e.
Proof.
  intros E R1. assert (F : Forall one_line (before ++ l :: after)) by (apply Forall_forall; intros p I; rewrite <- E in I; exact (chop_free _ _ _ I)).
  rewrite import_by_lines, E. now apply rejected_fails.
Qed.
Theorem text_contents text text' : filter nonempty (map content (chop newline text)) = filter nonempty (map content (chop newline text')) ->
  fll_import (T := T) resolution (char newline) text = fll_import resolution (char newline) text'.
Proof. intro E. rewrite !import_by_lines. unfold import_all. now rewrite (content_only resolution _ _ _ E). Qed.
End Reject.
