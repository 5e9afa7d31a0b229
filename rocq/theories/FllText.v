(** Lemmas on texts used for the FuzzyLite Language. *)
From Coq Require Import ZArith List Bool String Ascii Arith Lia.
From Verif Require Import Base Op Text SpecText TextProofs TextProofs2 Rule Fll SpecFll.
Import ListNotations.
Local Open Scope string_scope.

Lemma lacks_sforall c s : lacks c s = sforall (fun x => negb (Ascii.eqb x c)) s.
Proof. induction s; simpl; congruence. Qed.
Lemma lacks_app c a b : lacks c (a ++ b) = (lacks c a && lacks c b)%bool.
Proof. rewrite !lacks_sforall. apply sforall_app. Qed.
Lemma sforall_impl (p q : ascii -> bool) s : (forall c, p c = true -> q c = true) -> sforall p s = true -> sforall q s = true.
Proof. intro H. induction s; simpl; auto. rewrite !andb_true_iff. intros [A B]. auto. Qed.

(** ** pieces at one character *)
Lemma chop_nonempty c s : chop c s <> [].
Proof. induction s; simpl; try discriminate. destruct (Ascii.eqb a c); try discriminate. destruct (chop c s); congruence. Qed.
Lemma chop_lacks c s : lacks c s = true -> chop c s = [s].
Proof. induction s; simpl; auto. rewrite andb_true_iff. intros [A B]. apply negb_true_iff in A. rewrite A, (IHs B). reflexivity. Qed.
Lemma chop_app c a b : lacks c a = true -> chop c (a ++ String c b) = a :: chop c b.
Proof.
  induction a; simpl; intro H.
  - now rewrite Ascii.eqb_refl.
  - apply andb_true_iff in H. destruct H as [A B]. apply negb_true_iff in A. now rewrite A, (IHa B).
Qed.
Lemma chop_free c s p : In p (chop c s) -> lacks c p = true.
Proof.
  revert p. induction s; simpl; intros p H; [destruct H as [<-|[]]; reflexivity|]. destruct (Ascii.eqb a c) eqn:E; [destruct H as [<-|H]; [reflexivity|auto]|].
  destruct (chop c s) as [|q qs]; [destruct H|]. destruct H as [<-|H]; [simpl; rewrite E; simpl; apply IHs; left; auto|apply IHs; right; auto].
Qed.
Lemma chop_cases c s : lacks c s = true /\ chop c s = [s] \/ exists a b, s = a ++ String c b /\ lacks c a = true /\ chop c s = a :: chop c b.
Proof.
  induction s as [|x s IH]; simpl; [left; auto|]. destruct (Ascii.eqb x c) eqn:E.
  - apply Ascii.eqb_eq in E. subst x. right. exists "", s. auto.
  - destruct IH as [[L ->]|(a & b & -> & L & ->)]; [left; rewrite L; auto|]. right. exists (String x a), b. simpl. rewrite E, L. auto.
Qed.
Lemma lacks_occurs c s : lacks c s = true <-> ~ occurs (char c) s.
Proof.
  split.
  - intros L (b & a & ->). rewrite !lacks_app in L. simpl in L. rewrite Ascii.eqb_refl in L. simpl in L. rewrite andb_false_r in L. discriminate.
  - intro N. destruct (chop_cases c s) as [[L _]|(a & b & -> & _)]; auto. destruct N. exists a, b. reflexivity.
Qed.
Lemma first_char_occurrence c a b : lacks c a = true -> first_occurrence (char c) (a ++ String c b) a b.
Proof.
  intro L. split; [reflexivity|]. intros b' a' E. destruct (Nat.le_gt_cases (length a) (length b')) as [|G]; auto. exfalso.
  symmetry in E. destruct (sapp_split b' (char c ++ a') a (String c b) E ltac:(lia)) as (m & -> & E2).
  destruct m as [|x m]; [rewrite sapp_nil_r in G; lia|]. simpl in E2. injection E2 as <- _. rewrite lacks_app in L. simpl in L. rewrite Ascii.eqb_refl, andb_false_r in L. discriminate.
Qed.
Lemma find_char_none c s : lacks c s = true -> find_sub (char c) s = None.
Proof. intro L. apply find_sub_none. now apply lacks_occurs. Qed.
Lemma find_char c a b : lacks c a = true -> find_sub (char c) (a ++ String c b) = Some (a, b).
Proof. intro L. apply find_sub_iff. now apply first_char_occurrence. Qed.
Lemma chop_pieces c s : pieces (char c) s (chop c s).
Proof.
  remember (length s) as n eqn:N. revert s N. induction n as [n IH] using lt_wf_ind. intros s ->.
  destruct (chop_cases c s) as [[L ->]|(a & b & -> & L & ->)].
  - constructor. now apply lacks_occurs.
  - econstructor; [now apply first_char_occurrence|]. apply (IH (length b)); auto. rewrite slen_app. simpl. lia.
Qed.
Lemma split_chop c s : s <> "" -> split s (char c) false = chop c s.
Proof. intro N. destruct (split_spec s (char c) N ltac:(discriminate)) as [H _]. exact (pieces_unique _ _ _ _ H (chop_pieces c s)). Qed.
Lemma split_words c s : s <> "" -> split s (char c) true = filter nonempty (chop c s).
Proof. intro N. destruct (split_spec s (char c) N ltac:(discriminate)) as [_ ->]. now rewrite split_chop. Qed.
Lemma split_empty c ig : split "" c ig = [""].
Proof. reflexivity. Qed.
Lemma chop_glue c ls : ls <> [] -> Forall (fun l => lacks c l = true) ls -> chop c (join ls (char c)) = ls.
Proof.
  intros N F. induction F as [|l ls L F IH]; [congruence|]. destruct ls as [|l' ls]; [now apply chop_lacks|].
  change (join (l :: l' :: ls) (char c)) with (l ++ String c (join (l' :: ls) (char c))). rewrite chop_app by auto. f_equal. apply IH. discriminate.
Qed.
Lemma join_app ls ls' sep : ls <> [] -> ls' <> [] -> join (ls ++ ls')%list sep = join ls sep ++ sep ++ join ls' sep.
Proof.
  intros N N'. induction ls as [|l ls IH]; [congruence|]. destruct ls as [|l2 ls].
  - destruct ls'; [congruence|]. reflexivity.
  - change (join ((l :: l2 :: ls) ++ ls')%list sep) with (l ++ sep ++ join ((l2 :: ls) ++ ls')%list sep). rewrite IH by discriminate.
    change (join (l :: l2 :: ls) sep) with (l ++ sep ++ join (l2 :: ls) sep). now rewrite !sapp_assoc.
Qed.
Lemma join_concat lss sep : Forall (fun ls => ls <> []) lss -> join (map (fun ls => join ls sep) lss) sep = join (List.concat lss) sep.
Proof.
  intro F. induction F as [|ls lss N F IH]; [reflexivity|]. destruct lss as [|ls2 lss]; [unfold List.concat; rewrite app_nil_r; reflexivity|].
  change (join (map (fun ls => join ls sep) (ls :: ls2 :: lss)) sep) with (join ls sep ++ sep ++ join (map (fun ls => join ls sep) (ls2 :: lss)) sep).
  rewrite IH. change (List.concat (ls :: ls2 :: lss)) with (ls ++ List.concat (ls2 :: lss))%list. symmetry. apply join_app; auto.
  inversion F; subst. simpl. destruct ls2; [congruence|discriminate].
Qed.

(** ** lines *)
Fixpoint dropend (l : list string) : list string := match l with [] => [] | [x] => if sempty x then [] else [x] | x :: r => x :: dropend r end.
Lemma getlines_from_chop s : forall cur, lacks newline cur = true ->
  getlines_from cur s = dropend (match chop newline s with p :: ps => (cur ++ p) :: ps | [] => [] end).
Proof.
  induction s as [|c s IH]; intros cur L.
  - simpl. rewrite sapp_nil_r. destruct (sempty cur) eqn:E; auto.
  - cbn [getlines_from chop]. destruct (Ascii.eqb c newline) eqn:E.
    + rewrite sapp_nil_r. rewrite IH by reflexivity. destruct (chop newline s) as [|p ps] eqn:C; [now apply chop_nonempty in C|]. reflexivity.
    + rewrite IH by (rewrite lacks_app, L; simpl; now rewrite E). destruct (chop newline s) as [|p ps]; auto. now rewrite sapp_assoc.
Qed.
Lemma getlines_chop s : getlines s = dropend (chop newline s).
Proof. unfold getlines. rewrite getlines_from_chop by reflexivity. destruct (chop newline s); reflexivity. Qed.
Lemma dropend_full ls : Forall (fun l => l <> "") ls -> dropend ls = ls.
Proof.
  intro F. induction F as [|l ls N F IH]; auto. destruct ls as [|l2 ls]; [|change (dropend (l :: l2 :: ls)) with (l :: dropend (l2 :: ls)); now rewrite IH].
  simpl. destruct l; [congruence|reflexivity].
Qed.
Lemma getlines_join ls : Forall (fun l => lacks newline l = true /\ l <> "") ls -> getlines (join ls (char newline)) = ls.
Proof.
  intro F. destruct ls as [|l ls]; [reflexivity|]. rewrite getlines_chop, chop_glue; [|discriminate|eapply Forall_impl; [|exact F]; simpl; tauto].
  apply dropend_full. eapply Forall_impl; [|exact F]; simpl; tauto.
Qed.
Lemma nonempty_pieces c s : Forall (fun l => lacks c l = true /\ l <> "") (filter nonempty (chop c s)).
Proof.
  apply Forall_forall. intros x H. apply filter_In in H. destruct H as [H N]. split; [now apply (chop_free c s)|]. intros ->. discriminate.
Qed.
Lemma import_lines text : getlines (join (split text (char newline) true) (char newline)) = filter nonempty (chop newline text).
Proof.
  destruct (String.eqb_spec text "") as [E|N]; [subst; reflexivity|]. rewrite split_words by auto. apply getlines_join, nonempty_pieces.
Qed.

(** ** comments and blanks *)
Lemma hash_split line : hd "" (split line "#" false) = uncomment line.
Proof.
  destruct (String.eqb_spec line "") as [E|N]; [subst; reflexivity|]. change "#" with (char "#"). rewrite split_chop by auto. clear N.
  induction line as [|c s IH]; [reflexivity|]. cbn [chop uncomment]. destruct (Ascii.eqb c "#"); [reflexivity|].
  destruct (chop "#" s) as [|p ps] eqn:C; [now apply chop_nonempty in C|]. simpl in *. now rewrite IH.
Qed.
Lemma hash_app a b : lacks "#" a = true -> uncomment (a ++ b) = a ++ uncomment b.
Proof. induction a; simpl; auto. rewrite andb_true_iff. intros [A B]. apply negb_true_iff in A. rewrite A. now rewrite IHa. Qed.
Lemma hash_lacks s : lacks "#" (uncomment s) = true.
Proof. induction s; simpl; auto. destruct (Ascii.eqb a "#") eqn:E; simpl; auto. now rewrite E. Qed.
Lemma hash_id s : lacks "#" s = true -> uncomment s = s.
Proof. intro L. rewrite <- (sapp_nil_r s) at 1. rewrite hash_app by auto. simpl. apply sapp_nil_r. Qed.
Lemma hash_prefix s : exists t, s = uncomment s ++ t.
Proof.
  induction s; simpl; [exists ""; auto|]. destruct (Ascii.eqb a "#"); [exists (String a s); auto|]. destruct IHs as [t E]. exists t. simpl. now rewrite <- E.
Qed.
Lemma hash_sforall p s : sforall p s = true -> sforall p (uncomment s) = true.
Proof. destruct (hash_prefix s) as [t E]. intro H. rewrite E, sforall_app, andb_true_iff in H. tauto. Qed.

Fixpoint ltrim (s : string) : string := match s with String c r => if is_space c then ltrim r else s | "" => "" end.
Lemma ltrim_split s : exists l, s = l ++ ltrim s /\ blank l = true.
Proof.
  induction s as [|c s IH]; simpl; [exists ""; auto|]. destruct (is_space c) eqn:E; [|exists ""; auto]. destruct IH as (l & E2 & B).
  exists (String c l). simpl. unfold blank in *. simpl. rewrite E, B, <- E2. auto.
Qed.
Lemma rtrim_split s : exists r, s = rtrim s ++ r /\ blank r = true.
Proof.
  induction s as [|c s IH]; simpl; [exists ""; auto|]. destruct IH as (r & E2 & B). destruct (rtrim s) as [|c' s'] eqn:R.
  - destruct (is_space c) eqn:E; [exists (String c s); unfold blank; simpl; rewrite E; simpl; split; auto; simpl in E2; subst r; exact B|].
    exists s. split; auto. simpl in E2. subst r. exact B.
  - exists r. split; auto. rewrite E2 at 1. reflexivity.
Qed.
Lemma ltrim_first s c : first_char (ltrim s) = Some c -> ~ space c.
Proof. induction s as [|x s IH]; simpl; [discriminate|]. destruct (is_space x) eqn:E; auto. simpl. intro H. injection H as <-. unfold space. congruence. Qed.
Lemma rtrim_last s c : last_char (rtrim s) = Some c -> ~ space c.
Proof.
  induction s as [|x s IH]; simpl; [discriminate|]. destruct (rtrim s) as [|c' s'] eqn:R.
  - destruct (is_space x) eqn:E; [discriminate|]. simpl. intro H. injection H as <-. unfold space. congruence.
  - exact IH.
Qed.
Lemma rtrim_first s c : first_char (rtrim s) = Some c -> first_char s = Some c.
Proof. destruct s as [|x s]; simpl; auto. destruct (rtrim s); [destruct (is_space x); [discriminate|auto]|auto]. Qed.
Lemma blank_all s : blank s = true <-> all_chars space s.
Proof. apply sforall_all. Qed.
Lemma trim_lr s : trim s = rtrim (ltrim s).
Proof.
  eapply trimmed_unique; [apply trim_spec|]. destruct (ltrim_split s) as (l & E & B). destruct (rtrim_split (ltrim s)) as (r & E2 & B2).
  split; [exists l, r; rewrite <- E2; rewrite <- !blank_all; auto|]. split; [|apply rtrim_last].
  intros c H. apply rtrim_first in H. exact (ltrim_first _ _ H).
Qed.
Lemma trim_rl s : trim s = ltrim (rtrim s).
Proof.
  eapply trimmed_unique; [apply trim_spec|]. destruct (rtrim_split s) as (r & E & B). destruct (ltrim_split (rtrim s)) as (l & E2 & B2).
  split; [exists l, r; rewrite <- sapp_assoc, <- E2; rewrite <- !blank_all; auto|]. split; [apply ltrim_first|].
  intros c H. apply (rtrim_last s). rewrite E2. clear - H. induction l as [|x l IH]; [exact H|]. simpl. destruct (l ++ ltrim (rtrim s)) eqn:Q; [|exact IH].
  destruct l; simpl in *; [|discriminate]. rewrite Q in H. discriminate.
Qed.
Lemma ltrim_app a b : blank a = true -> ltrim (a ++ b) = ltrim b.
Proof. unfold blank. induction a; simpl; auto. rewrite andb_true_iff. intros [-> B]. auto. Qed.
Lemma rtrim_blank a : blank a = true -> rtrim a = "".
Proof. unfold blank. induction a; simpl; auto. rewrite andb_true_iff. intros [A B]. now rewrite (IHa B), A. Qed.
Lemma rtrim_tail a b : blank b = true -> rtrim (a ++ b) = rtrim a.
Proof. intro B. induction a as [|c a IH]; simpl; [now apply rtrim_blank|]. now rewrite IH. Qed.
(** nothing to remove at the end *)
Lemma rtrim_cons c r : rtrim (String c r) = match rtrim r with "" => if is_space c then "" else char c | r' => String c r' end.
Proof. reflexivity. Qed.
Lemma rtrim_app a b : rtrim a = a -> a <> "" -> rtrim (a ++ b) = a ++ rtrim b.
Proof.
  induction a as [|c a IH]; [congruence|]. intros R _. destruct a as [|c' a].
  - simpl in *. destruct (is_space c) eqn:E; [discriminate|]. destruct (rtrim b); reflexivity.
  - assert (R' : rtrim (String c' a) = String c' a).
    { rewrite rtrim_cons in R. destruct (rtrim (String c' a)) as [|x y] eqn:Q; [destruct (is_space c); discriminate|]. congruence. }
    change (String c (String c' a) ++ b) with (String c (String c' a ++ b)). rewrite rtrim_cons, (IH R') by discriminate. reflexivity.
Qed.
Lemma rtrim_words a : sforall (fun c => negb (is_space c)) a = true -> rtrim a = a.
Proof.
  induction a as [|c a IH]; simpl; auto. rewrite andb_true_iff. intros [A B]. rewrite (IH B). apply negb_true_iff in A. rewrite A. destruct a; auto.
Qed.
Lemma ltrim_word a b : sforall (fun c => negb (is_space c)) a = true -> a <> "" -> ltrim (a ++ b) = a ++ b.
Proof. destruct a as [|c a]; [congruence|]. simpl. rewrite andb_true_iff. intros [A _] _. apply negb_true_iff in A. now rewrite A. Qed.
Lemma rtrim_idem s : rtrim (rtrim s) = rtrim s.
Proof.
  induction s as [|c s IH]; simpl; auto. destruct (rtrim s) as [|c' s'] eqn:R; [destruct (is_space c) eqn:E; simpl; rewrite ?E; auto|].
  change (rtrim (String c (String c' s'))) with (match rtrim (String c' s') with "" => if is_space c then "" else char c | r' => String c r' end). now rewrite IH.
Qed.
Lemma trim_sforall p s : sforall p s = true -> sforall p (trim s) = true.
Proof.
  intro H. destruct (trim_spec s) as [(l & r & E & _) _]. rewrite E, !sforall_app, !andb_true_iff in H. tauto.
Qed.
Lemma rtrim_sforall p s : sforall p s = true -> sforall p (rtrim s) = true.
Proof. intro H. destruct (rtrim_split s) as (r & E & _). rewrite E, sforall_app, andb_true_iff in H. tauto. Qed.
Lemma trim_rtrim s : trim (rtrim s) = trim s.
Proof. rewrite !trim_rl. now rewrite rtrim_idem. Qed.
Lemma trim_lead a b : blank a = true -> trim (a ++ b) = trim b.
Proof. intro H. rewrite !trim_lr. now rewrite ltrim_app. Qed.
Lemma trim_lacks c s : lacks c s = true -> lacks c (trim s) = true.
Proof. rewrite !lacks_sforall. apply trim_sforall. Qed.
Lemma trim_word a : sforall (fun c => negb (is_space c)) a = true -> trim a = a.
Proof.
  intro H. rewrite trim_rl, (rtrim_words a H). destruct (String.eqb_spec a "") as [E|N]; [subst; reflexivity|]. rewrite <- (sapp_nil_r a) at 1. rewrite (ltrim_word a "" H N). apply sapp_nil_r.
Qed.

(** ** words at single spaces *)
Lemma split_space s : s <> "" -> split s " " true = words s.
Proof. intro N. exact (split_words " " s N). Qed.
Lemma words_app a b : words (a ++ " " ++ b) = (words a ++ words b)%list.
Proof.
  unfold words. induction a as [|c a IH]; [reflexivity|]. cbn [append chop]. destruct (Ascii.eqb c " ") eqn:E; [simpl; exact IH|].
  change (" " ++ b)%string with (String " " b) in IH |- *.
  destruct (chop " " (a ++ String " " b)) as [|p ps] eqn:C; [now apply chop_nonempty in C|].
  destruct (chop " " a) as [|q qs] eqn:D; [now apply chop_nonempty in D|].
  assert (K : exists rs, p = q /\ chop " " (a ++ String " " b) = (q :: rs)).
  { clear IH. revert p ps q qs C D. induction a as [|x a IHa]; intros p ps q qs C D.
    - simpl in C, D. injection C as <- <-. injection D as <- <-. simpl. eauto.
    - cbn [append chop] in C, D |- *. destruct (Ascii.eqb x " "); [injection C as <- <-; injection D as <- <-; eauto|].
      destruct (chop " " (a ++ String " " b)) as [|p' ps'] eqn:C'; [now apply chop_nonempty in C'|].
      destruct (chop " " a) as [|q' qs'] eqn:D'; [now apply chop_nonempty in D'|].
      destruct (IHa p' ps' q' qs' eq_refl eq_refl) as (rs & -> & E'). injection C as <- <-. injection D as <- <-. eauto. }
  destruct K as (rs & -> & E'). rewrite C in E'. injection E' as ->.
  simpl in *. destruct q; simpl in *; [now rewrite IH|]. injection IH as IH. now rewrite IH.
Qed.
Definition wordy (w : string) : Prop := w <> "" /\ lacks " " w = true.
Lemma words_one w : wordy w -> words w = [w].
Proof. intros [N L]. unfold words. rewrite (chop_lacks _ _ L). destruct w; [congruence|reflexivity]. Qed.
Lemma words_wordy s : Forall wordy (words s).
Proof. eapply Forall_impl; [|apply (nonempty_pieces " " s)]. unfold wordy. simpl. tauto. Qed.
Lemma words_join ws : Forall wordy ws -> words (join ws " ") = ws.
Proof.
  intro F. induction F as [|w ws W F IH]; [reflexivity|]. destruct ws as [|w2 ws]; [now apply words_one|].
  change (join (w :: w2 :: ws) " ") with (w ++ " " ++ join (w2 :: ws) " "). rewrite words_app, IH, words_one; auto.
Qed.
Lemma words_sforall p s : p " "%char = true -> sforall p s = true -> Forall (fun w => sforall p w = true) (words s).
Proof.
  intros P0 H. apply Forall_forall. intros w W. apply filter_In in W. destruct W as [W _]. revert w W. induction s as [|c s IH]; intros w W; [destruct W as [<-|[]]; reflexivity|].
  simpl in H. apply andb_true_iff in H. destruct H as [H1 H2]. cbn [chop] in W. destruct (Ascii.eqb c " "); [destruct W as [<-|W]; [reflexivity|auto]|].
  specialize (IH H2). destruct (chop " " s) as [|q qs]; [destruct W|]. destruct W as [<-|W]; [simpl; rewrite H1; simpl; apply IH; left; auto|apply IH; right; auto].
Qed.
Lemma join_sforall p ws sep : sforall p sep = true -> Forall (fun w => sforall p w = true) ws -> sforall p (join ws sep) = true.
Proof.
  intros P0 F. induction F as [|w ws W F IH]; [reflexivity|]. destruct ws as [|w2 ws]; [exact W|].
  change (join (w :: w2 :: ws) sep) with (w ++ sep ++ join (w2 :: ws) sep). now rewrite !sforall_app, W, P0, IH.
Qed.
