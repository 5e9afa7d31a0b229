(** split, findReplace, trim, validName, tokens. *)
From Coq Require Import ZArith List Bool String Ascii Arith Lia.
From Verif Require Import Base Op Text SpecText.
Import ListNotations.
Local Open Scope string_scope.

Lemma sapp_assoc a b c : (a ++ b) ++ c = a ++ b ++ c.
Proof. induction a; simpl; congruence. Qed.
Lemma sapp_nil_r a : a ++ "" = a.
Proof. induction a; simpl; congruence. Qed.
Lemma slen_app a b : length (a ++ b) = (length a + length b)%nat.
Proof. induction a; simpl; auto. Qed.
Lemma sapp_inv_head a b c : a ++ b = a ++ c -> b = c.
Proof. induction a; simpl; auto. intro H; inversion H; auto. Qed.
Lemma sapp_inv_len a b c d : a ++ b = c ++ d -> length a = length c -> a = c /\ b = d.
Proof.
  revert c; induction a; intros [|x c]; simpl; try discriminate; auto. intros H L. inversion H; subst.
  destruct (IHa c) as [-> ->]; auto.
Qed.
(** a prefix of a concatenation *)
Lemma sapp_split a b c d : a ++ b = c ++ d -> (length a <= length c)%nat -> exists m, c = a ++ m /\ b = m ++ d.
Proof.
  revert c; induction a; intros c H L; simpl in *. { exists c; auto. }
  destruct c; simpl in *; [lia|]. inversion H; subst. destruct (IHa c) as (m & -> & ->); auto; [lia|]. exists m; auto.
Qed.
Lemma prefix_app p s : prefix p (p ++ s) = true.
Proof. induction p as [|c p IH]; simpl; [now destruct s|]. destruct (ascii_dec c c); congruence. Qed.
Lemma prefix_spec p s : prefix p s = true <-> exists a, s = p ++ a.
Proof.
  split; [|intros (a & ->); apply prefix_app]. revert s; induction p as [|c p IH]; intros s H. { exists s; auto. }
  destruct s; simpl in H; [discriminate|]. destruct (ascii_dec c a); [|discriminate]. subst. destruct (IH _ H) as (x & ->). exists x; auto.
Qed.
Lemma sdrop_app p s : sdrop (length p) (p ++ s) = s.
Proof. induction p; simpl; auto. Qed.
Lemma sempty_spec s : sempty s = true <-> s = "".
Proof. destruct s; simpl; split; congruence. Qed.
Lemma sempty_false s : sempty s = false <-> s <> "".
Proof. destruct s; simpl; split; congruence. Qed.

Lemma find_sub_some pat s b a : find_sub pat s = Some (b, a) -> first_occurrence pat s b a.
Proof.
  revert b a; induction s as [|c s IH]; intros b a H.
  - cbn [find_sub] in H. destruct (prefix pat "") eqn:P; [|discriminate]. inversion H; subst.
    apply prefix_spec in P. destruct P as (x & P). split; [|intros; simpl; lia]. simpl. destruct pat; auto. discriminate.
  - cbn [find_sub] in H. destruct (prefix pat (String c s)) eqn:P.
    + inversion H; subst. apply prefix_spec in P. destruct P as (x & P). rewrite P, sdrop_app. split; auto. intros; simpl; lia.
    + destruct (find_sub pat s) as [[b0 a0]|] eqn:F; [|discriminate]. inversion H; subst. destruct (IH _ _ eq_refl) as [E M].
      split. { simpl. now rewrite E. } intros [|x b'] a' E'.
      * assert (Q : prefix pat (String c s) = true) by (apply prefix_spec; exists a'; auto). congruence.
      * simpl in E' |- *. injection E' as _ E'. specialize (M _ _ E'). lia.
Qed.
Lemma find_sub_none pat s : find_sub pat s = None <-> ~ occurs pat s.
Proof.
  induction s as [|c s IH].
  - cbn [find_sub]. destruct (prefix pat "") eqn:P.
    + split; [discriminate|]. intro H. destruct H. apply prefix_spec in P. destruct P as (a & P). exists "", a. auto.
    + split; auto. intros _ (b & a & E). destruct b; [|discriminate]. simpl in E.
      assert (Q : prefix pat "" = true) by (apply prefix_spec; exists a; auto). congruence.
  - cbn [find_sub]. destruct (prefix pat (String c s)) eqn:P.
    + split; [discriminate|]. intro H. destruct H. apply prefix_spec in P. destruct P as (a & P). exists "", a. auto.
    + destruct (find_sub pat s) as [[b0 a0]|] eqn:F.
      * split; [discriminate|]. intro H. destruct H. apply find_sub_some in F. destruct F as [E _]. exists (String c b0), a0. simpl. now rewrite E.
      * split; auto. intros _ (b & a & E). destruct b; simpl in E.
        { assert (Q : prefix pat (String c s) = true) by (apply prefix_spec; exists a; auto). congruence. }
        injection E as _ E. destruct IH as [IH _]. apply (IH eq_refl). exists b, a. auto.
Qed.
Lemma first_unique pat s b a b' a' : first_occurrence pat s b a -> first_occurrence pat s b' a' -> b = b' /\ a = a'.
Proof.
  intros [E M] [E' M']. assert (L : length b = length b') by (apply Nat.le_antisymm; [eapply M|eapply M']; eauto).
  rewrite E in E'. destruct (sapp_inv_len _ _ _ _ E' L) as [-> H]. split; auto. eapply sapp_inv_head; eauto.
Qed.
Lemma find_sub_iff pat s b a : find_sub pat s = Some (b, a) <-> first_occurrence pat s b a.
Proof.
  split; [apply find_sub_some|]. intro H. destruct (find_sub pat s) as [[b' a']|] eqn:F.
  - apply find_sub_some in F. destruct (first_unique _ _ _ _ _ _ H F) as [-> ->]. auto.
  - apply find_sub_none in F. destruct F. destruct H as [-> _]. exists b, a. auto.
Qed.
Lemma first_shorter pat s b a : pat <> "" -> first_occurrence pat s b a -> (length a < length s)%nat.
Proof. intros N [-> _]. rewrite !slen_app. destruct pat; [congruence|]. simpl. lia. Qed.

(** * split *)
Lemma split_loop_enough d ig : d <> "" -> forall fuel s, (length s < fuel)%nat -> exists l, pieces d s l /\
  split_loop fuel d ig s = Ok (flat_map (keep ig) l).
Proof.
  intros N. induction fuel; intros s L; [lia|]. simpl. destruct (find_sub d s) as [[b a]|] eqn:F.
  - apply find_sub_some in F. assert (Q := first_shorter _ _ _ _ N F). destruct (IHfuel a) as (l & PL & E); [lia|].
    exists (b :: l). split; [econstructor; eauto|]. rewrite E. reflexivity.
  - exists [s]. split; [constructor; now apply find_sub_none|]. simpl. now rewrite app_nil_r.
Qed.
Lemma pieces_unique d s l l' : pieces d s l -> pieces d s l' -> l = l'.
Proof.
  intro H; revert l'; induction H as [s N|s b a l F H IH]; intros l' H'; inversion H' as [s' N' E1 E2|s' b' a' k F' H'' E1 E2]; subst; auto.
  - destruct N. destruct F' as [-> _]. exists b', a'; auto.
  - destruct N'. destruct F as [-> _]. exists b, a; auto.
  - destruct (first_unique _ _ _ _ _ _ F F') as [-> ->]. f_equal. auto.
Qed.
Lemma split_res_spec s d ig : s <> "" -> d <> "" -> exists l, pieces d s l /\ split_res s d ig = Ok (flat_map (keep ig) l).
Proof.
  intros NS ND. unfold split_res, split_fuel. apply sempty_false in NS. assert (ND' := ND). apply sempty_false in ND'. rewrite NS, ND'. simpl orb. cbv iota.
  apply split_loop_enough; auto.
Qed.
Lemma split_terminates s d ig : exists l, split_res s d ig = Ok l.
Proof.
  destruct s as [|c s]. { exists [""]. reflexivity. } destruct d as [|e d]. { exists [String c s]. reflexivity. }
  destruct (split_res_spec (String c s) (String e d) ig) as (l & _ & E); [congruence|congruence|]. eauto.
Qed.
Lemma keep_all l : flat_map (keep false) l = l.
Proof. induction l; simpl; auto. unfold keep at 1. rewrite andb_false_r. simpl. now rewrite IHl. Qed.
Lemma keep_ignore l : flat_map (keep true) l = filter (fun t => negb (sempty t)) l.
Proof. induction l; simpl; auto. unfold keep at 1. rewrite andb_true_r. destruct (sempty a); simpl; now rewrite IHl. Qed.
Lemma split_spec s d : s <> "" -> d <> "" -> pieces d s (split s d false) /\ split s d true = filter (fun t => negb (sempty t)) (split s d false).
Proof.
  intros NS ND. unfold split. destruct (split_res_spec s d false NS ND) as (l & PL & ->), (split_res_spec s d true NS ND) as (l' & PL' & ->).
  rewrite keep_all, keep_ignore. split; auto. now rewrite (pieces_unique _ _ _ _ PL PL').
Qed.
Lemma pieces_glue d s l : pieces d s l -> l <> [] /\ glue d l = s.
Proof.
  induction 1 as [s N|s b a l F H [NE IH]]; split; try congruence; auto. simpl. destruct l; [congruence|]. rewrite IH. destruct F as [-> _]. auto.
Qed.
Lemma join_glue l d : join l d = glue d l.
Proof. induction l; simpl; auto. destruct l; auto. now rewrite IHl. Qed.
Lemma pieces_free d s l : d <> "" -> pieces d s l -> forall p, In p l -> ~ occurs d p.
Proof.
  intro ND. induction 1 as [s N|s b a l F H IH]; intros p [<- |I]; auto. destruct I. intros (x & y & E). destruct F as [E' M]. subst b.
  assert (Q := M x (y ++ d ++ a)). rewrite !slen_app in Q. destruct d; [congruence|]. simpl in Q.
  rewrite E' in Q. simpl in Q. assert (length x + S (length d + length y) <= length x)%nat. { apply Q. rewrite !sapp_assoc. simpl. now rewrite sapp_assoc. } lia.
Qed.
(** pieces whose only occurrence of the delimiter after appending it is the appended one *)
Definition separable (d p : string) : Prop := first_occurrence d (p ++ d) p "".
Lemma separable_first d p rest : separable d p -> first_occurrence d (p ++ d ++ rest) p rest.
Proof.
  intros [_ M]. split; auto. intros b' a' E. destruct (Nat.le_gt_cases (length p) (length b')) as [|G]; auto.
  rewrite <- (sapp_assoc p d rest), <- (sapp_assoc b' d a') in E. symmetry in E. apply sapp_split in E; [|rewrite !slen_app; lia]. destruct E as (m & E & _).
  rewrite sapp_assoc in E. eapply M; eauto.
Qed.
Lemma glue_pieces d l : l <> [] -> (forall p, In p l -> separable d p /\ ~ occurs d p) -> pieces d (glue d l) l.
Proof.
  induction l as [|x l IH]; [congruence|]. intros _ H. destruct l as [|y l]. { simpl. constructor. apply H; simpl; auto. }
  change (glue d (x :: y :: l)) with (x ++ d ++ glue d (y :: l)). econstructor; [apply separable_first, H; simpl; auto|].
  apply IH; [congruence|]. intros p I. apply H. simpl in *; tauto.
Qed.
Lemma char_separable c p : ~ occurs (char c) p -> separable (char c) p.
Proof.
  intro N. split; auto. intros b' a' E. destruct (Nat.le_gt_cases (length p) (length b')) as [|G]; auto. exfalso. apply N.
  symmetry in E. rewrite <- sapp_assoc in E. apply sapp_split in E; [|rewrite slen_app; simpl; lia]. destruct E as (m & E & _). exists b', m. now rewrite <- sapp_assoc.
Qed.
Lemma split_join d l : d <> "" -> l <> [] -> l <> [""] -> (forall p, In p l -> separable d p /\ ~ occurs d p) -> split (join l d) d false = l.
Proof.
  intros ND NL NE H. rewrite join_glue. assert (GP := glue_pieces d l NL H). assert (NS : glue d l <> "").
  { destruct l as [|x [|y l]]; [congruence|simpl; congruence|]. simpl. destruct x; simpl; [|congruence]. destruct d; simpl; congruence. }
  destruct (split_spec _ d NS ND) as [PS _]. eapply pieces_unique; eauto.
Qed.

(** * findReplace *)
Lemma replace_spec pat rep : pat <> "" -> forall fuel s, (length s < fuel)%nat -> exists r l,
  replace_loop fuel pat rep true s = Ok r /\ replaced pat rep s r /\ pieces pat s l /\ r = glue rep l.
Proof.
  intros N. induction fuel; intros s L; [lia|]. simpl. destruct (find_sub pat s) as [[b a]|] eqn:F.
  - apply find_sub_some in F. assert (Q := first_shorter _ _ _ _ N F). destruct (IHfuel a) as (r & l & E & R & PL & G); [lia|]. rewrite E.
    exists (b ++ rep ++ r), (b :: l). split; auto. split; [econstructor; eauto|]. split; [econstructor; eauto|].
    destruct (pieces_glue _ _ _ PL) as [NE _]. simpl. destruct l; [congruence|]. now rewrite G.
  - apply find_sub_none in F. exists s, [s]. repeat split; auto; now constructor.
Qed.
Lemma replaced_unique pat rep s r r' : replaced pat rep s r -> replaced pat rep s r' -> r = r'.
Proof.
  intro H; revert r'; induction H as [s N|s b a r F H IH]; intros r' H'; inversion H' as [s' N' E1 E2|s' b' a' k F' H'' E1 E2]; subst; auto.
  - destruct N. destruct F' as [-> _]. exists b', a'; auto.
  - destruct N'. destruct F as [-> _]. exists b, a; auto.
  - destruct (first_unique _ _ _ _ _ _ F F') as [-> ->]. now rewrite (IH _ H'').
Qed.
Lemma replace_all_spec s pat rep : pat <> "" -> exists r, find_replace s pat rep true = Ok r /\ replaced pat rep s r.
Proof. intro N. destruct (replace_spec pat rep N (S (length s)) s) as (r & l & E & R & _); [lia|]. eauto. Qed.
Lemma replace_first_spec s pat rep : find_replace s pat rep false =
  Ok (match find_sub pat s with Some (b, _) => b ++ rep | None => s end).
Proof. unfold find_replace. simpl. destruct (find_sub pat s) as [[b a]|]; auto. Qed.
Lemma find_empty s : find_sub "" s = Some ("", s).
Proof. destruct s; reflexivity. Qed.
Lemma replace_empty rep fuel s : replace_loop fuel "" rep true s = Diverge.
Proof. induction fuel; simpl; auto. rewrite find_empty, IHfuel. reflexivity. Qed.

(** * tokens *)
Lemma tokens_from_app cur a b c : is_space c = true -> tokens_from cur (a ++ String c b) = (tokens_from cur a ++ tokens b)%list.
Proof.
  intro W. revert cur; induction a as [|x a IH]; intro cur; simpl.
  - rewrite W. destruct (sempty cur); reflexivity.
  - destruct (is_space x); [destruct (sempty cur)|]; rewrite ?IH; auto.
Qed.
Lemma tokens_space a b c : is_space c = true -> tokens (a ++ String c b) = (tokens a ++ tokens b)%list.
Proof. apply tokens_from_app. Qed.
Definition word (w : string) : Prop := w <> "" /\ sforall (fun c => negb (is_space c)) w = true.
Lemma tokens_word w : word w -> tokens w = [w].
Proof.
  intros [N F]. unfold tokens. assert (H : forall cur s, sforall (fun c => negb (is_space c)) s = true -> tokens_from cur s = if sempty (cur ++ s) then [] else [cur ++ s]).
  { intros cur s; revert cur; induction s as [|c s IH]; intros cur G; simpl in *. { now rewrite sapp_nil_r. }
    apply andb_true_iff in G. destruct G as [G1 G2]. destruct (is_space c); [discriminate|]. rewrite IH by auto. unfold char. now rewrite sapp_assoc. }
  rewrite H by auto. simpl. destruct w; [congruence|reflexivity].
Qed.
Lemma tokens_join ws : Forall word ws -> tokens (join ws " ") = ws.
Proof.
  induction 1 as [|w ws W F IH]; [reflexivity|]. destruct ws as [|w' ws]. { now apply tokens_word. }
  change (join (w :: w' :: ws) " ") with (w ++ String " " (join (w' :: ws) " ")). rewrite tokens_space by reflexivity.
  now rewrite IH, tokens_word.
Qed.
Lemma sforall_app p a b : sforall p (a ++ b) = (sforall p a && sforall p b)%bool.
Proof. induction a; simpl; auto. now rewrite IHa, andb_assoc. Qed.
Lemma tokens_words s : Forall word (tokens s).
Proof.
  assert (H : forall s cur, sforall (fun c => negb (is_space c)) cur = true -> Forall word (tokens_from cur s)).
  { clear s. induction s as [|c s IH]; intros cur F; simpl.
    - destruct (sempty cur) eqn:E; constructor; auto. split; auto. now apply sempty_false.
    - destruct (is_space c) eqn:W.
      + destruct (sempty cur) eqn:E; [now apply IH|]. constructor; [|now apply IH]. split; auto. now apply sempty_false.
      + apply IH. rewrite sforall_app, F. simpl. now rewrite W. }
  apply H. reflexivity.
Qed.
Lemma tokens_blank s : sforall is_space s = true -> tokens s = [].
Proof. unfold tokens. induction s as [|c s IH]; simpl; auto. intro H. apply andb_true_iff in H. destruct H as [-> H]. auto. Qed.
Lemma tokens_lead w s : sforall is_space w = true -> tokens (w ++ s) = tokens s.
Proof. intro H. induction w as [|c w IH]; auto. simpl in H. apply andb_true_iff in H. destruct H as [H1 H2]. unfold tokens in *; simpl. rewrite H1. auto. Qed.
