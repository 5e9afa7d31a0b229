(** Lemmas on texts used for the Fuzzy Control Language. *)
From Coq Require Import ZArith List Bool String Ascii Arith Lia.
From Verif Require Import Base Op Text SpecText TextProofs TextProofs2 Rule Fll SpecFll FllText FllExport Fis Fcl SpecFcl.
Import ListNotations.
Local Open Scope string_scope.

(** ** comments *)
Fixpoint slashed (s : string) : bool :=
  match s with
  | "" => false
  | String a r => (match r with String b _ => Ascii.eqb a "/" && Ascii.eqb b "/" | "" => false end || slashed r)%bool
  end.
Lemma slashed_find s : slashed s = false -> find_sub "//" s = None.
Proof.
  induction s as [|a r IH]; intro H; [reflexivity|]. cbn [slashed] in H. apply orb_false_iff in H. destruct H as [H1 H2]. cbn [find_sub].
  assert (P : prefix "//" (String a r) = false).
  { cbn [prefix]. destruct (ascii_dec "/" a) as [<-|]; [|reflexivity]. destruct r as [|b r]; [reflexivity|]. cbn [prefix]. destruct (ascii_dec "/" b) as [<-|]; [discriminate H1|reflexivity]. }
  rewrite P, (IH H2). reflexivity.
Qed.
Lemma slashed_none s : ~ occurs "//" s -> slashed s = false.
Proof.
  induction s as [|a r IH]; intro N; [reflexivity|]. cbn [slashed]. apply orb_false_iff. split.
  - destruct r as [|b r]; [reflexivity|]. destruct (Ascii.eqb_spec a "/") as [->|]; [|reflexivity]. destruct (Ascii.eqb_spec b "/") as [->|]; [|reflexivity]. destruct N. exists "", r. reflexivity.
  - apply IH. intros (b & c & ->). apply N. exists (String a b), c. reflexivity.
Qed.
Lemma slashed_lead a b : lacks "/" a = true -> slashed (a ++ b) = slashed b.
Proof.
  induction a as [|c a IH]; intro L; [reflexivity|]. cbn [lacks] in L. apply andb_true_iff in L. destruct L as [L1 L2]. apply negb_true_iff in L1. cbn [append slashed]. rewrite (IH L2), L1.
  destruct (a ++ b); reflexivity.
Qed.
Lemma slashed_tail a c b : Ascii.eqb c "/" = false -> lacks "/" b = true -> slashed (a ++ String c b) = slashed a.
Proof.
  intros C L. induction a as [|x a IH].
  - cbn [append]. rewrite <- (sapp_nil_r (String c b)). apply (slashed_lead (String c b) ""). cbn [lacks]. now rewrite C, L.
  - cbn [append slashed]. rewrite IH. f_equal. destruct a as [|y a]; cbn [append]; [|reflexivity]. rewrite C, andb_false_r. reflexivity.
Qed.
Lemma slashed_lacks s : lacks "/" s = true -> slashed s = false.
Proof. intro L. rewrite <- (sapp_nil_r s), (slashed_lead s "" L). reflexivity. Qed.
Definition clearb (s : string) : bool := (lacks newline s && lacks "#" s && lacks ";" s && negb (slashed s))%bool.
Lemma clear_clearb s : clear_text s -> clearb s = true.
Proof. intros (A & B & C & D). unfold clearb. unfold one_line in A. rewrite A, B, C, (slashed_none s D). reflexivity. Qed.
(** characters which a line can hold anywhere *)
Definition calm (c : ascii) : bool := negb (Ascii.eqb c newline || Ascii.eqb c "#" || Ascii.eqb c ";" || Ascii.eqb c "/").
Lemma calm_lacks s : sforall calm s = true -> lacks newline s = true /\ lacks "#" s = true /\ lacks ";" s = true /\ lacks "/" s = true.
Proof.
  intro H. rewrite !lacks_sforall. repeat split; (eapply sforall_impl; [|exact H]); intro c; unfold calm; rewrite !negb_true_iff, !orb_false_iff; tauto.
Qed.
Lemma calm_clear s : sforall calm s = true -> clearb s = true.
Proof. intro H. apply calm_lacks in H. destruct H as (A & B & C & D). unfold clearb. rewrite A, B, C, (slashed_lacks s D). reflexivity. Qed.
Lemma clear_lead a b : sforall calm a = true -> clearb b = true -> clearb (a ++ b) = true.
Proof.
  intros H. apply calm_lacks in H. destruct H as (A & B & C & D). unfold clearb. rewrite !andb_true_iff. intros (((A2 & B2) & C2) & D2).
  rewrite !lacks_app, A, B, C, A2, B2, C2, (slashed_lead a b D), D2. auto.
Qed.
Lemma clear_parts s : clearb s = true -> lacks newline s = true /\ lacks "#" s = true /\ lacks ";" s = true /\ slashed s = false.
Proof. unfold clearb. rewrite !andb_true_iff, negb_true_iff. tauto. Qed.

(** ** lines *)
Lemma blank_lacks c s : is_space c = false -> blank s = true -> lacks c s = true.
Proof. intros E. rewrite lacks_sforall. apply sforall_impl. intros x H. apply negb_true_iff. destruct (Ascii.eqb_spec x c); congruence. Qed.
Lemma split_whole s sep : find_sub sep s = None -> split s sep false = [s].
Proof. intro H. unfold split, split_res, split_fuel. destruct (sempty s || sempty sep)%bool; [reflexivity|]. cbn [split_loop]. rewrite H. unfold keep. rewrite andb_false_r. reflexivity. Qed.
(** the line [s] as [fcl_clean] leaves it *)
Definition shown (s : string) : string := match s with "" => "" | String c _ => if Ascii.eqb c "%" then "" else s end.
Lemma clean_line ind s : blank ind = true -> clearb s = true -> fcl_clean (ind ++ s) = Ok (shown (trim s)).
Proof.
  intros B C. apply clear_parts in C. destruct C as (_ & H & K & L). unfold fcl_clean.
  rewrite (split_whole (ind ++ s) "//") by (apply slashed_find; rewrite slashed_lead; [exact L|now apply blank_lacks]). cbn [hd]. rewrite hash_split, hash_id by (rewrite lacks_app, H, (blank_lacks "#" ind eq_refl B); reflexivity).
  unfold replace_all, find_replace. cbn [replace_loop]. change ";" with (char ";"). rewrite find_char_none by (rewrite lacks_app, K, (blank_lacks ";" ind eq_refl B); reflexivity).
  cbn [rbind]. rewrite trim_lead by exact B. reflexivity.
Qed.
Lemma clean_closed ind s : blank ind = true -> clearb s = true -> fcl_clean (ind ++ s ++ ";") = Ok (shown (trim s)).
Proof.
  intros B C. apply clear_parts in C. destruct C as (_ & H & K & L). unfold fcl_clean.
  rewrite (split_whole (ind ++ s ++ ";") "//") by (apply slashed_find; rewrite slashed_lead by (now apply blank_lacks); rewrite slashed_tail by reflexivity; exact L). cbn [hd].
  rewrite hash_split, hash_id by (rewrite !lacks_app, H, (blank_lacks "#" ind eq_refl B); reflexivity).
  assert (R1 : replace_all (ind ++ s ++ ";") ";" "" = Ok (ind ++ s)).
  { unfold replace_all, find_replace. rewrite <- sapp_assoc. cbn [replace_loop].
    assert (E : find_sub ";" ((ind ++ s) ++ ";") = Some (ind ++ s, "")) by (apply (find_char ";" (ind ++ s) ""); rewrite lacks_app, K, (blank_lacks ";" ind eq_refl B); reflexivity).
    rewrite E. rewrite slen_app, Nat.add_comm. cbn [String.length Nat.add replace_loop]. change (find_sub ";" "") with (@None (string * string)). cbn [rbind append]. now rewrite sapp_nil_r. }
  rewrite R1. cbn [rbind]. rewrite trim_lead by exact B. reflexivity.
Qed.
Lemma getlines_text ls : Forall one_line ls -> getlines (text_of ls) = ls.
Proof.
  intro F. rewrite getlines_chop. assert (E : chop newline (text_of ls) = (ls ++ [""])%list).
  { induction F as [|l ls H F IH]; [reflexivity|]. cbn [text_of fold_right]. change (char newline ++ fold_right (fun l s => l ++ char newline ++ s) "" ls) with (String newline (text_of ls)). rewrite chop_app by exact H. cbn [app]. now rewrite IH. }
  rewrite E. clear. induction ls as [|l ls IH]; [reflexivity|]. cbn [app]. destruct ls as [|m ls]; [reflexivity|]. cbn [app] in *. change (dropend (l :: m :: (ls ++ [""])%list)) with (l :: dropend (m :: (ls ++ [""])%list)). now rewrite IH.
Qed.
Lemma text_of_app ls ls' : text_of (ls ++ ls')%list = text_of ls ++ text_of ls'.
Proof. induction ls as [|l ls IH]; [reflexivity|]. cbn [app text_of fold_right]. unfold text_of in IH. now rewrite IH, !sapp_assoc. Qed.

(** ** tokens *)
Lemma tokens_tail a b : blank b = true -> tokens (a ++ b) = tokens a.
Proof.
  intro B. destruct b as [|c b]; [now rewrite sapp_nil_r|]. unfold blank in B. cbn [sforall] in B. apply andb_true_iff in B. destruct B as [C B]. rewrite tokens_space by exact C. rewrite (tokens_blank b B). apply app_nil_r.
Qed.
Lemma trim_split s : exists l r, s = l ++ trim s ++ r /\ blank l = true /\ blank r = true.
Proof.
  rewrite trim_lr. destruct (ltrim_split s) as (l & E & L). destruct (rtrim_split (ltrim s)) as (r & F & R). exists l, r. rewrite <- F, <- E. auto.
Qed.
Lemma tokens_trim s : tokens (trim s) = tokens s.
Proof. destruct (trim_split s) as (l & r & E & L & R). rewrite E at 2. rewrite tokens_lead by exact L. now rewrite tokens_tail. Qed.
Lemma space_out_app a b : space_out (a ++ b) = space_out a ++ space_out b.
Proof. induction a as [|c a IH]; [reflexivity|]. cbn [append space_out]. now rewrite IH, sapp_assoc. Qed.
Lemma space_out_blank s : blank s = true -> space_out s = s.
Proof.
  unfold blank. induction s as [|c s IH]; [reflexivity|]. cbn [sforall space_out]. rewrite andb_true_iff. intros [C B]. rewrite (IH B). unfold space_char.
  destruct (Ascii.eqb_spec c "("); [subst; discriminate|]. destruct (Ascii.eqb_spec c ")"); [subst; discriminate|]. destruct (Ascii.eqb_spec c ","); [subst; discriminate|].
  destruct (Ascii.eqb_spec c ":"); [subst; discriminate|]. destruct (Ascii.eqb_spec c "="); [subst; discriminate|]. reflexivity.
Qed.
(** characters of words that the importer does not take apart *)
Definition firm (c : ascii) : bool := negb (is_space c || Ascii.eqb c "(" || Ascii.eqb c ")" || Ascii.eqb c "," || Ascii.eqb c ":" || Ascii.eqb c "=").
Lemma space_out_firm s : sforall firm s = true -> space_out s = s.
Proof.
  induction s as [|c s IH]; [reflexivity|]. cbn [sforall space_out]. rewrite andb_true_iff. intros [C B]. rewrite (IH B). unfold firm in C. rewrite negb_true_iff, !orb_false_iff in C. destruct C as (((((_ & C1) & C2) & C3) & C4) & C5).
  unfold space_char. rewrite C1, C2, C3, C4, C5. reflexivity.
Qed.
Definition pieces_of (s : string) : list string := tokens (space_out s).
Lemma pieces_trim s : pieces_of (trim s) = pieces_of s.
Proof.
  unfold pieces_of. destruct (trim_split s) as (l & r & E & L & R). rewrite E at 2. rewrite !space_out_app, (space_out_blank l L), (space_out_blank r R), tokens_lead by exact L. now rewrite tokens_tail.
Qed.
Lemma pieces_space a b : pieces_of (a ++ " " ++ b) = (pieces_of a ++ pieces_of b)%list.
Proof. unfold pieces_of. rewrite !space_out_app. change (space_out " " ++ space_out b) with (String " " (space_out b)). now apply tokens_space. Qed.
Lemma pieces_join ws : pieces_of (join ws " ") = flat_map pieces_of ws.
Proof.
  induction ws as [|w ws IH]; [reflexivity|]. destruct ws as [|w2 ws]; [cbn [join flat_map]; now rewrite app_nil_r|]. change (join (w :: w2 :: ws) " ") with (w ++ " " ++ join (w2 :: ws) " ").
  rewrite pieces_space, IH. reflexivity.
Qed.
Lemma firm_word s : s <> "" -> sforall firm s = true -> pieces_of s = [s].
Proof.
  intros N F. unfold pieces_of. rewrite space_out_firm by exact F. apply tokens_word. split; [exact N|]. eapply sforall_impl; [|exact F]. intro c. unfold firm. rewrite !negb_true_iff, !orb_false_iff. tauto.
Qed.
Lemma sfilter_app p a b : sfilter p (a ++ b) = sfilter p a ++ sfilter p b.
Proof. induction a as [|c a IH]; [reflexivity|]. cbn [append sfilter]. rewrite IH. destruct (p c); reflexivity. Qed.
Lemma squeezed_out s : squeezed (space_out s) = squeezed s.
Proof.
  unfold squeezed. induction s as [|c s IH]; [reflexivity|]. cbn [space_out]. rewrite sfilter_app, IH. change (String c s) with (char c ++ s). rewrite sfilter_app. f_equal. unfold space_char.
  destruct (Ascii.eqb_spec c "("); [subst; reflexivity|]. destruct (Ascii.eqb_spec c ")"); [subst; reflexivity|]. destruct (Ascii.eqb_spec c ","); [subst; reflexivity|].
  destruct (Ascii.eqb_spec c ":"); [subst; reflexivity|]. destruct (Ascii.eqb_spec c "="); [subst; reflexivity|]. reflexivity.
Qed.
Lemma join_empty_app a b : join (a ++ b)%list "" = join a "" ++ join b "".
Proof.
  induction a as [|x a IH]; [reflexivity|]. assert (J : forall x l, join (x :: l) "" = x ++ join l "") by (intros y l; destruct l; [cbn; now rewrite sapp_nil_r|reflexivity]).
  cbn [app]. rewrite !J, IH. now rewrite sapp_assoc.
Qed.
Lemma tokens_squeezed s : forall cur, join (tokens_from cur s) "" = cur ++ squeezed s.
Proof.
  assert (J : forall x l, join (x :: l) "" = x ++ join l "") by (intros y l; destruct l; [cbn; now rewrite sapp_nil_r|reflexivity]).
  unfold squeezed. induction s as [|c s IH]; intro cur; cbn [tokens_from sfilter].
  - destruct cur; [reflexivity|]. cbn [sempty]. cbn [join]. now rewrite sapp_nil_r.
  - destruct (is_space c); cbn [negb]; [|rewrite IH; now rewrite sapp_assoc]. destruct cur; [apply IH|]. cbn [sempty]. rewrite J, IH. reflexivity.
Qed.
Lemma pieces_squeezed s : join (pieces_of s) "" = squeezed s.
Proof. unfold pieces_of, tokens. rewrite tokens_squeezed. cbn [append]. apply squeezed_out. Qed.
Lemma pieces_words s : Forall (fun w => w <> "" /\ trim w = w) (pieces_of s).
Proof. eapply Forall_impl; [|apply tokens_words]. intros w [N H]. split; [exact N|]. now apply trim_word. Qed.

(** ** texts in two parts *)
Lemma two_parts_at c a b : lacks c a = true -> a <> "" -> lacks c b = true -> b <> "" -> two_parts (a ++ String c b) (char c) = Ok (a, b).
Proof.
  intros A NA B NB. unfold two_parts. rewrite split_words by (destruct a; [congruence|discriminate]). rewrite chop_app by exact A. rewrite (chop_lacks c b B).
  destruct a; [congruence|]. destruct b; [congruence|]. reflexivity.
Qed.
Lemma two_parts_find sep a b : a <> "" -> sep <> "" -> b <> "" -> find_sub sep (a ++ sep ++ b) = Some (a, b) -> find_sub sep b = None -> two_parts (a ++ sep ++ b) sep = Ok (a, b).
Proof.
  intros NA NS NB F N. unfold two_parts, split, split_res, split_fuel.
  assert (E1 : sempty (a ++ sep ++ b) = false) by (destruct a; [congruence|reflexivity]). assert (E2 : sempty sep = false) by (destruct sep; [congruence|reflexivity]). rewrite E1, E2. cbn [orb].
  cbn [split_loop]. rewrite F. destruct (length (a ++ sep ++ b)) as [|n] eqn:L; [destruct a; [congruence|discriminate L]|]. cbn [split_loop]. rewrite N. cbn [rbind].
  unfold keep. destruct a; [congruence|]. destruct b; [congruence|]. reflexivity.
Qed.
(** at most one dot, followed by something *)
Definition dotted (s : string) : Prop := lacks "." s = true \/ exists a c b, s = a ++ String "." (String c b) /\ lacks "." a = true /\ lacks "." (String c b) = true.
Lemma find_dots_lead a t : lacks "." a = true -> find_sub ".." (a ++ t) = match find_sub ".." t with Some (x, y) => Some (a ++ x, y) | None => None end.
Proof.
  induction a as [|c a IH]; intro L; [cbn [append]; destruct (find_sub ".." t) as [[]|]; reflexivity|]. cbn [lacks] in L. apply andb_true_iff in L. destruct L as [L1 L2]. cbn [append find_sub].
  assert (P : prefix ".." (String c (a ++ t)) = false) by (cbn [prefix]; destruct (ascii_dec "." c) as [<-|]; [discriminate L1|reflexivity]). rewrite P, (IH L2). destruct (find_sub ".." t) as [[]|]; reflexivity.
Qed.
Lemma find_dots_one c t : Ascii.eqb c "." = false -> find_sub ".." (String "." (String c t)) = match find_sub ".." (String c t) with Some (x, y) => Some (String "." x, y) | None => None end.
Proof.
  intro E. assert (P : prefix ".." (String "." (String c t)) = false).
  { destruct (prefix ".." (String "." (String c t))) eqn:Q; [|reflexivity]. apply prefix_spec in Q. destruct Q as (a & Q). cbn [append] in Q. injection Q as -> _. discriminate E. }
  cbn [find_sub] in *. rewrite P. reflexivity.
Qed.
Lemma dots_first a b : dotted a -> find_sub ".." (a ++ ".." ++ b) = Some (a, b).
Proof.
  assert (B0 : find_sub ".." (".." ++ b) = Some ("", b)) by (destruct b; reflexivity).
  intros [L|(x & c & y & -> & LX & LY)].
  - rewrite (find_dots_lead a (".." ++ b) L), B0. now rewrite sapp_nil_r.
  - assert (LC := LY). cbn [lacks] in LC. apply andb_true_iff in LC. destruct LC as [LC _]. apply negb_true_iff in LC.
    rewrite sapp_assoc, (find_dots_lead x _ LX). change (String "." (String c y) ++ ".." ++ b) with (String "." (String c (y ++ ".." ++ b))). rewrite (find_dots_one c _ LC).
    change (String c (y ++ ".." ++ b)) with (String c y ++ ".." ++ b). rewrite (find_dots_lead (String c y) _ LY), B0. now rewrite sapp_nil_r.
Qed.
Lemma dots_none a : dotted a -> find_sub ".." a = None.
Proof.
  intros [L|(x & c & y & -> & LX & LY)].
  - rewrite <- (sapp_nil_r a), (find_dots_lead a "" L). reflexivity.
  - assert (LC := LY). cbn [lacks] in LC. apply andb_true_iff in LC. destruct LC as [LC _]. apply negb_true_iff in LC.
    rewrite (find_dots_lead x _ LX), (find_dots_one c _ LC). rewrite <- (sapp_nil_r (String c y)), (find_dots_lead (String c y) "" LY). reflexivity.
Qed.
(** ":=" where nothing else has a colon *)
Lemma two_parts_assign a b : lacks ":" a = true -> a <> "" -> lacks ":" b = true -> b <> "" -> two_parts (a ++ ":=" ++ b) ":=" = Ok (a, b).
Proof.
  intros A NA B NB. assert (Q : forall s t, lacks ":" s = true -> find_sub ":=" (s ++ t) = match find_sub ":=" t with Some (x, y) => Some (s ++ x, y) | None => None end).
  { induction s as [|c s IH]; intros t L; [cbn [append]; destruct (find_sub ":=" t) as [[]|]; reflexivity|]. cbn [lacks] in L. apply andb_true_iff in L. destruct L as [L1 L2]. cbn [append find_sub].
    assert (P : prefix ":=" (String c (s ++ t)) = false) by (cbn [prefix]; destruct (ascii_dec ":" c) as [<-|]; [discriminate L1|reflexivity]). rewrite P, (IH _ L2). destruct (find_sub ":=" t) as [[]|]; reflexivity. }
  apply two_parts_find; auto; [discriminate| |].
  - rewrite (Q a _ A). assert (E : find_sub ":=" (":=" ++ b) = Some ("", b)) by (destruct b; reflexivity). rewrite E. now rewrite sapp_nil_r.
  - rewrite <- (sapp_nil_r b), (Q b "" B). reflexivity.
Qed.
