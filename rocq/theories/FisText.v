(** Lines and sections of files in the Fuzzy Inference System format. *)
From Coq Require Import ZArith List Bool String Ascii Arith Lia.
From Verif Require Import Base Op Norm Hedge Shape Discrete Defuzz Aggregated Text Function Rule Var Activation Engine Factory
  SpecText TextProofs TextProofs2 RuleProofs3 Fll SpecFll FllText FllLines FllExport FllRound FllRound2 FllFix Fis SpecFis FisRule2 FisBundle Fcl SpecFcl FclText FclRound FclRound2 FclRound4 SpecFis2.
Import ListNotations.
Local Open Scope string_scope.

Definition unquote (s : string) : string := sfilter (fun c => negb (Ascii.eqb c "'")) s.
Lemma sfilter_id p s : sforall p s = true -> sfilter p s = s.
Proof. induction s as [|c s IH]; [reflexivity|]. cbn [sforall sfilter]. intro H. apply andb_true_iff in H. destruct H as [-> H]. now rewrite (IH H). Qed.
Lemma unquote_id s : lacks "'" s = true -> unquote s = s.
Proof. intro H. apply sfilter_id. now rewrite <- lacks_sforall. Qed.
Lemma unquote_app a b : unquote (a ++ b) = unquote a ++ unquote b.
Proof. apply sfilter_app. Qed.
Lemma join_chop c s : join (chop c s) "" = sfilter (fun x => negb (Ascii.eqb x c)) s.
Proof.
  induction s as [|x s IH]; [reflexivity|]. cbn [chop sfilter]. assert (NE := chop_nonempty c s). destruct (chop c s) as [|p ps]; [congruence|]. destruct (Ascii.eqb x c); cbn [negb].
  - exact IH.
  - rewrite <- IH. destruct ps; reflexivity.
Qed.
Lemma join_nonempty l : join (filter nonempty l) "" = join l "".
Proof.
  induction l as [|a l IH]; [reflexivity|]. destruct a as [|c a]; cbn [filter].
  - change (nonempty "") with false. cbn match. rewrite IH. destruct l; reflexivity.
  - change (nonempty (String c a)) with true. cbn match. etransitivity; [exact (join_empty_app [String c a] (filter nonempty l))|]. rewrite IH. symmetry. exact (join_empty_app [String c a] l).
Qed.
Lemma replace_quotes s : s <> "" -> replace_all s "'" "" = Ok (unquote s).
Proof. intro H. rewrite replace_split by (assumption || discriminate). change "'" with (char "'") at 1. rewrite (split_chop "'" s H), join_chop. reflexivity. Qed.

(** ** lines *)
Definition quiet (s : string) : bool := (lacks "#" s && negb (slashed s))%bool.
Lemma clean_ok c s : is_space c = false -> Ascii.eqb c "%" = false -> quiet (String c s) = true -> trim (String c s) = String c s ->
  fis_clean (String c s) = Ok (Some (unquote (String c s))).
Proof.
  intros A B Q E. unfold quiet in Q. apply andb_true_iff in Q. destruct Q as [H SL]. apply negb_true_iff in SL. unfold fis_clean.
  rewrite (split_whole _ "//" (slashed_find _ SL)). cbn [hd]. rewrite hash_split, (hash_id _ H), E. rewrite B. rewrite replace_quotes by discriminate. reflexivity.
Qed.
Lemma clean_empty : fis_clean "" = Ok None. Proof. reflexivity. Qed.
Lemma clean_comment s : fis_clean (String "#" s) = Ok None.
Proof.
  unfold fis_clean. assert (H : exists t, hd "" (split (String "#" s) "//" false) = String "#" t).
  { assert (D := split_spec (String "#" s) "//" ltac:(discriminate) ltac:(discriminate)). destruct D as [D _]. inversion D as [s0 O E1 E2|s0 b a ps F G E1 E2]; [eexists; reflexivity|].
    destruct F as [F _]. cbn [hd]. destruct b as [|c b]; [discriminate F|]. injection F as <- _. eexists; reflexivity. }
  destruct H as [t ->]. rewrite hash_split. reflexivity.
Qed.

(** ** sections *)
Inductive cleans : list string -> list string -> Prop :=
| cl_nil : cleans [] []
| cl_skip raw raws cs : fis_clean raw = Ok None -> cleans raws cs -> cleans (raw :: raws) cs
| cl_line raw raws c cs : fis_clean raw = Ok (Some c) -> cleans raws cs -> cleans (raw :: raws) (c :: cs).
Lemma cleans_app r1 c1 r2 c2 : cleans r1 c1 -> cleans r2 c2 -> cleans (r1 ++ r2) (c1 ++ c2).
Proof. intros H K. induction H; cbn [app]; [exact K|now apply cl_skip|now apply cl_line]. Qed.
Lemma join_snoc h ls l : join ((h :: ls) ++ [l])%list (char newline) = join (h :: ls) (char newline) ++ char newline ++ l.
Proof. apply (join_app (h :: ls) [l]); discriminate. Qed.
Lemma sections_inner raws ls : cleans raws ls -> Forall (fun l => fis_heading l = false) ls -> forall dn h before_,
  rfold fis_section_line (dn ++ [join (h :: before_) (char newline)])%list raws = Ok (dn ++ [join (h :: before_ ++ ls) (char newline)])%list.
Proof.
  intro C. induction C as [|raw raws cs K C IH|raw raws c cs K C IH]; intros F dn h bf.
  - now rewrite app_nil_r.
  - cbn [rfold]. unfold fis_section_line at 1. rewrite K. cbn [rbind]. now apply IH.
  - cbn [rfold]. unfold fis_section_line at 1. rewrite K. cbn [rbind]. inversion F as [|? ? F1 F2]; subst. rewrite F1.
    assert (NE : exists x r, (dn ++ [join (h :: bf) (char newline)])%list = x :: r) by (destruct dn; eexists; eexists; reflexivity). destruct NE as (x & r & E). rewrite E. rewrite <- E. cbn [rbind].
    rewrite removelast_snoc, last_snoc. assert (Q := IH F2 dn h (bf ++ [c])%list). rewrite <- !app_assoc in Q. cbn [app] in Q. rewrite <- Q. do 3 f_equal. symmetry. exact (join_snoc h bf c).
Qed.
Lemma sections_group raws h ls dn : cleans raws (h :: ls) -> fis_heading h = true -> Forall (fun l => fis_heading l = false) ls ->
  rfold fis_section_line dn raws = Ok (dn ++ [join (h :: ls) (char newline)])%list.
Proof.
  intros C H F. remember (h :: ls) as cs eqn:E. induction C as [|raw raws cs K C IH|raw raws c cs K C IH]; [discriminate| |].
  - cbn [rfold]. unfold fis_section_line at 1. rewrite K. cbn [rbind]. now apply IH.
  - injection E as -> ->. cbn [rfold]. unfold fis_section_line at 1. rewrite K. cbn [rbind]. rewrite H. cbn [rbind]. exact (sections_inner raws ls C F dn h []).
Qed.
Definition plain_line (l : string) : Prop := one_line l /\ l <> "" /\ fis_heading l = false.
Lemma section_read h ls : one_line h -> h <> "" -> Forall plain_line ls -> section_lines (join (h :: ls) (char newline)) = ls.
Proof.
  intros A B F. unfold section_lines. rewrite getlines_join; [reflexivity|]. constructor; [now split|]. eapply Forall_impl; [|exact F]. intros l (L & N & _). now split.
Qed.
Lemma join_lead h ls : exists t, join (h :: ls) (char newline) = h ++ t.
Proof. destruct ls as [|l ls]; [exists ""; cbn; now rewrite sapp_nil_r|eexists; reflexivity]. Qed.

(** a list of sections *)
Lemma sections_all (gs : list (list string * (string * list string))) : Forall (fun g => cleans (fst g) (fst (snd g) :: snd (snd g)) /\ fis_heading (fst (snd g)) = true /\ Forall plain_line (snd (snd g))) gs ->
  forall dn, rfold fis_section_line dn (flat_map fst gs) = Ok (dn ++ map (fun g => join (fst (snd g) :: snd (snd g)) (char newline)) gs)%list.
Proof.
  intro F. induction F as [|[raws [h ls]] gs (C & H & P) F IH]; intro dn; cbn [flat_map map fst snd].
  - now rewrite app_nil_r.
  - rewrite rfold_join. cbn [fst snd] in *. rewrite (sections_group raws h ls dn C H); [|eapply Forall_impl; [|exact P]; intros l (_ & _ & Q); exact Q].
    cbn [rbind]. rewrite IH, <- app_assoc. reflexivity.
Qed.
