(** Sections of variables in the Fuzzy Inference System format as exported and imported. *)
From Coq Require Import ZArith List Bool String Ascii Arith Lia.
From Verif Require Import Base Op Norm Hedge Shape Discrete Defuzz Aggregated Text Function Rule Var Activation Engine Factory
  SpecText TextProofs TextProofs2 RuleProofs3 Fll SpecFll FllText FllLines FllExport FllRound FllRound2 FllFix Fis SpecFis FisRule2 FisBundle Fcl SpecFcl FclText FclRound FclRound2 FclRound4 SpecFis2 FisText.
Import ListNotations.
Local Open Scope string_scope.

Definition unbracket (s : string) : string := sfilter (fun c => negb (Ascii.eqb c "[" || Ascii.eqb c "]")) s.
Lemma unbracket_app a b : unbracket (a ++ b) = unbracket a ++ unbracket b.
Proof. apply sfilter_app. Qed.
Lemma unbracket_id s : lacks "[" s = true -> lacks "]" s = true -> unbracket s = s.
Proof.
  intros A B. apply sfilter_id. rewrite lacks_sforall in *. induction s as [|c s IH]; [reflexivity|]. cbn [sforall] in *. apply andb_true_iff in A, B. destruct A as [A1 A2], B as [B1 B2].
  rewrite (IH A2 B2), andb_true_r. apply negb_true_iff in A1, B1. now rewrite A1, B1.
Qed.
Lemma numeral_quiet s : sforall numeral s = true -> quiet s = true /\ lacks "'" s = true /\ lacks "=" s = true /\ lacks ":" s = true /\ lacks "," s = true /\ lacks "[" s = true /\ lacks "]" s = true /\ lacks newline s = true /\ lacks " " s = true /\ lacks "/" s = true.
Proof.
  intro F. assert (L : forall c, numeral c = false -> lacks c s = true).
  { intros c E. rewrite lacks_sforall. eapply sforall_impl; [|exact F]. intros x H. apply negb_true_iff. destruct (Ascii.eqb_spec x c); congruence. }
  repeat split; try (apply L; reflexivity). unfold quiet. rewrite (L "#"%char eq_refl), slashed_lacks by (apply L; reflexivity). reflexivity.
Qed.
Lemma name_lacks c s : name_char c = false -> sforall name_char s = true -> lacks c s = true.
Proof. intros E. rewrite lacks_sforall. apply sforall_impl. intros x H. apply negb_true_iff. destruct (Ascii.eqb_spec x c); congruence. Qed.
Lemma name_solid s : sforall name_char s = true -> sforall (fun c => negb (is_space c)) s = true.
Proof. intro F. apply firm_space. eapply sforall_impl; [apply name_firm|exact F]. Qed.
Lemma quiet_app a b : lacks "#" a = true -> lacks "/" a = true -> quiet (a ++ b) = quiet b.
Proof. intros A B. unfold quiet. rewrite lacks_app, A, slashed_lead by exact B. reflexivity. Qed.
Lemma quiet_close a c : Ascii.eqb c "/" = false -> Ascii.eqb c "#" = false -> quiet (a ++ char c) = quiet a.
Proof. intros A B. unfold quiet, char. rewrite lacks_app. cbn [lacks]. rewrite B. rewrite slashed_tail by (exact A || reflexivity). cbn [negb andb]. now rewrite andb_true_r. Qed.
Lemma quiet_all s : lacks "#" s = true -> lacks "/" s = true -> quiet s = true.
Proof. intros A B. unfold quiet. now rewrite A, (slashed_lacks s B). Qed.

Section Round.
Context {T : Type} `{S : Scalar T}.
Variables (d : nat) (resolution : Z).
Hypothesis N : printable (T := T) d.
Hypothesis numbers : forall x : T, sforall numeral (str d x) = true /\ dotted (str d x).

(** ** terms *)
Definition mclass (b : tbody T) : string :=
  match b with
  | TShape s =>
    match s with
    | Bell _ _ _ => "gbellmf" | Binary _ _ => "binarymf" | Concave _ _ => "concavemf" | Cosine _ _ => "cosinemf" | Gaussian _ _ => "gaussmf" | GaussianProduct _ _ _ _ => "gauss2mf"
    | PiShape _ _ _ _ => "pimf" | Ramp _ _ => "rampmf" | Rectangle _ _ => "rectmf" | SigmoidDifference _ _ _ _ => "dsigmf" | Sigmoid _ _ => "sigmf"
    | SigmoidProduct _ _ _ _ => "psigmf" | SShape _ _ => "smf" | Spike _ _ => "spikemf" | Trapezoid _ _ _ _ => "trapmf" | Triangle _ _ _ => "trimf" | ZShape _ _ => "zmf" end
  | TConstant _ => "constant" | TDiscrete _ => "discretemf" | TFunction _ => "function" | TLinear _ _ => "linear" end.
Definition fpars (b : tbody T) : list T :=
  match b with
  | TShape s =>
    match s with
    | Bell c w sl => [w; sl; c] | Gaussian m sd => [sd; m] | GaussianProduct ma sa mb sb => [sa; ma; sb; mb] | SigmoidDifference l r f g => [r; l; f; g]
    | Sigmoid i sl => [sl; i] | SigmoidProduct l r f g => [r; l; f; g] | s => shape_list s end
  | TConstant v => [v] | TDiscrete xy => flat_map (fun p => [fst p; snd p]) xy | TFunction _ => [] | TLinear cs _ => cs end.
Definition ftext (b : tbody T) : string := match b with TFunction f => fn_formula f | _ => join (map (str d) (fpars b)) " " end.
Lemma strs_lack c l : numeral c = false -> Ascii.eqb " " c = false -> lacks c (join (map (str d) (l : list T)) " ") = true.
Proof.
  intros E F. rewrite lacks_sforall. apply join_sforall; [cbn [sforall]; now rewrite F|]. apply Forall_map, Forall_forall. intros x _. rewrite <- lacks_sforall. rewrite lacks_sforall. eapply sforall_impl; [|apply (numbers x)].
  intros y H. apply negb_true_iff. destruct (Ascii.eqb_spec y c); congruence.
Qed.
Lemma text_facts t : fis_term_ok t -> let s := ftext (tm_body t) in
  quiet s = true /\ lacks "'" s = true /\ lacks "=" s = true /\ lacks ":" s = true /\ lacks "," s = true /\ lacks "[" s = true /\ lacks "]" s = true /\ lacks newline s = true.
Proof.
  unfold fis_term_ok. intro H. cbv zeta.
  assert (L : (forall f, tm_body t <> TFunction f) -> forall c, numeral c = false -> Ascii.eqb " " c = false -> lacks c (ftext (tm_body t)) = true).
  { intros NF c A B. unfold ftext. destruct (tm_body t); try (apply strs_lack; assumption). destruct (NF f); reflexivity. }
  destruct (tm_body t) as [s|xy|v|cs b|f]; [..|unfold ftext; destruct H as ((A & B & C & D & E) & F & G & I & J & _); repeat split; auto; unfold quiet; rewrite B, (slashed_none _ C); reflexivity];
    (repeat split; try (apply L; [discriminate|reflexivity|reflexivity]); apply quiet_all; (apply L; [discriminate|reflexivity|reflexivity])).
Qed.
Lemma mclass_facts (b : tbody T) : mclass b <> "" /\ sforall name_char (mclass b) = true.
Proof. destruct b as [s|xy|v|cs b|f]; [destruct s|..]; split; reflexivity || discriminate. Qed.
Lemma term_unquoted t : fis_term_ok t -> unquote (fis_term d t) = mclass (tm_body t) ++ ",[" ++ ftext (tm_body t) ++ "]".
Proof.
  intro H. destruct (text_facts t H) as (_ & Q & _). unfold fis_term, join_scalars. destruct (tm_body t) as [s|xy|v|cs b|f]; [destruct s|..]; cbn [mclass ftext fpars shape_list] in *;
  repeat rewrite unquote_app; rewrite (unquote_id _ Q); reflexivity.
Qed.
Lemma term_raw t : fis_term_ok t -> exists a, fis_term d t = a ++ ftext (tm_body t) ++ "]" /\ lacks "#" a = true /\ lacks "/" a = true.
Proof.
  intro H. unfold fis_term, join_scalars. destruct (tm_body t) as [s|xy|v|cs b|f]; [destruct s|..]; cbn [mclass ftext fpars shape_list] in *;
  match goal with |- exists a, "'" ++ ?n ++ "',[" ++ ?x ++ "]" = _ /\ _ => exists ("'" ++ n ++ "',["); repeat split; reflexivity | |- exists a, ?n ++ ?x ++ "]" = _ /\ _ => exists n; repeat split; reflexivity end.
Qed.
Lemma sorted_words t : (forall f, tm_body t <> TFunction f) -> sorted_params (mclass (tm_body t)) (map (str d) (fpars (tm_body t))) = term_words d (fis_kept_term t).
Proof.
  intro NF. unfold term_words, fis_kept_term. cbn [tm_body tm_height]. destruct (tm_body t) as [s|xy|v|cs b|f]; [destruct s|..]; try (destruct (NF f); reflexivity); cbn [mclass fpars shape_list map]; rewrite ?(pr_one d N), ?app_nil_r; try reflexivity.
  symmetry. apply to_vector_words.
Qed.
Lemma class_back (b : tbody T) : fis_class (mclass b) = body_class b.
Proof. destruct b as [s|xy|v|cs b|f]; [destruct s|..]; reflexivity. Qed.
Lemma formula_squeezed s : sforall (fun c => negb (is_space c) || Ascii.eqb c " ")%bool s = true -> s <> "" -> join (map trim (split s " " true)) "" = squeezed s.
Proof.
  intros F NE. rewrite (split_space s NE).
  assert (W : Forall (fun w => sforall (fun c => negb (is_space c)) w = true) (SpecFll.words s)).
  { assert (A := words_sforall _ s (eq_refl : (fun c => negb (is_space c) || Ascii.eqb c " ")%bool " "%char = true) F). assert (B := words_wordy s). rewrite Forall_forall in *. intros w I. specialize (A w I). destruct (B w I) as [_ L].
    rewrite lacks_sforall in L. clear - A L. induction w as [|c w IH]; [reflexivity|]. cbn [sforall] in *. apply andb_true_iff in A, L. destruct A as [A1 A2], L as [L1 L2]. rewrite (IH A2 L2), andb_true_r. apply orb_true_iff in A1. destruct A1 as [A1|A1]; [exact A1|]. rewrite A1 in L1. discriminate. }
  assert (M : map trim (SpecFll.words s) = SpecFll.words s).
  { clear - W. induction W as [|w ws H W IH]; [reflexivity|]. cbn [map]. now rewrite IH, (trim_word w H). }
  rewrite M. unfold SpecFll.words. rewrite join_nonempty, join_chop. unfold squeezed. clear - F. induction s as [|c s IH]; [reflexivity|]. cbn [sforall sfilter] in *. apply andb_true_iff in F. destruct F as [F1 F2]. rewrite (IH F2).
  destruct (Ascii.eqb_spec c " ") as [->|NC]; [reflexivity|]. cbn [negb]. rewrite orb_false_r in F1. now rewrite F1.
Qed.
Lemma fpars_some t : fis_term_ok t -> (forall f, tm_body t <> TFunction f) -> fpars (tm_body t) <> [].
Proof.
  unfold fis_term_ok. intros H NF. destruct (tm_body t) as [s|xy|v|cs b|f]; cbn [fpars]; try discriminate; auto.
  - destruct s; discriminate.
  - destruct xy as [|p xy]; [congruence|discriminate].
  - destruct (NF f); reflexivity.
Qed.
Lemma parse_fis_term vw t : fis_term_ok t -> plain_name (tm_name t) ->
  fis_parse_term vw (tm_name t ++ ":" ++ mclass (tm_body t) ++ ",[" ++ ftext (tm_body t) ++ "]") = printed_term d vw (fis_kept_term t).
Proof.
  intros H [NE NC]. destruct (text_facts t H) as (_ & _ & _ & L1 & L2 & L3 & L4 & _). destruct (mclass_facts (tm_body t)) as [CE CC].
  unfold fis_parse_term. fold (unbracket (tm_name t ++ ":" ++ mclass (tm_body t) ++ ",[" ++ ftext (tm_body t) ++ "]")). rewrite !unbracket_app.
  rewrite (unbracket_id (tm_name t)), (unbracket_id (mclass (tm_body t))), (unbracket_id (ftext (tm_body t))) by (assumption || (apply name_lacks; [reflexivity|assumption])).
  change (unbracket ":") with ":". change (unbracket ",[") with ",". change (unbracket "]") with "". rewrite sapp_nil_r.
  change (":" ++ mclass (tm_body t) ++ "," ++ ftext (tm_body t)) with (String ":" (mclass (tm_body t) ++ "," ++ ftext (tm_body t))).
  assert (FE : ftext (tm_body t) <> "").
  { unfold fis_term_ok in H. unfold ftext. assert (FS := fpars_some t H). destruct (tm_body t) as [s|xy|v|cs b|f] eqn:E; [..|apply H];
    (match goal with |- join (map (str d) ?l) _ <> _ => assert (NL : l <> []) by (apply FS; discriminate); destruct l as [|x l0]; [congruence|]; cbn [map]; destruct (str_firm d N numbers x) as [NX _]; destruct (str d x) as [|c r]; [congruence|]; destruct (map (str d) l0); discriminate end). }
  assert (S1 : split (tm_name t ++ String ":" (mclass (tm_body t) ++ "," ++ ftext (tm_body t))) ":" true = [tm_name t; mclass (tm_body t) ++ "," ++ ftext (tm_body t)]).
  { apply (split_two ":"); [apply name_lacks; [reflexivity|exact NC]| |exact NE|destruct (mclass (tm_body t)); [congruence|discriminate]].
    rewrite !lacks_app, L1. rewrite (name_lacks ":" (mclass (tm_body t)) eq_refl CC). reflexivity. }
  assert (S2 : split (mclass (tm_body t) ++ "," ++ ftext (tm_body t)) "," true = [mclass (tm_body t); ftext (tm_body t)]).
  { apply (split_two ","); [apply name_lacks; [reflexivity|exact CC]|exact L2|exact CE|exact FE]. }
  rewrite S1, S2.
  rewrite (trim_word (tm_name t)) by (now apply name_solid). rewrite (trim_word (mclass (tm_body t))) by (now apply name_solid).
  unfold fis_instance. rewrite class_back. assert (VN : valid_name (tm_name t) = tm_name t) by (now apply valid_keep).
  assert (NFC : (forall f, tm_body t <> TFunction f) -> build_term vw (body_class (tm_body t)) (tm_name t) (sorted_params (mclass (tm_body t)) (map trim (split (ftext (tm_body t)) " " true))) = printed_term d vw (fis_kept_term t)).
  { intro NF. assert (FT : ftext (tm_body t) = join (map (str d) (fpars (tm_body t))) " ") by (unfold ftext; destruct (tm_body t); try reflexivity; destruct (NF f); reflexivity).
    rewrite FT, split_join_words; [|intro Q; apply map_eq_nil in Q; now apply (fpars_some t H NF)|apply (strs_solid d N)].
    assert (M : map trim (map (str d) (fpars (tm_body t))) = map (str d) (fpars (tm_body t))).
    { rewrite map_map. apply map_ext. intro x. apply trim_word, firm_space, (str_firm d N numbers). }
    rewrite M, (sorted_words t NF). assert (BW := build_words d N vw (fis_kept_term t)). unfold fis_kept_term in BW at 1 2 3 4 6. cbn [tm_body tm_name] in BW. rewrite VN in BW.
    assert (BC : body_class (match tm_body t with TFunction f => TFunction {| fn_formula := squeezed (fn_formula f); fn_root := fn_root f; fn_vars := fn_vars f; fn_engine := fn_engine f |} | b => b end) = body_class (tm_body t)) by (destruct (tm_body t); reflexivity).
    rewrite BC in BW. apply BW; [|exact NE]. intros f Q. destruct (tm_body t) as [s|xy|v|cs b|g]; try discriminate. now apply (NF g). }
  destruct (tm_body t) as [s|xy|v|cs b|f] eqn:E; try (apply NFC; discriminate). clear NFC.
  unfold fis_term_ok in H. rewrite E in H. destruct H as ((FL & FH & _) & _ & _ & _ & _ & _ & SP).
  change (sorted_params (mclass (TFunction f)) (map trim (split (ftext (TFunction f)) " " true))) with (map trim (split (fn_formula f) " " true)).
  unfold build_term. assert (CM := class_made (TFunction f)). rewrite CM. cbn [rbind]. cbn [fresh_body]. unfold term_update_reference. cbn [tm_body tm_height tm_name].
  rewrite formula_squeezed by assumption. unfold term_configure. cbn [tm_body tm_height tm_name]. unfold printed_term, printed_height, loaded_function, fis_kept_term. rewrite E. cbn [tm_body tm_name fn_formula].
  rewrite (squeezed_formula _ FH). unfold fn_update_reference. cbn [fn_formula]. destruct (parse_empty_formula (T := T)) as [x PE].
  assert (UR : fst (fn_load default_table {| fn_formula := ""; fn_root := None; fn_vars := []; fn_engine := false |} "" true (vw_context vw)) =
             {| fn_formula := ""; fn_root := None; fn_vars := []; fn_engine := true |}) by (unfold fn_load; rewrite PE; reflexivity).
  rewrite UR. cbn [fn_engine]. destruct (fn_load default_table _ (squeezed (fn_formula f)) true (vw_context vw)) as [f' [u|y| |]]; reflexivity.
Qed.
End Round.
