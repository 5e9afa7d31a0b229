(** Reading scripts of R. *)
From Coq Require Import ZArith List Bool String Ascii Arith Lia.
From Verif Require Import Base Op Norm Hedge Shape Discrete Defuzz Aggregated Text Function Rule Var Activation Engine Factory SpecText TextProofs TextProofs2 RuleProofs3
  Fll SpecFll FllText FllExport FllRound Fis FclText FclRound2 Cpp SpecCpp CppSyntax CppAtoms CppRun Grid Rscript SpecRscript.
Import ListNotations.
Local Open Scope string_scope.

Lemma sapp_end s : s ++ "" = s. Proof. induction s as [|c s IH]; [reflexivity|]. cbn [append]. now rewrite IH. Qed.
Lemma snoc_app s c r : snoc s c ++ r = s ++ String c r. Proof. unfold snoc. now rewrite sapp_assoc3. Qed.
Lemma read_app s : forall m r, read m (s ++ r) = let '(m1, l) := read m s in let '(m2, k) := read m1 r in (m2, (l ++ k)%list).
Proof.
  induction s as [|c s IH]; intros m r; [cbn [append read]; now destruct (read m r)|]. cbn [append read]. destruct (advance m c) as [m1 l]. rewrite IH. destruct (read m1 s) as [m2 k]. destruct (read m2 r) as [m3 j]. now rewrite app_assoc.
Qed.
Definition coded (s : string) : bool := sforall (fun c => negb (delimiter c || Ascii.eqb c "#" || Ascii.eqb c line_break)) s.
Lemma read_code s : forall t, coded s = true -> read (Code t) s = (Code (t ++ s), []).
Proof.
  induction s as [|c s IH]; intros t H; [now rewrite sapp_end|]. unfold coded in H. cbn [sforall] in H. apply andb_true_iff in H. destruct H as [H1 H2]. apply negb_true_iff, orb_false_iff in H1. destruct H1 as [H1 H3]. apply orb_false_iff in H1. destruct H1 as [H0 H1].
  cbn [read advance]. rewrite H0, H1, H3. rewrite (IH (snoc t c) H2). now rewrite snoc_app.
Qed.
Lemma read_text s : forall b t, quotable s = true -> read (Literal b "034" t) s = (Literal b "034" (t ++ s), []).
Proof.
  induction s as [|c s IH]; intros b t H; [now rewrite sapp_end|]. unfold quotable in H. cbn [sforall] in H. apply andb_true_iff in H. destruct H as [H1 H2]. apply negb_true_iff, orb_false_iff in H1. destruct H1 as [H0 H1].
  cbn [read advance]. rewrite H0, H1. rewrite (IH b (snoc t c) H2). now rewrite snoc_app.
Qed.
Lemma read_comment s : single_line s = true -> read Comment s = (Comment, []).
Proof.
  induction s as [|c s IH]; intro H; [reflexivity|]. unfold single_line in H. cbn [sforall] in H. apply andb_true_iff in H. destruct H as [H1 H2]. apply negb_true_iff in H1. cbn [read advance]. rewrite H1. now rewrite (IH H2).
Qed.
Lemma spelled_app a b : spelled (a ++ b)%list = spelled a ++ spelled b.
Proof. induction a as [|x a IH]; [reflexivity|]. cbn [app spelled fold_right]. fold (spelled (a ++ b)%list). rewrite IH. fold (spelled a). now rewrite sapp_assoc3. Qed.

(** ** pieces *)
Definition Reads (m : mode) (ps : list string) (m' : mode) (l : list (string * string)) : Prop := read m (spelled ps) = (m', l).
Lemma rd_piece m p m1 k ps m2 l : read m p = (m1, k) -> Reads m1 ps m2 l -> Reads m (p :: ps) m2 (k ++ l)%list.
Proof. unfold Reads. intros A B. cbn [spelled fold_right]. fold (spelled ps). now rewrite read_app, A, B. Qed.
Lemma rd_nil m : Reads m [] m []. Proof. reflexivity. Qed.
Lemma rd_nl t ps m l : Reads (Code "") ps m l -> Reads (Code t) (nl :: ps) m l.
Proof. exact (rd_piece (Code t) nl (Code "") [] ps m l eq_refl). Qed.
Lemma rd_open t ps m l : Reads (Literal t "034" "") ps m l -> Reads (Code t) (dq :: ps) m l.
Proof. exact (rd_piece (Code t) dq (Literal t "034" "") [] ps m l eq_refl). Qed.
Lemma rd_close t s ps m l : Reads (Code "") ps m l -> Reads (Literal t "034" s) (dq :: ps) m ((t, s) :: l).
Proof. exact (rd_piece (Literal t "034" s) dq (Code "") [(t, s)] ps m l eq_refl). Qed.
Lemma rd_code t p ps m l : coded p = true -> Reads (Code (t ++ p)) ps m l -> Reads (Code t) (p :: ps) m l.
Proof. intros C. exact (rd_piece (Code t) p _ [] ps m l (read_code p t C)). Qed.
Lemma rd_text t s p ps m l : quotable p = true -> Reads (Literal t "034" (s ++ p)) ps m l -> Reads (Literal t "034" s) (p :: ps) m l.
Proof. intros C. exact (rd_piece _ p _ [] ps m l (read_text p t s C)). Qed.
Lemma rd_hash t p ps m l : single_line p = true -> Reads Comment ps m l -> Reads (Code t) (("#" ++ p) :: ps) m l.
Proof. intros C. refine (rd_piece _ _ Comment [] ps m l _). cbn [append read advance]. change (Ascii.eqb "#" line_break) with false. change (Ascii.eqb "#" "#") with true. cbv iota. now rewrite read_comment. Qed.
Lemma rd_comment p ps m l : single_line p = true -> Reads Comment ps m l -> Reads Comment (p :: ps) m l.
Proof. intros C. exact (rd_piece _ p _ [] ps m l (read_comment p C)). Qed.
Lemma rd_comment_nl ps m l : Reads (Code "") ps m l -> Reads Comment (nl :: ps) m l.
Proof. exact (rd_piece Comment nl (Code "") [] ps m l eq_refl). Qed.
Lemma rd_app ps : forall m m1 l1 qs m2 l2, Reads m ps m1 l1 -> Reads m1 qs m2 l2 -> Reads m (ps ++ qs)%list m2 (l1 ++ l2)%list.
Proof. unfold Reads. intros m m1 l1 qs m2 l2 A B. rewrite spelled_app, read_app, A, B. reflexivity. Qed.
Lemma rd_eq m ps m' l l' : Reads m ps m' l -> l = l' -> Reads m ps m' l'. Proof. now intros H <-. Qed.
Lemma codable_coded s : codable s = true -> coded s = true.
Proof. apply sforall_impl. intros c H. apply negb_true_iff in H. apply negb_true_iff. destruct (delimiter c), (Ascii.eqb c "#"), (Ascii.eqb c line_break), (Ascii.eqb c backslash); try discriminate; reflexivity. Qed.
Lemma codable_quotable s : codable s = true -> quotable s = true.
Proof.
  apply sforall_impl. intros c H. apply negb_true_iff in H. apply negb_true_iff. apply orb_false_iff in H. destruct H as [H _]. apply orb_false_iff in H. destruct H as [H _]. apply orb_false_iff in H. destruct H as [H B]. unfold delimiter in H. apply orb_false_iff in H. destruct H as [H _]. apply orb_false_iff in H. destruct H as [H _]. now rewrite H, B.
Qed.
Lemma str_int_coded n : coded (str_int n) = true.
Proof.
  unfold str_int. unfold coded. rewrite sforall_app. apply andb_true_iff. split; [destruct (n <? 0)%Z; reflexivity|]. eapply sforall_impl; [|apply nat_digits]. intros c H. destruct c as [[] [] [] [] [] [] [] []]; vm_compute in H; try discriminate H; reflexivity.
Qed.
Ltac side := first [assumption | reflexivity | apply codable_coded; assumption | apply codable_quotable; assumption].
Ltac rd := repeat first [apply rd_nil | apply rd_nl | apply rd_close | apply rd_open | apply rd_text; [side|] | apply rd_code; [side|]].
Ltac pairs := cbn [List.app]; rewrite ?sapp_assoc3; reflexivity.

Section Script.
Context {T : Type} `{S : Scalar T}.
Variables (d : nat) (library : string) (resolution : Z) (colors : rcolors).
Variable drain : drainer T.
Notation fll e := (fll_export d resolution "  " (char Fll.newline) e).
Lemma header_reads e : single_line library = true -> quotable (e_name e) = true -> quotable (e_description e) = true -> quotable (fll e) = true ->
  Reads (Code "") (r_header d library resolution e) (Code "") (("engine.name = ", e_name e) :: described (e_description e) ++ [("engine.fll = ", fll e)])%list.
Proof.
  intros L N D F. unfold r_header. change (("engine.name = ", e_name e) :: described (e_description e) ++ [("engine.fll = ", fll e)])%list with ([("engine.name = ", e_name e)] ++ described (e_description e) ++ [("engine.fll = ", fll e)])%list.
  apply rd_app with (Code ""); [|apply rd_app with (Code "")].
  - apply (rd_hash "" "Code automatically generated with "); [reflexivity|]. apply rd_comment; [exact L|]. apply rd_comment; [reflexivity|]. apply rd_comment_nl. eapply rd_eq; [rd|pairs].
  - unfold described. destruct (e_description e) as [|c s]; cbn [sempty]; [apply rd_nil|]. eapply rd_eq; [rd|pairs].
  - eapply rd_eq; [rd|pairs].
Qed.
Hypothesis Q1 : quotable (c_minimum colors) = true.
Hypothesis Q2 : quotable (c_maximum colors) = true.
Hypothesis Q3 : quotable (c_contour colors) = true.
Lemma surface_reads p x y z : coded p = true -> codable x = true -> codable y = true -> codable z = true ->
  Reads (Code "") (r_surface colors p x y z) (Code "") (tiles (c_minimum colors) (c_maximum colors) (c_contour colors) x y z).
Proof. intros P X Y Z. unfold r_surface. eapply rd_eq; [rd|]. unfold tiles. pairs. Qed.
Lemma line_reads p x z f : coded p = true -> codable x = true -> codable z = true ->
  Reads (Code "") (r_line colors p x z f) (Code "") (curve (c_minimum colors) (c_maximum colors) z (if f then z ++ " vs " ++ x else x ++ " vs " ++ z)).
Proof. intros P X Z. unfold r_line. destruct f; cbn [List.app]; (eapply rd_eq; [rd|]; unfold curve; pairs). Qed.
Lemma names_coded same i : coded (fst (r_names same i)) = true /\ coded (snd (r_names same i)) = true.
Proof.
  assert (N := str_int_coded (Z.of_nat (Datatypes.S i))). unfold r_names, coded in *. destruct same; cbn [fst snd]; rewrite !sforall_app, N; split; reflexivity.
Qed.
Lemma plot_reads same a b i z : codable a = true -> codable b = true -> codable z = true ->
  Reads (Code "") (fst (r_plot colors same a b i z)) (Code "") (plotted (c_minimum colors) (c_maximum colors) (c_contour colors) same a b [z]).
Proof.
  intros A B Z. destruct (names_coded same i) as [N1 N2]. unfold r_plot. destruct (r_names same i) as [p q]. cbn [fst snd] in *. unfold plotted. cbn [flat_map]. rewrite app_nil_r.
  destruct same; apply rd_app with (Code "").
  - exact (line_reads p a z false N1 A Z).
  - exact (line_reads q a z true N2 A Z).
  - exact (surface_reads p a b z N1 A B Z).
  - exact (surface_reads q b a z N2 B A Z).
Qed.
Lemma rounds_read same a b zs : codable a = true -> codable b = true -> forallb codable zs = true -> forall k,
  Reads (Code "") (List.concat (map fst (map (fun p : nat * string => r_plot colors same a b (fst p) (snd p)) (combine (seq k (List.length zs)) zs)))) (Code "")
    (plotted (c_minimum colors) (c_maximum colors) (c_contour colors) same a b zs).
Proof.
  intros A B. induction zs as [|z zs IH]; intros Z k; [apply rd_nil|]. cbn [forallb] in Z. apply andb_true_iff in Z. destruct Z as [Z1 Z2]. cbn [List.length seq combine map List.concat fst snd].
  replace (plotted (c_minimum colors) (c_maximum colors) (c_contour colors) same a b (z :: zs)) with (plotted (c_minimum colors) (c_maximum colors) (c_contour colors) same a b [z] ++ plotted (c_minimum colors) (c_maximum colors) (c_contour colors) same a b zs)%list by (unfold plotted; cbn [flat_map]; now rewrite app_nil_r).
  apply rd_app with (Code ""); [now apply plot_reads|exact (IH Z2 _)].
Qed.
Lemma code_pieces ps : forallb coded ps = true -> forall t, read (Code t) (spelled ps) = (Code (t ++ spelled ps), []).
Proof.
  intros C t. apply read_code. unfold coded. induction ps as [|p ps IH]; [reflexivity|]. cbn [forallb] in C. apply andb_true_iff in C. cbn [spelled fold_right]. rewrite sforall_app. fold (spelled ps). rewrite (IH (proj2 C)), andb_true_r. apply C.
Qed.
Lemma grob_coded same a b zs : forall k, forallb coded (List.concat (map snd (map (fun p : nat * string => r_plot colors same a b (fst p) (snd p)) (combine (seq k (List.length zs)) zs)))) = true.
Proof.
  induction zs as [|z zs IH]; intro k; [reflexivity|]. cbn [List.length seq combine map List.concat fst snd]. rewrite forallb_app, (IH (Datatypes.S k)), andb_true_r. destruct (names_coded same k) as [N1 N2]. unfold r_plot. destruct (r_names same k) as [p q]. cbn [fst snd] in *. cbn [forallb snd]. rewrite N1, N2. reflexivity.
Qed.
Theorem plots_read same a b zs : codable a = true -> codable b = true -> forallb codable zs = true ->
  Reads (Code "") (r_plots colors same a b zs) (Code "") (plotted (c_minimum colors) (c_maximum colors) (c_contour colors) same a b zs ++ [("    ggsave(paste0(engine.name, ", ".pdf")])%list.
Proof.
  intros A B Z. unfold r_plots. cbv zeta. apply rd_app with (Code ""); [now apply rounds_read|].
  apply (rd_app _ _ (Code "    engine.plots = arrangeGrob(") []); [eapply rd_eq; [rd|reflexivity]|].
  eapply (rd_app _ _ _ []); [exact (code_pieces _ (grob_coded same a b zs 0) _)|]. eapply rd_eq; [rd|pairs].
Qed.
Lemma dataset_reads data : quotable data = true -> Reads (Code "") (r_dataset data) (Code "") [("engine.fld = ", data); ("engine.df = read.delim(textConnection(engine.fld), header=TRUE, sep=", " ")].
Proof. intro Q. unfold r_dataset. eapply rd_eq; [rd|pairs]. Qed.
Theorem frame_read same a b zs e rows : single_line library = true -> quotable (e_name e) = true -> quotable (e_description e) = true -> quotable (fll e) = true -> quotable (fld_text (fld_new " ") d e rows) = true ->
  codable a = true -> codable b = true -> forallb codable zs = true ->
  literals (r_frame d library resolution colors same a b zs e rows) =
  Some (("engine.name = ", e_name e) :: described (e_description e) ++ [("engine.fll = ", fll e); ("engine.fld = ", fld_text (fld_new " ") d e rows); ("engine.df = read.delim(textConnection(engine.fld), header=TRUE, sep=", " ")] ++
        plotted (c_minimum colors) (c_maximum colors) (c_contour colors) same a b zs ++ [("    ggsave(paste0(engine.name, ", ".pdf")])%list.
Proof.
  intros L N D F G A B Z. unfold literals, r_frame.
  assert (Q := rd_app _ _ _ _ _ _ _ (header_reads e L N D F) (rd_app _ _ _ _ _ _ _ (dataset_reads _ G) (plots_read same a b zs A B Z))). unfold Reads in Q. rewrite Q. f_equal. cbn [List.app]. f_equal. rewrite <- app_assoc. reflexivity.
Qed.
(** the dataset has no characters but those of names and numbers *)
Lemma str_quotable (x : T) : quotable (str d x) = true.
Proof.
  assert (F : forall n, quotable (fixed_text d n) = true).
  { intro n. eapply sforall_impl; [|apply fixed_numeric]. intros c H. destruct c as [[] [] [] [] [] [] [] []]; vm_compute in H; try discriminate H; reflexivity. }
  unfold str. destruct (isNaN x); [reflexivity|]. destruct (isInf x); [destruct (s_ltb x s_0); reflexivity|]. destruct (isEq_tol _ _ _); [apply F|]. unfold quotable. rewrite sforall_app. fold (quotable (fixed_text d (s_fixed d x))). rewrite F. destruct (s_ltb x s_0); reflexivity.
Qed.
Lemma quotable_app a b : quotable (a ++ b) = (quotable a && quotable b)%bool. Proof. apply sforall_app. Qed.
Lemma join_quotable l : forallb quotable l = true -> quotable (join l " ") = true.
Proof.
  induction l as [|x l IH]; intro H; [reflexivity|]. cbn [forallb] in H. apply andb_true_iff in H. destruct H as [H1 H2]. destruct l as [|y l]; [exact H1|]. rewrite join_more by discriminate. rewrite !quotable_app, H1, (IH H2). reflexivity.
Qed.
Theorem data_quotable e rows : forallb quotable (names_of e) = true -> quotable (fld_text (fld_new " ") d e rows) = true.
Proof.
  intro N. unfold fld_text. assert (H : fld_header (fld_new " ") e = join (names_of e) " ") by reflexivity. rewrite H. cbn [fld_new fld_headers fld_separator]. rewrite !quotable_app. rewrite (join_quotable _ N). cbn [andb]. change (quotable Grid.newline) with true. cbn [andb].
  induction rows as [|r rows IH]; [reflexivity|]. cbn [fold_right]. rewrite !quotable_app, IH. change (quotable Grid.newline) with true. rewrite !andb_true_r. unfold join_scalars. apply join_quotable. clear IH. induction r as [|x r IH]; [reflexivity|]. cbn [map forallb]. now rewrite str_quotable, IH.
Qed.

(** ** the plots are arranged *)
Definition broken (s : string) : Prop := s = "" \/ exists b, s = b ++ String line_break "".
Lemma broken_app a b : broken a -> broken b -> broken (a ++ b).
Proof. intros A [->|[c ->]]; [now rewrite sapp_end|]. right. exists (a ++ c). now rewrite sapp_assoc3. Qed.
Lemma broken_pieces ps : broken (spelled (ps ++ [nl])%list).
Proof. rewrite spelled_app. right. exists (spelled ps). reflexivity. Qed.
Definition plot_names (same : bool) (n k : nat) : list string := flat_map (fun i => [fst (r_names same i); snd (r_names same i)]) (seq k n).
Definition rounds (same : bool) (a b : string) (zs : list string) (k : nat) : list (list string * list string) := map (fun p : nat * string => r_plot colors same a b (fst p) (snd p)) (combine (seq k (List.length zs)) zs).
Definition body_of (l : list (list string * list string)) : string := spelled (List.concat (map fst l)).
Lemma arranged same a b : forall zs k, zs <> [] -> spelled (List.concat (map snd (rounds same a b zs k))) = join (plot_names same (List.length zs) k) ", " ++ ", ".
Proof.
  induction zs as [|z zs IH]; intros k N; [congruence|]. unfold rounds. cbn [List.length seq combine map List.concat fst snd]. fold (rounds same a b zs (Datatypes.S k)). rewrite spelled_app. unfold plot_names. cbn [List.length seq flat_map]. fold (plot_names same (List.length zs) (Datatypes.S k)).
  unfold r_plot. destruct (r_names same k) as [p q]. cbn [fst snd]. cbn [List.app]. rewrite join_more by discriminate. destruct zs as [|y zs].
  - cbn [List.length plot_names seq flat_map rounds combine map List.concat spelled fold_right join]. rewrite ?sapp_end, !sapp_assoc3. reflexivity.
  - rewrite join_more by discriminate. rewrite (IH (Datatypes.S k) ltac:(discriminate)). cbn [spelled fold_right]. rewrite ?sapp_assoc3. cbn [append]. reflexivity.
Qed.
Definition opens (p : string) (ps : list string) : Prop := exists r, spelled ps = p ++ " = ggplot(engine.df, aes(" ++ r.
Lemma opens_cons p ps : opens p (p :: " = ggplot(engine.df, aes(" :: ps).
Proof. exists (spelled ps). reflexivity. Qed.
Lemma surface_broken p x y z : broken (spelled (r_surface colors p x y z)).
Proof. unfold r_surface. match goal with |- broken (spelled ?l) => let m := eval cbv [removelast] in (removelast l) in change l with (m ++ [nl])%list end. apply broken_pieces. Qed.
Lemma line_broken p x z f : broken (spelled (r_line colors p x z f)).
Proof. unfold r_line. destruct f; cbn [List.app]; match goal with |- broken (spelled ?l) => let m := eval cbv [removelast] in (removelast l) in change l with (m ++ [nl])%list end; apply broken_pieces. Qed.
Lemma round_split same a b i z : exists A B, fst (r_plot colors same a b i z) = (A ++ B)%list /\ opens (fst (r_names same i)) A /\ opens (snd (r_names same i)) B /\ broken (spelled A) /\ broken (spelled B).
Proof.
  unfold r_plot. destruct (r_names same i) as [p q]. cbn [fst snd]. destruct same; [exists (r_line colors p a z false), (r_line colors q a z true)|exists (r_surface colors p a b z), (r_surface colors q b a z)].
  - split; [reflexivity|]. split; [apply opens_cons|]. split; [apply opens_cons|]. split; apply line_broken.
  - split; [reflexivity|]. split; [apply opens_cons|]. split; [apply opens_cons|]. split; apply surface_broken.
Qed.
Lemma rounds_defined same a b : forall zs k, broken (body_of (rounds same a b zs k)) /\
  forall p, In p (plot_names same (List.length zs) k) -> exists before r, body_of (rounds same a b zs k) = before ++ p ++ " = ggplot(engine.df, aes(" ++ r /\ broken before.
Proof.
  induction zs as [|z zs IH]; intro k; [split; [now left|intros p []]|]. destruct (IH (Datatypes.S k)) as [B D]. destruct (round_split same a b k z) as (X & Y & E & (r1 & O1) & (r2 & O2) & B1 & B2).
  assert (Q : body_of (rounds same a b (z :: zs) k) = spelled X ++ spelled Y ++ body_of (rounds same a b zs (Datatypes.S k))).
  { unfold body_of at 1, rounds. cbn [List.length seq combine map List.concat fst snd]. fold (rounds same a b zs (Datatypes.S k)). rewrite E, !spelled_app, sapp_assoc3. reflexivity. }
  rewrite Q. split; [apply broken_app; [exact B1|now apply broken_app]|]. intros p H. unfold plot_names in H. cbn [List.length seq flat_map List.app In] in H. destruct H as [<- |[<- |H]].
  - exists "", (r1 ++ spelled Y ++ body_of (rounds same a b zs (Datatypes.S k))). rewrite O1. split; [rewrite !sapp_assoc3; reflexivity|now left].
  - exists (spelled X), (r2 ++ body_of (rounds same a b zs (Datatypes.S k))). rewrite O2. split; [rewrite !sapp_assoc3; reflexivity|exact B1].
  - destruct (D p H) as (c & r & E2 & B3). exists (spelled X ++ spelled Y ++ c), r. rewrite E2. split; [rewrite !sapp_assoc3; reflexivity|]. apply broken_app; [exact B1|now apply broken_app].
Qed.
Lemma chars_app a b : list_ascii_of_string (a ++ b) = (list_ascii_of_string a ++ list_ascii_of_string b)%list.
Proof. induction a as [|c a IH]; [reflexivity|]. cbn [append list_ascii_of_string List.app]. now rewrite IH. Qed.
Lemma app_inj_r s a b : a ++ s = b ++ s -> a = b.
Proof. intro E. apply (f_equal list_ascii_of_string) in E. rewrite !chars_app in E. apply app_inv_tail in E. apply (f_equal string_of_list_ascii) in E. now rewrite !string_of_list_ascii_of_string in E. Qed.
Lemma names_inj same i j : (fst (r_names same i) = fst (r_names same j) -> i = j) /\ (snd (r_names same i) = snd (r_names same j) -> i = j) /\ fst (r_names same i) <> snd (r_names same j).
Proof.
  unfold r_names. destruct same; cbn [fst snd]; (split; [|split; [|intro E; discriminate E]]); intro E; apply app_inj_l in E; try apply app_inj_r in E; apply str_nat_inj in E; congruence.
Qed.
Lemma names_distinct same n : forall k, NoDup (plot_names same n k) /\ List.length (plot_names same n k) = (2 * n)%nat.
Proof.
  assert (M : forall m k p, In p (plot_names same m k) -> exists i, (k <= i)%nat /\ (p = fst (r_names same i) \/ p = snd (r_names same i))).
  { intros m k p H. unfold plot_names in H. apply in_flat_map in H. destruct H as (i & H & P). apply in_seq in H. exists i. split; [lia|]. destruct P as [<- |[<- |[]]]; auto. }
  induction n as [|n IH]; intro k; [split; [constructor|reflexivity]|]. destruct (IH (Datatypes.S k)) as [D L]. unfold plot_names. cbn [seq flat_map List.app]. fold (plot_names same n (Datatypes.S k)). split; [|cbn [List.length]; rewrite L; lia].
  constructor; [intros [E|H]|constructor; [intro H|exact D]].
  - exact (proj2 (proj2 (names_inj same k k)) (eq_sym E)).
  - destruct (M _ _ _ H) as (i & I & [E|E]); [apply (proj1 (names_inj same k i)) in E; lia|exact (proj2 (proj2 (names_inj same k i)) E)].
  - destruct (M _ _ _ H) as (i & I & [E|E]); [exact (proj2 (proj2 (names_inj same i k)) (eq_sym E))|apply (proj1 (proj2 (names_inj same k i))) in E; lia].
Qed.
Lemma header_broken e : broken (spelled (r_header d library resolution e)).
Proof.
  unfold r_header. rewrite !app_assoc. match goal with |- broken (spelled (?l ++ [?a; ?b; ?c; ?x; nl; nl])%list) => replace (l ++ [a; b; c; x; nl; nl])%list with ((l ++ [a; b; c; x; nl]) ++ [nl])%list by (rewrite <- app_assoc; reflexivity) end. apply broken_pieces.
Qed.
Lemma dataset_broken data : broken (spelled (r_dataset data)).
Proof. unfold r_dataset. match goal with |- broken (spelled ?l) => let m := eval cbv [removelast] in (removelast l) in change l with (m ++ [nl])%list end. apply broken_pieces. Qed.
Theorem frame_plots same a b zs e rows : zs <> [] -> exists names before, NoDup names /\ List.length names = (2 * List.length zs)%nat /\
  line_at before ("    engine.plots = arrangeGrob(" ++ join names ", " ++ ", ncol=2, top=engine.name)") (r_frame d library resolution colors same a b zs e rows) /\
  forall p, In p names -> exists b0 r, before = b0 ++ p ++ " = ggplot(engine.df, aes(" ++ r /\ (b0 = "" \/ exists c, b0 = c ++ String line_break "").
Proof.
  intro N. destruct (names_distinct same (List.length zs) 0) as [D L]. destruct (rounds_defined same a b zs 0) as [B P]. exists (plot_names same (List.length zs) 0).
  pose (H := spelled (r_header d library resolution e) ++ spelled (r_dataset (fld_text (fld_new " ") d e rows))).
  assert (HB : broken H) by (apply broken_app; [apply header_broken|apply dataset_broken]).
  exists ((H ++ body_of (rounds same a b zs 0)) ++ "if (require(gridExtra)) {" ++ nl). split; [exact D|]. split; [exact L|]. split.
  - pose (tail := ["    ggsave(paste0(engine.name, "; dq; ".pdf"; dq; "), engine.plots)"; nl; "    if (require(grid)) {"; nl; "        grid.newpage()"; nl; "        grid.draw(engine.plots)"; nl; "    }"; nl; "}"; nl]).
    exists (spelled tail). split; [|apply broken_app; [now apply broken_app|right; exists "if (require(gridExtra)) {"; reflexivity]].
    unfold r_frame, r_plots. cbv zeta. fold (rounds same a b zs 0). rewrite !spelled_app. rewrite (arranged same a b zs 0 N). fold (body_of (rounds same a b zs 0)). unfold H.
    change (spelled ["if (require(gridExtra)) {"; nl; "    engine.plots = "; "arrangeGrob("]) with ("if (require(gridExtra)) {" ++ nl ++ "    engine.plots = arrangeGrob(").
    match goal with |- context [spelled ("ncol=2, top=engine.name)" :: ?l)] => change (spelled ("ncol=2, top=engine.name)" :: l)) with ("ncol=2, top=engine.name)" ++ String line_break (spelled tail)) end. rewrite !sapp_assoc3. reflexivity.
  - intros p I. destruct (P p I) as (c & r & E & C). exists (H ++ c), (r ++ "if (require(gridExtra)) {" ++ nl). rewrite E. split; [rewrite !sapp_assoc3; reflexivity|now apply broken_app].
Qed.
Lemma name_in (e : engine T) i v : nth_error (e_inputs e) i = Some v -> forallb codable (names_of e) = true -> codable (v_name v) = true.
Proof. intros N F. rewrite forallb_forall in F. apply F. unfold names_of. apply in_or_app. left. apply in_map. now apply nth_error_In with i. Qed.
Lemma names_quotable (e : engine T) : forallb codable (names_of e) = true -> forallb quotable (names_of e) = true.
Proof. rewrite !forallb_forall. intros H x I. now apply codable_quotable, H. Qed.
Lemma file_reads path : quotable path = true -> Reads (Code "")
  ["engine.fldFile = "; dq; path; dq; nl; "if (require(data.table)) {"; nl; "    engine.df = data.table::fread(engine.fldFile, sep="; dq; "auto"; dq; ", header="; dq; "auto"; dq; ")"; nl; "} else {"; nl; "    engine.df = read.table(engine.fldFile, header=TRUE)"; nl; "}"; nl; nl]
  (Code "") [("engine.fldFile = ", path); ("    engine.df = data.table::fread(engine.fldFile, sep=", "auto"); (", header=", "auto")].
Proof. intro Q. eapply rd_eq; [rd|pairs]. Qed.
End Script.

Section Bundle.
Context {T : Type} `{S : Scalar T}.
Variables (d : nat) (library : string) (resolution : Z) (colors : rcolors).
Variable drain : drainer T.
Notation fll e := (fll_export d resolution "  " (char Fll.newline) e).
Notation fitting e zs := (fitting library (c_minimum colors) (c_maximum colors) (c_contour colors) (fll e) e zs).
Notation expected e a b zs x y data := (("engine.name = ", e_name e) :: described (e_description e) ++ [("engine.fll = ", fll e)] ++ data ++
  plotted (c_minimum colors) (c_maximum colors) (c_contour colors) (Nat.eqb a b) (v_name x) (v_name y) zs ++ [("    ggsave(paste0(engine.name, ", ".pdf")])%list.
Theorem script_read a b values sc zs e e' script : fitting e zs -> r_script d library resolution colors drain a b values sc zs e = (e', Ok script) ->
  exists x y rows, nth_error (e_inputs e) a = Some x /\ nth_error (e_inputs e) b = Some y /\
    fld_grid drain (fld_new " ") values sc (map (fun i => Nat.eqb i a || Nat.eqb i b)%bool (seq 0 (List.length (e_inputs e)))) e = ((e', rows), Ok tt) /\
    literals script = Some (expected e a b zs x y (dataset (fld_text (fld_new " ") d e rows))).
Proof.
  intros (L & C1 & C2 & C3 & N & D & F & NO & Z) E. unfold r_script, r_pair in E. destruct (nth_error (e_inputs e) a) as [x|] eqn:A; [|discriminate E]. destruct (nth_error (e_inputs e) b) as [y|] eqn:B; [|discriminate E].
  destruct (fld_grid _ _ _ _ _ _) as [[f rows] [[]| | |]] eqn:G; try discriminate E. injection E as E1 E2. subst f. subst script. exists x, y, rows. split; [reflexivity|]. split; [reflexivity|]. split; [reflexivity|].
  assert (G2 := data_quotable d e rows (names_quotable e NO)). rewrite (frame_read d library resolution colors C1 C2 C3); try assumption; try (eapply name_in; eassumption). reflexivity.
Qed.
Theorem lines_read a b lines zs e e' script : fitting e zs -> r_script_lines d library resolution colors drain a b lines zs e = (e', Ok script) ->
  exists x y rows, nth_error (e_inputs e) a = Some x /\ nth_error (e_inputs e) b = Some y /\ fld_lines drain (fld_new " ") true lines e [] = ((e', rows), Ok tt) /\
    literals script = Some (expected e a b zs x y (dataset (fld_text (fld_new " ") d e rows))).
Proof.
  intros (L & C1 & C2 & C3 & N & D & F & NO & Z) E. unfold r_script_lines, r_pair in E. destruct (nth_error (e_inputs e) a) as [x|] eqn:A; [|discriminate E]. destruct (nth_error (e_inputs e) b) as [y|] eqn:B; [|discriminate E].
  destruct (fld_lines _ _ _ _ _ _) as [[f rows] [[]| | |]] eqn:G; try discriminate E. injection E as E1 E2. subst f. subst script. exists x, y, rows. split; [reflexivity|]. split; [reflexivity|]. split; [reflexivity|].
  assert (G2 := data_quotable d e rows (names_quotable e NO)). rewrite (frame_read d library resolution colors C1 C2 C3); try assumption; try (eapply name_in; eassumption). reflexivity.
Qed.
Theorem file_read a b path zs e script : fitting e zs -> quotable path = true -> r_script_file d library resolution colors a b path zs e = Ok script ->
  exists x y, nth_error (e_inputs e) a = Some x /\ nth_error (e_inputs e) b = Some y /\
    literals script = Some (expected e a b zs x y [("engine.fldFile = ", path); ("    engine.df = data.table::fread(engine.fldFile, sep=", "auto"); (", header=", "auto")]).
Proof.
  intros (L & C1 & C2 & C3 & N & D & F & NO & Z) PQ E. unfold r_script_file, r_pair in E. destruct (nth_error (e_inputs e) a) as [x|] eqn:A; [|discriminate E]. destruct (nth_error (e_inputs e) b) as [y|] eqn:B; [|discriminate E].
  apply (f_equal (fun r => match r with Ok s => s | _ => "" end)) in E. cbv beta iota in E. exists x, y. split; [reflexivity|]. split; [reflexivity|].
  assert (Q := rd_app _ _ _ _ _ _ _ (header_reads d library resolution e L N D F) (rd_app _ _ _ _ _ _ _ (file_reads path PQ) (plots_read colors C1 C2 C3 (Nat.eqb a b) _ _ zs (name_in e a x A NO) (name_in e b y B NO) Z))).
  unfold Reads in Q. rewrite E in Q. unfold literals. rewrite Q. f_equal. cbn [List.app]. f_equal. rewrite <- app_assoc. reflexivity.
Qed.
Theorem script_plots a b values sc zs e e' script : zs <> [] -> r_script d library resolution colors drain a b values sc zs e = (e', Ok script) ->
  exists names before, NoDup names /\ List.length names = (2 * List.length zs)%nat /\
  line_at before ("    engine.plots = arrangeGrob(" ++ join names ", " ++ ", ncol=2, top=engine.name)") script /\
  forall p, In p names -> exists b0 r, before = b0 ++ p ++ " = ggplot(engine.df, aes(" ++ r /\ (b0 = "" \/ exists c, b0 = c ++ String line_break "").
Proof.
  intros N E. unfold r_script in E. destruct (r_pair a b e) as [[x y]|]; [|discriminate E]. destruct (fld_grid _ _ _ _ _ _) as [[f rows] [[]| | |]]; try discriminate E. injection E as _ <-. exact (frame_plots d library resolution colors (Nat.eqb a b) (v_name x) (v_name y) zs e rows N).
Qed.
Theorem script_outcome a b values sc zs e : (a < List.length (e_inputs e))%nat -> (b < List.length (e_inputs e))%nat ->
  let run := fld_grid drain (fld_new " ") values sc (map (fun i => Nat.eqb i a || Nat.eqb i b)%bool (seq 0 (List.length (e_inputs e)))) e in
  fst (r_script d library resolution colors drain a b values sc zs e) = fst (fst run) /\
  (forall err, snd run = Throw err -> snd (r_script d library resolution colors drain a b values sc zs e) = Throw err) /\
  (snd run = Ok tt -> exists script, snd (r_script d library resolution colors drain a b values sc zs e) = Ok script).
Proof.
  intros A B run. unfold r_script, r_pair. destruct (nth_error (e_inputs e) a) as [x|] eqn:X; [|apply nth_error_None in X; lia]. destruct (nth_error (e_inputs e) b) as [y|] eqn:Y; [|apply nth_error_None in Y; lia].
  fold run. destruct run as [[f rows] [[]|err| |]]; cbn [fst snd]; (split; [reflexivity|]); (split; [intros; congruence|]); intro; try discriminate; eauto.
Qed.
(** the first two input variables, or the only one twice *)
Theorem export_choice e : let names := map (fun o => v_name (o_var o)) (e_outputs e) in
  (e_inputs e = [] \/ e_outputs e = [] -> r_export d library resolution colors drain e = (e, Throw EExport)) /\
  (forall x, e_inputs e = [x] -> e_outputs e <> [] -> r_export d library resolution colors drain e = r_script d library resolution colors drain 0 0 1024 AllVariables names e) /\
  (forall x y l, e_inputs e = x :: y :: l -> e_outputs e <> [] -> r_export d library resolution colors drain e = r_script d library resolution colors drain 0 1 1024 AllVariables names e).
Proof.
  intro names. unfold r_export. split; [|split].
  - intros [H|H]; rewrite H; [reflexivity|]. now destruct (e_inputs e).
  - intros x H N. rewrite H. destruct (e_outputs e) eqn:O; [congruence|]. unfold names. rewrite ?O. reflexivity.
  - intros x y l H N. rewrite H. destruct (e_outputs e) eqn:O; [congruence|]. unfold names. rewrite ?O. cbn [List.length]. rewrite Nat.mod_small by lia. reflexivity.
Qed.
End Bundle.
