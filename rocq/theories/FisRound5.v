(** Engines in the Fuzzy Inference System format: import of what was exported. *)
From Coq Require Import ZArith List Bool String Ascii Arith Lia Permutation Sorting.Sorted.
From Verif Require Import Base Op Norm Hedge Shape Discrete Defuzz Aggregated Text Function Rule Var Activation Engine Factory
  SpecText TextProofs TextProofs2 RuleProofs3 SpecRule Fll SpecFll FllText FllLines FllExport FllRound FllRound2 FllFix FllSame Fis SpecFis FisRule FisRule2 FisRule3 FisBundle Fcl SpecFcl FclText FclRound FclRound2 FclRound3 FclRound4
  SpecFis2 FisText FisRound FisRound2 FisRound3 FisRound4.
Import ListNotations.
Local Open Scope string_scope.

Section Round.
Context {T : Type} `{S : Scalar T}.
Variables (d : nat) (resolution : Z) (library version : string).
Hypothesis N : printable (T := T) d.
Hypothesis numbers : forall x : T, sforall FclRound.numeral (str d x) = true /\ dotted (str d x).
Hypothesis library_line : one_line library.
Hypothesis version_name : plain_name version.
Variable num : T -> T -> Prop.
Hypothesis num_reread : forall x, num x (reread d x).
Hypothesis num_nan : num s_nan s_nan.

(** ** variables, one after the other *)
Fixpoint read_inputs (done_ vs : list (variable T)) : res (list (variable T)) :=
  match vs with
  | [] => Ok done_
  | v :: vs => do w <- printed_variable d (engine_view (done_ ++ [bare v]) []) (fis_kept_variable v); read_inputs (done_ ++ [w]) vs
  end.
Fixpoint read_outputs (ins : list (variable T)) (done_ os : list (output T)) : res (list (output T)) :=
  match os with
  | [] => Ok done_
  | o :: os => do w <- printed_variable d (engine_view ins (done_ ++ [bare_output o])) (fis_kept_variable (o_var o)); read_outputs ins (done_ ++ [mkOutput w [] None None s_nan s_nan false]) os
  end.
Definition section_text (g : list string * (string * list string)) : string := join (fst (snd g) :: snd (snd g)) (char newline).
Definition input_group (p : nat * variable T) : list string * (string * list string) := (fis_variable d "Input" (fst p) (snd p), (heading "Input" (fst p), variable_lines d (snd p))).
Definition output_group (p : nat * output T) : list string * (string * list string) := (fis_variable d "Output" (fst p) (o_var (snd p)), (heading "Output" (fst p), variable_lines d (o_var (snd p)))).
Lemma prefix_app a b : String.prefix a (a ++ b) = true.
Proof. induction a as [|c a IH]; [destruct b; reflexivity|]. cbn [append String.prefix]. destruct (ascii_dec c c); [exact IH|congruence]. Qed.
Lemma section_input i v e m : fis_variable_ok v -> e_outputs e = [] ->
  fis_section d (e, m) (section_text (input_group (i, v))) =
  (do w <- printed_variable d (engine_view (e_inputs e ++ [bare v]) []) (fis_kept_variable v); Ok (mkEngine (e_name e) (e_description e) (e_inputs e ++ [w])%list [] (e_blocks e), m)).
Proof.
  intros H O. destruct (heading_facts "Input" i (or_introl eq_refl)) as (_ & A & B & _). destruct (variable_cleans d numbers "Input" i v (or_introl eq_refl) H) as [_ F].
  assert (SR := section_read (heading "Input" i) (variable_lines d v) A B F). unfold section_text. cbn [input_group fst snd]. unfold fis_section. destruct (join_lead (heading "Input" i) (variable_lines d v)) as (t & E).
  assert (P1 : String.prefix "[System]" (join (heading "Input" i :: variable_lines d v) (char newline)) = false) by (rewrite E; reflexivity).
  assert (P2 : String.prefix "[Input" (join (heading "Input" i :: variable_lines d v) (char newline)) = true).
  { rewrite E. unfold heading. change "[" with (char "["). assert (R : (char "[" ++ "Input" ++ str_int (Z.of_nat (Datatypes.S i)) ++ "]") ++ t = "[Input" ++ (str_int (Z.of_nat (Datatypes.S i)) ++ "]") ++ t) by (rewrite !sapp_assoc; reflexivity). rewrite R. apply prefix_app. }
  rewrite P1, P2. unfold fis_import_input. rewrite SR. rewrite (read_input d N numbers e v H), O. destruct (printed_variable d _ (fis_kept_variable v)) as [w|x| |]; reflexivity.
Qed.
Lemma section_output i o e m : fis_variable_ok (o_var o) ->
  fis_section d (e, m) (section_text (output_group (i, o))) =
  (do w <- printed_variable d (engine_view (e_inputs e) (e_outputs e ++ [bare_output o])) (fis_kept_variable (o_var o)); Ok (mkEngine (e_name e) (e_description e) (e_inputs e) (e_outputs e ++ [mkOutput w [] None None s_nan s_nan false])%list (e_blocks e), m)).
Proof.
  intros H. destruct (heading_facts "Output" i (or_intror eq_refl)) as (_ & A & B & _). destruct (variable_cleans d numbers "Output" i (o_var o) (or_intror eq_refl) H) as [_ F].
  assert (SR := section_read (heading "Output" i) (variable_lines d (o_var o)) A B F). unfold section_text. cbn [output_group fst snd]. unfold fis_section. destruct (join_lead (heading "Output" i) (variable_lines d (o_var o))) as (t & E).
  assert (P1 : String.prefix "[System]" (join (heading "Output" i :: variable_lines d (o_var o)) (char newline)) = false) by (rewrite E; reflexivity).
  assert (P2 : String.prefix "[Input" (join (heading "Output" i :: variable_lines d (o_var o)) (char newline)) = false) by (rewrite E; reflexivity).
  assert (P3 : String.prefix "[Output" (join (heading "Output" i :: variable_lines d (o_var o)) (char newline)) = true).
  { rewrite E. unfold heading. change "[" with (char "["). assert (R : (char "[" ++ "Output" ++ str_int (Z.of_nat (Datatypes.S i)) ++ "]") ++ t = "[Output" ++ (str_int (Z.of_nat (Datatypes.S i)) ++ "]") ++ t) by (rewrite !sapp_assoc; reflexivity). rewrite R. apply prefix_app. }
  rewrite P1, P2, P3. unfold fis_import_output. rewrite SR, (read_output d N numbers e o H). destruct (printed_variable d _ (fis_kept_variable (o_var o))) as [w|x| |]; reflexivity.
Qed.
Lemma sections_inputs vs nm ds bs m : Forall fis_variable_ok vs -> forall k dn,
  rfold (fis_section d) (mkEngine nm ds dn [] bs, m) (map section_text (map input_group (combine (seq k (List.length vs)) vs))) = (do ins <- read_inputs dn vs; Ok (mkEngine nm ds ins [] bs, m)).
Proof.
  intro F. induction F as [|v vs H F IH]; intros k dn; [reflexivity|]. cbn [List.length seq combine map rfold read_inputs]. rewrite section_input by (assumption || reflexivity). cbn [e_inputs e_name e_description e_blocks].
  destruct (printed_variable d _ (fis_kept_variable v)) as [w|x| |]; cbn [rbind]; try reflexivity. apply IH.
Qed.
Lemma sections_outputs vs nm ds ins bs m : Forall (fun o => fis_variable_ok (o_var o)) vs -> forall k dn,
  rfold (fis_section d) (mkEngine nm ds ins dn bs, m) (map section_text (map output_group (combine (seq k (List.length vs)) vs))) = (do outs <- read_outputs ins dn vs; Ok (mkEngine nm ds ins outs bs, m)).
Proof.
  intro F. induction F as [|v vs H F IH]; intros k dn; [reflexivity|]. cbn [List.length seq combine map rfold read_outputs]. rewrite section_output by assumption. cbn [e_inputs e_outputs e_name e_description e_blocks].
  destruct (printed_variable d _ (fis_kept_variable (o_var v))) as [w|x| |]; cbn [rbind]; try reflexivity. apply IH.
Qed.
Lemma groups_inputs vs : Forall fis_variable_ok vs -> forall k, Forall (fun g => cleans (fst g) (fst (snd g) :: snd (snd g)) /\ fis_heading (fst (snd g)) = true /\ Forall plain_line (snd (snd g))) (map input_group (combine (seq k (List.length vs)) vs)).
Proof.
  intro F. induction F as [|v vs H F IH]; intro k; [constructor|]. cbn [List.length seq combine map]. constructor; [|apply IH]. cbn [input_group fst snd]. destruct (variable_cleans d numbers "Input" k v (or_introl eq_refl) H) as [A B]. destruct (heading_facts "Input" k (or_introl eq_refl)) as (_ & _ & _ & C). auto.
Qed.
Lemma groups_outputs vs : Forall (fun o => fis_variable_ok (o_var o)) vs -> forall k, Forall (fun g => cleans (fst g) (fst (snd g) :: snd (snd g)) /\ fis_heading (fst (snd g)) = true /\ Forall plain_line (snd (snd g))) (map output_group (combine (seq k (List.length vs)) vs)).
Proof.
  intro F. induction F as [|v vs H F IH]; intro k; [constructor|]. cbn [List.length seq combine map]. constructor; [|apply IH]. cbn [output_group fst snd]. destruct (variable_cleans d numbers "Output" k (o_var v) (or_intror eq_refl) H) as [A B]. destruct (heading_facts "Output" k (or_intror eq_refl)) as (_ & _ & _ & C). auto.
Qed.

(** ** what is kept of the variables *)
Lemma kept_plain v : fis_variable_ok v -> plain_variable (T := T) (fis_kept_variable v).
Proof.
  intros [A B]. split; [exact A|]. split; [split; reflexivity|]. cbn [fis_kept_variable v_terms]. apply Forall_map. rewrite Forall_forall in *. intros t I. destruct (B t I) as [C D].
  unfold plain_term, fis_kept_term, fis_term_ok in *. destruct (tm_body t) as [s|xy|v1|cs b|f] eqn:E; cbn [tm_name tm_body]; try (split; [exact D|]; exact Logic.I). split; [exact D|]. cbn [fn_formula]. destruct C as ((C1 & C2 & _) & _). split; [|now apply squeezed_formula].
  unfold one_line, squeezed in *. rewrite lacks_sforall in *. clear - C1. induction (fn_formula f) as [|c s IH]; [reflexivity|]. cbn [sforall] in C1. apply andb_true_iff in C1. destruct C1 as [X Y]. cbn [sfilter]. destruct (negb (is_space c)); [cbn [sforall]; rewrite X; auto|auto].
Qed.
Lemma inputs_same vs : Forall fis_variable_ok vs -> forall dn ins, read_inputs dn vs = Ok ins -> exists ws, ins = (dn ++ ws)%list /\ Forall2 (same_variable num) (map fis_kept_variable vs) ws.
Proof.
  intro F. induction F as [|v vs H F IH]; intros dn ins E; cbn [read_inputs] in E; [injection E as <-; exists []; rewrite app_nil_r; split; [reflexivity|constructor]|].
  destruct (printed_variable d _ (fis_kept_variable v)) as [w|x| |] eqn:W; try discriminate. cbn [rbind] in E. destruct (IH _ _ E) as (ws & -> & Q). exists (w :: ws). rewrite <- app_assoc. split; [reflexivity|].
  constructor; [exact (same_printed_variable d num num_reread _ _ _ (kept_plain v H) W)|exact Q].
Qed.
Definition same_raw_output (v : variable T) (p : output T) : Prop := exists w, p = mkOutput w [] None None s_nan s_nan false /\ same_variable num v w.
Lemma outputs_same iv vs : Forall (fun o => fis_variable_ok (o_var o)) vs -> forall dn outs, read_outputs iv dn vs = Ok outs ->
  exists ws, outs = (dn ++ ws)%list /\ Forall2 same_raw_output (map (fun o => fis_kept_variable (o_var o)) vs) ws.
Proof.
  intro F. induction F as [|v vs H F IH]; intros dn outs E; cbn [read_outputs] in E; [injection E as <-; exists []; rewrite app_nil_r; split; [reflexivity|constructor]|].
  destruct (printed_variable d _ (fis_kept_variable (o_var v))) as [w|x| |] eqn:W; try discriminate. cbn [rbind] in E. destruct (IH _ _ E) as (ws & -> & Q). exists (mkOutput w [] None None s_nan s_nan false :: ws). rewrite <- app_assoc. split; [reflexivity|].
  constructor; [exists w; split; [reflexivity|exact (same_printed_variable d num num_reread _ _ _ (kept_plain (o_var v) H) W)]|exact Q].
Qed.
Lemma same_terms_names l m : Forall2 (same_term num) l m -> map (@tm_name T) m = map (@tm_name T) l.
Proof. intro F. induction F as [|a b l m H F IH]; [reflexivity|]. cbn [map]. rewrite IH. destruct H as [-> _]. reflexivity. Qed.
Lemma same_names v w : same_variable num (fis_kept_variable v) w -> var_names w = var_names (T := T) v.
Proof.
  intros (A & _ & _ & _ & _ & _ & B & _). unfold var_names. rewrite A, (same_terms_names _ _ B). cbn [fis_kept_variable v_name v_terms]. rewrite map_map. reflexivity.
Qed.
Lemma env_kept vs ws os us : Forall2 (same_variable num) (map fis_kept_variable vs) ws -> Forall2 same_raw_output (map (fun o => fis_kept_variable (o_var o)) os) us -> engine_env ws us = engine_env (T := T) vs os.
Proof.
  intros A B. unfold engine_env. f_equal.
  - revert ws A. induction vs as [|v vs IH]; intros ws A; inversion A as [|? w ? ws' A1 A2]; subst; [reflexivity|]. cbn [map]. rewrite (same_names v w A1), (IH ws'); auto.
  - revert us B. clear A; induction os as [|v os IH]; intros us B; inversion B as [|? w ? us0 B1 B2]; subst; [reflexivity|]. cbn [map]. destruct B1 as (u & -> & B1). cbn [o_var]. rewrite (same_names (o_var v) u B1), (IH us0); auto.
Qed.
Lemma read_inputs_ok vs : Forall (fun v => Forall no_function (v_terms v)) vs -> forall dn, exists ins, read_inputs dn vs = Ok ins.
Proof.
  intro F. induction F as [|v vs H F IH]; intro dn; [eexists; reflexivity|]. cbn [read_inputs]. destruct (printed_variable_ok d (engine_view (dn ++ [bare v]) []) (fis_kept_variable v)) as [w ->]; [|apply IH].
  cbn [fis_kept_variable v_terms]. apply Forall_map. eapply Forall_impl; [|exact H]. intros t. unfold no_function, fis_kept_term. cbn [tm_body]. destruct (tm_body t); auto.
Qed.
Lemma read_outputs_ok iv vs : Forall (fun o => Forall no_function (v_terms (o_var o))) vs -> forall dn, exists outs, read_outputs iv dn vs = Ok outs.
Proof.
  intro F. induction F as [|v vs H F IH]; intro dn; [eexists; reflexivity|]. cbn [read_outputs]. destruct (printed_variable_ok d (engine_view iv (dn ++ [bare_output v])) (fis_kept_variable (o_var v))) as [w ->]; [|apply IH].
  cbn [fis_kept_variable v_terms]. apply Forall_map. eapply Forall_impl; [|exact H]. intros t. unfold no_function, fis_kept_term. cbn [tm_body]. destruct (tm_body t); auto.
Qed.

(** ** the engine *)
Section Whole.
Variable e : engine T.
Hypothesis H : fis_engine e.
Let env := engine_env (e_inputs e) (e_outputs e).
Definition back (r : rule T) (line : string) (s : rule T) : Prop :=
  fis_rule d e r = Ok line /\ (forall b, fis_rule_line d env b line = Ok (set_rules (b_rules b ++ [s])%list b)) /\ fis_same_rule num r s.
Hypothesis restored : forall r op ex, rl_antecedent r = Some ex -> fis_expressible env op ex (rl_consequent r) -> exists line s, back r line s.

Lemma inputs_ok : Forall fis_variable_ok (e_inputs e).
Proof.
  apply Forall_forall. intros v I. destruct (fe_names e H) as [_ FC _ _ _ _]. assert (J := proj1 (Forall_forall _ _) (fe_in_terms e H) v I). split.
  - destruct (FC (v_name v)) as (A & B & _); [|split; auto]. left. unfold inputs_of, engine_env. cbn [pe_inputs]. rewrite map_map. cbn [var_names pv_name]. now apply in_map.
  - rewrite Forall_forall in *. intros t It. split; [now apply J|]. destruct (FC (tm_name t)) as (A & B & _); [|split; auto]. right. right. destruct (In_nth_error _ _ I) as [i Ei]. exists (VIn i). unfold terms_of, engine_env. cbn [pe_inputs]. rewrite nth_error_map, Ei. cbn [option_map var_names pv_terms]. now apply in_map.
Qed.
Lemma outputs_ok : Forall (fun o => fis_variable_ok (o_var o)) (e_outputs e).
Proof.
  apply Forall_forall. intros v I. destruct (fe_names e H) as [_ FC _ _ _ _]. assert (J := proj1 (Forall_forall _ _) (fe_out_terms e H) v I). split.
  - destruct (FC (v_name (o_var v))) as (A & B & _); [|split; auto]. right. left. unfold outputs_of, engine_env. cbn [pe_outputs]. rewrite map_map. cbn [var_names pv_name]. apply in_map_iff. now exists v.
  - rewrite Forall_forall in *. intros t It. split; [now apply J|]. destruct (FC (tm_name t)) as (A & B & _); [|split; auto]. right. right. destruct (In_nth_error _ _ I) as [i Ei]. exists (VOut i). unfold terms_of, engine_env. cbn [pe_outputs]. rewrite nth_error_map, Ei. cbn [option_map var_names pv_terms]. now apply in_map.
Qed.
Definition expressible_rule (r : rule T) : Prop := exists op ex, rl_antecedent r = Some ex /\ fis_expressible env op ex (rl_consequent r).
Lemma rules_lines rs : Forall expressible_rule rs -> exists ls ss, rmapM (fis_rule d e) rs = Ok ls /\ cleans ls ls /\ Forall plain_line ls /\
  (forall b, rfold (fis_rule_line d env) b ls = Ok (set_rules (b_rules b ++ ss)%list b)) /\ Forall2 (fun r s => exists line, back r line s) rs ss.
Proof.
  intro F. induction F as [|r rs (op & ex & A & B) F (ls & ss & E & C & PL & RF & Q)].
  - exists [], []. repeat split; try constructor. intro b. cbn [rfold]. rewrite app_nil_r. now destruct b.
  - destruct (restored r op ex A B) as (line & s & E1 & E2 & E3). destruct (rule_line d e r op ex line A B E1) as [C1 P1]. exists (line :: ls), (s :: ss). cbn [rmapM]. rewrite E1. cbn [rbind]. rewrite E. cbn [rbind]. split; [reflexivity|].
    split; [now apply cl_line|]. split; [now constructor|]. split; [|constructor; [exists line; repeat split; assumption|exact Q]]. intro b. cbn [rfold]. rewrite E2. cbn [rbind]. rewrite RF. cbn [set_rules b_rules b_enabled b_name b_description b_conjunction b_disjunction b_implication b_activation]. unfold set_rules. cbn [b_rules b_enabled b_name b_description b_conjunction b_disjunction b_implication b_activation]. now rewrite <- app_assoc.
Qed.
Lemma blocks_lines n bs : Forall (fun b => one_line (b_name b)) bs -> Forall expressible_rule (filter rule_loaded (flat_map (@b_rules T) bs)) -> exists raws ls ss,
  rmapM (fun b => do l <- rmapM (fis_rule d e) (filter rule_loaded (b_rules b)); Ok ((if Nat.ltb 1 n then [("# RuleBlock " ++ b_name b)%string] else []) ++ l)%list) bs = Ok raws /\
  cleans (List.concat raws) ls /\ Forall one_line (List.concat raws) /\ Forall plain_line ls /\ (forall b, rfold (fis_rule_line d env) b ls = Ok (set_rules (b_rules b ++ ss)%list b)) /\
  Forall2 (fun r s => exists line, back r line s) (filter rule_loaded (flat_map (@b_rules T) bs)) ss.
Proof.
  intro F. induction F as [|b bs NB F IH]; intro X.
  - exists [], [], []. repeat split; try constructor. intro b. cbn [rfold]. rewrite app_nil_r. now destruct b.
  - cbn [flat_map] in X |- *. rewrite filter_app in X |- *. apply Forall_app in X. destruct X as [X1 X2]. destruct (IH X2) as (raws & ls & ss & E & C & O & PL & RF & Q). destruct (rules_lines _ X1) as (ls1 & ss1 & E1 & C1 & PL1 & RF1 & Q1).
    eexists (_ :: raws), (ls1 ++ ls)%list, (ss1 ++ ss)%list. cbn [rmapM]. rewrite E1. cbn [rbind]. rewrite E. cbn [rbind]. split; [reflexivity|]. cbn [List.concat]. split; [|split; [|split; [|split]]].
    + apply cleans_app; [|exact C]. destruct (Nat.ltb 1 n); [apply cl_skip; [exact (clean_comment (" RuleBlock " ++ b_name b))|exact C1]|exact C1].
    + apply Forall_app. split; [|exact O]. apply Forall_app. split.
      * destruct (Nat.ltb 1 n); constructor; [|constructor]. unfold one_line in *. rewrite lacks_app, NB. reflexivity.
      * eapply Forall_impl; [|exact PL1]. intros l (Z & _). exact Z.
    + apply Forall_app. auto.
    + intro b0. rewrite rfold_join, RF1. cbn [rbind]. rewrite RF. unfold set_rules. cbn [b_rules b_enabled b_name b_description b_conjunction b_disjunction b_implication b_activation]. now rewrite <- app_assoc.
    + now apply Forall2_app.
Qed.

Definition operators (f : engine T) : engine T :=
  configure (Some (first_given Minimum (map (@b_conjunction T) (e_blocks e)))) (Some (first_given Maximum (map (@b_disjunction T) (e_blocks e))))
    (Some (first_given Minimum (map (@b_implication T) (e_blocks e)))) (Some (all_aggregation e)) (option_map (like resolution) (all_defuzzifier e)) (Some General) f.
Theorem round_trip : exists text ss, fis_export d library version e = Ok text /\ Forall2 (fun r s => exists line, back r line s) (all_rules e) ss /\
  fis_import d resolution text = (do ins <- read_inputs [] (e_inputs e); do outs <- read_outputs ins [] (e_outputs e);
    Ok (operators (mkEngine (e_name e) "" ins outs [set_rules ss new_block]))).
Proof.
  destruct (blocks_lines (List.length (e_blocks e)) (e_blocks e) (fe_blocks e H) (fe_rules e H)) as (raws & ls & ss & E & C & O & PL & RF & Q).
  assert (IO := inputs_ok). assert (OO := outputs_ok). destruct (fe_name e H) as [NT NTrim].
  eexists. exists ss. unfold fis_export, fis_rules. rewrite E. cbn [rbind]. split; [reflexivity|]. split; [exact Q|].
  set (sys := ((fis_system library version e ++ [""])%list, ("[System]", system_lines version e)) : list string * (string * list string)).
  set (gi := map input_group (combine (seq 0 (List.length (e_inputs e))) (e_inputs e))). set (go := map output_group (combine (seq 0 (List.length (e_outputs e))) (e_outputs e))).
  set (gr := ("[Rules]" :: List.concat raws, ("[Rules]", ls)) : list string * (string * list string)).
  assert (LE : (fis_system library version e ++ [""] ++ fis_inputs d e ++ fis_outputs d e ++ "[Rules]" :: List.concat raws)%list = flat_map fst (sys :: gi ++ go ++ [gr])).
  { cbn [flat_map]. rewrite !flat_map_app. cbn [flat_map]. rewrite app_nil_r. unfold sys, gr, gi, go. cbn [fst]. rewrite <- app_assoc. f_equal. f_equal. unfold fis_inputs, fis_outputs. rewrite !flat_map_concat_map, !map_map. reflexivity. }
  unfold fis_import. rewrite LE, getlines_text.
  2: { rewrite <- LE. rewrite app_assoc. apply Forall_app. split; [now apply system_one|]. apply Forall_app. split; [|apply Forall_app; split; [|constructor; [reflexivity|exact O]]].
       - unfold fis_inputs. generalize 0%nat as k. clear - IO numbers. induction IO as [|v vs A F IH]; intro k; [constructor|]. cbn [List.length seq combine flat_map]. apply Forall_app. split; [now apply variable_one|apply IH].
       - unfold fis_outputs. generalize 0%nat as k. clear - OO numbers. induction OO as [|v vs A F IH]; intro k; [constructor|]. cbn [List.length seq combine flat_map]. apply Forall_app. split; [now apply variable_one|apply IH]. }
  destruct (system_cleans library version version_name e NT) as [S1 S2].
  rewrite sections_all.
  2: { constructor; [unfold sys; cbn [fst snd]; auto|]. apply Forall_app. split; [now apply groups_inputs|]. apply Forall_app. split; [now apply groups_outputs|]. constructor; [|constructor]. unfold gr. cbn [fst snd]. split; [apply cl_line; [reflexivity|exact C]|auto]. }
  cbn [rbind app]. fold section_text. change (map _ (sys :: gi ++ go ++ [gr])) with (section_text sys :: map section_text (gi ++ go ++ [gr])). rewrite !map_app. cbn [rfold].
  assert (Y1 : fis_section d (new_engine, mkMethods "" "" "" "" "") (section_text sys) = Ok (mkEngine (e_name e) "" [] [] [], mkMethods (and_name e) (or_name e) (imp_name e) (agg_name e) (defuzz_name e))).
  { unfold section_text, sys. cbn [fst snd]. unfold fis_section. destruct (join_lead "[System]" (system_lines version e)) as (t & ET). assert (P : String.prefix "[System]" (join ("[System]" :: system_lines version e) (char newline)) = true) by (rewrite ET; apply prefix_app).
    rewrite P. unfold fis_import_system. rewrite section_read by (reflexivity || discriminate || exact S2). exact (system_read version version_name e "" "" [] [] [] _ NT NTrim). }
  rewrite Y1. cbn [rbind]. rewrite rfold_join. unfold gi at 1. rewrite sections_inputs by exact IO. destruct (read_inputs [] (e_inputs e)) as [ins|x| |] eqn:RI; cbn [rbind]; try reflexivity.
  rewrite rfold_join. unfold go at 1. rewrite sections_outputs by exact OO. destruct (read_outputs ins [] (e_outputs e)) as [outs|x| |] eqn:RO; cbn [rbind]; try reflexivity.
  destruct (inputs_same _ IO _ _ RI) as (ws & EW & SW). destruct (outputs_same ins _ OO _ _ RO) as (us & EU & SU). cbn [app] in EW, EU. subst ws us.
  assert (EV : engine_env ins outs = env) by exact (env_kept _ _ _ _ SW SU).
  cbn [map rfold]. unfold section_text at 1, gr at 1 2. cbn [fst snd]. unfold fis_section. destruct (join_lead "[Rules]" ls) as (t & ET).
  assert (P1 : String.prefix "[System]" (join ("[Rules]" :: ls) (char newline)) = false) by (rewrite ET; reflexivity). assert (P2 : String.prefix "[Input" (join ("[Rules]" :: ls) (char newline)) = false) by (rewrite ET; reflexivity).
  assert (P3 : String.prefix "[Output" (join ("[Rules]" :: ls) (char newline)) = false) by (rewrite ET; reflexivity). assert (P4 : String.prefix "[Rules]" (join ("[Rules]" :: ls) (char newline)) = true) by (rewrite ET; apply prefix_app).
  rewrite P1, P2, P3, P4. unfold fis_import_rules. rewrite section_read by (reflexivity || discriminate || exact PL). cbn [e_inputs e_outputs e_blocks e_name e_description]. rewrite EV, RF. cbn [rbind].
  unfold configure_names. cbn [m_and m_or m_imp m_agg m_defuzz]. unfold and_name, or_name, imp_name, agg_name, defuzz_name.
  rewrite !(proj1 (fis_tnorms _)), !(proj1 (fis_snorms _)), fis_defuzzifiers. cbn [rbind]. reflexivity.
Qed.
End Whole.
End Round.
