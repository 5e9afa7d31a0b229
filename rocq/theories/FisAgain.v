(** Engines in the Fuzzy Inference System format: a second export and import changes nothing. *)
From Coq Require Import ZArith List Bool String Ascii Arith Lia Permutation Sorting.Sorted.
From Verif Require Import Base Op Norm Hedge Shape Discrete Defuzz Aggregated Text Function Rule Var Activation Engine Factory
  SpecText TextProofs TextProofs2 RuleProofs3 SpecRule Fll SpecFll FllText FllLines FllExport FllRound FllRound2 FllFix FllSame Fis SpecFis FisRule FisRule2 FisRule3 FisBundle Fcl SpecFcl FclText FclRound FclRound2 FclRound3 FclRound4 FclSame
  SpecFis2 FisText FisRound FisRound2 FisRound3 FisRound4 FisRound5.
Import ListNotations.
Local Open Scope string_scope.

(** ** propositions in another order *)
Lemma find_none props v : find (fun p => varref_eqb (pr_var p) v) props = None -> ~ In v (map pr_var props).
Proof. intros E I. apply in_map_iff in I. destruct I as (p & <- & I). assert (Q := find_none _ _ E p I). cbn beta in Q. rewrite (proj2 (varref_eq _ _) eq_refl) in Q. discriminate. Qed.
Lemma nodup_var (l : list proposition) p q : NoDup (map pr_var l) -> In p l -> In q l -> pr_var p = pr_var q -> p = q.
Proof.
  induction l as [|x l IH]; intros D A B E; [contradiction|]. cbn [map] in D. inversion D as [|? ? D1 D2]; subst. destruct A as [->|A], B as [->|B]; auto.
  - destruct D1. rewrite E. now apply in_map.
  - destruct D1. rewrite <- E. now apply in_map.
Qed.
Lemma find_perm l m v : Permutation l m -> NoDup (map pr_var l) -> find (fun p => varref_eqb (pr_var p) v) l = find (fun p => varref_eqb (pr_var p) v) m.
Proof.
  intros PM D. assert (PV := Permutation_map pr_var PM). destruct (find _ l) as [p|] eqn:A, (find _ m) as [q|] eqn:B; auto.
  - destruct (found_var _ _ _ A) as [A1 A2], (found_var _ _ _ B) as [B1 B2]. f_equal. apply (nodup_var l); auto; [|congruence]. apply (Permutation_in _ (Permutation_sym PM)). exact B1.
  - destruct (found_var _ _ _ A) as [A1 A2]. destruct (find_none _ _ B). rewrite <- A2. apply (Permutation_in _ PV). now apply in_map.
  - destruct (found_var _ _ _ B) as [B1 B2]. destruct (find_none _ _ A). rewrite <- B2. apply (Permutation_in _ (Permutation_sym PV)). now apply in_map.
Qed.
Lemma chained_fold op ps : forall ex, joined_by op ex -> joined_by op (fold_left (fun e p => Opr op e (Prp p)) ps ex) /\ propositions_of (fold_left (fun e p => Opr op e (Prp p)) ps ex) = (propositions_of ex ++ ps)%list.
Proof.
  induction ps as [|p ps IH]; intros ex J; [split; [exact J|now rewrite app_nil_r]|]. cbn [fold_left]. destruct (IH (Opr op ex (Prp p))) as [A B]; [now repeat split|]. split; [exact A|]. rewrite B. cbn [propositions_of]. now rewrite <- app_assoc.
Qed.
Lemma chained_some op ps ex : chained op ps = Some ex -> joined_by op ex /\ propositions_of ex = ps.
Proof. destruct ps as [|p ps]; [discriminate|]. cbn [chained]. intro E. injection E as <-. exact (chained_fold op ps (Prp p) I). Qed.
(** two propositions have an operator between them *)
Lemma joined_both op op' ex : joined_by op ex -> joined_by op' ex -> op = op' \/ exists p, ex = Prp p.
Proof. destruct ex as [p|n l r]; [right; now exists p|]. intros [A _] [B _]. left. congruence. Qed.
Lemma operators_one op ex props ops : joined_by op ex -> breadth_first (expression_size ex) [ex] = Ok (props, ops) -> Permutation props (propositions_of ex) /\ Forall (eq op) ops /\ (ops = [] <-> List.length (propositions_of ex) = 1%nat).
Proof.
  intros J E. destruct (queue_ok op (expression_size ex) [ex]) as (ps & os & E' & PB & OB & LB); [cbn; lia|repeat constructor; exact J|]. rewrite E in E'. injection E' as <- <-. cbn [flat_map] in PB. rewrite app_nil_r in PB. split; [exact PB|]. split; [exact OB|].
  rewrite <- (Permutation_length PB). split; [exact LB|]. intro L. destruct ex as [p|n l r]; [cbn in E; now injection E as _ <-|]. exfalso. rewrite (Permutation_length PB) in L. cbn [propositions_of] in L. rewrite app_length in L.
  assert (A := propositions_nonempty l). assert (B := propositions_nonempty r). destruct (propositions_of l), (propositions_of r); try congruence. cbn in L. lia.
Qed.

Section Again.
Context {T : Type} `{S : Scalar T}.
Variables (d : nat) (resolution : Z).
Hypothesis N : printable (T := T) d.
Variable num : T -> T -> Prop.
Hypothesis num_reread : forall x, num x (reread d x).
Hypothesis num_str : forall x y, num x y -> str d y = str d x.

Lemma code_word_perm l m v n : Permutation l m -> NoDup (map pr_var l) -> code_word (T := T) d l v n = code_word d m v n.
Proof. intros A B. unfold code_word. now rewrite (find_perm l m v A B). Qed.
(** a rule that was read is written as the line that it was read from *)
Lemma line_again e f op ex r s line line' : input_sizes (T := T) e = input_sizes f -> output_sizes e = output_sizes f ->
  rl_antecedent r = Some ex -> fis_expressible (engine_env (e_inputs e) (e_outputs e)) op ex (rl_consequent r) -> fis_same_rule num r s ->
  fis_rule d e r = Ok line -> fis_rule d f s = Ok line' -> line' = line.
Proof.
  intros SI SO HA X (op1 & ex1 & ps & cs & A & J & PP & _ & PC & _ & _ & AS & CS & W) E E'. rewrite HA in A. injection A as <-.
  unfold fis_rule in E, E'. rewrite HA in E. destruct (chained op1 ps) as [ex'|] eqn:CH; [|exfalso; destruct ps; [|discriminate]; now apply (propositions_nonempty ex), Permutation_nil].
  destruct (chained_some _ _ _ CH) as [J' PO]. rewrite AS in E'.
  destruct (breadth_first (expression_size ex) [ex]) as [[p1 o1]| | |] eqn:B1; try discriminate. destruct (breadth_first (expression_size ex') [ex']) as [[p2 o2]| | |] eqn:B2; try discriminate. cbn [rbind] in E, E'.
  destruct (operators_one op1 ex p1 o1 J B1) as (Q1 & Q2 & Q3). destruct (operators_one op1 ex' p2 o2 J' B2) as (R1 & R2 & R3). rewrite PO in R1, R3.
  destruct (negb (equal_operators o1)); [discriminate|]. destruct (negb (equal_operators o2)); [discriminate|]. apply (f_equal (fun x => match x with Ok l => l | _ => "" end)) in E, E'. rewrite <- E, <- E'. clear E E' line line'.
  destruct X as [Fop FJ [FN _] FP [FO _] FC FS]. assert (PQ : Permutation p1 p2) by (rewrite Q1, R1; now symmetry). assert (ND : NoDup (map pr_var p1)) by (apply (Permutation_NoDup (Permutation_map pr_var (Permutation_sym Q1))); exact FN).
  rewrite !codes_words. rewrite <- SI, <- SO, CS. rewrite (num_str _ _ W).
  assert (M1 : map (fun v => code_word (T := T) d p2 (fst v) (snd v)) (input_sizes e) = map (fun v => code_word d p1 (fst v) (snd v)) (input_sizes e)) by (apply map_ext; intro v; symmetry; now apply code_word_perm).
  assert (M2 : map (fun v => code_word (T := T) d cs (fst v) (snd v)) (output_sizes e) = map (fun v => code_word d (rl_consequent r) (fst v) (snd v)) (output_sizes e)) by (apply map_ext; intro v; symmetry; apply code_word_perm; [now symmetry|exact FO]).
  rewrite M1, M2. do 5 f_equal. rewrite (Permutation_length PP) in R3. destruct Q2 as [|a o1 Ea Q2], R2 as [|b o2 Eb R2]; [reflexivity| | |now rewrite <- Ea, <- Eb].
  - exfalso. assert (Z : (b :: o2) = []) by (apply R3, Q3; reflexivity). discriminate.
  - exfalso. assert (Z : (a :: o1) = []) by (apply Q3, R3; reflexivity). discriminate.
Qed.
Lemma sizes_env (e f : engine T) : engine_env (e_inputs e) (e_outputs e) = engine_env (e_inputs f) (e_outputs f) -> input_sizes e = input_sizes f /\ output_sizes e = output_sizes f.
Proof.
  intro E. assert (E1 : map var_names (e_inputs e) = map var_names (e_inputs f)) by (injection E; auto). assert (E2 : map (fun o => var_names (o_var o)) (e_outputs e) = map (fun o => var_names (o_var o)) (e_outputs f)) by (injection E; auto). clear E.
  assert (G : forall (A : Type) (g : A -> pvar) (size : A -> nat) h l m, (forall a, size a = List.length (pv_terms (g a))) -> map g l = map g m -> forall k, number_from h size k l = number_from h size k m).
  { clear. intros A g size h l. induction l as [|a l IH]; intros m Z M k; destruct m as [|b m]; try discriminate; [reflexivity|]. cbn [map] in M. injection M as M1 M2. cbn [number_from]. rewrite !Z, M1. f_equal. now apply IH. }
  split; [apply (G _ var_names); [intro v; cbn [var_names pv_terms]; now rewrite map_length|exact E1]|apply (G _ (fun o => var_names (o_var o))); [intro v; cbn [var_names pv_terms]; now rewrite map_length|exact E2]].
Qed.
Lemma expressible_again env op ex cs0 r s : rl_antecedent r = Some ex -> rl_consequent r = cs0 -> fis_expressible env op ex cs0 -> fis_same_rule (T := T) num r s ->
  rule_loaded s = true /\ exists op' ex', rl_antecedent s = Some ex' /\ fis_expressible env op' ex' (rl_consequent s).
Proof.
  intros HA HC X (op1 & ex1 & ps & cs & A & J & PP & _ & PC & _ & _ & AS & CS & W). rewrite HA in A. injection A as <-. rewrite HC in PC. destruct X as [Fop FJ [FN FM] FP [FO FQ] FC FS].
  assert (CO : chained op1 ps = chained op ps).
  { destruct (joined_both _ _ _ J FJ) as [->|(p & ->)]; [reflexivity|]. cbn [propositions_of] in PP. apply Permutation_sym, Permutation_length_1_inv in PP. subst ps. reflexivity. }
  destruct (chained op ps) as [ex'|] eqn:CH; [|exfalso; destruct ps; [|discriminate]; now apply (propositions_nonempty ex), Permutation_nil]. destruct (chained_some _ _ _ CH) as [J' PO].
  assert (NC : cs <> []) by (intros ->; apply Permutation_nil in PC; congruence). rewrite CO in AS. split.
  - unfold rule_loaded. rewrite AS, CS. destruct cs; [congruence|reflexivity].
  - exists op, ex'. split; [exact AS|]. rewrite CS. split; auto.
    + rewrite PO. split; [apply (Permutation_NoDup (Permutation_map pr_var (Permutation_sym PP))); exact FN|exact (Permutation_Forall (Permutation_sym PP) FM)].
    + rewrite PO. exact (Permutation_Forall (Permutation_sym PP) FP).
    + split; [apply (Permutation_NoDup (Permutation_map pr_var (Permutation_sym PC))); exact FO|exact (Permutation_Forall (Permutation_sym PC) FQ)].
    + exact (Permutation_Forall (Permutation_sym PC) FC).
Qed.

(** ** variables *)
Lemma fis_term_again vw t t1 : fis_term_ok t -> plain_name (tm_name t) -> printed_term d vw (fis_kept_term t) = Ok t1 -> fis_kept_term t1 = t1 /\ printed_term d vw t1 = Ok t1 /\ (fis_term_ok (fis_kept_term t) -> fis_term_ok t1).
Proof.
  intros C [V1 V2] H. assert (V : valid_name (tm_name t) <> "") by (rewrite (valid_keep _ V1 V2); exact V1). assert (Q := printed_term_fixed d N vw (fis_kept_term t) t1 V H). split; [|split; [exact Q|]].
  - clear Q. unfold printed_term in H. unfold fis_kept_term in H at 1. unfold fis_term_ok in C. destruct (tm_body t) as [s|xy|v1|cs b|f] eqn:E; cbn [tm_body rbind] in H.
    1-4: injection H as <-; unfold fis_kept_term; cbn [tm_body tm_name tm_height]; f_equal; rewrite E; unfold printed_height; cbn [tm_body tm_height]; rewrite ?(pr_one d N); reflexivity.
    destruct C as ((_ & C & _) & _). cbn [fn_formula] in H. rewrite (squeezed_formula _ C) in H. destruct (loaded_function vw (squeezed (fn_formula f))) as [g| | |] eqn:L; try discriminate. cbn [rbind] in H. injection H as <-. unfold fis_kept_term at 1. cbn [tm_body tm_name tm_height].
    assert (FG := loaded_formula _ _ _ L). rewrite FG, squeezed_twice, <- FG. unfold printed_height. cbn [fis_kept_term tm_body]. rewrite E. destruct g; reflexivity.
  - intro K. assert (ST := same_printed_term d num num_reread vw (fis_kept_term t) t1). unfold printed_term in H. unfold fis_kept_term in H at 1. unfold fis_kept_term, fis_term_ok in *. cbn [tm_body] in *. destruct (tm_body t) as [s|xy|v1|cs b|f] eqn:E; cbn [tm_body rbind] in H; try (injection H as <-; exact Logic.I).
    + injection H as <-. cbn [tm_body]. destruct xy; [congruence|discriminate].
    + injection H as <-. cbn [tm_body]. destruct cs; [congruence|discriminate].
    + destruct C as ((_ & C & _) & _). cbn [fn_formula] in H, K. rewrite (squeezed_formula _ C) in H. destruct (loaded_function vw (squeezed (fn_formula f))) as [g| | |] eqn:L; try discriminate. cbn [rbind] in H. injection H as <-. cbn [tm_body]. now rewrite (loaded_formula _ _ _ L).
Qed.
Lemma fis_variable_again vw v w : fis_variable_ok v -> printed_variable d vw (fis_kept_variable v) = Ok w -> fis_kept_variable w = w /\ printed_variable d vw w = Ok w /\ v_name w = v_name v /\
  (Forall (fun t => fis_term_ok (fis_kept_term t)) (v_terms v) -> Forall fis_term_ok (v_terms w)).
Proof.
  intros [[V1 V2] F] H. unfold printed_variable in H. cbn [fis_kept_variable v_terms] in H.
  assert (X : forall us, rmapM (printed_term d vw) (map fis_kept_term (v_terms v)) = Ok us -> map fis_kept_term us = us /\ rmapM (printed_term d vw) us = Ok us /\ (Forall (fun t => fis_term_ok (fis_kept_term t)) (v_terms v) -> Forall fis_term_ok us)).
  { clear H. induction F as [|t ts [A B] F IH]; intros us E; [injection E as <-; auto|]. cbn [map rmapM] in E. destruct (printed_term d vw (fis_kept_term t)) as [u| | |] eqn:E1; try discriminate. cbn [rbind] in E.
    destruct (rmapM (printed_term d vw) (map fis_kept_term ts)) as [us'| | |] eqn:E2; try discriminate. cbn [rbind] in E. injection E as <-. destruct (IH us' eq_refl) as (A1 & A2 & A3). destruct (fis_term_again vw t u A B E1) as (B1 & B2 & B3).
    cbn [map rmapM]. rewrite A1, B1, B2. cbn [rbind]. rewrite A2. split; [reflexivity|]. split; [reflexivity|]. intro Z. inversion_clear Z. constructor; auto. }
  destruct (rmapM (printed_term d vw) (map fis_kept_term (v_terms v))) as [us| | |] eqn:E; try discriminate. cbn [rbind] in H. injection H as <-. destruct (X us eq_refl) as (A & B & D). assert (VN := valid_keep _ V1 V2).
  cbn [fis_kept_variable v_name v_description v_enabled v_lock_range v_minimum v_maximum v_terms v_value]. unfold fis_kept_variable. cbn [v_name v_description v_enabled v_lock_range v_minimum v_maximum v_terms v_value]. rewrite A, !VN. split; [reflexivity|].
  unfold printed_variable. cbn [v_name v_description v_enabled v_lock_range v_minimum v_maximum v_terms v_value]. rewrite B. cbn [rbind]. rewrite !VN, !(reread_idem d N). auto.
Qed.
Lemma inputs_again vs : Forall fis_variable_ok vs -> forall dn ins, read_inputs d dn vs = Ok ins -> exists ws, ins = (dn ++ ws)%list /\ read_inputs d dn ws = Ok ins /\
  (Forall (fun v => Forall (fun t => fis_term_ok (fis_kept_term t)) (v_terms v)) vs -> Forall (fun v => Forall fis_term_ok (v_terms v)) ws).
Proof.
  intro F. induction F as [|v vs H F IH]; intros dn ins E; cbn [read_inputs] in E; [injection E as <-; exists []; rewrite app_nil_r; auto|].
  destruct (printed_variable d _ (fis_kept_variable v)) as [w|x| |] eqn:W; try discriminate. cbn [rbind] in E. destruct (IH _ _ E) as (ws & -> & Q & K). destruct (fis_variable_again _ v w H W) as (A & B & C & D). exists (w :: ws). rewrite <- app_assoc. split; [reflexivity|]. split.
  - cbn [read_inputs]. assert (BB : bare w = bare v) by (unfold bare; now rewrite C). rewrite BB, A, B. cbn [rbind]. rewrite Q. now rewrite <- app_assoc.
  - intro Z. inversion_clear Z. constructor; auto.
Qed.
Lemma outputs_again iv vs : Forall (fun o => fis_variable_ok (o_var o)) vs -> forall dn outs, read_outputs d iv dn vs = Ok outs -> exists ws, outs = (dn ++ ws)%list /\
  (forall ag z, read_outputs d iv dn (map (set_operators ag z) ws) = Ok outs) /\
  (Forall (fun o => Forall (fun t => fis_term_ok (fis_kept_term t)) (v_terms (o_var o))) vs -> Forall (fun o => Forall fis_term_ok (v_terms (o_var o))) ws).
Proof.
  intro F. induction F as [|v vs H F IH]; intros dn outs E; cbn [read_outputs] in E; [injection E as <-; exists []; rewrite app_nil_r; auto|].
  destruct (printed_variable d _ (fis_kept_variable (o_var v))) as [w|x| |] eqn:W; try discriminate. cbn [rbind] in E. destruct (IH _ _ E) as (ws & -> & Q & K). destruct (fis_variable_again _ (o_var v) w H W) as (A & B & C & D). exists (mkOutput w [] None None s_nan s_nan false :: ws). rewrite <- app_assoc. split; [reflexivity|]. split.
  - intros ag z. cbn [map read_outputs]. assert (BB : bare_output (set_operators ag z (mkOutput w [] None None s_nan s_nan false)) = bare_output v) by (unfold bare_output, bare; cbn [set_operators o_var]; now rewrite C).
    cbn [set_operators o_var] in *. rewrite BB, A, B. cbn [rbind]. rewrite Q. now rewrite <- app_assoc.
  - intro Z. inversion_clear Z. constructor; auto.
Qed.
Lemma first_given_all {A} (a b : A) l : (forall x, In x l -> x = Some a) -> first_given b l = match l with [] => b | _ => a end.
Proof. destruct l as [|x l]; intro H; [reflexivity|]. rewrite (H x); [reflexivity|now left]. Qed.
End Again.
