(** Imported engines can be written. *)
From Coq Require Import ZArith List Bool String Ascii Arith Lia.
From Verif Require Import Base Op Norm Shape Discrete Defuzz Aggregated Text Function Rule Var Activation Engine Factory
  SpecText TextProofs TextProofs2 RuleProofs3 Fll SpecFll FllText FllLines FllExport FllRound FllRound2 FllFix.
Import ListNotations.
Local Open Scope string_scope.

Ltac compute_list := match goal with |- Forall ?P ?l => let l' := eval vm_compute in l in change (Forall P l') end.
Section Imported.
Context {T : Type} `{S : Scalar T}.
Variables (d : nat) (resolution : Z).
Hypothesis N : printable (T := T) d.
Hypothesis resolution_int : int_range resolution.

Lemma made_in {A} k (f : cfactory A) c : construct k f = Ok c -> In c (map snd f).
Proof.
  unfold construct. destruct (map_find k f) as [x|] eqn:E; [|discriminate]. intro H. injection H as ->. revert E. induction f as [|[j x] f IH]; [discriminate|]. simpl.
  destruct (String.eqb k j); [intro H; injection H as ->; auto|auto].
Qed.
Lemma valid_again s : valid_name (valid_name s) <> "".
Proof. destruct (valid_name s) as [|c r] eqn:E; [discriminate|]. rewrite <- E, valid_idem; congruence. Qed.
Lemma int_ok s n : to_int (T := T) s = Ok n -> int_range n.
Proof.
  unfold to_int. destruct (to_scalar s) as [x| | |]; try discriminate. cbn [rbind]. destruct (s_trunc x) as [m|] eqn:E; [|discriminate]. intro H. injection H as ->. exact (pr_trunc d N _ _ E).
Qed.
Lemma split_sforall p s : p " "%char = true -> sforall p s = true -> Forall (fun w => sforall p w = true) (split s " " true).
Proof.
  intros A B. destruct s as [|c s]; [rewrite split_empty; constructor; [reflexivity|constructor]|]. rewrite split_space by discriminate. now apply words_sforall.
Qed.
Lemma fn_load_formula tb (f : fstate T) s eng ctx : fn_formula (fst (fn_load tb f s eng ctx)) = s.
Proof.
  unfold fn_load, fn_membership. destruct (parse tb s); try reflexivity.
Qed.
Lemma parse_term_writable vw s t : one_line s -> parse_term (T := T) vw s = Ok t -> term_writable t.
Proof.
  intros L H. unfold parse_term in H. assert (F : Forall (fun w => sforall (fun x => negb (Ascii.eqb x newline)) w = true) (split s " " true)) by (apply split_sforall; [reflexivity|]; rewrite <- lacks_sforall; exact L).
  destruct (split s " " true) as [|name [|cl ps]]; try discriminate. inversion F as [|a b _ F1]; subst. inversion F1 as [|a b _ F2]; subst.
  assert (LP : one_line (join ps " ")) by (unfold one_line; rewrite lacks_sforall; apply join_sforall; [reflexivity|exact F2]).
  destruct (construct cl term_factory) as [[t0|]| | |]; try discriminate. cbn [rbind] in H. revert H. generalize (term_update_reference vw t0). intros t1 H.
  unfold term_configure in H. cbn [tm_body tm_name tm_height] in H.
  assert (NV := valid_again name).
  destruct (tm_body t1) as [sh|xy|v|cs b|f].
  1-4: destruct (sempty (join ps " ")); [injection H as <-; split; [exact NV|exact I]|].
  - destruct (Nat.ltb _ _); [discriminate|]. destruct (rmapM to_scalar (firstn _ _)) as [l| | |]; try discriminate. cbn [rbind] in H.
    destruct (match nth_error _ _ with Some v => to_scalar v | None => Ok (tm_height t1) end) as [h| | |]; try discriminate. injection H as <-. split; [exact NV|exact I].
  - destruct (rmapM to_scalar _) as [l| | |]; try discriminate. cbn [rbind] in H. destruct (if Nat.even (List.length l) then (s_1, l) else (last l s_nan, removelast l)) as [h l']. destruct (to_pairs l') as [q| | |]; try discriminate. injection H as <-. split; [exact NV|exact I].
  - destruct (split _ _ _) as [|w ws]; [discriminate|]. destruct (to_scalar w) as [x| | |]; try discriminate. injection H as <-. split; [exact NV|exact I].
  - destruct (rmapM to_scalar _) as [l| | |]; try discriminate. injection H as <-. split; [exact NV|exact I].
  - destruct (fn_load default_table f (join ps " ") (fn_engine f) (vw_context vw)) as [f' r] eqn:E. destruct r as [u| | |]; try discriminate. injection H as <-. split; [exact NV|]. cbn [tm_body].
    replace f' with (fst (fn_load default_table f (join ps " ") (fn_engine f) (vw_context vw))) by now rewrite E. rewrite fn_load_formula. exact LP.
Qed.
Lemma variable_key_writable vw k x v r : variable_key (T := T) vw k x v = Some (Ok r) -> one_line x -> variable_writable v -> variable_writable r.
Proof.
  intros H L [D W]. unfold variable_key in H.
  destruct (String.eqb k "description"); [injection H as <-; split; assumption|].
  destruct (String.eqb k "enabled"); [destruct (parse_boolean x) as [b| | |]; try discriminate; injection H as <-; split; assumption|].
  destruct (String.eqb k "range"); [destruct (parse_range x) as [b| | |]; try discriminate; injection H as <-; split; assumption|].
  destruct (String.eqb k "lock-range"); [destruct (parse_boolean x) as [b| | |]; try discriminate; injection H as <-; split; assumption|].
  destruct (String.eqb k "term"); [|discriminate]. destruct (parse_term vw x) as [t| | |] eqn:E; try discriminate. injection H as <-. split; [exact D|].
  cbn [v_terms set_terms]. apply Forall_app. split; [exact W|]. constructor; [exact (parse_term_writable _ _ _ L E)|constructor].
Qed.
Lemma input_writable vw v p r : good_pair p -> variable_writable v -> input_pair (T := T) vw v p = Ok r -> variable_writable r.
Proof.
  intros (_ & _ & L) W H. unfold input_pair in H. destruct (String.eqb (fst p) "InputVariable"); [injection H as <-; exact W|].
  destruct (variable_key vw (fst p) (snd p) v) as [q|] eqn:E; [|discriminate]. subst q. exact (variable_key_writable _ _ _ _ _ E L W).
Qed.
Lemma parse_defuzzifier_writable s z : parse_defuzzifier (T := T) resolution s = Ok z -> match z with Some (DIntegral _ n) => int_range n | _ => True end.
Proof.
  intro H. unfold parse_defuzzifier in H. destruct (split s " " true) as [|name ps]; [discriminate|].
  destruct (String.eqb name "none"); [injection H as <-; exact I|]. destruct (construct name (defuzzifier_factory resolution)) as [c| | |] eqn:E; try discriminate. cbn [rbind] in H.
  apply made_in in E. assert (F : Forall (fun z => match z with Some (DIntegral _ n) => int_range n | _ => True end) (map snd (defuzzifier_factory resolution))) by (compute_list; repeat (apply Forall_cons; [first [exact I|exact resolution_int]|]); apply Forall_nil).
  assert (C := proj1 (Forall_forall _ _) F _ E). destruct c as [[k n|k ty]|].
  - destruct ps as [|p ps]; [injection H as <-; exact C|]. destruct (to_int p) as [m| | |] eqn:M; try discriminate. injection H as <-. exact (int_ok _ _ M).
  - destruct ps as [|p ps]; [injection H as <-; exact I|]. destruct (wtype_of_name p); try discriminate. injection H as <-. exact I.
  - destruct ps; injection H as <-; exact I.
Qed.
Lemma output_pair_writable vw o p r : good_pair p -> output_writable o -> output_pair (T := T) resolution vw o p = Ok r -> output_writable r.
Proof.
  intros (_ & _ & L) [W Z] H. destruct p as [k x]. unfold output_pair in H. cbn [snd] in L. destruct (String.eqb k "OutputVariable"); [injection H as <-; split; assumption|].
  destruct (variable_key vw k x (o_var o)) as [q|] eqn:E.
  - destruct q as [v| | |]; try discriminate. injection H as <-. split; [exact (variable_key_writable _ _ _ _ _ E L W)|exact Z].
  - destruct (String.eqb k "default"); [destruct (to_scalar x) as [b| | |]; try discriminate; injection H as <-; split; assumption|].
    destruct (String.eqb k "lock-previous" || String.eqb k "lock-valid")%bool; [destruct (parse_boolean x) as [b| | |]; try discriminate; injection H as <-; split; assumption|].
    destruct (String.eqb k "defuzzifier"); [destruct (parse_defuzzifier resolution x) as [b| | |] eqn:P; try discriminate; injection H as <-; split; [assumption|exact (parse_defuzzifier_writable _ _ P)]|].
    destruct (String.eqb k "aggregation" || String.eqb k "accumulation")%bool; [destruct (parse_snorm x) as [b| | |]; try discriminate; injection H as <-; split; assumption|discriminate].
Qed.
Lemma parse_activation_writable s a : parse_activation (T := T) s = Ok a -> match a with Some (First n _) | Some (Last n _) | Some (Highest n) | Some (Lowest n) => int_range n | _ => True end.
Proof.
  assert (O : int_range 1) by (unfold int_range; lia).
  intro H. unfold parse_activation in H. destruct (String.eqb s "none"); [injection H as <-; exact I|]. destruct (split s " " true) as [|w ps]; [discriminate|].
  destruct (construct w activation_factory) as [[c|]| | |] eqn:E; try discriminate. cbn [rbind] in H.
  apply made_in in E. assert (F : Forall (fun a => match a with Some (First n _) | Some (Last n _) | Some (Highest n) | Some (Lowest n) => int_range n | _ => True end) (map snd (activation_factory (T := T)))) by (compute_list; repeat (apply Forall_cons; [first [exact I|exact O]|]); apply Forall_nil).
  assert (C := proj1 (Forall_forall _ _) F _ E). cbn beta in C. unfold activation_configure in H.
  destruct c; try (injection H as <-; exact I); destruct (sempty (join ps " ")); try (injection H as <-; exact C); destruct (split (join ps " ") " " true) as [|u [|w2 us]]; try discriminate.
  all: repeat match type of H with context [to_int ?m] => destruct (to_int m) as [?| | |] eqn:?; try discriminate; cbn [rbind] in H | context [parse_comparison ?m] => destruct (parse_comparison m) as [?| | |]; try discriminate; cbn [rbind] in H | context [to_scalar ?m] => destruct (to_scalar m) as [?| | |]; try discriminate; cbn [rbind] in H end.
  all: injection H as <-; try exact I; try exact C; eapply int_ok; eassumption.
Qed.
Lemma block_pair_writable env b p r : good_pair p -> block_writable b -> block_pair (T := T) env b p = Ok r -> block_writable r.
Proof.
  intros (_ & _ & L) (A & D & R & Z) H. destruct p as [k x]. unfold block_pair in H. cbn [snd rbind] in *.
  destruct (String.eqb k "RuleBlock"); [injection H as <-; repeat split; assumption|].
  destruct (String.eqb k "description"); [injection H as <-; repeat split; assumption|].
  destruct (String.eqb k "enabled"); [destruct (parse_boolean x) as [n| | |]; try discriminate; injection H as <-; repeat split; assumption|].
  destruct (String.eqb k "conjunction"); [destruct (parse_tnorm x) as [n| | |]; try discriminate; injection H as <-; repeat split; assumption|].
  destruct (String.eqb k "disjunction"); [destruct (parse_snorm x) as [n| | |]; try discriminate; injection H as <-; repeat split; assumption|].
  destruct (String.eqb k "implication" || _)%bool; [destruct (parse_tnorm x) as [n| | |]; try discriminate; injection H as <-; repeat split; assumption|].
  destruct (String.eqb k "activation"); [destruct (parse_activation x) as [a| | |] eqn:P; try discriminate; injection H as <-; repeat split; try assumption; exact (parse_activation_writable _ _ P)|].
  destruct (String.eqb k "rule"); [|discriminate]. assert (Q := load_text env x (rule_new x s_1)).
  destruct (rule_load env x (rule_new x s_1)) as [r0 out]. cbn [fst] in Q.
  assert (E : r = set_rules (b_rules b ++ [r0])%list b) by (destruct out; try discriminate; injection H as <-; reflexivity). subst r.
  repeat split; cbn [b_name b_description b_rules b_activation set_rules]; try assumption. apply Forall_app. split; [exact R|]. constructor; [rewrite Q; exact L|constructor].
Qed.
Lemma rfold_keeps {A B} (f : A -> B -> res A) (P : A -> Prop) (G : B -> Prop) : (forall a b r, G b -> P a -> f a b = Ok r -> P r) ->
  forall l a r, Forall G l -> P a -> rfold f a l = Ok r -> P r.
Proof.
  intros H l. induction l as [|b l IH]; intros a r F Pa E; [injection E as <-; exact Pa|]. inversion F as [|? ? Gb F']; subst. simpl in E. destruct (f a b) as [a1| | |] eqn:Q; try discriminate. cbn [rbind] in E.
  exact (IH a1 r F' (H _ _ _ Gb Pa Q) E).
Qed.
Lemma new_variable_writable : variable_writable (new_variable (T := T)).
Proof. split; [reflexivity|constructor]. Qed.
Lemma new_output_writable : output_writable (new_output (T := T)).
Proof. split; [apply new_variable_writable|exact I]. Qed.
Lemma block_pairs_writable tag ps (e e1 : engine T) : Forall good_pair ps -> writable e -> block_pairs resolution tag ps e = Ok e1 -> writable e1.
Proof.
  intros G (WN & WD & WI & WO & WB) H. unfold block_pairs, process_tag in H. destruct (sempty tag); [injection H as <-; repeat split; assumption|].
  destruct (String.eqb tag "InputVariable").
  { unfold process_input in H. rewrite pair_lines in H by exact G. rewrite (rfold_pairs _ _ (input_line_pair _)) in H by exact G.
    destruct (rfold _ _ ps) as [v| | |] eqn:R in H; try discriminate. injection H as <-. repeat split; try assumption. cbn [e_inputs]. apply Forall_app. split; [exact WI|]. constructor; [|constructor].
    exact (rfold_keeps _ variable_writable _ (fun a b r => input_writable _ a b r) _ _ _ G new_variable_writable R). }
  destruct (String.eqb tag "OutputVariable").
  { unfold process_output in H. rewrite pair_lines in H by exact G. rewrite (rfold_pairs _ _ (output_line_pair _ _)) in H by exact G.
    destruct (rfold _ _ ps) as [v| | |] eqn:R in H; try discriminate. injection H as <-. repeat split; try assumption. cbn [e_outputs]. apply Forall_app. split; [exact WO|]. constructor; [|constructor].
    exact (rfold_keeps _ output_writable _ (fun a b r => output_pair_writable _ a b r) _ _ _ G new_output_writable R). }
  destruct (String.eqb tag "RuleBlock"); [|discriminate].
  unfold process_block in H. rewrite pair_lines in H by exact G. rewrite (rfold_pairs _ _ (block_line_pair _)) in H by exact G.
  destruct (rfold _ _ ps) as [b| | |] eqn:R in H; try discriminate. injection H as <-. repeat split; try assumption. cbn [e_blocks]. apply Forall_app. split; [exact WB|]. constructor; [|constructor].
  assert (NB : block_writable (new_block (T := T))) by (repeat split; constructor).
  assert (Q := rfold_keeps _ block_writable _ (fun a b r => block_pair_writable _ a b r) _ _ _ G NB R). destruct (b_activation b) eqn:E; [exact Q|]. destruct Q as (A & D & RR & _). repeat split; assumption.
Qed.
Lemma content_writable st line st' : one_line line -> sound_state st -> writable (fst (fst st)) -> import_content (T := T) resolution st line = Ok st' -> writable (fst (fst st')).
Proof.
  intros L G W H. unfold import_content in H. destruct (sempty (content line)); [injection H as <-; exact W|]. assert (K := key_value_good line). destruct (key_value line) as [p|]; [|discriminate].
  specialize (K _ L eq_refl). destruct st as [[e tag] ps], p as [k v]. destruct K as (_ & _ & LV). cbn [fst snd] in *. unfold import_pair in H.
  destruct (String.eqb k "Engine"); [injection H as <-; destruct W as (A & B & C); repeat split; tauto|].
  destruct (String.eqb k "description" && _)%bool; [injection H as <-; destruct W as (A & B & C); repeat split; tauto|].
  destruct (String.eqb k "InputVariable" || _ || _)%bool; [|destruct (sempty tag); [discriminate|]; injection H as <-; exact W].
  destruct (block_pairs resolution tag ps e) as [e1| | |] eqn:E; try discriminate. injection H as <-. exact (block_pairs_writable _ _ _ _ G W E).
Qed.
Theorem imported_writable text (e : engine T) : fll_import resolution (char newline) text = Ok e -> writable e.
Proof.
  rewrite import_by_lines. unfold import_all. intro H. destruct (rfold (import_content resolution) (new_engine, "", []) (chop newline text)) as [st| | |] eqn:R; try discriminate. cbn [rbind] in H.
  assert (F : Forall one_line (chop newline text)) by (apply Forall_forall; intros p I; exact (chop_free _ _ _ I)).
  assert (Q : sound_state st /\ writable (fst (fst st))).
  { refine (rfold_keeps _ (fun st => sound_state st /\ writable (fst (fst st))) one_line _ _ _ _ F _ R).
    - intros st0 l st1 L [G W] E. split; [exact (proj2 (import_line_pairs resolution st0 l L G) _ E)|exact (content_writable _ _ _ L G W E)].
    - split; [constructor|]. repeat split; constructor. }
  destruct Q as [G W]. destruct st as [[e0 tag] ps]. exact (block_pairs_writable _ _ _ _ G W H).
Qed.
End Imported.
