(** The code of an engine built by generated code builds exactly that engine. *)
From Coq Require Import ZArith List Bool String Ascii Arith Lia.
From Flocq Require Import IEEE754.BinarySingleNaN.
From Verif Require Import Base Op F64 F64Arith Norm Hedge Shape Discrete Defuzz Aggregated Text Function Rule Var Activation Engine Factory SpecText TextProofs TextProofs2
  Fll SpecFll FllText FllLines FllExport FllRound FllFix FllSame TextF64 FllF64 FllBundle Fis FclText FclRound2 Cpp SpecCpp CppSyntax CppAtoms CppRun CppProgram CppBundle Java SpecJava JavaProofs JavaBundle.
Import ListNotations.
Local Open Scope string_scope.

Section Again.
Context {T : Type} `{S : Scalar T}.
Variables (d : nat).
Hypothesis N : printable (T := T) d.
Hypothesis FIN : forall x : T, isFinite x = true -> isFinite (reread d x) = true.

(** ** rebuilding again *)
Lemma again_term vw t t1 : rebuilt_term d vw t = Ok t1 -> rebuilt_term d vw t1 = Ok t1.
Proof.
  intros H. unfold rebuilt_term in *.
  destruct (tm_body t) as [s|xy|v|cs b|f] eqn:B; cbn [rbind] in H.
  5: { destruct (loaded_function vw (fn_formula f)) as [f'|x| |] eqn:L; try discriminate. cbn [rbind] in H. injection H as <-. cbn [tm_body tm_name]. rewrite (loaded_formula _ _ _ L), L. cbn [rbind]. unfold printed_height. cbn [tm_body tm_height]. rewrite B. reflexivity. }
  all: assert (HH : (if isEq (if isEq (tm_height t) s_1 then s_1 else reread d (tm_height t)) s_1 then s_1 else reread d (if isEq (tm_height t) s_1 then s_1 else reread d (tm_height t))) =
                  (if isEq (tm_height t) s_1 then s_1 else reread d (tm_height t)))
    by (destruct (isEq (tm_height t) s_1); [now rewrite (pr_one d N)|]; destruct (isEq (reread d (tm_height t)) s_1) eqn:E; [symmetry; apply (pr_height d N (tm_height t)); [apply (reread_ok d N)|exact E]|apply (reread_idem d N)]).
  all: injection H as <-; cbn [tm_body tm_name rbind]; unfold printed_height; cbn [tm_body tm_height]; rewrite B.
  - now rewrite HH, (shape_map_idem d N).
  - rewrite HH. rewrite map_map. erewrite map_ext; [reflexivity|]. intros [a b]. cbn [fst snd]. now rewrite !(reread_idem d N).
  - now rewrite (reread_idem d N).
  - rewrite map_map. erewrite map_ext; [reflexivity|]. intro a. apply (reread_idem d N).
Qed.
Lemma again_all {A} (f : A -> res A) l l1 : (forall a b, f a = Ok b -> f b = Ok b) -> rmapM f l = Ok l1 -> rmapM f l1 = Ok l1.
Proof. intros Q H. apply (rmap_fixed f (fun _ => True) l); [intros a b _; apply Q|now apply Forall_forall|exact H]. Qed.
Lemma again_variable vw v v1 : rebuilt_variable d vw v = Ok v1 -> rebuilt_variable d vw v1 = Ok v1.
Proof.
  intros H. unfold rebuilt_variable in *. destruct (rmapM (rebuilt_term d vw) (v_terms v)) as [ts| | |] eqn:E; try discriminate. cbn [rbind] in H. injection H as <-.
  cbn [v_terms v_name v_description v_minimum v_maximum v_enabled v_lock_range]. rewrite (again_all _ _ _ (again_term vw) E). cbn [rbind]. now rewrite !(reread_idem d N).
Qed.
Lemma again_output vw o o1 : rebuilt_output d vw o = Ok o1 -> rebuilt_output d vw o1 = Ok o1.
Proof.
  intros H. unfold rebuilt_output in *. destruct (rebuilt_variable d vw (o_var o)) as [v| | |] eqn:E; try discriminate. cbn [rbind] in H. injection H as <-.
  cbn [o_var o_aggregation o_defuzzifier o_default o_lock_previous]. rewrite (again_variable _ _ _ E). cbn [rbind]. now rewrite (reread_idem d N).
Qed.
Lemma again_inputs vs : forall before ins, rebuilt_inputs d before vs = Ok ins -> exists ws, ins = (before ++ ws)%list /\ rebuilt_inputs d before ws = Ok ins.
Proof.
  induction vs as [|v vs IH]; intros before ins H; [injection H as <-; exists []; rewrite app_nil_r; auto|]. cbn [rebuilt_inputs] in H.
  destruct (rebuilt_variable d (engine_view before []) v) as [w| | |] eqn:E; try discriminate. cbn [rbind] in H. destruct (IH _ _ H) as (ws & -> & Q).
  exists (w :: ws). split; [now rewrite <- app_assoc|]. cbn [rebuilt_inputs]. rewrite (again_variable _ _ _ E). exact Q.
Qed.
Lemma again_outputs iv os : forall before outs, rebuilt_outputs d iv before os = Ok outs -> exists ws, outs = (before ++ ws)%list /\ rebuilt_outputs d iv before ws = Ok outs.
Proof.
  induction os as [|v vs IH]; intros before ins H; [injection H as <-; exists []; rewrite app_nil_r; auto|]. cbn [rebuilt_outputs] in H.
  destruct (rebuilt_output d (engine_view iv before) v) as [w| | |] eqn:E; try discriminate. cbn [rbind] in H. destruct (IH _ _ H) as (ws & -> & Q).
  exists (w :: ws). split; [now rewrite <- app_assoc|]. cbn [rebuilt_outputs]. rewrite (again_output _ _ _ E). exact Q.
Qed.
Lemma rebuilt_rule_text env (r s : rule T) : rebuilt_rule env r = Ok s -> rl_text s = rl_text r.
Proof.
  unfold rebuilt_rule. assert (L := load_text env (rl_text r) (rule_new (rl_text r) s_1)). destruct (rule_load env (rl_text r) (rule_new (rl_text r) s_1)) as [q [u| | |]]; cbn [rbind fst] in *; try discriminate. intro H. injection H as <-. exact L.
Qed.
Lemma again_block env (b c : block T) : rebuilt_block d env b = Ok c -> rebuilt_block d env c = Ok c.
Proof.
  intro H. unfold rebuilt_block in *. destruct (rmapM (rebuilt_rule env) (b_rules b)) as [rs| | |] eqn:E; try discriminate. cbn [rbind] in H. injection H as <-. cbn [b_enabled b_name b_description b_rules b_conjunction b_disjunction b_implication b_activation].
  rewrite (again_all _ _ _ (fun r s Q => eq_trans (f_equal (fun t => let '(r', out) := rule_load env t (rule_new t s_1) in do _ <- out; Ok r') (rebuilt_rule_text env r s Q)) Q) E). cbn [rbind]. do 2 f_equal.
  destruct (b_activation b) as [[]|]; cbn [rebuilt_activation printed_activation]; rewrite ?(reread_idem d N); reflexivity.
Qed.
Theorem rebuilt_again e f : rebuilt d e = Ok f -> rebuilt d f = Ok f.
Proof.
  intro H. unfold rebuilt in *. destruct (rebuilt_inputs d [] (e_inputs e)) as [ins| | |] eqn:EI; try discriminate. cbn [rbind] in H.
  destruct (rebuilt_outputs d ins [] (e_outputs e)) as [outs| | |] eqn:EO; try discriminate. cbn [rbind] in H. destruct (rmapM (rebuilt_block d (engine_env ins outs)) (e_blocks e)) as [bs| | |] eqn:EB; try discriminate. injection H as <-.
  cbn [e_inputs e_outputs e_blocks e_name e_description]. destruct (again_inputs _ _ _ EI) as (ws & Q & QI). cbn [app] in Q. subst ws. rewrite QI. cbn [rbind].
  destruct (again_outputs _ _ _ _ EO) as (ws & Q & QO). cbn [app] in Q. subst ws. rewrite QO. cbn [rbind]. rewrite (again_all _ _ _ (again_block _) EB). reflexivity.
Qed.

(** ** and it can be written *)
Lemma again_results {A B} (f : A -> res B) (R : A -> Prop) (Q : B -> Prop) l m : (forall a b, R a -> f a = Ok b -> Q b) -> Forall R l -> rmapM f l = Ok m -> Forall Q m.
Proof.
  intros H F. revert m. induction F as [|a l Ra F IH]; intros m E; [injection E as <-; constructor|]. cbn [rmapM] in E. destruct (f a) as [b| | |] eqn:K; try discriminate. cbn [rbind] in E. destruct (rmapM f l) as [bs| | |]; try discriminate. injection E as <-. constructor; [exact (H a b Ra K)|now apply IH].
Qed.
Lemma rmap_same {A B} (f : A -> res A) (g : A -> B) l m : (forall a b, f a = Ok b -> g b = g a) -> rmapM f l = Ok m -> map g m = map g l.
Proof.
  intros H. revert m. induction l as [|a l IH]; intros m E; [injection E as <-; reflexivity|]. cbn [rmapM] in E. destruct (f a) as [b| | |] eqn:K; try discriminate. cbn [rbind] in E. destruct (rmapM f l) as [bs| | |]; try discriminate. injection E as <-. cbn [map]. now rewrite (H _ _ K), (IH bs).
Qed.
Lemma finite_list l : Forall (fun x : T => isFinite x = true) l -> Forall (fun x => isFinite x = true) (map (reread d) l).
Proof. intro F. apply Forall_map. eapply Forall_impl; [|exact F]. exact FIN. Qed.
Lemma kept_term n vw t t1 : term_expressible n t -> rebuilt_term d vw t = Ok t1 -> term_expressible n t1.
Proof.
  intros [L X] H. unfold rebuilt_term in H. unfold printed_height in H. destruct (tm_body t) as [s|xy|v|cs b|f]; cbn [rbind] in H.
  5: { destruct (loaded_function vw (fn_formula f)) as [f'|x| |] eqn:Q; try discriminate. cbn [rbind] in H. injection H as <-. split; [exact L|]. cbn [tm_body]. now rewrite (loaded_formula _ _ _ Q). }
  all: injection H as <-; (split; [exact L|]); cbn [tm_body tm_height].
  - destruct X as [A B]. split.
    + assert (Q : shape_list (shape_map (reread d) s) = map (reread d) (shape_list s)) by (destruct s; reflexivity). rewrite Q. now apply finite_list.
    + destruct (isEq (tm_height t) s_1) eqn:E; [left; apply (pr_one d N)|]. destruct B as [B|B]; [discriminate|]. right. now apply FIN.
  - destruct X as (A & B & C & D). split; [destruct xy; [congruence|discriminate]|]. split; [now rewrite map_length|]. split; [|rewrite D; apply (pr_one d N)]. apply Forall_map. eapply Forall_impl; [|exact C]. intros p [C1 C2]. split; now apply FIN.
  - now apply FIN.
  - destruct X as [A B]. split; [now apply finite_list|now rewrite map_length].
Qed.
Lemma kept_variable n vw v w : variable_expressible n v -> rebuilt_variable d vw v = Ok w -> variable_expressible n w /\ v_name w = v_name v.
Proof.
  intros (A & B & C) H. unfold rebuilt_variable in H. destruct (rmapM (rebuilt_term d vw) (v_terms v)) as [ts| | |] eqn:E; try discriminate. cbn [rbind] in H. injection H as <-. split; [|reflexivity]. split; [exact A|]. split; [exact B|]. cbn [v_terms]. exact (again_results _ _ _ _ _ (kept_term n vw) C E).
Qed.
Lemma kept_inputs vs : forall before ins, inputs_expressible (List.length before) vs -> rebuilt_inputs d before vs = Ok ins -> exists ws, ins = (before ++ ws)%list /\ inputs_expressible (List.length before) ws /\ map v_name ws = map v_name vs.
Proof.
  induction vs as [|v vs IH]; intros before ins X H; [injection H as <-; exists []; rewrite app_nil_r; cbn; auto|]. cbn [rebuilt_inputs] in H. destruct X as [X1 X2].
  destruct (rebuilt_variable d (engine_view before []) v) as [w| | |] eqn:E; try discriminate. cbn [rbind] in H. destruct (kept_variable _ _ _ _ X1 E) as [K1 K2]. destruct (IH (before ++ [w])%list ins) as (ws & -> & Q & M); [rewrite app_length, Nat.add_1_r; exact X2|exact H|].
  exists (w :: ws). split; [now rewrite <- app_assoc|]. rewrite app_length, Nat.add_1_r in Q. cbn [map inputs_expressible]. split; [now split|]. now rewrite K2, M.
Qed.
Lemma kept_outputs namespaced n iv os : forall before outs, Forall (output_expressible namespaced n) os -> rebuilt_outputs d iv before os = Ok outs ->
  exists ws, outs = (before ++ ws)%list /\ Forall (output_expressible namespaced n) ws /\ map (fun o => v_name (o_var o)) ws = map (fun o => v_name (o_var o)) os.
Proof.
  induction os as [|o os IH]; intros before outs X H; [injection H as <-; exists []; rewrite app_nil_r; cbn; auto|]. cbn [rebuilt_outputs] in H. inversion_clear X as [|? ? X1 X2].
  destruct (rebuilt_output d (engine_view iv before) o) as [w| | |] eqn:E; try discriminate. cbn [rbind] in H. unfold rebuilt_output in E. destruct (rebuilt_variable d (engine_view iv before) (o_var o)) as [u| | |] eqn:V; try discriminate. cbn [rbind] in E. injection E as <-. destruct X1 as [X1 X3].
  destruct (kept_variable _ _ _ _ X1 V) as [K1 K2]. destruct (IH _ _ X2 H) as (ws & -> & Q & M). eexists (_ :: ws). split; [rewrite <- app_assoc; reflexivity|]. cbn [map o_var]. split; [constructor; [now split|exact Q]|]. now rewrite K2, M.
Qed.
Lemma kept_block env (b c : block T) : block_expressible b -> rebuilt_block d env b = Ok c -> block_expressible c.
Proof.
  intros (A & B & C & X) H. unfold rebuilt_block in H. destruct (rmapM (rebuilt_rule env) (b_rules b)) as [rs| | |] eqn:E; try discriminate. cbn [rbind] in H. injection H as <-. split; [exact A|]. split; [exact B|]. cbn [b_rules b_activation]. split.
  - refine (again_results _ _ _ _ _ _ C E). intros r s L Q. now rewrite (rebuilt_rule_text _ _ _ Q).
  - destruct (b_activation b) as [[]|]; cbn [rebuilt_activation printed_activation]; try exact I; try exact X; try (destruct X; split; auto); now apply FIN.
Qed.
Lemma block_name_kept env (b c : block T) : rebuilt_block d env b = Ok c -> b_name c = b_name b.
Proof. intro H. unfold rebuilt_block in H. destruct (rmapM (rebuilt_rule env) (b_rules b)) as [rs| | |]; try discriminate. injection H as <-. reflexivity. Qed.
Lemma block_names_map n : forall (bs cs : list (block T)) i, map (@b_name T) cs = map (@b_name T) bs -> block_names i n cs = block_names i n bs.
Proof. induction bs as [|b bs IH]; intros [|c cs] i H; try discriminate; [reflexivity|]. cbn [map] in H. injection H as H1 H2. cbn [block_names]. now rewrite H1, (IH cs). Qed.
Lemma rebuilt_names e f namespaced named : expressible namespaced named e -> rebuilt d e = Ok f -> expressible namespaced named f /\ program_names f = program_names e.
Proof.
  intros (A & B & XI & XO & XB & XN) H. unfold rebuilt in H. destruct (rebuilt_inputs d [] (e_inputs e)) as [ins| | |] eqn:EI; try discriminate. cbn [rbind] in H.
  destruct (rebuilt_outputs d ins [] (e_outputs e)) as [outs| | |] eqn:EO; try discriminate. cbn [rbind] in H. destruct (rmapM (rebuilt_block d (engine_env ins outs)) (e_blocks e)) as [bs| | |] eqn:EB; try discriminate. injection H as <-.
  destruct (kept_inputs _ [] _ XI EI) as (ws & Q & KI & MI). cbn [app] in Q. subst ws. destruct (kept_outputs _ _ _ _ [] _ XO EO) as (ws & Q & KO & MO). cbn [app] in Q. subst ws.
  assert (LI : List.length ins = List.length (e_inputs e)) by (rewrite <- (map_length v_name ins), MI; apply map_length).
  assert (MB := rmap_same _ (@b_name T) _ _ (block_name_kept _) EB). assert (LB : List.length bs = List.length (e_blocks e)) by (rewrite <- (map_length (@b_name T) bs), MB; apply map_length).
  assert (P : program_names (mkEngine (e_name e) (e_description e) ins outs bs) = program_names e).
  { unfold program_names. cbn [e_inputs e_outputs e_blocks]. rewrite MI, MO, LB. now rewrite (block_names_map _ _ _ _ MB). }
  split; [|exact P]. unfold expressible. cbn [e_name e_description e_inputs e_outputs e_blocks]. rewrite LI. split; [exact A|]. split; [exact B|]. split; [exact KI|]. split; [exact KO|]. split; [exact (again_results _ _ _ _ _ (kept_block _) XB EB)|].
  intro Z. unfold names_usable. rewrite P. exact (XN Z).
Qed.
End Again.

(** ** binary64 *)
Section Code.
Variables (P : fparam) (d : nat) (library : string) (named : bool).
Hypothesis fine : fine_tolerance P d.
Hypothesis decimals : d <> 0%nat.
Hypothesis library_line : one_line library.
Let N : @printable f64 (F64Scalar P) d := fine_printable P d fine.
Lemma reread_finite (x : f64) : @isFinite f64 (F64Scalar P) x = true -> @isFinite f64 (F64Scalar P) (@reread f64 (F64Scalar P) d x) = true.
Proof.
  assert (K : forall y : f64, @isFinite f64 (F64Scalar P) y = is_finite y).
  { intro y. destruct (is_finite y) eqn:F; [|destruct y as [s|[|]| |]; try discriminate F; reflexivity]. destruct (finite_kind P y F) as [A B]. unfold isFinite. unfold isInf in B. apply orb_false_iff in B. destruct B as [B1 B2]. now rewrite A, B1, B2. }
  rewrite !K. intro F. destruct (reread_kept P d x) as [_ Q]. rewrite F in Q. exact (proj1 Q).
Qed.
Lemma code_again namespaced e text f : @expressible f64 (F64Scalar P) namespaced named e -> @cpp_export f64 (F64Scalar P) d library namespaced named e = Ok text -> @run_cpp f64 (F64Scalar P) text = Ok f ->
  exists again, @cpp_export f64 (F64Scalar P) d library namespaced named f = Ok again /\ @run_cpp f64 (F64Scalar P) again = Ok f.
Proof.
  intros X A B. destruct (code_text P d library namespaced named fine decimals library_line e X) as (t & E & R). assert (text = t) by congruence. subst t. rewrite R in B.
  destruct (rebuilt_names d N reread_finite e f namespaced named X B) as [Y _]. destruct (code_text P d library namespaced named fine decimals library_line f Y) as (t & E' & R'). exists t. split; [exact E'|]. rewrite R'. exact (rebuilt_again d N e f B).
Qed.
Lemma java_again e text f : @java_expressible f64 (F64Scalar P) named e -> @java_export f64 (F64Scalar P) d library named e = Ok text -> @run_java f64 (F64Scalar P) text = Ok f ->
  exists again, @java_export f64 (F64Scalar P) d library named f = Ok again /\ @run_java f64 (F64Scalar P) again = Ok f.
Proof.
  intros X A B. destruct (java_code P d library named fine decimals library_line e X) as (t & E & R). assert (text = t) by congruence. subst t. rewrite R in B. destruct X as [X K].
  destruct (rebuilt_names d N reread_finite e f false named X B) as [Y Z]. destruct (java_code P d library named fine decimals library_line f) as (t & E' & R'); [split; [exact Y|]; intro Q; rewrite Z; exact (K Q)|]. exists t. split; [exact E'|]. rewrite R'. exact (rebuilt_again d N e f B).
Qed.
End Code.

(** ** the texts can differ: a height printed as 1 is not printed again *)
#[local] Hint Extern 9 (Scalar _) => exact (F64Scalar fp_default) : typeclass_instances.
Definition almost_engine : engine f64 := mkEngine "almost" "" [mkVariable "x" "" s_nan (q 0 1) (q 1 1) true false [mkTerm "a" (q 9999 10000) (TShape (Ramp (q 0 1) (q 1 1)))]] [] [].
Lemma almost_expressible named : java_expressible named almost_engine.
Proof.
  split; [|intros _; apply apart_list; reflexivity]. split; [lit_ok|]. split; [lit_ok|]. split; [|split; [apply Forall_nil|split; [apply Forall_nil|intros _; split; [apply distinct_ok; reflexivity|apply usable_list; reflexivity]]]].
  split; [|exact I]. split; [lit_ok|]. split; [lit_ok|]. cbn [v_terms]. apply Forall_cons; [|apply Forall_nil]. split; [lit_ok|]. cbn [tm_body shape_list]. split; [repeat (apply Forall_cons; [vm_compute; reflexivity|]); apply Forall_nil|right; vm_compute; reflexivity].
Qed.
Lemma text_changes : exists text again f, @java_export f64 (F64Scalar fp_default) 3 "fuzzylite" true almost_engine = Ok text /\ @run_java f64 (F64Scalar fp_default) text = Ok f /\
  @java_export f64 (F64Scalar fp_default) 3 "fuzzylite" true f = Ok again /\ text <> again.
Proof.
  destruct (@java_export f64 (F64Scalar fp_default) 3 "fuzzylite" true almost_engine) as [text| | |] eqn:E; try (exfalso; vm_compute in E; discriminate).
  destruct (passed (fun f => match @java_export f64 (F64Scalar fp_default) 3 "fuzzylite" true f with Ok again => negb (String.eqb text again) | _ => false end) (@run_java f64 (F64Scalar fp_default) text)) as (f & R & Q); [vm_compute in E; injection E as <-; vm_compute; reflexivity|].
  destruct (@java_export f64 (F64Scalar fp_default) 3 "fuzzylite" true f) as [again| | |] eqn:A; try discriminate Q. exists text, again, f. repeat split; auto. intros ->. rewrite String.eqb_refl in Q. discriminate.
Qed.
