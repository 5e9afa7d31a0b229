(** What the code written by the exporter to C++ does. *)
From Coq Require Import ZArith List Bool String Ascii Arith Lia.
From Verif Require Import Base Op Norm Hedge Shape Discrete Defuzz Aggregated Text Function Rule Var Activation Engine Factory SpecText TextProofs TextProofs2
  Fll SpecFll FllText FllLines FllExport FllRound FllSame Fis FclText FclRound2 Cpp SpecCpp CppSyntax CppAtoms.
Import ListNotations.
Local Open Scope string_scope.

(** ** names *)
Definition usable (x : string) : Prop := is_identifier x = true /\ ~ In x library_classes.
Lemma usable_chars x : usable x -> x <> "" /\ sforall (fun c => is_alnum c || Ascii.eqb c "_")%bool x = true.
Proof. intros [H _]. destruct x as [|c x]; [discriminate|]. split; [discriminate|]. cbn [is_identifier] in H. apply andb_true_iff in H. destruct H as [H _]. apply andb_true_iff in H. tauto. Qed.
Lemma usable_word x : usable x -> word x.
Proof. intro U. destruct (usable_chars x U) as [A B]. split; [exact A|]. eapply sforall_impl; [|exact B]. intros c H. unfold word_char. apply orb_true_iff in H. destruct H as [-> | ->]; now rewrite ?orb_true_r. Qed.
Lemma usable_colon x : usable x -> lacks ":" x = true.
Proof.
  intro U. destruct (usable_chars x U) as [_ B]. rewrite lacks_sforall. eapply sforall_impl; [|exact B]. intros c H. destruct (Ascii.eqb_spec c ":"); [subst c; discriminate|reflexivity].
Qed.
Lemma alnum_name c : (is_alnum c || Ascii.eqb c "_")%bool = true -> name_char c = true.
Proof.
  intro H. apply orb_true_iff in H. unfold name_char. destruct H as [-> |H]; [now rewrite !orb_true_r|]. apply Ascii.eqb_eq in H. subst c. reflexivity.
Qed.
Lemma usable_valid x : usable x -> valid_name x = x.
Proof. intro U. destruct (usable_chars x U) as [A B]. apply valid_keep; [exact A|]. eapply sforall_impl; [|exact B]. apply alnum_name. Qed.
Lemma not_existsb x l : existsb (String.eqb x) l = false -> ~ In x l.
Proof. intros H I. assert (E : existsb (String.eqb x) l = true) by (apply existsb_exists; exists x; split; [exact I|apply String.eqb_refl]). congruence. Qed.
Lemma in_existsb x l : existsb (String.eqb x) l = true -> In x l.
Proof. intro H. apply existsb_exists in H. destruct H as (y & I & E). apply String.eqb_eq in E. now subst. Qed.
Lemma existsb_not x l : ~ In x l -> existsb (String.eqb x) l = false.
Proof. intro H. destruct (existsb (String.eqb x) l) eqn:E; [|reflexivity]. now apply in_existsb in E. Qed.
Lemma digits_alnum n : sforall (fun c => is_alnum c || Ascii.eqb c "_")%bool (nat_text n) = true.
Proof. eapply sforall_impl; [|apply nat_digits]. intros c H. unfold is_alnum. rewrite H. now rewrite ?orb_true_r. Qed.
Definition kinds : list string := ["inputVariable"; "outputVariable"; "ruleBlock"].
Lemma kind_usable kind s : In kind kinds -> sforall (fun c => is_alnum c || Ascii.eqb c "_")%bool s = true -> usable (kind ++ s) /\ kind ++ s <> "engine".
Proof.
  intros K H. assert (A : is_identifier (kind ++ s) = true).
  { destruct K as [<-|[<-|[<-|[]]]]; cbn [append is_identifier]; (apply andb_true_iff; split; [|reflexivity]); (apply andb_true_iff; split; [reflexivity|]); exact H. }
  split; [split; [exact A|]|]; destruct K as [<-|[<-|[<-|[]]]]; try discriminate; apply not_existsb; reflexivity.
Qed.
Lemma str_nat i : str_int (Z.of_nat i) = nat_text (Z.of_nat i).
Proof. unfold str_int. destruct (Z.ltb_spec (Z.of_nat i) 0); [lia|]. now rewrite Z.abs_eq by lia. Qed.
Lemma str_nat_inj i j : str_int (Z.of_nat i) = str_int (Z.of_nat j) -> i = j.
Proof.
  rewrite !str_nat. intro H. assert (Q : forall n, (0 <= n)%Z -> read_unsigned false (nat_text n) = Some (false, n, 0%Z)).
  { intros n P. assert (R := read_unsigned_fixed false 0 n P). unfold fixed_text in R. cbn [Nat.eqb] in R. change (10 ^ Z.of_nat 0)%Z with 1%Z in R. now rewrite Z.div_1_r, sapp_nil_r in R. }
  assert (Q1 := Q (Z.of_nat i) ltac:(lia)). rewrite H, (Q (Z.of_nat j)) in Q1 by lia. injection Q1 as E. lia.
Qed.
Lemma app_inj_l p : forall a b, p ++ a = p ++ b -> a = b.
Proof. induction p as [|c p IH]; intros a b H; [exact H|]. injection H as H. auto. Qed.
Lemma numbered_shape kind i n : exists s, cpp_numbered kind i n = kind ++ s /\ sforall (fun c => is_alnum c || Ascii.eqb c "_")%bool s = true.
Proof. unfold cpp_numbered. destruct (Nat.ltb 1 n); [eexists; split; [reflexivity|]; rewrite str_nat; apply digits_alnum|exists ""; split; [now rewrite sapp_nil_r|reflexivity]]. Qed.
Lemma numbered_usable kind i n : In kind kinds -> usable (cpp_numbered kind i n) /\ cpp_numbered kind i n <> "engine".
Proof. intro K. destruct (numbered_shape kind i n) as (s & -> & H). now apply kind_usable. Qed.
Lemma numbered_nodup kind n : NoDup (map (fun i => cpp_numbered kind i n) (seq 0 n)).
Proof.
  destruct n as [|[|n]]; [constructor|repeat constructor; intros []|]. apply FinFun.Injective_map_NoDup; [|apply seq_NoDup]. intros i j H. unfold cpp_numbered in H. change (1 <? Datatypes.S (Datatypes.S n))%nat with true in H. cbv iota in H. apply app_inj_l, str_nat_inj in H. lia.
Qed.

Section Run.
Context {T : Type} `{S : Scalar T}.
Variables (d : nat) (namespaced named : bool).
Hypothesis N : printable (T := T) d.
Hypothesis D : d <> 0%nat.
Hypothesis SIGN : forall x : T, isNaN x = false -> isInf x = true -> s_ltb s_0 x = negb (s_ltb x s_0).
Notation fl := (cpp_fl namespaced).

(** ** what is rebuilt *)
Definition rebuilt_term (vw : view T) (t : term T) : res (term T) :=
  do b <- match tm_body t with
          | TShape s => Ok (TShape (shape_map (reread d) s))
          | TDiscrete xy => Ok (TDiscrete (map (fun p => (reread d (fst p), reread d (snd p))) xy))
          | TConstant v => Ok (TConstant (reread d v))
          | TLinear cs _ => Ok (TLinear (map (reread d) cs) true)
          | TFunction f => do f <- loaded_function vw (fn_formula f); Ok (TFunction f)
          end;
  Ok (mkTerm (tm_name t) (printed_height d t) b).
Definition rebuilt_variable (vw : view T) (v : variable T) : res (variable T) :=
  do ts <- rmapM (rebuilt_term vw) (v_terms v);
  Ok (mkVariable (v_name v) (v_description v) s_nan (reread d (v_minimum v)) (reread d (v_maximum v)) (v_enabled v) (v_lock_range v) ts).
Definition rebuilt_output (vw : view T) (o : output T) : res (output T) :=
  do v <- rebuilt_variable vw (o_var o);
  Ok (mkOutput v [] (o_aggregation o) (o_defuzzifier o) s_nan (reread d (o_default o)) (o_lock_previous o)).
Definition rebuilt_rule (env : penv) (r : rule T) : res (rule T) :=
  let '(r', out) := rule_load env (rl_text r) (rule_new (rl_text r) s_1) in do _ <- out; Ok r'.
Definition rebuilt_activation (a : option (activation T)) : option (activation T) := match a with None => None | Some _ => Some (printed_activation d a) end.
Definition rebuilt_block (env : penv) (b : block T) : res (block T) :=
  do rs <- rmapM (rebuilt_rule env) (b_rules b);
  Ok (mkBlock (b_enabled b) (b_name b) (b_description b) rs (b_conjunction b) (b_disjunction b) (b_implication b) (rebuilt_activation (b_activation b))).
Fixpoint rebuilt_inputs (before vs : list (variable T)) : res (list (variable T)) :=
  match vs with [] => Ok before | v :: vs => do v <- rebuilt_variable (engine_view before []) v; rebuilt_inputs (before ++ [v]) vs end.
Fixpoint rebuilt_outputs (ins : list (variable T)) (before os : list (output T)) : res (list (output T)) :=
  match os with [] => Ok before | o :: os => do o <- rebuilt_output (engine_view ins before) o; rebuilt_outputs ins (before ++ [o]) os end.
Definition rebuilt (e : engine T) : res (engine T) :=
  do ins <- rebuilt_inputs [] (e_inputs e);
  do outs <- rebuilt_outputs ins [] (e_outputs e);
  do bs <- rmapM (rebuilt_block (engine_env ins outs)) (e_blocks e);
  Ok (mkEngine (e_name e) (e_description e) ins outs bs).

(** ** names of the library *)
Definition fit (st : cstate T) : Prop := cs_using st = negb namespaced /\ Forall usable (cs_declared st).
Lemma class_unprefixed : forallb (fun c => match strip "fl::" c with None => true | Some _ => false end) library_classes = true.
Proof. reflexivity. Qed.
Lemma lib_name st c : fit st -> strip "fl::" c = None -> ~ In c (cs_declared st) -> library_name st (fl c) = Ok c.
Proof.
  intros [U F] H I. unfold library_name, cpp_fl. destruct namespaced; [reflexivity|]. rewrite H, U, (existsb_not _ _ I). reflexivity.
Qed.
Lemma lib_class st c : fit st -> existsb (String.eqb c) library_classes = true -> library_name st (fl c) = Ok c.
Proof.
  intros F H. apply in_existsb in H. apply lib_name; [exact F| |].
  - assert (Q := class_unprefixed). rewrite forallb_forall in Q. specialize (Q c H). destruct (strip "fl::" c); [discriminate|reflexivity].
  - intro I. destruct F as [_ F]. rewrite Forall_forall in F. destruct (F c I) as [_ X]. contradiction.
Qed.
Lemma lib_function st c : fit st -> strip "fl::" c = None -> lacks ":" c = false -> library_name st (fl c) = Ok c.
Proof.
  intros F H L. apply lib_name; [exact F|exact H|]. intro I. destruct F as [_ F]. rewrite Forall_forall in F. rewrite (usable_colon c (F c I)) in L. discriminate.
Qed.

(** ** expressions *)
Lemma nums_read l : Forall (fun x => isFinite x = true) l -> rmapM scalar_of (map (num d) l) = Ok (map (reread d) (l : list T)) /\ rmapM double_of (map (num d) l) = Ok (map (reread d) l).
Proof.
  intro F. induction F as [|x l H F IH]; [split; reflexivity|]. destruct (num_reads d N D x H) as (A & B & _). destruct IH as [I1 I2]. cbn [map rmapM]. rewrite A, B. cbn [rbind]. rewrite I1, I2. split; reflexivity.
Qed.
Lemma rmap_app {A B} (f : A -> res B) l l' : rmapM f (l ++ l') = (do a <- rmapM f l; do b <- rmapM f l'; Ok (a ++ b)%list).
Proof. induction l as [|x l IH]; cbn [app rmapM rbind]; [destruct (rmapM f l'); reflexivity|]. destruct (f x); cbn [rbind]; [|reflexivity..]. rewrite IH. destruct (rmapM f l); cbn [rbind]; [|reflexivity..]. destruct (rmapM f l'); reflexivity. Qed.
Lemma shape_class_known (s : shape T) : existsb (String.eqb (shape_class s)) library_classes = true /\ String.eqb (shape_class s) "Constant" = false.
Proof. destruct s; split; reflexivity. Qed.
Lemma shape_back (s : shape T) : Forall (fun x => isFinite x = true) (shape_list s) -> shape_of (shape_class s) (map (reread d) (shape_list s)) = Some (shape_map (reread d) s) /\ forall h, shape_of (shape_class s) (map (reread d) (shape_list s) ++ [h]) = None.
Proof.
  intro F. assert (R : Forall (fun x => isNaN (reread d x) = false) (shape_list s)) by (eapply Forall_impl; [|exact F]; intros x H; now apply reread_number).
  destruct s; cbn [shape_list] in R; (split; [|reflexivity]); cbn; try reflexivity.
  - inversion_clear R as [|? ? _ R1]; inversion_clear R1 as [|? ? _ R2]; inversion_clear R2 as [|? ? Q3 R3]; inversion_clear R3 as [|? ? Q4 _]. now rewrite Q3.
  - inversion_clear R as [|? ? _ R1]; inversion_clear R1 as [|? ? _ R2]; inversion_clear R2 as [|? ? Q3 _]. now rewrite Q3.
Qed.
Lemma map_pairs (xy : list (T * T)) : List.length (flat_map (fun p => [fst p; snd p]) xy) = (List.length xy * 2)%nat.
Proof. induction xy as [|p xy IH]; [reflexivity|]. cbn [flat_map app List.length]. rewrite IH. reflexivity. Qed.
Lemma function_same vw formula : (let '(f, r) := fn_load default_table {| fn_formula := ""; fn_root := None; fn_vars := []; fn_engine := false |} formula true (vw_context vw) in do _ <- r; Ok f) = loaded_function (T := T) vw formula.
Proof. reflexivity. Qed.
Lemma term_run st e t : fit st -> cs_engine st = Some ("engine", e) -> term_expressible (List.length (e_inputs e)) t ->
  term_of st (term_expr d namespaced t) = rebuilt_term (engine_view (e_inputs e) (e_outputs e)) t.
Proof.
  intros F E [L H]. unfold term_expr, numbers, rebuilt_term, printed_height. destruct (tm_body t) as [s|xy|v|cs b|f] eqn:B.
  - destruct H as [H1 H2]. destruct (shape_class_known s) as [K1 K2]. cbn [body_class term_of]. rewrite (lib_class st _ F K1). cbn [rbind text_of_atom]. rewrite rmap_app. destruct (nums_read _ H1) as [-> _]. cbn [rbind].
    destruct (shape_back s H1) as [S1 S2]. destruct (isEq (tm_height t) s_1).
    + cbn [rmapM rbind]. rewrite app_nil_r. unfold new_term_of. now rewrite K2, S1.
    + destruct H2 as [H2|H2]; [discriminate|]. cbn [rmapM]. destruct (num_reads d N D _ H2) as (-> & _). cbn [rbind]. unfold new_term_of. rewrite K2, S2, removelast_last, S1, last_last. reflexivity.
  - destruct H as (H1 & H2 & H3 & H4). cbn [term_of]. rewrite (lib_function st "Discrete::create" F) by reflexivity. cbn [rbind text_of_atom]. change (String.eqb "Discrete::create" "Discrete::create") with true. cbv iota. destruct (int_reads d N _ H2) as [-> _]. cbn [rbind].
    destruct (nums_read _ (pairs_finite _ H3)) as [_ ->]. cbn [rbind]. rewrite map_length, map_pairs. destruct xy as [|p xy]; [congruence|]. set (n := List.length (p :: xy)).
    assert (n >= 1)%nat by (unfold n; cbn; lia). destruct (Nat.ltb_spec (n * 2) 2); [lia|]. destruct (Z.ltb_spec (Z.of_nat (n * 2)) 2); [lia|]. rewrite Z.ltb_irrefl. rewrite Nat2Z.id. rewrite firstn_all2 by (rewrite map_length, map_pairs; unfold n; lia).
    rewrite map_length, map_pairs. replace (Nat.even (List.length (p :: xy) * 2)) with true by (symmetry; apply Nat.even_spec; exists (List.length (p :: xy)); lia). rewrite pairs_back. cbn [rbind]. now rewrite H4.
  - cbn [body_class term_of]. rewrite (lib_class st "Constant" F) by reflexivity. cbn [rbind text_of_atom rmapM]. destruct (num_reads d N D _ H) as (-> & _). reflexivity.
  - destruct H as [H1 H2]. cbn [term_of]. rewrite (lib_function st "Linear::create" F) by reflexivity. cbn [rbind text_of_atom]. change (String.eqb "Linear::create" "Discrete::create") with false. change (String.eqb "Linear::create" "Linear::create") with true. cbv iota. unfold engine_of. rewrite E. change (String.eqb "engine" "engine") with true. cbv iota. cbn [rbind].
    destruct (nums_read _ H1) as [_ ->]. cbn [rbind]. rewrite map_length, H2. change (Nat.ltb (Datatypes.S (List.length (e_inputs e))) 1) with false. cbv iota. rewrite Nat.ltb_irrefl. rewrite firstn_all2 by (rewrite map_length; lia). reflexivity.
  - cbn [term_of]. rewrite (lib_function st "Function::create" F) by reflexivity. cbn [rbind text_of_atom]. change (String.eqb "Function::create" "Discrete::create") with false. change (String.eqb "Function::create" "Linear::create") with false. change (String.eqb "Function::create" "Function::create") with true. cbv iota. unfold engine_of. rewrite E. change (String.eqb "engine" "engine") with true. cbv iota. cbn [rbind].
    change (loaded_function (engine_view (e_inputs e) (e_outputs e)) (fn_formula f)) with (let '(f, r) := fn_load default_table {| fn_formula := ""; fn_root := None; fn_vars := []; fn_engine := false |} (fn_formula f) true (vw_context (engine_view (e_inputs e) (e_outputs e))) in do _ <- r; Ok f).
    destruct (fn_load _ _ _ _ _) as [g r]. destruct r; reflexivity.
Qed.
Lemma tnorm_run st n : fit st -> norm_of tnorm_class tnorms st (norm_expr namespaced tnorm_class n) = Ok n.
Proof. intro F. destruct n as [n|]; [|reflexivity]. cbn [norm_expr norm_of]. rewrite (lib_class st _ F) by (destruct n; reflexivity). destruct n; reflexivity. Qed.
Lemma snorm_run st n : fit st -> norm_of snorm_class snorms st (norm_expr namespaced snorm_class n) = Ok n.
Proof. intro F. destruct n as [n|]; [|reflexivity]. cbn [norm_expr norm_of]. rewrite (lib_class st _ F) by (destruct n; reflexivity). destruct n; reflexivity. Qed.
Lemma defuzzifier_run st z : fit st -> match z with None => True | Some (DIntegral _ n) => int_range n | Some (DWeighted _ _) => namespaced = false end -> defuzzifier_of st (defuzzifier_expr namespaced z) = Ok z.
Proof.
  intros F H. destruct z as [[k n|k ty]|]; [| |reflexivity]; cbn [defuzzifier_expr defuzzifier_of].
  - rewrite (lib_class st _ F) by (destruct k; reflexivity). cbn [rbind]. destruct (int_reads d N n H) as [I _]. assert (Q : by_class (fun k => defuzzifier_class (DIntegral k 0)) [Bisector; Centroid; LargestOfMaximum; MeanOfMaximum; SmallestOfMaximum] (defuzzifier_class (DIntegral k n)) = Ok k) by (destruct k; reflexivity).
    rewrite int_atom in *. destruct (n <? 0)%Z; cbv iota; rewrite Q; cbn [rbind]; rewrite I; reflexivity.
  - assert (Q : forall c, c = fl c) by (intro c; unfold cpp_fl; rewrite H; reflexivity). rewrite (Q (defuzzifier_class _)), (lib_class st _ F) by (destruct k; reflexivity). destruct k, ty; reflexivity.
Qed.
Lemma activation_run st b : fit st -> block_expressible b -> activation_of st (activation_expr d namespaced (b_activation b)) = Ok (rebuilt_activation (b_activation b)).
Proof.
  intros F (_ & _ & _ & H). destruct (b_activation b) as [a|]; [|reflexivity]. cbn [activation_expr activation_of]. rewrite (lib_class st _ F) by (destruct a; reflexivity). cbn [rbind].
  destruct a as [|n t|n t|n|n| |c v]; try reflexivity.
  1,2: destruct H as [H1 H2]; destruct (int_reads d N n H1) as [A _]; destruct (num_reads d N D t H2) as [B _]; cbn -[int_of scalar_of]; rewrite A; cbn [rbind]; rewrite B; reflexivity.
  1,2: destruct (int_reads d N n H) as [A _]; cbn -[int_of]; rewrite A; reflexivity.
  destruct (num_reads d N D v H) as [B _]. cbn -[scalar_of parse_comparison comparison_operator]. assert (Q : parse_comparison (comparison_operator c) = Ok c) by (destruct c; reflexivity). rewrite Q. cbn [rbind]. rewrite B. reflexivity.
Qed.
Lemma rule_run st e r : fit st -> cs_engine st = Some ("engine", e) ->
  rule_of st (ECall (fl "Rule::parse") [AText (rl_text r); AWord "engine"]) = rebuilt_rule (engine_env (e_inputs e) (e_outputs e)) r.
Proof.
  intros F E. cbn [rule_of]. rewrite (lib_function st "Rule::parse" F) by reflexivity. cbn [rbind text_of_atom]. unfold engine_of. rewrite E. change (String.eqb "engine" "engine") with true. cbv iota. cbn [rbind]. reflexivity.
Qed.

(** ** statements *)
Definition idle (dcl : list string) (e : engine T) : cstate T := CState (negb namespaced) dcl (Some ("engine", e)) [].
Definition work (dcl : list string) (e : engine T) (x : string) (o : object T) : cstate T := CState (negb namespaced) dcl (Some ("engine", e)) [(x, o)].
Lemma work_fit dcl e x o : Forall usable dcl -> fit (work dcl e x o). Proof. intro F. split; [reflexivity|exact F]. Qed.
Lemma idle_fit dcl e : Forall usable dcl -> fit (idle dcl e). Proof. intro F. split; [reflexivity|exact F]. Qed.
Lemma find_work x (o : object T) : lookup x [(x, o)] = Some o. Proof. unfold lookup. cbn [find fst]. now rewrite String.eqb_refl. Qed.
Lemma remove_work x (o : object T) : remove x [(x, o)] = []. Proof. unfold remove. cbn [filter fst]. now rewrite String.eqb_refl. Qed.
Lemma put_work dcl e x o o' : put x o' (work dcl e x o) = work dcl e x o'. Proof. unfold put, work. cbn [cs_using cs_declared cs_engine cs_objects]. now rewrite remove_work. Qed.
Inductive holder : (variable T -> object T) -> Prop := hold_input : holder OInput | hold_output o : holder (fun v => OOutput (set_var v o)).
Lemma step dcl e x K v m l r : holder K -> variable_method (work dcl e x (K v)) m l v = Some r ->
  run_statement (work dcl e x (K v)) (SMethod x m l) = (do v' <- r; Ok (work dcl e x (K v'))).
Proof.
  intros H E. cbn [run_statement work cs_objects]. rewrite find_work. destruct H as [|o].
  - change (CState (negb namespaced) dcl (Some ("engine", e)) [(x, OInput v)]) with (work dcl e x (OInput v)). rewrite E. destruct r; cbn [rbind]; rewrite ?put_work; reflexivity.
  - change (CState (negb namespaced) dcl (Some ("engine", e)) [(x, OOutput (set_var v o))]) with (work dcl e x (OOutput (set_var v o))). unfold output_method. change (o_var (set_var v o)) with v. rewrite E. destruct r; cbn [rbind]; rewrite ?put_work; reflexivity.
Qed.
Lemma flag_run b : bool_of (flag b) = Ok b. Proof. destruct b; reflexivity. Qed.
Lemma head_run dcl e x K v v0 : holder K ->
  rfold run_statement (work dcl e x (K v0)) (head_code d x v) =
  Ok (work dcl e x (K (mkVariable (v_name v) (v_description v) (v_value v0) (reread d (v_minimum v)) (reread d (v_maximum v)) (v_enabled v) (v_lock_range v) (v_terms v0)))).
Proof.
  intro H. unfold head_code. cbn [rfold].
  rewrite (step _ _ _ K _ _ _ (Ok (set_v_name (v_name v) v0)) H) by reflexivity. cbn [rbind].
  erewrite (step _ _ _ K _ _ _ (Ok _) H) by reflexivity. cbn [rbind].
  erewrite (step _ _ _ K _ _ _ (Ok _) H); [|cbn [variable_method]; unfold variable_method; cbn [String.eqb Ascii.eqb]; unfold bool_arg; rewrite flag_run; reflexivity]. cbn [rbind].
  erewrite (step _ _ _ K _ _ _ (Ok _) H); [|unfold variable_method, scalar; change (String.eqb "setRange" "setName") with false; change (String.eqb "setRange" "setDescription") with false; change (String.eqb "setRange" "setEnabled") with false; change (String.eqb "setRange" "setRange") with true; cbv iota; destruct (scalar_reads d N D SIGN (v_minimum v)) as [-> _]; destruct (scalar_reads d N D SIGN (v_maximum v)) as [-> _]; reflexivity]. cbn [rbind].
  erewrite (step _ _ _ K _ _ _ (Ok _) H); [|unfold variable_method; cbn [String.eqb Ascii.eqb]; unfold bool_arg; rewrite flag_run; reflexivity]. cbn [rbind].
  reflexivity.
Qed.
Lemma terms_run dcl e x K ts : holder K -> Forall usable dcl -> Forall (term_expressible (List.length (e_inputs e))) ts -> forall v0,
  rfold run_statement (work dcl e x (K v0)) (map (fun t => SMethod x "addTerm" [term_expr d namespaced t]) ts) =
  (do us <- rmapM (rebuilt_term (engine_view (e_inputs e) (e_outputs e))) ts; Ok (work dcl e x (K (set_terms (v_terms v0 ++ us) v0)))).
Proof.
  intros H F A. induction A as [|t ts A1 A2 IH]; intro v0.
  - cbn [map rfold rmapM rbind]. rewrite app_nil_r. destruct v0; reflexivity.
  - cbn [map rfold rmapM]. erewrite (step _ _ _ K _ _ _ _ H); [|unfold variable_method; cbn [String.eqb Ascii.eqb Bool.eqb]; unfold one_arg; rewrite (term_run _ e t (work_fit _ _ _ _ F) eq_refl A1); reflexivity].
    destruct (rebuilt_term _ t) as [u| | |]; cbn [rbind]; try reflexivity. rewrite IH. destruct (rmapM _ ts) as [us| | |]; cbn [rbind]; try reflexivity. cbn [set_terms v_terms]. rewrite <- app_assoc. reflexivity.
Qed.
Lemma declare_run dcl e class x o : Forall usable dcl -> usable x -> ~ In x dcl -> In (class, o) [("InputVariable", OInput new_variable); ("OutputVariable", OOutput new_output); ("RuleBlock", OBlock new_block)] ->
  run_statement (idle dcl e) (declare namespaced class x) = Ok (work (x :: dcl) e x o).
Proof.
  intros F U I C. cbn [declare run_statement]. assert (K : existsb (String.eqb class) library_classes = true) by (destruct C as [C|[C|[C|[]]]]; injection C as <- _; reflexivity).
  unfold declare. rewrite (lib_class (idle dcl e) class (idle_fit _ _ F) K). cbn [rbind idle cs_declared cs_using cs_engine cs_objects]. rewrite (existsb_not _ _ I), String.eqb_refl. destruct U as [-> _]. cbn [negb orb].
  destruct C as [C|[C|[C|[]]]]; injection C as <- <-; reflexivity.
Qed.
Lemma add_lookup dcl e x o m : x <> "engine" -> run_statement (work dcl e x o) (add m x) = (do r <- engine_method (work dcl e x o) m [EAtom (AWord x)] e; Ok (CState (negb namespaced) dcl (Some ("engine", fst r)) (snd r))).
Proof.
  intro H. unfold add. cbn [run_statement work cs_objects]. unfold lookup. cbn [find fst]. destruct (String.eqb_spec x "engine"); [congruence|]. cbn [option_map cs_engine]. change (String.eqb "engine" "engine") with true. reflexivity.
Qed.
Definition with_input (v : variable T) (e : engine T) : engine T := mkEngine (e_name e) (e_description e) (e_inputs e ++ [v]) (e_outputs e) (e_blocks e).
Definition with_output (o : output T) (e : engine T) : engine T := mkEngine (e_name e) (e_description e) (e_inputs e) (e_outputs e ++ [o]) (e_blocks e).
Definition with_block (b : block T) (e : engine T) : engine T := mkEngine (e_name e) (e_description e) (e_inputs e) (e_outputs e) (e_blocks e ++ [b]).
Definition open (dcl : list string) : Prop := Forall usable dcl /\ In "engine" dcl.
Lemma engine_usable : usable "engine". Proof. split; [reflexivity|]. apply not_existsb. reflexivity. Qed.
Lemma input_run dcl e x v : open dcl -> usable x -> ~ In x dcl -> variable_expressible (List.length (e_inputs e)) v ->
  rfold run_statement (idle dcl e) (input_code d namespaced x v) = (do w <- rebuilt_variable (engine_view (e_inputs e) (e_outputs e)) v; Ok (idle (x :: dcl) (with_input w e))).
Proof.
  intros [F EN] U I (_ & _ & A). unfold input_code. cbn [rfold]. rewrite (declare_run dcl e "InputVariable" x (OInput new_variable) F U I) by (now left). cbn [rbind]. rewrite !rfold_app, (head_run _ _ _ OInput) by constructor. cbn [rbind]. unfold terms_code, rebuilt_variable.
  rewrite rfold_app, (terms_run _ e x OInput _ hold_input); [|now constructor|exact A]. destruct (rmapM _ (v_terms v)) as [ts| | |]; cbn [rbind]; try reflexivity. cbn [rfold]. rewrite add_lookup by (intros ->; contradiction).
  unfold engine_method. change (String.eqb "addInputVariable" "setName") with false. change (String.eqb "addInputVariable" "setDescription") with false. cbv iota. unfold object_arg. cbn [work cs_objects]. rewrite find_work. cbn [rbind]. change (String.eqb "addInputVariable" "addInputVariable") with true. cbv iota. cbn [rbind fst snd]. rewrite remove_work. reflexivity.
Qed.
Lemma out_step dcl e x o m l r : output_method (work dcl e x (OOutput o)) m l o = r ->
  run_statement (work dcl e x (OOutput o)) (SMethod x m l) = (do o' <- r; Ok (work dcl e x (OOutput o'))).
Proof. intro E. cbn [run_statement work cs_objects]. rewrite find_work. change (CState (negb namespaced) dcl (Some ("engine", e)) [(x, OOutput o)]) with (work dcl e x (OOutput o)). rewrite E. destruct r; cbn [rbind]; rewrite ?put_work; reflexivity. Qed.
Lemma operators_run dcl e x o o0 : Forall usable dcl -> match o_defuzzifier o with None => True | Some (DIntegral _ n) => int_range n | Some (DWeighted _ _) => namespaced = false end ->
  rfold run_statement (work dcl e x (OOutput o0)) (operators_code d namespaced x o) =
  Ok (work dcl e x (OOutput (mkOutput (o_var o0) (o_fuzzy o0) (o_aggregation o) (o_defuzzifier o) (o_previous o0) (reread d (o_default o)) (o_lock_previous o)))).
Proof.
  intros F H. unfold operators_code. cbn [rfold].
  erewrite (out_step _ _ _ _ _ _ (Ok _)); [|unfold output_method, variable_method; cbn [String.eqb Ascii.eqb Bool.eqb]; unfold one_arg; rewrite (snorm_run _ _ (work_fit _ _ _ _ F)); reflexivity]. cbn [rbind].
  erewrite (out_step _ _ _ _ _ _ (Ok _)); [|unfold output_method, variable_method; cbn [String.eqb Ascii.eqb Bool.eqb]; unfold one_arg; rewrite (defuzzifier_run _ _ (work_fit _ _ _ _ F) H); reflexivity]. cbn [rbind].
  erewrite (out_step _ _ _ _ _ _ (Ok _)); [|unfold output_method, variable_method; cbn [String.eqb Ascii.eqb Bool.eqb]; unfold scalar_arg, scalar; destruct (scalar_reads d N D SIGN (o_default o)) as [-> _]; reflexivity]. cbn [rbind].
  erewrite (out_step _ _ _ _ _ _ (Ok _)); [|unfold output_method, variable_method; cbn [String.eqb Ascii.eqb Bool.eqb]; unfold bool_arg; rewrite flag_run; reflexivity]. cbn [rbind]. reflexivity.
Qed.
Lemma output_run dcl e x o : open dcl -> usable x -> ~ In x dcl -> output_expressible namespaced (List.length (e_inputs e)) o ->
  rfold run_statement (idle dcl e) (output_code d namespaced x o) = (do w <- rebuilt_output (engine_view (e_inputs e) (e_outputs e)) o; Ok (idle (x :: dcl) (with_output w e))).
Proof.
  intros [F EN] U I ((_ & _ & A) & Z). unfold output_code. cbn [rfold]. rewrite (declare_run dcl e "OutputVariable" x (OOutput new_output) F U I) by (right; now left). cbn [rbind].
  assert (F1 : Forall usable (x :: dcl)) by (now constructor).
  rewrite !rfold_app. change (OOutput new_output) with (OOutput (set_var (new_variable (T := T)) new_output)). rewrite (head_run _ _ _ (fun v => OOutput (set_var v new_output))) by constructor. cbn [rbind]. rewrite rfold_app, operators_run by assumption. cbn [rbind]. unfold terms_code, rebuilt_output, rebuilt_variable. cbn [set_var o_var o_fuzzy o_previous new_output].
  match goal with |- context [OOutput (mkOutput ?v ?f ?a ?z ?p ?q ?l)] => change (OOutput (mkOutput v f a z p q l)) with (OOutput (set_var v (mkOutput v f a z p q l))); assert (TR := terms_run (x :: dcl) e x _ _ (hold_output (mkOutput v f a z p q l)) F1 A v) end.
  rewrite rfold_app, TR. clear TR. destruct (rmapM _ (v_terms (o_var o))) as [ts| | |]; cbn [rbind]; try reflexivity. cbn [rfold]. rewrite add_lookup by (intros ->; contradiction).
  unfold engine_method. change (String.eqb "addOutputVariable" "setName") with false. change (String.eqb "addOutputVariable" "setDescription") with false. cbv iota. unfold object_arg. cbn [work cs_objects]. rewrite find_work. cbn [rbind]. change (String.eqb "addOutputVariable" "addOutputVariable") with true. cbv iota. cbn [rbind fst snd]. rewrite remove_work. reflexivity.
Qed.
Lemma block_step dcl e x b m l r : block_method (work dcl e x (OBlock b)) m l b = r ->
  run_statement (work dcl e x (OBlock b)) (SMethod x m l) = (do b' <- r; Ok (work dcl e x (OBlock b'))).
Proof. intro E. cbn [run_statement work cs_objects]. rewrite find_work. change (CState (negb namespaced) dcl (Some ("engine", e)) [(x, OBlock b)]) with (work dcl e x (OBlock b)). rewrite E. destruct r; cbn [rbind]; rewrite ?put_work; reflexivity. Qed.
Lemma setup_run dcl e x b b0 : Forall usable dcl -> block_expressible b ->
  rfold run_statement (work dcl e x (OBlock b0)) (setup_code d namespaced x b) =
  Ok (work dcl e x (OBlock (mkBlock (b_enabled b) (b_name b) (b_description b) (b_rules b0) (b_conjunction b) (b_disjunction b) (b_implication b) (rebuilt_activation (b_activation b))))).
Proof.
  intros F H. destruct b0 as [b0 b1 b2 b3 b4 b5 b6 b7]. cbn [b_rules]. unfold setup_code. cbn [rfold].
  erewrite (block_step _ _ _ _ _ _ (Ok _)) by reflexivity. cbn [rbind b_enabled b_name b_description b_rules b_conjunction b_disjunction b_implication b_activation set_activation].
  erewrite (block_step _ _ _ _ _ _ (Ok _)) by reflexivity. cbn [rbind b_enabled b_name b_description b_rules b_conjunction b_disjunction b_implication b_activation set_activation].
  erewrite (block_step _ _ _ _ _ _ (Ok _)); [|unfold block_method; cbn [String.eqb Ascii.eqb Bool.eqb]; unfold bool_arg; rewrite flag_run; reflexivity]. cbn [rbind b_enabled b_name b_description b_rules b_conjunction b_disjunction b_implication b_activation set_activation].
  erewrite (block_step _ _ _ _ _ _ (Ok _)); [|unfold block_method; cbn [String.eqb Ascii.eqb Bool.eqb]; unfold one_arg; rewrite (tnorm_run _ _ (work_fit _ _ _ _ F)); reflexivity]. cbn [rbind b_enabled b_name b_description b_rules b_conjunction b_disjunction b_implication b_activation set_activation].
  erewrite (block_step _ _ _ _ _ _ (Ok _)); [|unfold block_method; cbn [String.eqb Ascii.eqb Bool.eqb]; unfold one_arg; rewrite (snorm_run _ _ (work_fit _ _ _ _ F)); reflexivity]. cbn [rbind b_enabled b_name b_description b_rules b_conjunction b_disjunction b_implication b_activation set_activation].
  erewrite (block_step _ _ _ _ _ _ (Ok _)); [|unfold block_method; cbn [String.eqb Ascii.eqb Bool.eqb]; unfold one_arg; rewrite (tnorm_run _ _ (work_fit _ _ _ _ F)); reflexivity]. cbn [rbind b_enabled b_name b_description b_rules b_conjunction b_disjunction b_implication b_activation set_activation].
  erewrite (block_step _ _ _ _ _ _ (Ok _)); [|unfold block_method; cbn [String.eqb Ascii.eqb Bool.eqb]; unfold one_arg; rewrite (activation_run _ _ (work_fit _ _ _ _ F) H); reflexivity]. cbn [rbind b_enabled b_name b_description b_rules b_conjunction b_disjunction b_implication b_activation set_activation]. reflexivity.
Qed.
Lemma rules_run dcl e x rs : Forall usable dcl -> forall b0,
  rfold run_statement (work dcl e x (OBlock b0)) (map (fun r => SMethod x "addRule" [ECall (fl "Rule::parse") [AText (rl_text r); AWord "engine"]]) rs) =
  (do us <- rmapM (rebuilt_rule (engine_env (e_inputs e) (e_outputs e))) rs; Ok (work dcl e x (OBlock (set_rules (b_rules b0 ++ us) b0)))).
Proof.
  intro F. induction rs as [|r rs IH]; intro b0.
  - cbn [map rfold rmapM rbind]. rewrite app_nil_r. destruct b0; reflexivity.
  - cbn [map rfold rmapM]. erewrite block_step; [|unfold block_method; cbn [String.eqb Ascii.eqb Bool.eqb]; unfold one_arg; rewrite (rule_run _ e r (work_fit _ _ _ _ F) eq_refl); reflexivity].
    destruct (rebuilt_rule _ r) as [u| | |]; cbn [rbind]; try reflexivity. rewrite IH. destruct (rmapM _ rs) as [us| | |]; cbn [rbind]; try reflexivity. cbn [set_rules b_rules]. rewrite <- app_assoc. reflexivity.
Qed.
Lemma block_run dcl e x b : open dcl -> usable x -> ~ In x dcl -> block_expressible b ->
  rfold run_statement (idle dcl e) (block_code d namespaced x b) = (do w <- rebuilt_block (engine_env (e_inputs e) (e_outputs e)) b; Ok (idle (x :: dcl) (with_block w e))).
Proof.
  intros [F EN] U I A. unfold block_code. cbn [rfold]. rewrite (declare_run dcl e "RuleBlock" x (OBlock new_block) F U I) by (right; right; now left). cbn [rbind].
  assert (F1 : Forall usable (x :: dcl)) by (now constructor). rewrite !rfold_app, setup_run by assumption. cbn [rbind]. unfold rules_code, rebuilt_block. rewrite rfold_app, (rules_run _ e x _ F1). destruct (rmapM _ (b_rules b)) as [rs| | |]; cbn [rbind]; try reflexivity. cbn [rfold]. rewrite add_lookup by (intros ->; contradiction).
  unfold engine_method. change (String.eqb "addRuleBlock" "setName") with false. change (String.eqb "addRuleBlock" "setDescription") with false. cbv iota. unfold object_arg. cbn [work cs_objects]. rewrite find_work. cbn [rbind]. change (String.eqb "addRuleBlock" "addRuleBlock") with true. cbv iota. cbn [rbind fst snd]. rewrite remove_work. reflexivity.
Qed.
End Run.
