(** The engine rebuilt by the code written by the exporter to C++. *)
From Coq Require Import ZArith List Bool String Ascii Arith Lia Permutation.
From Verif Require Import Base Op Norm Hedge Shape Discrete Defuzz Aggregated Text Function Rule Var Activation Engine Factory SpecText TextProofs TextProofs2
  Fll SpecFll FllText FllLines FllExport FllRound FllSame Fis FclText FclRound2 Cpp SpecCpp CppSyntax CppAtoms CppRun.
Import ListNotations.
Local Open Scope string_scope.

Section Program.
Context {T : Type} `{S : Scalar T}.
Variables (d : nat) (library : string) (namespaced named : bool).
Hypothesis N : printable (T := T) d.
Hypothesis D : d <> 0%nat.
Hypothesis SIGN : forall x : T, isNaN x = false -> isInf x = true -> s_ltb s_0 x = negb (s_ltb x s_0).

(** ** lists of variables and blocks with their names *)
Lemma nodup_step (x : string) l dcl : NoDup ((x :: l) ++ dcl) -> ~ In x dcl /\ NoDup (l ++ x :: dcl).
Proof.
  intro H. split; [inversion_clear H as [|? ? H1 _]; intro I; apply H1, in_app_iff; now right|]. eapply Permutation_NoDup; [|exact H]. apply Permutation_middle.
Qed.
Lemma open_cons x dcl : usable x -> open dcl -> open (x :: dcl). Proof. intros U [A B]. split; [now constructor|now right]. Qed.
Lemma inputs_run ps : forall dcl e, open dcl -> Forall usable (map fst ps) -> NoDup (map fst ps ++ dcl) -> inputs_expressible (List.length (e_inputs e)) (map snd ps) -> e_outputs e = [] ->
  rfold run_statement (idle namespaced dcl e) (List.concat (map (fun p => input_code d namespaced (fst p) (snd p)) ps)) =
  (do ins <- rebuilt_inputs d (e_inputs e) (map snd ps); Ok (idle namespaced (rev (map fst ps) ++ dcl) (mkEngine (e_name e) (e_description e) ins (e_outputs e) (e_blocks e)))).
Proof.
  induction ps as [|[x v] ps IH]; intros dcl e O U P A E; [destruct e; reflexivity|]. cbn [map List.concat fst snd] in *. destruct (nodup_step _ _ _ P) as [P1 P2]. inversion_clear U as [|? ? U1 U2]. destruct A as [A1 A2].
  rewrite rfold_app, (input_run d namespaced N D SIGN dcl e x v O U1 P1 A1). cbn [rebuilt_inputs]. rewrite E. destruct (rebuilt_variable d (engine_view (e_inputs e) []) v) as [w| | |]; cbn [rbind]; try reflexivity.
  rewrite IH; [|now apply open_cons|exact U2|exact P2| |exact E].
  - cbn [with_input e_inputs e_name e_description e_outputs e_blocks]. rewrite E. cbn [rev]. now rewrite <- app_assoc.
  - cbn [with_input e_inputs]. rewrite app_length. cbn [List.length]. now rewrite Nat.add_1_r.
Qed.
Lemma outputs_run ps : forall dcl e, open dcl -> Forall usable (map fst ps) -> NoDup (map fst ps ++ dcl) -> Forall (output_expressible namespaced (List.length (e_inputs e))) (map snd ps) ->
  rfold run_statement (idle namespaced dcl e) (List.concat (map (fun p => output_code d namespaced (fst p) (snd p)) ps)) =
  (do outs <- rebuilt_outputs d (e_inputs e) (e_outputs e) (map snd ps); Ok (idle namespaced (rev (map fst ps) ++ dcl) (mkEngine (e_name e) (e_description e) (e_inputs e) outs (e_blocks e)))).
Proof.
  induction ps as [|[x o] ps IH]; intros dcl e O U P A; [destruct e; reflexivity|]. cbn [map List.concat fst snd] in *. destruct (nodup_step _ _ _ P) as [P1 P2]. inversion_clear U as [|? ? U1 U2]. inversion_clear A as [|? ? A1 A2].
  rewrite rfold_app, (output_run d namespaced N D SIGN dcl e x o O U1 P1 A1). cbn [rebuilt_outputs]. destruct (rebuilt_output d (engine_view (e_inputs e) (e_outputs e)) o) as [w| | |]; cbn [rbind]; try reflexivity.
  rewrite IH; [|now apply open_cons|exact U2|exact P2|exact A2].
  cbn [with_output e_inputs e_name e_description e_outputs e_blocks]. cbn [rev]. now rewrite <- app_assoc.
Qed.
Lemma blocks_run ps : forall dcl e, open dcl -> Forall usable (map fst ps) -> NoDup (map fst ps ++ dcl) -> Forall block_expressible (map snd ps) ->
  rfold run_statement (idle namespaced dcl e) (List.concat (map (fun p => block_code d namespaced (fst p) (snd p)) ps)) =
  (do bs <- rmapM (rebuilt_block d (engine_env (e_inputs e) (e_outputs e))) (map snd ps); Ok (idle namespaced (rev (map fst ps) ++ dcl) (mkEngine (e_name e) (e_description e) (e_inputs e) (e_outputs e) (e_blocks e ++ bs)))).
Proof.
  induction ps as [|[x b] ps IH]; intros dcl e O U P A; [cbn; rewrite app_nil_r; destruct e; reflexivity|]. cbn [map List.concat fst snd] in *. destruct (nodup_step _ _ _ P) as [P1 P2]. inversion_clear U as [|? ? U1 U2]. inversion_clear A as [|? ? A1 A2].
  rewrite rfold_app, (block_run d namespaced N D dcl e x b O U1 P1 A1). cbn [rmapM]. destruct (rebuilt_block d _ b) as [w| | |]; cbn [rbind]; try reflexivity.
  rewrite IH; [|now apply open_cons|exact U2|exact P2|exact A2]. cbn [with_block e_inputs e_name e_description e_outputs e_blocks].
  destruct (rmapM _ (map snd ps)); cbn [rbind]; try reflexivity. cbn [rev]. now rewrite <- !app_assoc.
Qed.

(** ** names *)
Definition input_names (e : engine T) : list (string * variable T) :=
  map (fun p => (cpp_variable_name named "inputVariable" (fst p) (List.length (e_inputs e)) (snd p), snd p)) (indexed (e_inputs e)).
Definition output_names (e : engine T) : list (string * output T) :=
  map (fun p => (cpp_variable_name named "outputVariable" (fst p) (List.length (e_outputs e)) (o_var (snd p)), snd p)) (indexed (e_outputs e)).
Definition rule_names (e : engine T) : list (string * block T) :=
  map (fun p => (cpp_block_name named (fst p) (List.length (e_blocks e)) (snd p), snd p)) (indexed (e_blocks e)).
Lemma snd_indexed {A} (l : list A) k : map snd (combine (seq k (List.length l)) l) = l.
Proof. revert k. induction l as [|a l IH]; intro k; [reflexivity|]. cbn [List.length seq combine map snd]. now rewrite IH. Qed.
Lemma fst_indexed {A} (l : list A) k : map fst (combine (seq k (List.length l)) l) = seq k (List.length l).
Proof. revert k. induction l as [|a l IH]; intro k; [reflexivity|]. cbn [List.length seq combine map fst]. now rewrite IH. Qed.
Lemma snd_named {A} (f : nat * A -> string) (l : list A) : map snd (map (fun p => (f p, snd p)) (indexed l)) = l.
Proof. rewrite map_map. cbn [snd]. apply snd_indexed. Qed.
Lemma code_named {A B} (f : nat * A -> string) (g : string -> A -> B) (l : list A) : map (fun p => g (fst p) (snd p)) (map (fun p => (f p, snd p)) (indexed l)) = map (fun p => g (f p) (snd p)) (indexed l).
Proof. rewrite map_map. reflexivity. Qed.
Lemma fst_by_number {A} (f : nat * A -> string) (g : nat -> string) (l : list A) : (forall p, f p = g (fst p)) -> map fst (map (fun p => (f p, snd p)) (indexed l)) = map g (seq 0 (List.length l)).
Proof. intro H. rewrite map_map. cbn [fst]. unfold indexed. rewrite <- (fst_indexed l 0) at 2. rewrite map_map. apply map_ext. exact H. Qed.
Lemma fst_by_value {A} (f : nat * A -> string) (g : A -> string) (l : list A) : (forall p, In (snd p) l -> f p = g (snd p)) -> map fst (map (fun p => (f p, snd p)) (indexed l)) = map g l.
Proof.
  intro H. rewrite map_map. cbn [fst]. transitivity (map g (map snd (indexed l))); [|f_equal; apply snd_indexed]. rewrite map_map. apply map_ext_in. intros p I. apply H. now apply indexed_in.
Qed.
Definition all_names (e : engine T) : list string := (map fst (input_names e) ++ map fst (output_names e) ++ map fst (rule_names e))%list.
Lemma nodup_rest (a b : list string) : NoDup (a ++ b) -> NoDup b.
Proof. induction a as [|x a IH]; [auto|]. intro H. inversion_clear H. auto. Qed.
Lemma perm_names (x : string) a b c : Permutation (x :: a ++ b ++ c) (c ++ b ++ a ++ [x]).
Proof.
  symmetry. etransitivity; [apply Permutation_app_comm|]. etransitivity; [apply Permutation_app_tail, Permutation_app_comm|]. rewrite <- !app_assoc. cbn [app]. symmetry. apply Permutation_middle.
Qed.
Lemma block_names_values (bs : list (block T)) n : forall k, Forall usable (block_names k n bs) -> map (fun p => cpp_block_name true (fst p) n (snd p)) (combine (seq k (List.length bs)) bs) = block_names k n bs.
Proof.
  induction bs as [|b bs IH]; intros k U; [reflexivity|]. cbn [List.length seq combine map fst snd block_names] in *. inversion_clear U as [|? ? U1 U2]. rewrite IH by exact U2. f_equal. unfold cpp_block_name. destruct (sempty (b_name b)) eqn:E; cbn [negb andb].
  - unfold cpp_numbered. destruct (Nat.ltb 1 n); [reflexivity|now rewrite sapp_nil_r].
  - now apply usable_valid.
Qed.
Lemma nodup_disjoint (a b : list string) : NoDup a -> NoDup b -> (forall x, In x a -> In x b -> False) -> NoDup (a ++ b).
Proof.
  intros A B H. induction A as [|x a X A IH]; [exact B|]. cbn [app]. constructor.
  - rewrite in_app_iff. intros [I|I]; [contradiction|]. apply (H x); [now left|exact I].
  - apply IH. intros y I J. apply (H y); [now right|exact J].
Qed.
Lemma names_fine e : expressible namespaced named e -> Forall usable (all_names e) /\ NoDup ("engine" :: all_names e).
Proof.
  intros (_ & _ & _ & _ & _ & H). unfold all_names, input_names, output_names, rule_names. destruct named.
  - destruct (H eq_refl) as [P U]. unfold program_names in P, U. inversion_clear U as [|? ? _ U1]. assert (U2 := U1). rewrite !Forall_app in U2. destruct U2 as (UI & UO & UB).
    assert (NI : map fst (map (fun p => (cpp_variable_name true "inputVariable" (fst p) (List.length (e_inputs e)) (snd p), snd p)) (indexed (e_inputs e))) = map v_name (e_inputs e)).
    { apply fst_by_value. intros p I. unfold cpp_variable_name. apply usable_valid. rewrite Forall_forall in UI. apply UI. now apply in_map. }
    assert (NO : map fst (map (fun p => (cpp_variable_name true "outputVariable" (fst p) (List.length (e_outputs e)) (o_var (snd p)), snd p)) (indexed (e_outputs e))) = map (fun o => v_name (o_var o)) (e_outputs e)).
    { apply (fst_by_value _ (fun o => v_name (o_var o))). intros p I. unfold cpp_variable_name. apply usable_valid. rewrite Forall_forall in UO. apply UO. now apply (in_map (fun o => v_name (o_var o))). }
    assert (NB : map fst (map (fun p => (cpp_block_name true (fst p) (List.length (e_blocks e)) (snd p), snd p)) (indexed (e_blocks e))) = block_names 0 (List.length (e_blocks e)) (e_blocks e)).
    { rewrite map_map. cbn [fst]. now apply block_names_values. }
    rewrite NI, NO, NB. split; [exact U1|exact P].
  - clear H. rewrite (fst_by_number _ (fun i => cpp_numbered "inputVariable" i (List.length (e_inputs e)))) by reflexivity. rewrite (fst_by_number _ (fun i => cpp_numbered "outputVariable" i (List.length (e_outputs e)))) by reflexivity. rewrite (fst_by_number _ (fun i => cpp_numbered "ruleBlock" i (List.length (e_blocks e)))) by reflexivity.
    set (a := map _ _). set (b := map _ _). set (c := map _ _).
    assert (SH : forall kind n x, In x (map (fun i => cpp_numbered kind i n) (seq 0 n)) -> exists s, x = kind ++ s).
    { intros kind n x I. apply in_map_iff in I. destruct I as (i & <- & _). destruct (numbered_shape kind i n) as (s & -> & _). now exists s. }
    assert (GA := SH "inputVariable" (List.length (e_inputs e))). assert (GB := SH "outputVariable" (List.length (e_outputs e))). assert (GC := SH "ruleBlock" (List.length (e_blocks e))).
    split.
    + rewrite !Forall_app. repeat split; apply Forall_map, Forall_forall; intros i _; apply numbered_usable; cbn; tauto.
    + constructor.
      * intro I. rewrite !in_app_iff in I. destruct I as [I|[I|I]]; [destruct (GA _ I)|destruct (GB _ I)|destruct (GC _ I)]; discriminate.
      * apply nodup_disjoint; [apply numbered_nodup|apply nodup_disjoint; [apply numbered_nodup|apply numbered_nodup|]|].
        -- intros x I J. destruct (GB _ I) as [s ->]. destruct (GC _ J). discriminate.
        -- intros x I J. destruct (GA _ I) as [s ->]. apply in_app_iff in J. destruct J as [J|J]; [destruct (GB _ J)|destruct (GC _ J)]; discriminate.
Qed.

(** ** statements are well formed *)
Lemma word_of w : negb (sempty w) = true -> sforall word_char w = true -> word w.
Proof. intros A B. split; [|exact B]. intros ->. discriminate. Qed.
Lemma declare_good class x : usable x -> word class -> good_statement (declare namespaced class x).
Proof. intros U W. unfold declare. split; [now apply word_fl|]. split; [now apply usable_word|now apply word_fl]. Qed.
Lemma one_good x m a : usable x -> word m -> good_expr a -> good_statement (SMethod x m [a]).
Proof. intros U W G. split; [now apply usable_word|]. split; [exact W|]. now repeat constructor. Qed.
Lemma flag_good b : good_expr (flag b). Proof. destruct b; now apply word_of. Qed.
Lemma scalar_good x : good_expr (scalar d x). Proof. apply (scalar_reads d N D SIGN x). Qed.
Lemma head_good x n v : usable x -> variable_expressible n v -> Forall good_statement (head_code d x v).
Proof.
  intros U (A & B & _). unfold head_code. do 3 (constructor; [apply one_good; [exact U|now apply word_of|first [exact A|exact B|apply flag_good]]|]).
  constructor; [split; [now apply usable_word|]; split; [now apply word_of|]; constructor; [apply scalar_good|constructor; [apply scalar_good|constructor]]|].
  constructor; [apply one_good; [exact U|now apply word_of|apply flag_good]|constructor].
Qed.
Lemma terms_good x n v : usable x -> variable_expressible n v -> Forall good_statement (terms_code d namespaced x v).
Proof. intros U (_ & _ & F). apply Forall_map. eapply Forall_impl; [|exact F]. intros t H. apply one_good; [exact U|now apply word_of|]. now apply (term_good d namespaced N D n). Qed.
Lemma add_good m x : usable x -> word m -> good_statement (add m x).
Proof. intros U W. apply one_good; [apply engine_usable|exact W|]. now apply usable_word. Qed.
Lemma input_good x n v : usable x -> variable_expressible n v -> Forall good_statement (input_code d namespaced x v).
Proof.
  intros U H. unfold input_code. constructor; [apply declare_good; [exact U|now apply word_of]|]. rewrite !Forall_app. split; [now apply (head_good x n)|]. split; [now apply (terms_good x n)|]. constructor; [|constructor]. apply add_good; [exact U|now apply word_of].
Qed.
Lemma output_good x n o : usable x -> output_expressible namespaced n o -> Forall good_statement (output_code d namespaced x o).
Proof.
  intros U [H Z]. unfold output_code. constructor; [apply declare_good; [exact U|now apply word_of]|]. rewrite !Forall_app. split; [now apply (head_good x n)|]. split; [|split; [now apply (terms_good x n)|]].
  - constructor; [apply one_good; [exact U|now apply word_of|apply snorm_good]|]. constructor; [apply one_good; [exact U|now apply word_of|]|]. 
    + apply (defuzzifier_good d namespaced N). destruct (o_defuzzifier o) as [[]|]; auto.
    + constructor; [apply one_good; [exact U|now apply word_of|apply scalar_good]|]. constructor; [apply one_good; [exact U|now apply word_of|apply flag_good]|constructor].
  - constructor; [|constructor]. apply add_good; [exact U|now apply word_of].
Qed.
Lemma block_good x b : usable x -> block_expressible b -> Forall good_statement (block_code d namespaced x b).
Proof.
  intros U H. assert (H' := H). destruct H' as (A & B & C & _). unfold block_code. constructor; [apply declare_good; [exact U|now apply word_of]|]. rewrite !Forall_app. split; [|split].
  - unfold setup_code. repeat (constructor; [apply one_good; [exact U|now apply word_of|]|]); try (exact A); try (exact B); try apply flag_good; try apply tnorm_good; try apply snorm_good; try (now apply (activation_good d namespaced N D)); constructor.
  - apply Forall_map. eapply Forall_impl; [|exact C]. intros r L. apply one_good; [exact U|now apply word_of|]. split; [apply word_fl; now apply word_of|]. constructor; [exact L|]. constructor; [now apply word_of|constructor].
  - constructor; [|constructor]. apply add_good; [exact U|now apply word_of].
Qed.
Lemma concat_good {A} (f : A -> list statement) l : (forall a, In a l -> Forall good_statement (f a)) -> Forall (Forall good_statement) (map f l).
Proof. intro H. apply Forall_map. apply Forall_forall. exact H. Qed.

(** ** the whole *)
Lemma engine_run e : expressible namespaced named e ->
  rfold run_statement start ((if namespaced then [] else [SUsing "fuzzylite"]) ++ engine_code namespaced e) = Ok (idle namespaced ["engine"] (mkEngine (e_name e) (e_description e) [] [] [])).
Proof. intros _. destruct namespaced; reflexivity. Qed.
Theorem code_runs e : one_line library -> expressible namespaced named e ->
  exists text, cpp_export d library namespaced named e = Ok text /\ run_cpp text = rebuilt d e.
Proof.
  intros L X. destruct (names_fine e X) as [U P]. assert (X' := X). destruct X' as (LN & LD & XI & XO & XB & _).
  eexists. split; [now apply program_text|]. unfold run_cpp.
  unfold all_names in U. rewrite !Forall_app in U. destruct U as (UI & UO & UB).
  assert (GI : Forall (Forall good_statement) (inputs_code d namespaced named e)).
  { apply concat_good. intros p I. assert (J := I). apply indexed_in in J. destruct (inputs_each _ _ XI _ J) as [k K]. apply (input_good _ k); [|exact K]. rewrite Forall_forall in UI. apply UI. unfold input_names. rewrite map_map. cbn [fst]. now apply (in_map (fun p => cpp_variable_name named "inputVariable" (fst p) (List.length (e_inputs e)) (snd p))). }
  assert (GO : Forall (Forall good_statement) (outputs_code d namespaced named e)).
  { apply concat_good. intros p I. assert (J := I). apply indexed_in in J. rewrite Forall_forall in XO. apply (output_good _ (List.length (e_inputs e))); [|auto]. rewrite Forall_forall in UO. apply UO. unfold output_names. rewrite map_map. cbn [fst]. now apply (in_map (fun p => cpp_variable_name named "outputVariable" (fst p) (List.length (e_outputs e)) (o_var (snd p)))). }
  assert (GB : Forall (Forall good_statement) (blocks_code d namespaced named e)).
  { apply concat_good. intros p I. assert (J := I). apply indexed_in in J. rewrite Forall_forall in XB. apply block_good; [|auto]. rewrite Forall_forall in UB. apply UB. unfold rule_names. rewrite map_map. cbn [fst]. now apply (in_map (fun p => cpp_block_name named (fst p) (List.length (e_blocks e)) (snd p))). }
  assert (GE : Forall (Forall good_statement) ((if namespaced then [] else [[SUsing "fuzzylite"]]) ++ [engine_code namespaced e])%list).
  { rewrite Forall_app. split; [destruct namespaced; repeat constructor; discriminate|]. constructor; [|constructor]. unfold engine_code. constructor; [apply declare_good; [apply engine_usable|now apply word_of]|]. constructor; [apply one_good; [apply engine_usable|now apply word_of|exact LN]|]. constructor; [apply one_good; [apply engine_usable|now apply word_of|exact LD]|constructor]. }
  set (parts := ((if namespaced then [] else [[SUsing "fuzzylite"]]) ++ [engine_code namespaced e] ++ inputs_code d namespaced named e ++ outputs_code d namespaced named e ++ blocks_code d namespaced named e)%list).
  assert (G : Forall (Forall good_statement) parts) by (unfold parts; rewrite app_assoc, !Forall_app; rewrite Forall_app in GE; tauto).
  assert (C : clean (text_of ([("//Code automatically generated with " ++ library ++ ".")%string; ""] ++ lines_of parts)%list) (flat_map (fun s => statement_tokens s ++ [TSymbol ";"])%list (List.concat parts))).
  { rewrite text_of_app. change (flat_map (fun s => statement_tokens s ++ [TSymbol ";"])%list (List.concat parts)) with ([] ++ flat_map (fun s => statement_tokens s ++ [TSymbol ";"])%list (List.concat parts))%list. apply clean_after; [|now apply clean_parts].
    change (text_of [("//Code automatically generated with " ++ library ++ ".")%string; ""]) with (("//Code automatically generated with " ++ library ++ ".") ++ (char newline ++ char newline)).
    replace (("//Code automatically generated with " ++ library ++ ".") ++ (char newline ++ char newline)) with (("//" ++ ("Code automatically generated with " ++ library ++ ".") ++ char newline) ++ char newline) by (now rewrite !sapp_assoc).
    change (@nil token) with ([] ++ [] : list token)%list. apply clean_after; [|lit]. apply clean_comment. unfold one_line in *. rewrite lacks_sforall in *. rewrite !sforall_app, L. reflexivity. }
  rewrite (tokenize_clean _ _ C). cbn [option_bind]. rewrite parse_statements.
  assert (E : List.concat parts = (((if namespaced then [] else [SUsing "fuzzylite"]) ++ engine_code namespaced e) ++ List.concat (inputs_code d namespaced named e) ++ List.concat (outputs_code d namespaced named e) ++ List.concat (blocks_code d namespaced named e))%list).
  { unfold parts. rewrite !concat_app. cbn [List.concat]. rewrite app_nil_r. rewrite <- !app_assoc. destruct namespaced; reflexivity. }
  rewrite E, rfold_app, engine_run by exact X. cbn [rbind]. clear E C G GE GI GO GB parts.
  assert (PE : NoDup (map fst (rule_names e) ++ rev (map fst (output_names e)) ++ rev (map fst (input_names e)) ++ ["engine"])).
  { eapply Permutation_NoDup; [|exact P]. unfold all_names. rewrite <- !Permutation_rev. apply perm_names. }
  assert (PO : NoDup (map fst (output_names e) ++ rev (map fst (input_names e)) ++ ["engine"])).
  { apply nodup_rest in PE. eapply Permutation_NoDup; [|exact PE]. apply Permutation_app_tail. symmetry. apply Permutation_rev. }
  assert (PI : NoDup (map fst (input_names e) ++ ["engine"])).
  { apply nodup_rest in PO. eapply Permutation_NoDup; [|exact PO]. apply Permutation_app_tail. symmetry. apply Permutation_rev. }
  assert (O0 : open ["engine"]) by (split; [constructor; [apply engine_usable|constructor]|now left]).
  assert (OX : forall l dcl, Forall usable l -> open dcl -> open (rev l ++ dcl)).
  { intros l dcl F [A B]. split; [apply Forall_app; split; [now apply Forall_rev|exact A]|apply in_app_iff; now right]. }
  unfold rebuilt. assert (EI : inputs_code d namespaced named e = map (fun p => input_code d namespaced (fst p) (snd p)) (input_names e)) by (symmetry; apply (code_named _ (input_code d namespaced))).
  assert (EO : outputs_code d namespaced named e = map (fun p => output_code d namespaced (fst p) (snd p)) (output_names e)) by (symmetry; apply (code_named _ (output_code d namespaced))).
  assert (EB : blocks_code d namespaced named e = map (fun p => block_code d namespaced (fst p) (snd p)) (rule_names e)) by (symmetry; apply (code_named _ (block_code d namespaced))).
  assert (SI : map snd (input_names e) = e_inputs e) by apply snd_named. assert (SO : map snd (output_names e) = e_outputs e) by apply snd_named. assert (SB : map snd (rule_names e) = e_blocks e) by apply snd_named.
  rewrite EI, rfold_app, (inputs_run (input_names e)); [|exact O0|exact UI|exact PI|now rewrite SI|reflexivity]. rewrite SI. cbn [e_inputs e_outputs e_blocks e_name e_description].
  destruct (rebuilt_inputs d [] (e_inputs e)) as [ins| | |] eqn:RI; cbn [rbind]; try reflexivity.
  assert (LI : List.length ins = List.length (e_inputs e)).
  { clear - RI. assert (Q : forall vs before ins, rebuilt_inputs d before vs = Ok ins -> List.length ins = (List.length before + List.length vs)%nat).
    { induction vs as [|v vs IH]; intros before r H; [injection H as <-; cbn; lia|]. cbn [rebuilt_inputs] in H. destruct (rebuilt_variable d _ v); try discriminate. cbn [rbind] in H. apply IH in H. rewrite app_length in H. cbn [List.length] in *. lia. }
    exact (Q _ _ _ RI). }
  rewrite EO, rfold_app, (outputs_run (output_names e)); [|now apply OX|exact UO|exact PO|cbn [e_inputs]; rewrite LI, SO; exact XO]. rewrite SO. cbn [e_inputs e_outputs e_blocks e_name e_description].
  destruct (rebuilt_outputs d ins [] (e_outputs e)) as [outs| | |]; cbn [rbind]; try reflexivity.
  rewrite EB, (blocks_run (rule_names e)); [|apply OX; [exact UO|now apply OX]|exact UB|exact PE|now rewrite SB]. rewrite SB. cbn [e_inputs e_outputs e_blocks e_name e_description].
  destruct (rmapM _ (e_blocks e)) as [bs| | |]; reflexivity.
Qed.
End Program.
