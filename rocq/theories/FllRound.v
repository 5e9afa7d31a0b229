(** Import of exported engines. *)
From Coq Require Import ZArith List Bool String Ascii Arith Lia.
From Verif Require Import Base Op Norm Shape Discrete Defuzz Aggregated Text Function Rule Var Activation Engine Factory
  SpecText TextProofs TextProofs2 RuleProofs3 Fll SpecFll FllText FllLines FllExport.
Import ListNotations.
Local Open Scope string_scope.

Section Round.
Context {T : Type} `{S : Scalar T}.
Variables (d : nat) (resolution : Z) (indent : string).
Hypothesis N : printable (T := T) d.
Hypothesis indent_blank : blank indent = true.
Hypothesis indent_hash : lacks "#" indent = true.
Hypothesis indent_line : one_line indent.

(** ** numbers *)
Lemma reread_ok (x : T) : to_scalar (str d x) = Ok (reread d x).
Proof. unfold reread. destruct (pr_read d N x) as (y & -> & _). reflexivity. Qed.
Lemma reread_str (x : T) : str d (reread d x) = str d x.
Proof. unfold reread. destruct (pr_read d N x) as (y & -> & E). exact E. Qed.
Lemma reread_idem (x : T) : reread d (reread d x) = reread d x.
Proof. unfold reread at 1. rewrite reread_str. unfold reread. destruct (to_scalar (str d x)); reflexivity. Qed.
Lemma str_solid (x : T) : solid_word (str d x).
Proof. destruct (pr_word d N x) as [A B]. split; auto. Qed.
Lemma rmap_reread (l : list T) : rmapM to_scalar (map (str d) l) = Ok (map (reread d) l).
Proof. induction l as [|x l IH]; [reflexivity|]. simpl. rewrite reread_ok. cbn [rbind]. rewrite IH. reflexivity. Qed.
Lemma digits_solid fuel n : sforall solid (int_digits fuel n) = true.
Proof.
  revert n; induction fuel as [|f IH]; intro n; [reflexivity|]. simpl.
  assert (D : forall m, (0 <= m < 10)%Z -> sforall solid (char (digit_char m)) = true).
  { intros m H. assert (C : exists k, (k < 10)%nat /\ m = Z.of_nat k) by (exists (Z.to_nat m); lia). destruct C as (k & K & ->). unfold digit_char. rewrite Nat2Z.id.
    do 10 (destruct k as [|k]; [reflexivity|]). lia. }
  destruct (Z.ltb_spec n 10).
  - destruct (Z.leb_spec 0 n); [apply D; lia|]. unfold digit_char. replace (Z.to_nat n) with 0%nat by lia. reflexivity.
  - rewrite sforall_app, IH. apply D. apply Z.mod_pos_bound. lia.
Qed.
Lemma digits_some fuel n : int_digits (Datatypes.S fuel) n <> "".
Proof. simpl. destruct (n <? 10)%Z; [discriminate|]. destruct (int_digits fuel (n / 10)); discriminate. Qed.
Lemma int_solid n : solid_word (str_int n).
Proof.
  unfold str_int, nat_text. split.
  - destruct (n <? 0)%Z; [discriminate|]. apply digits_some.
  - rewrite sforall_app, digits_solid. destruct (n <? 0)%Z; reflexivity.
Qed.
Lemma int_read n : int_range n -> to_int (T := T) (str_int n) = Ok n.
Proof. intro H. unfold to_int. destruct (pr_int d N n H) as (y & -> & E). cbn [rbind]. now rewrite E. Qed.

(** ** terms *)
Definition term_words (t : term T) : list string :=
  match tm_body t with
  | TShape s => map (str d) (shape_list s) ++ (if isEq (tm_height t) s_1 then [] else [str d (tm_height t)])
  | TDiscrete xy => flat_map (fun p => [str d (fst p); str d (snd p)]) xy ++ (if isEq (tm_height t) s_1 then [] else [str d (tm_height t)])
  | TConstant v => [str d v]
  | TLinear cs _ => map (str d) cs
  | TFunction _ => []
  end%list.
Lemma strs_solid l : Forall solid_word (map (str d) (l : list T)).
Proof. apply Forall_map. apply Forall_forall. intros x _. apply str_solid. Qed.
Lemma term_words_solid t : Forall solid_word (term_words t).
Proof.
  assert (H : forall h : T, Forall solid_word (if isEq h s_1 then [] else [str d h])) by (intro h; destruct (isEq h s_1); repeat constructor; apply str_solid).
  unfold term_words. destruct (tm_body t) as [s|xy|v|cs b|f]; try (apply Forall_app; split; auto); try apply strs_solid; try (repeat constructor; apply str_solid).
  induction xy; [constructor|]. simpl. constructor; [apply str_solid|]. constructor; [apply str_solid|exact IHxy].
Qed.
Lemma shape_words_some (s : shape T) : shape_list s <> [].
Proof. destruct s; discriminate. Qed.
Lemma term_parameters_words t : (forall f, tm_body t <> TFunction f) -> term_parameters d t = join (term_words t) " ".
Proof.
  intro NF. unfold term_parameters, term_words. destruct (tm_body t) as [s|xy|v|cs b|f] eqn:B; auto; [|destruct (NF f); reflexivity].
  unfold join_scalars. destruct (isEq (tm_height t) s_1); [now rewrite app_nil_r, sapp_nil_r|].
  rewrite join_app; [reflexivity| |discriminate]. intro H. apply map_eq_nil in H. now apply shape_words_some in H.
Qed.
Lemma words_empty ws : Forall solid_word ws -> sempty (join ws " ") = match ws with [] => true | _ => false end.
Proof. intro F. destruct F as [|w ws [NE _] F]; [reflexivity|]. apply sempty_false. now apply join_nonempty. Qed.
(** the value of the key `term` *)
Definition term_value (t : term T) : string :=
  join ([valid_name (tm_name t); body_class (tm_body t)] ++ (if sempty (term_parameters d t) then [] else [term_parameters d t]))%list " ".
Lemma class_solid (b : tbody T) : solid_word (body_class b).
Proof. destruct b as [[]| | | |]; (split; [discriminate|reflexivity]). Qed.
Lemma term_value_words t : (forall f, tm_body t <> TFunction f) ->
  term_value t = join (valid_name (tm_name t) :: body_class (tm_body t) :: term_words t) " ".
Proof.
  intro NF. unfold term_value. rewrite (term_parameters_words t NF). assert (F := term_words_solid t). rewrite (words_empty _ F).
  destruct (term_words t) as [|w ws]; [reflexivity|]. change (valid_name (tm_name t) :: body_class (tm_body t) :: w :: ws) with ([valid_name (tm_name t); body_class (tm_body t)] ++ (w :: ws))%list.
  rewrite !join_app by discriminate. reflexivity.
Qed.
Lemma term_line t : indent ++ fll_term d t = indent ++ ("term" ++ ": ") ++ term_value t.
Proof. reflexivity. Qed.

(** configure with words *)
Lemma split_join_words ws : ws <> [] -> Forall solid_word ws -> split (join ws " ") " " true = ws.
Proof.
  intros NE F. rewrite split_space.
  - apply words_join. eapply Forall_impl; [|exact F]. apply solid_wordy.
  - destruct ws as [|w ws]; [congruence|]. inversion F as [|? ? [NW _] _]. now apply join_nonempty.
Qed.
Definition fresh_body (b : tbody T) : tbody T :=
  match b with
  | TShape s => TShape (shape_map (fun _ => s_nan) s)
  | TDiscrete _ => TDiscrete [] | TConstant _ => TConstant s_nan | TLinear _ _ => TLinear [] false
  | TFunction _ => TFunction {| fn_formula := ""; fn_root := None; fn_vars := []; fn_engine := false |}
  end.
Lemma class_made (b : tbody T) : construct (body_class b) term_factory = Ok (Some (mkTerm "" s_1 (fresh_body b))).
Proof. destruct b as [[]| | | |]; reflexivity. Qed.
Lemma shape_set_list (s : shape T) (f g : T -> T) : shape_set (shape_map g s) (map f (shape_list s)) = shape_map f s.
Proof. destruct s; reflexivity. Qed.
Lemma shape_list_length (s : shape T) (g : T -> T) : List.length (shape_list (shape_map g s)) = List.length (shape_list s).
Proof. destruct s; reflexivity. Qed.
Lemma to_vector_words xy : flat_map (fun p => [str d (fst p); str d (snd p)]) xy = map (str d) (flat_map (fun p : T * T => [fst p; snd p]) xy).
Proof. induction xy; simpl; congruence. Qed.
Lemma pairs_even xy : Nat.even (List.length (flat_map (fun p : T * T => [fst p; snd p]) xy)) = true.
Proof. induction xy; simpl; auto. Qed.
Lemma pairs_back (f : T -> T) xy : to_pairs (map f (flat_map (fun p : T * T => [fst p; snd p]) xy)) = Ok (map (fun p => (f (fst p), f (snd p))) xy).
Proof.
  unfold to_pairs. rewrite map_length, <- Nat.negb_even, pairs_even. cbn [negb]. f_equal. induction xy as [|[a b] xy IH]; [reflexivity|]. simpl in *. now rewrite IH.
Qed.
Lemma configure_words vw t name : (forall f, tm_body t <> TFunction f) ->
  term_configure vw (join (term_words t) " ") (mkTerm name s_1 (match fresh_body (tm_body t) with TLinear l _ => TLinear l true | b => b end)) =
  (do t' <- printed_term d vw t; Ok (mkTerm name (tm_height t') (tm_body t'))).
Proof.
  intro NF. assert (F := term_words_solid t). unfold term_configure, printed_term, printed_height. cbn [tm_body tm_height tm_name].
  destruct (tm_body t) as [s|xy|v|cs b|f] eqn:B; [| | | |destruct (NF f); reflexivity]; cbn [fresh_body]; rewrite (words_empty _ F).
  - (* shape *)
    unfold term_words in *. rewrite B in *.
    assert (NE : (map (str d) (shape_list s) ++ (if isEq (tm_height t) s_1 then [] else [str d (tm_height t)]))%list <> []).
    { intro H. apply app_eq_nil in H. destruct H as [H _]. apply map_eq_nil in H. now apply shape_words_some in H. }
    destruct (map (str d) (shape_list s) ++ _)%list eqn:W; [congruence|]. rewrite <- W in *. clear W. rewrite (split_join_words _ NE F).
    assert (L : List.length (shape_list (shape_map (fun _ => s_nan) s)) = List.length (map (str d) (shape_list s))) by (rewrite shape_list_length, map_length; reflexivity).
    rewrite L. rewrite app_length. destruct (Nat.ltb_spec (List.length (map (str d) (shape_list s)) + List.length (if isEq (tm_height t) s_1 then [] else [str d (tm_height t)])) (List.length (map (str d) (shape_list s)))); [lia|].
    rewrite firstn_app, firstn_all, Nat.sub_diag, firstn_O, app_nil_r, rmap_reread. cbn [rbind]. rewrite nth_error_app2, Nat.sub_diag by lia.
    destruct (isEq (tm_height t) s_1); cbn [nth_error rbind].
    + now rewrite shape_set_list.
    + rewrite reread_ok. cbn [rbind]. now rewrite shape_set_list.
  - (* discrete *)
    unfold term_words in *. rewrite B in *. cbn [rbind]. rewrite to_vector_words in *.
    destruct (isEq (tm_height t) s_1) eqn:H1.
    + rewrite app_nil_r in *. destruct xy as [|p xy]; [reflexivity|]. cbn [flat_map app map].
      change (str d (fst p) :: str d (snd p) :: map (str d) (flat_map (fun p : T * T => [fst p; snd p]) xy)) with (map (str d) (flat_map (fun p : T * T => [fst p; snd p]) (p :: xy))) in *.
      rewrite split_join_words; [|discriminate|exact F]. rewrite rmap_reread. cbn [rbind]. rewrite map_length, pairs_even. rewrite pairs_back. reflexivity.
    + destruct (map (str d) (flat_map _ xy) ++ _)%list eqn:W; [apply app_eq_nil in W; destruct W; discriminate|]. rewrite <- W in *. clear W.
      rewrite split_join_words; [|destruct (map (str d) _); discriminate|exact F].
      replace (map (str d) (flat_map (fun p : T * T => [fst p; snd p]) xy) ++ [str d (tm_height t)])%list with (map (str d) (flat_map (fun p : T * T => [fst p; snd p]) xy ++ [tm_height t])%list) by now rewrite map_app.
      rewrite rmap_reread. cbn [rbind]. rewrite map_length, app_length. cbn [List.length]. rewrite Nat.add_1_r, Nat.even_succ, <- Nat.negb_even, pairs_even. cbn [negb].
      rewrite map_app. cbn [map]. rewrite last_last, removelast_last. rewrite pairs_back. reflexivity.
  - (* constant *)
    unfold term_words in *. rewrite B in *. cbn [rbind]. rewrite split_join_words; [|discriminate|exact F]. rewrite reread_ok. reflexivity.
  - (* linear *)
    unfold term_words in *. rewrite B in *. cbn [rbind]. destruct cs as [|c cs]; [reflexivity|]. cbn [map]. change (str d c :: map (str d) cs) with (map (str d) (c :: cs)) in *.
    rewrite split_join_words; [|discriminate|exact F]. rewrite rmap_reread. reflexivity.
Qed.
Lemma valid_word t : valid_name (tm_name t) <> "" -> solid_word (valid_name (tm_name (T := T) t)).
Proof. intro H. split; [exact H|apply valid_solid]. Qed.
Lemma parse_empty_formula : exists x, parse (default_table (T := T)) "" = Throw x.
Proof. eexists. reflexivity. Qed.
Lemma parse_term_ok vw t : term_writable t -> parse_term vw (content (term_value t)) = printed_term d vw t.
Proof.
  intros [NV FL]. assert (VW := valid_word t NV). assert (CS := class_solid (tm_body t)).
  destruct (tm_body t) as [| | | |f] eqn:B;
    [ (* not a function *)
      assert (NF : forall f, tm_body t <> TFunction f) by (rewrite B; discriminate);
      rewrite <- B in CS; assert (FW : Forall solid_word (valid_name (tm_name t) :: body_class (tm_body t) :: term_words t)) by (constructor; [exact VW|constructor; [exact CS|apply term_words_solid]]);
      rewrite (term_value_words t NF), content_join by exact FW; unfold parse_term; rewrite split_join_words; [|discriminate|exact FW]; rewrite class_made; cbn [rbind];
      unfold term_update_reference; cbn [tm_name tm_height tm_body]; assert (CW := configure_words vw t (valid_name (valid_name (tm_name t))) NF) .. |].
  1-4: rewrite (valid_idem _ NV) in *; rewrite B in *; cbn [fresh_body tm_height tm_body tm_name] in *; etransitivity; [exact CW|];
    unfold printed_term; rewrite B; reflexivity.
  (* function *)
  unfold term_value. rewrite B. cbn [body_class]. unfold term_parameters. rewrite B.
  set (name := valid_name (tm_name t)) in *. destruct VW as [_ VS].
  assert (E : split (content (join ([name; "Function"] ++ (if sempty (fn_formula f) then [] else [fn_formula f]))%list " ")) " " true = name :: "Function" :: words (rtrim (uncomment (fn_formula f)))).
  { assert (HS : lacks "#" name = true) by now apply solid_hash. destruct (sempty (fn_formula f)) eqn:SE.
    - apply sempty_spec in SE. rewrite SE. cbn [app]. assert (FW : Forall solid_word [name; "Function"]) by (repeat constructor; auto; try discriminate).
      rewrite content_join by exact FW. rewrite split_join_words by (discriminate || exact FW). reflexivity.
    - change (join ([name; "Function"] ++ [fn_formula f])%list " ") with (name ++ " Function " ++ fn_formula f).
      assert (C : content (name ++ " Function " ++ fn_formula f) = (name ++ " Function") ++ rtrim (" " ++ uncomment (fn_formula f))).
      { unfold content. rewrite hash_app by auto. change (uncomment (" Function " ++ fn_formula f)) with (" Function " ++ uncomment (fn_formula f)).
        rewrite trim_lr. rewrite ltrim_word by (auto; now apply solid_space). change (" Function " ++ uncomment (fn_formula f)) with (" Function" ++ " " ++ uncomment (fn_formula f)).
        rewrite <- (sapp_assoc name " Function"). apply rtrim_app; [|destruct name; [congruence|discriminate]].
        rewrite rtrim_app; [reflexivity|apply rtrim_words; now apply solid_space|exact NV]. }
      rewrite C. rewrite split_space by (destruct name; [congruence|discriminate]).
      set (g := uncomment (fn_formula f)).
      assert (R : words ((name ++ " Function") ++ rtrim (" " ++ g)) = (words (name ++ " Function") ++ words (rtrim g))%list).
      { cbn [append]. rewrite rtrim_cons. destruct (rtrim g) as [|c r] eqn:Q.
        - simpl. rewrite sapp_nil_r. symmetry. apply app_nil_r.
        - change (String " " (String c r)) with (" " ++ String c r). now rewrite words_app. }
      rewrite R. change (name ++ " Function") with (name ++ " " ++ "Function"). rewrite words_app, words_one by (split; auto; now apply solid_lacks). reflexivity. }
  unfold parse_term. rewrite E. change (construct "Function" term_factory) with (construct (body_class (tm_body t)) term_factory) || idtac.
  assert (CM := class_made (TFunction f)). cbn [body_class fresh_body] in CM. rewrite CM. cbn [rbind]. unfold term_update_reference. cbn [tm_body tm_height tm_name].
  unfold term_configure. cbn [tm_body tm_height tm_name]. unfold printed_term, printed_height, loaded_function. rewrite B.
  unfold fn_update_reference. cbn [fn_formula]. destruct parse_empty_formula as [x PE].
  assert (UR : fst (fn_load default_table {| fn_formula := ""; fn_root := None; fn_vars := []; fn_engine := false |} "" true (vw_context vw)) =
               {| fn_formula := ""; fn_root := None; fn_vars := []; fn_engine := true |}) by (unfold fn_load; rewrite PE; reflexivity).
  rewrite UR. cbn [fn_engine]. fold (formula_content (fn_formula f)). unfold name. rewrite (valid_idem _ NV).
  destruct (fn_load default_table _ (formula_content (fn_formula f)) true (vw_context vw)) as [f' [u|y| |]]; reflexivity.
Qed.

(** ** rows: keys with the texts that are printed after them *)
Definition row_line (ind : string) (r : string * string) : string := ind ++ (fst r ++ ": ") ++ snd r.
Definition row_pair (r : string * string) : string * string := (fst r, content (snd r)).
Definition row_ok (r : string * string) : Prop := key_ok (fst r) = true /\ one_line (snd r).
Definition description_rows (s : string) : list (string * string) := if sempty s then [] else [("description", s)].
Definition head_rows (v : variable T) : list (string * string) :=
  (description_rows (v_description v) ++ [("enabled", bool_text (v_enabled v)); ("range", join_scalars d [v_minimum v; v_maximum v] " "); ("lock-range", bool_text (v_lock_range v))])%list.
Definition term_rows (v : variable T) : list (string * string) := map (fun t => ("term", term_value t)) (v_terms v).
Definition input_rows (v : variable T) : list (string * string) := (head_rows v ++ term_rows v)%list.
Definition output_rows (o : output T) : list (string * string) :=
  (head_rows (o_var o) ++ [("aggregation", fll_snorm (o_aggregation o)); ("defuzzifier", fll_defuzzifier resolution (o_defuzzifier o));
    ("default", str d (o_default o)); ("lock-previous", bool_text (o_lock_previous o))] ++ term_rows (o_var o))%list.
Definition block_rows (b : block T) : list (string * string) :=
  (description_rows (b_description b) ++ [("enabled", bool_text (b_enabled b)); ("conjunction", fll_tnorm (b_conjunction b)); ("disjunction", fll_snorm (b_disjunction b));
    ("implication", fll_tnorm (b_implication b)); ("activation", fll_activation d (b_activation b))] ++ map (fun r => ("rule", rl_text r)) (b_rules b))%list.
Definition lines_of (b : (string * string) * list (string * string)) : list string := row_line "" (fst b) :: map (row_line indent) (snd b).
Definition pairs_of (b : (string * string) * list (string * string)) : string * list (string * string) := (fst (fst b), map row_pair (fst b :: snd b)).
Definition input_sheet (v : variable T) := (("InputVariable", valid_name (v_name v)), input_rows v).
Definition output_sheet (o : output T) := (("OutputVariable", valid_name (v_name (o_var o))), output_rows o).
Definition block_sheet (b : block T) := (("RuleBlock", b_name b), block_rows b).
Lemma input_text v : fll_input d indent (char newline) v = join (lines_of (input_sheet v)) (char newline).
Proof.
  unfold fll_input, lines_of, input_sheet, fll_head, input_rows, head_rows, term_rows, description_rows. cbn [fst snd]. rewrite !map_app, map_map.
  destruct (sempty (v_description v)); reflexivity.
Qed.
Lemma output_text o : fll_output d resolution indent (char newline) o = join (lines_of (output_sheet o)) (char newline).
Proof.
  unfold fll_output, lines_of, output_sheet, fll_head, output_rows, head_rows, term_rows, description_rows. cbn [fst snd]. rewrite !map_app, map_map.
  destruct (sempty (v_description (o_var o))); reflexivity.
Qed.
Lemma block_text b : fll_block d indent (char newline) b = join (lines_of (block_sheet b)) (char newline).
Proof.
  unfold fll_block, lines_of, block_sheet, block_rows, description_rows. cbn [fst snd]. rewrite !map_app, map_map.
  destruct (sempty (b_description b)); reflexivity.
Qed.
Definition sheets (e : engine T) := (map input_sheet (e_inputs e) ++ map output_sheet (e_outputs e) ++ map block_sheet (e_blocks e))%list.
Definition engine_rows (e : engine T) : list (string * string) := ("Engine", e_name e) :: description_rows (e_description e).
Lemma engine_text e : fll_export d resolution indent (char newline) e =
  join (map (row_line "") (engine_rows e) ++ flat_map lines_of (sheets e))%list (char newline).
Proof.
  unfold fll_export, sheets, engine_rows.
  assert (E : ([("Engine: " ++ e_name e)%string] ++ (if sempty (e_description e) then [] else [("description: " ++ e_description e)%string]) ++
      map (fll_input d indent (char newline)) (e_inputs e) ++ map (fll_output d resolution indent (char newline)) (e_outputs e) ++ map (fll_block d indent (char newline)) (e_blocks e))%list =
    map (fun ls => join ls (char newline)) (map (fun r => [row_line "" r]) (("Engine", e_name e) :: description_rows (e_description e)) ++
      map lines_of (map input_sheet (e_inputs e) ++ map output_sheet (e_outputs e) ++ map block_sheet (e_blocks e)))%list).
  { rewrite !map_app, !map_map. rewrite (map_ext _ _ input_text), (map_ext _ _ output_text), (map_ext _ _ block_text). unfold description_rows. destruct (sempty (e_description e)); reflexivity. }
  rewrite E, join_concat.
  - rewrite concat_app. f_equal. f_equal; [|now rewrite flat_map_concat_map]. generalize (("Engine", e_name e) :: description_rows (e_description e)). intro l. induction l; simpl; congruence.
  - apply Forall_app. split; apply Forall_map, Forall_forall; intros x _; discriminate.
Qed.
Lemma row_holds ind r : blank ind = true -> lacks "#" ind = true -> one_line ind -> row_ok r -> holds (row_line ind r) (row_pair r).
Proof.
  intros B H L [K O]. destruct (key_line ind (fst r) (snd r) B H K) as [A C]. split; [|split; assumption].
  unfold row_line, one_line in *. unfold key_ok in K. rewrite !andb_true_iff in K. rewrite !lacks_app, L, O, (solid_lacks (fst r) newline eq_refl) by tauto. reflexivity.
Qed.

(** ** single values *)
Lemma range_solid (v : variable T) : Forall solid_word [str d (v_minimum v); str d (v_maximum v)].
Proof. repeat constructor; apply str_solid. Qed.
Lemma solid_one_line s : sforall solid s = true -> one_line s.
Proof. apply solid_lacks. reflexivity. Qed.
Lemma words_one_line ws : Forall solid_word ws -> one_line (join ws " ").
Proof. intro F. apply lacks_join; [reflexivity|]. eapply Forall_impl; [|exact F]. intros w [_ H]. now apply solid_one_line. Qed.
Lemma bool_solid b : sforall solid (bool_text b) = true.
Proof. destruct b; reflexivity. Qed.
Lemma bool_read b : parse_boolean (content (bool_text b)) = Ok b.
Proof. destruct b; reflexivity. Qed.
Lemma range_read (v : variable T) : parse_range (content (join_scalars d [v_minimum v; v_maximum v] " ")) = Ok (reread d (v_minimum v), reread d (v_maximum v)).
Proof.
  unfold join_scalars. cbn [map]. rewrite (content_join _ (range_solid v)). unfold parse_range, parse_key_value.
  change (join [str d (v_minimum v); str d (v_maximum v)] " ") with (str d (v_minimum v) ++ String " " (str d (v_maximum v))).
  destruct (str_solid (v_minimum v)) as [_ W]. change " " with (char " ") at 1. rewrite (find_char " " _ _ (solid_lacks _ " " eq_refl W)). cbn [rbind fst snd].
  rewrite !reread_ok. reflexivity.
Qed.
Lemma tnorm_solid n : sforall solid (fll_tnorm n) = true.
Proof. destruct n as [[]|]; reflexivity. Qed.
Lemma snorm_solid n : sforall solid (fll_snorm n) = true.
Proof. destruct n as [[]|]; reflexivity. Qed.
Lemma tnorm_read n : parse_tnorm (content (fll_tnorm n)) = Ok n.
Proof. destruct n as [[]|]; reflexivity. Qed.
Lemma snorm_read n : parse_snorm (content (fll_snorm n)) = Ok n.
Proof. destruct n as [[]|]; reflexivity. Qed.
Definition defuzzifier_words (z : option defuzzifier) : list string :=
  match z with
  | None => ["none"]
  | Some (DIntegral k n as z) => if Z.eqb n resolution then [defuzzifier_class z] else [defuzzifier_class z; str_int n]
  | Some (DWeighted k ty as z) => match ty with WAutomatic => [defuzzifier_class z] | _ => [defuzzifier_class z; wtype_name ty] end
  end.
Lemma defuzzifier_joined z : fll_defuzzifier resolution z = join (defuzzifier_words z) " ".
Proof. destruct z as [[k n|k ty]|]; cbn [fll_defuzzifier defuzzifier_words]; [destruct (Z.eqb n resolution)|destruct ty|]; reflexivity. Qed.
Lemma defuzzifier_solid z : Forall solid_word (defuzzifier_words z).
Proof.
  destruct z as [[k n|k ty]|]; cbn [defuzzifier_words]; [destruct (Z.eqb n resolution)|destruct ty|];
    repeat constructor; try apply int_solid; try (destruct k; discriminate); try (destruct k; reflexivity); discriminate.
Qed.
Lemma defuzzifier_read z : match z with Some (DIntegral _ n) => int_range n | _ => True end ->
  parse_defuzzifier resolution (T := T) (content (fll_defuzzifier resolution z)) = Ok z.
Proof.
  intro H. rewrite defuzzifier_joined, content_join by apply defuzzifier_solid. unfold parse_defuzzifier.
  rewrite split_join_words; [|destruct z as [[k n|k ty]|]; cbn [defuzzifier_words]; [destruct (Z.eqb n resolution)|destruct ty|]; discriminate|apply defuzzifier_solid].
  destruct z as [[k n|k ty]|]; cbn [defuzzifier_words]; [|destruct ty, k; reflexivity|reflexivity].
  destruct (Z.eqb_spec n resolution) as [E|E]; [subst n; destruct k; reflexivity|].
  assert (I := int_read n H). destruct k; cbn [defuzzifier_class]; simpl construct; cbn [rbind]; simpl; rewrite I; reflexivity.
Qed.
Definition activation_words (a : option (activation T)) : list string :=
  match a with
  | None => ["none"]
  | Some (General as a) | Some (Proportional as a) => [activation_class a]
  | Some (First n t as a) | Some (Last n t as a) => [activation_class a; str_int n; str d t]
  | Some (Highest n as a) | Some (Lowest n as a) => [activation_class a; str_int n]
  | Some (Threshold c v as a) => [activation_class a; comparison_operator c; str d v]
  end.
Lemma activation_joined a : fll_activation d a = join (activation_words a) " ".
Proof.
  destruct a as [[]|]; try reflexivity; unfold fll_activation, activation_parameters; cbn [activation_words].
  all: match goal with |- context [sempty ?s] => assert (E : sempty s = false) end; [apply sempty_false|rewrite E; reflexivity].
  all: try (destruct (int_solid n) as [Q _]; destruct (str_int n); [congruence|discriminate]).
  destruct c; discriminate.
Qed.
Lemma activation_solid a : Forall solid_word (activation_words a).
Proof.
  destruct a as [[]|]; cbn [activation_words]; repeat constructor; try apply int_solid; try apply str_solid; try discriminate; try (destruct c; discriminate). destruct c; reflexivity.
Qed.
Lemma activation_read a : match a with Some (First n _) | Some (Last n _) | Some (Highest n) | Some (Lowest n) => int_range n | _ => True end ->
  parse_activation (content (fll_activation d a)) = Ok (match a with None => None | Some _ => Some (printed_activation d a) end).
Proof.
  intro H. rewrite activation_joined, content_join by apply activation_solid. unfold parse_activation.
  assert (NN : match a with None => True | Some _ => String.eqb (join (activation_words a) " ") "none" = false end) by (destruct a as [[]|]; try reflexivity; exact I).
  destruct a as [a|]; [|reflexivity]. rewrite NN.
  rewrite split_join_words; [|destruct a; discriminate|apply activation_solid].
  assert (F := activation_solid (Some a)).
  destruct a; cbn [activation_words printed_activation] in *; try reflexivity.
  all: inversion F as [|? ? _ F1]; subst; cbn [activation_class]; simpl construct; cbn [rbind]; unfold activation_configure;
    rewrite words_empty by exact F1; rewrite split_join_words by (discriminate || exact F1); rewrite ?reread_ok, ?(int_read _ H); cbn [rbind]; rewrite ?reread_ok; cbn [rbind]; try reflexivity.
  destruct c; simpl; rewrite ?reread_ok; reflexivity.
Qed.
Lemma activation_not_tnorm a : has_constructor (content (fll_activation d a)) tnorm_factory = false.
Proof. rewrite activation_joined, content_join by apply activation_solid. destruct a as [[]|]; reflexivity. Qed.
End Round.
