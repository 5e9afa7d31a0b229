(** The code written by the exporter to C++: its statements. *)
From Coq Require Import ZArith List Bool String Ascii Arith Lia.
From Verif Require Import Base Op Norm Hedge Shape Discrete Defuzz Aggregated Text Function Rule Var Activation Engine Factory SpecText TextProofs TextProofs2
  Fll SpecFll FllText FllExport FllRound Fis FclText FclRound2 Cpp SpecCpp CppSyntax.
Import ListNotations.
Local Open Scope string_scope.

Definition number_atom (s : string) : atom := match s with "" => AWord s | String c r => if Ascii.eqb c "-" then ANegative r else AWord s end.
Lemma number_text s : atom_text (number_atom s) = s.
Proof. destruct s as [|c r]; [reflexivity|]. cbn [number_atom]. destruct (Ascii.eqb_spec c "-"); [subst; reflexivity|reflexivity]. Qed.
Lemma number_texts l : map atom_text (map number_atom l) = l.
Proof. rewrite map_map. rewrite <- (map_id l) at 2. apply map_ext. apply number_text. Qed.
Lemma join_more x l sep : l <> [] -> join (x :: l) sep = x ++ sep ++ join l sep.
Proof. destruct l; [congruence|reflexivity]. Qed.
Lemma digit_word c : is_digit c = true -> word_char c = true.
Proof. intro H. unfold word_char, is_alnum. rewrite H. now rewrite ?orb_true_r. Qed.

(** ** literals of numbers *)
Definition dotted (w : string) : bool := existsb (Ascii.eqb ".") (list_ascii_of_string w).
Lemma nat_digits n : sforall is_digit (nat_text n) = true. Proof. apply int_digit_chars. Qed.
Lemma nat_some n : nat_text n <> "". Proof. apply digits_some. Qed.
Definition numeric (c : ascii) : bool := (is_digit c || Ascii.eqb c ".")%bool.
Lemma fixed_numeric k n : sforall numeric (fixed_text k n) = true.
Proof.
  unfold fixed_text. rewrite sforall_app. apply andb_true_iff. split; [eapply sforall_impl; [|apply nat_digits]; intros c H; unfold numeric; now rewrite H|].
  destruct (Nat.eqb k 0); [reflexivity|]. cbn [append sforall]. eapply sforall_impl; [|apply frac_digit_chars]. intros c H. unfold numeric. now rewrite H.
Qed.
Lemma digits_head s r : s <> "" -> sforall is_digit s = true -> exists c t, s ++ r = String c t /\ is_digit c = true.
Proof. destruct s as [|c s]; [congruence|]. cbn [sforall append]. intros _ H. apply andb_true_iff in H. exists c, (s ++ r). tauto. Qed.
Lemma fixed_first k n : exists c t, fixed_text k n = String c t /\ is_digit c = true.
Proof. unfold fixed_text. apply digits_head; [apply nat_some|apply nat_digits]. Qed.
Lemma fixed_literal k n : is_literal (fixed_text k n) = true.
Proof. assert (H := fixed_numeric k n). destruct (fixed_first k n) as (c & t & E & D). rewrite E in *. cbn [is_literal]. rewrite D. exact H. Qed.
Lemma dotted_app a b : dotted (a ++ b) = (dotted a || dotted b)%bool.
Proof. unfold dotted. induction a as [|c a IH]; [reflexivity|]. cbn [append list_ascii_of_string existsb]. now rewrite IH, orb_assoc. Qed.
Lemma fixed_dotted k n : k <> 0%nat -> dotted (fixed_text k n) = true.
Proof. intro H. unfold fixed_text. destruct (Nat.eqb_spec k 0); [congruence|]. rewrite dotted_app. apply orb_true_iff. right. reflexivity. Qed.
Lemma literal_word w : is_literal w = true -> word w.
Proof.
  destruct w as [|c w]; [discriminate|]. cbn [is_literal]. intro H. apply andb_true_iff in H. destruct H as [_ H]. split; [discriminate|]. eapply sforall_impl; [|exact H]. intros x Q. apply orb_true_iff in Q. destruct Q as [Q|Q]; [now apply digit_word|]. apply Ascii.eqb_eq in Q. subst x. reflexivity.
Qed.
Lemma digit_not c x : is_digit c = true -> is_digit x = false -> Ascii.eqb c x = false.
Proof. intros A B. destruct (Ascii.eqb_spec c x); [congruence|reflexivity]. Qed.
Lemma head_not c t x r : is_digit c = true -> is_digit x = false -> String.eqb (String c t) (String x r) = false.
Proof. intros A B. cbn [String.eqb]. now rewrite digit_not. Qed.

Section Atoms.
Context {T : Type} `{S : Scalar T}.
Variables (d : nat) (namespaced : bool).
Hypothesis N : printable (T := T) d.
Hypothesis D : d <> 0%nat.
Hypothesis SIGN : forall x : T, isNaN x = false -> isInf x = true -> s_ltb s_0 x = negb (s_ltb x s_0).
Notation fl := (cpp_fl namespaced).

Lemma finite_parts (x : T) : isFinite x = true -> isNaN x = false /\ isInf x = false.
Proof. unfold isFinite, isInf. rewrite negb_true_iff, !orb_false_iff. tauto. Qed.
Lemma str_shape (x : T) : isNaN x = false -> isInf x = false -> exists (neg : bool) n, str d x = (if neg then "-" else "") ++ fixed_text d n.
Proof.
  intros A B. unfold str. rewrite A, B. destruct (isEq_tol _ x s_0); [exists false, 0%Z; reflexivity|]. exists (s_ltb x s_0), (s_fixed d x). destruct (s_ltb x s_0); reflexivity.
Qed.
Lemma fixed_atom (neg : bool) n : number_atom ((if neg then "-" else "") ++ fixed_text d n) = if neg then ANegative (fixed_text d n) else AWord (fixed_text d n).
Proof. destruct neg; [reflexivity|]. destruct (fixed_first d n) as (c & t & E & H). cbn [append]. rewrite E. cbn [number_atom]. now rewrite digit_not. Qed.
Lemma fixed_reads (neg : bool) n : scalar_of (T := T) (number_atom ((if neg then "-" else "") ++ fixed_text d n)) = to_scalar ((if neg then "-" else "") ++ fixed_text d n) /\
  double_of (T := T) (number_atom ((if neg then "-" else "") ++ fixed_text d n)) = to_scalar ((if neg then "-" else "") ++ fixed_text d n).
Proof.
  rewrite fixed_atom. assert (L := fixed_literal d n). assert (Q := fixed_dotted d n D). unfold dotted in Q. destruct (fixed_first d n) as (c & t & E & H).
  assert (X : forall r, String.eqb (fixed_text d n) (String "f" r) = false) by (intro r; rewrite E; now apply head_not).
  destruct neg; cbn [double_of scalar_of append]; rewrite Q, !X, L; split; reflexivity.
Qed.
Lemma fixed_good (neg : bool) n : good_atom (number_atom ((if neg then "-" else "") ++ fixed_text d n)).
Proof. rewrite fixed_atom. destruct neg; apply literal_word, fixed_literal. Qed.
Definition num (x : T) : atom := number_atom (str d x).
Lemma num_reads x : isFinite x = true -> scalar_of (num x) = Ok (reread d x) /\ double_of (num x) = Ok (reread d x) /\ good_atom (num x).
Proof.
  intro F. apply finite_parts in F. destruct F as [A B]. unfold num. rewrite <- (reread_ok d N). destruct (str_shape x A B) as (neg & n & ->). destruct (fixed_reads neg n) as [-> ->]. repeat split. apply fixed_good.
Qed.
Lemma reread_number x : isFinite x = true -> isNaN (reread d x) = false.
Proof.
  intro F. apply finite_parts in F. destruct F as [A B]. destruct (isNaN (reread d x)) eqn:E; [|reflexivity]. exfalso. assert (Q := reread_str d N x). unfold str at 1 in Q. rewrite E in Q. destruct (str_shape x A B) as (neg & n & R). rewrite R in Q.
  destruct (fixed_first d n) as (c & t & E2 & H). rewrite E2 in Q. destruct neg; cbn [append] in Q; [discriminate|]. injection Q as <- _. discriminate.
Qed.
Definition scalar_atom (x : T) : atom := number_atom (cpp_scalar d x).
Lemma scalar_reads x : scalar_of (scalar_atom x) = Ok (reread d x) /\ good_atom (scalar_atom x).
Proof.
  unfold scalar_atom, cpp_scalar. destruct (isNaN x) eqn:A.
  - split; [|split; [discriminate|reflexivity]]. unfold reread, str. rewrite A. reflexivity.
  - destruct (isInf x) eqn:B.
    + rewrite (SIGN x A B). unfold reread, str. rewrite A, B. destruct (s_ltb x s_0); (split; [reflexivity|split; [discriminate|reflexivity]]).
    + rewrite <- (reread_ok d N). destruct (str_shape x A B) as (neg & n & ->). destruct (fixed_reads neg n) as [-> _]. split; [reflexivity|apply fixed_good].
Qed.
Definition int (n : Z) : atom := number_atom (str_int n).
Lemma int_atom n : int n = if (n <? 0)%Z then ANegative (nat_text (Z.abs n)) else AWord (nat_text (Z.abs n)).
Proof.
  unfold int, str_int. destruct (n <? 0)%Z; [reflexivity|]. cbn [append]. assert (A := nat_some (Z.abs n)). assert (B := nat_digits (Z.abs n)). destruct (nat_text (Z.abs n)) as [|c t]; [congruence|]. cbn [sforall] in B. apply andb_true_iff in B. cbn [number_atom]. rewrite digit_not; [reflexivity|tauto|reflexivity].
Qed.
Lemma int_reads n : int_range n -> int_of (T := T) (int n) = Ok n /\ good_atom (int n).
Proof.
  intro R. assert (Q := int_read d N n R). rewrite int_atom. unfold str_int in Q. assert (W : word (nat_text (Z.abs n))) by (split; [apply nat_some|eapply sforall_impl; [apply digit_word|apply nat_digits]]).
  destruct (n <? 0)%Z; cbn [int_of append] in *; rewrite nat_digits; (split; [exact Q|exact W]).
Qed.

(** ** expressions *)
Lemma word_fl c : word c -> word (fl c).
Proof. intros [A B]. unfold cpp_fl. destruct namespaced; [|split; assumption]. split; [discriminate|]. exact B. Qed.
Lemma fl_app c s : fl c ++ s = fl (c ++ s).
Proof. unfold cpp_fl. destruct namespaced; reflexivity. Qed.
Definition numbers (t : term T) : list atom :=
  match tm_body t with
  | TShape s => map num (shape_list s) ++ (if isEq (tm_height t) s_1 then [] else [num (tm_height t)])
  | TConstant v => [num v]
  | TDiscrete xy => int (Z.of_nat (List.length xy * 2)) :: map num (flat_map (fun p => [fst p; snd p]) xy)
  | TLinear cs _ => AWord "engine" :: map num cs
  | TFunction f => [AText (fn_formula f); AWord "engine"]
  end.
Definition term_expr (t : term T) : expr :=
  match tm_body t with
  | TShape _ | TConstant _ => ENew (fl (body_class (tm_body t))) (AText (tm_name t) :: numbers t)
  | TDiscrete _ => ECall (fl "Discrete::create") (AText (tm_name t) :: numbers t)
  | TLinear _ _ => ECall (fl "Linear::create") (AText (tm_name t) :: numbers t)
  | TFunction _ => ECall (fl "Function::create") (AText (tm_name t) :: numbers t)
  end.
Lemma replace_words ws : ws <> [] -> Forall solid_word ws -> replace_all (join ws " ") " " ", " = Ok (join ws ", ").
Proof.
  intros A B. assert (NE : join ws " " <> "") by (destruct B as [|w ws [W _] B]; [congruence|]; now apply join_nonempty). rewrite replace_split; [|exact NE|discriminate]. f_equal. f_equal.
  change " " with (char " ") at 2. rewrite split_chop by exact NE. apply chop_glue; [exact A|]. eapply Forall_impl; [|exact B]. intros w [_ W]. rewrite lacks_sforall. eapply sforall_impl; [|exact W]. intros c Q. unfold FllExport.solid in Q. apply andb_true_iff in Q. destruct Q as [Q _]. destruct (Ascii.eqb_spec c " "); [subst c; discriminate|reflexivity].
Qed.
Lemma num_text x : atom_text (num x) = str d x. Proof. apply number_text. Qed.
Lemma int_text n : atom_text (int n) = str_int n. Proof. apply number_text. Qed.
Lemma trim_join ws : Forall solid_word ws -> trim (join ws " ") = join ws " ".
Proof.
  intro F. rewrite <- (content_join ws F) at 2. unfold content. rewrite hash_id; [reflexivity|]. apply lacks_join; [reflexivity|]. eapply Forall_impl; [|exact F]. intros w [_ H]. now apply solid_hash.
Qed.
Lemma nums_text l : map atom_text (map num l) = map (str d) (l : list T).
Proof. rewrite map_map. apply map_ext. intro x. apply number_text. Qed.
Lemma new_text c name l : l <> [] -> expr_text (ENew c (AText name :: l)) = "new " ++ c ++ "(" ++ quoted name ++ ", " ++ join (map atom_text l) ", " ++ ")".
Proof. intro H. cbn [expr_text map atom_text]. rewrite join_more by (destruct l; [congruence|discriminate]). now rewrite !sapp_assoc. Qed.
Lemma call_text f name l : l <> [] -> expr_text (ECall f (AText name :: l)) = f ++ "(" ++ quoted name ++ ", " ++ join (map atom_text l) ", " ++ ")".
Proof. intro H. cbn [expr_text map atom_text]. rewrite join_more by (destruct l; [congruence|discriminate]). now rewrite !sapp_assoc. Qed.
Lemma shape_some (s : shape T) : shape_list s <> []. Proof. destruct s; discriminate. Qed.
Lemma flat_some (xy : list (T * T)) : xy <> [] -> map (str d) (flat_map (fun p => [fst p; snd p]) xy) <> []. Proof. destruct xy; [congruence|discriminate]. Qed.
Lemma term_text inputs t : term_expressible inputs t -> cpp_term d namespaced t = Ok (expr_text (term_expr t)).
Proof.
  intros [_ H]. unfold cpp_term, term_expr, numbers. destruct (tm_body t) as [s|xy|v|cs b|f] eqn:E.
  - unfold term_parameters. rewrite E. set (h := if isEq (tm_height t) s_1 then [] else [str d (tm_height t)]).
    assert (J : join_scalars d (shape_list s) " " ++ (if isEq (tm_height t) s_1 then "" else " " ++ str d (tm_height t)) = join (map (str d) (shape_list s) ++ h) " ").
    { unfold h, join_scalars. destruct (isEq (tm_height t) s_1); [now rewrite app_nil_r, sapp_nil_r|]. rewrite join_app; [reflexivity|destruct s; discriminate|discriminate]. }
    rewrite J, replace_words; [|destruct s; discriminate|apply Forall_app; split; [apply strs_solid; assumption|unfold h; destruct (isEq (tm_height t) s_1); repeat constructor; apply str_solid; assumption]].
    cbn [rbind]. rewrite new_text by (destruct s; discriminate). f_equal. do 5 f_equal. rewrite map_app, nums_text. unfold h. destruct (isEq (tm_height t) s_1); [reflexivity|]. cbn [map]. now rewrite num_text.
  - rewrite call_text by discriminate. cbn [map]. rewrite join_more by (rewrite nums_text; apply flat_some; tauto). rewrite nums_text. rewrite int_text. replace (fl "Discrete::create") with (fl "Discrete" ++ "::create") by apply fl_app. now rewrite !sapp_assoc.
  - unfold term_parameters. rewrite E. change (str d v) with (join [str d v] " "). rewrite replace_words; [|discriminate|repeat constructor; apply str_solid; assumption]. cbn [rbind join]. rewrite new_text by discriminate. cbn [map join]. now rewrite num_text.
  - rewrite call_text by discriminate. cbn [map]. rewrite join_more by (destruct H as [_ H]; destruct cs; discriminate). rewrite nums_text. replace (fl "Linear::create") with (fl "Linear" ++ "::create") by apply fl_app. now rewrite !sapp_assoc.
  - rewrite call_text by discriminate. cbn [map join atom_text]. replace (fl "Function::create") with (fl "Function" ++ "::create") by apply fl_app. now rewrite !sapp_assoc.
Qed.
Lemma nums_good l : Forall (fun x => isFinite x = true) l -> Forall good_atom (map num l).
Proof. intro F. apply Forall_map. eapply Forall_impl; [|exact F]. intros x H. now apply num_reads. Qed.
Lemma pairs_finite (xy : list (T * T)) : Forall (fun p => isFinite (fst p) = true /\ isFinite (snd p) = true) xy -> Forall (fun x => isFinite x = true) (flat_map (fun p => [fst p; snd p]) xy).
Proof. intro F. induction F as [|[x y] xy [A B] F IH]; [constructor|]. cbn [flat_map app fst snd]. now repeat constructor. Qed.
Lemma class_word (b : tbody T) : word (body_class b).
Proof. destruct b as [[]| | | |]; (split; [discriminate|reflexivity]). Qed.
Lemma term_good inputs t : term_expressible inputs t -> good_expr (term_expr t).
Proof.
  intros [L H]. unfold term_expr, numbers. destruct (tm_body t) as [s|xy|v|cs b|f] eqn:E; (split; [apply word_fl; first [apply class_word|split; [discriminate|reflexivity]]|constructor; [exact L|]]).
  - destruct H as [A B]. apply Forall_app. split; [now apply nums_good|]. destruct (isEq (tm_height t) s_1); [constructor|]. destruct B as [B|B]; [discriminate|]. constructor; [now apply num_reads|constructor].
  - destruct H as (_ & A & B & _). constructor; [now apply int_reads|]. now apply nums_good, pairs_finite.
  - constructor; [now apply num_reads|constructor].
  - constructor; [split; [discriminate|reflexivity]|]. now apply nums_good.
  - constructor; [exact H|]. constructor; [split; [discriminate|reflexivity]|constructor].
Qed.
Definition null : expr := EAtom (AWord "fl::null").
Definition norm_expr {A} (class : A -> string) (n : option A) : expr := match n with None => null | Some n => ENew (fl (class n)) [] end.
Lemma norm_text {A} (class : A -> string) n : cpp_norm namespaced class n = expr_text (norm_expr class n).
Proof. destruct n; reflexivity. Qed.
Lemma null_good : good_expr null. Proof. split; [discriminate|reflexivity]. Qed.
Lemma tnorm_good (n : option tnorm) : good_expr (norm_expr tnorm_class n).
Proof. destruct n as [n|]; [|apply null_good]. split; [|constructor]. apply word_fl. destruct n; (split; [discriminate|reflexivity]). Qed.
Lemma snorm_good (n : option snorm) : good_expr (norm_expr snorm_class n).
Proof. destruct n as [n|]; [|apply null_good]. split; [|constructor]. apply word_fl. destruct n; (split; [discriminate|reflexivity]). Qed.
Definition defuzzifier_expr (z : option defuzzifier) : expr :=
  match z with
  | None => null
  | Some (DIntegral k n as z) => ENew (fl (defuzzifier_class z)) [int n]
  | Some (DWeighted k ty as z) => ENew (defuzzifier_class z) [AText (wtype_name ty)]
  end.
Lemma defuzzifier_text z : cpp_defuzzifier namespaced z = expr_text (defuzzifier_expr z).
Proof. destruct z as [[k n|k ty]|]; cbn [defuzzifier_expr expr_text cpp_defuzzifier map join]; rewrite ?int_text; reflexivity. Qed.
Lemma defuzzifier_good z : match z with Some (DIntegral _ n) => int_range n | _ => True end -> good_expr (defuzzifier_expr z).
Proof.
  intro H. destruct z as [[k n|k ty]|]; [| |apply null_good].
  - split; [apply word_fl; destruct k; (split; [discriminate|reflexivity])|]. constructor; [now apply int_reads|constructor].
  - split; [destruct k; (split; [discriminate|reflexivity])|]. constructor; [destruct ty; repeat split|constructor].
Qed.
Definition activation_expr (a : option (activation T)) : expr :=
  match a with
  | None => null
  | Some a => ENew (fl (activation_class a))
      match a with
      | General | Proportional => []
      | First n t | Last n t => [int n; num t]
      | Highest n | Lowest n => [int n]
      | Threshold c v => [AText (comparison_operator c); num v]
      end
  end.
Lemma numeric_str x : is_numeric (T := T) (str d x) = true.
Proof. unfold is_numeric. now rewrite (reread_ok d N). Qed.
Lemma numeric_int n : int_range n -> is_numeric (T := T) (str_int n) = true.
Proof. intro H. unfold is_numeric. destruct (pr_int d N n H) as (y & -> & _). reflexivity. Qed.
Lemma operator_text c : is_numeric (T := T) (comparison_operator c) = false.
Proof. destruct c; reflexivity. Qed.
Lemma activation_text b : block_expressible b -> cpp_activation d namespaced (b_activation b) = expr_text (activation_expr (b_activation b)).
Proof.
  intros (_ & _ & _ & H). destruct (b_activation b) as [a|]; [|reflexivity]. unfold cpp_activation.
  assert (K : forall ws, activation_parameters d a = join ws " " -> ws <> [] -> Forall solid_word ws -> forall l, map (fun p => if is_numeric (T := T) p then p else quoted p) ws = map atom_text l ->
    (if sempty (trim (activation_parameters d a)) then "new " ++ fl (activation_class a) else "new " ++ fl (activation_class a) ++ "(" ++ join (map (fun p => if is_numeric (T := T) p then p else quoted p) (split (trim (activation_parameters d a)) " " true)) ", " ++ ")") = expr_text (ENew (fl (activation_class a)) l)).
  { intros ws E NE F l L. rewrite E, trim_join by exact F. rewrite words_empty by exact F. destruct ws as [|w ws]; [congruence|]. rewrite split_join_words by assumption. rewrite L. destruct l; [discriminate|]. reflexivity. }
  cbv zeta. destruct a as [|n t|n t|n|n| |c v]; cbn [activation_expr]; try reflexivity.
  1,2: destruct H as [H F]; apply (K [str_int n; str d t]); [reflexivity|discriminate|repeat constructor; try apply int_solid; now apply str_solid|]; cbn [map]; now rewrite (numeric_int n H), numeric_str, int_text, num_text.
  1,2: apply (K [str_int n]); [reflexivity|discriminate|repeat constructor; apply int_solid|]; cbn [map]; now rewrite (numeric_int n H), int_text.
  apply (K [comparison_operator c; str d v]); [reflexivity|discriminate|repeat constructor; try (now apply str_solid); destruct c; first [discriminate|reflexivity]|]. cbn [map]. now rewrite operator_text, numeric_str, num_text.
Qed.
Lemma activation_good b : block_expressible b -> good_expr (activation_expr (b_activation b)).
Proof.
  intros (_ & _ & _ & H). destruct (b_activation b) as [a|]; [|apply null_good]. split; [apply word_fl; destruct a; (split; [discriminate|reflexivity])|].
  destruct a as [|n t|n t|n|n| |c v]; repeat constructor; try (apply int_reads; tauto); try (apply num_reads; tauto). all: destruct c; reflexivity.
Qed.

(** ** statements *)
Definition text (s : string) : expr := EAtom (AText s).
Definition flag (b : bool) : expr := EAtom (AWord (bool_text b)).
Definition scalar (x : T) : expr := EAtom (scalar_atom x).
Definition declare (class x : string) : statement := SDeclare (fl class) x (fl class).
Definition head_code (x : string) (v : variable T) : list statement :=
  [SMethod x "setName" [text (v_name v)]; SMethod x "setDescription" [text (v_description v)]; SMethod x "setEnabled" [flag (v_enabled v)];
   SMethod x "setRange" [scalar (v_minimum v); scalar (v_maximum v)]; SMethod x "setLockValueInRange" [flag (v_lock_range v)]].
Definition terms_code (x : string) (v : variable T) : list statement := map (fun t => SMethod x "addTerm" [term_expr t]) (v_terms v).
Definition add (method x : string) : statement := SMethod "engine" method [EAtom (AWord x)].
Definition input_code (x : string) (v : variable T) : list statement :=
  (declare "InputVariable" x :: head_code x v ++ terms_code x v ++ [add "addInputVariable" x])%list.
Definition operators_code (x : string) (o : output T) : list statement :=
  [SMethod x "setAggregation" [norm_expr snorm_class (o_aggregation o)]; SMethod x "setDefuzzifier" [defuzzifier_expr (o_defuzzifier o)];
   SMethod x "setDefaultValue" [scalar (o_default o)]; SMethod x "setLockPreviousValue" [flag (o_lock_previous o)]].
Definition output_code (x : string) (o : output T) : list statement :=
  (declare "OutputVariable" x :: head_code x (o_var o) ++ operators_code x o ++ terms_code x (o_var o) ++ [add "addOutputVariable" x])%list.
Definition setup_code (x : string) (b : block T) : list statement :=
  [SMethod x "setName" [text (b_name b)]; SMethod x "setDescription" [text (b_description b)]; SMethod x "setEnabled" [flag (b_enabled b)];
   SMethod x "setConjunction" [norm_expr tnorm_class (b_conjunction b)]; SMethod x "setDisjunction" [norm_expr snorm_class (b_disjunction b)];
   SMethod x "setImplication" [norm_expr tnorm_class (b_implication b)]; SMethod x "setActivation" [activation_expr (b_activation b)]].
Definition rules_code (x : string) (b : block T) : list statement :=
  map (fun r => SMethod x "addRule" [ECall (fl "Rule::parse") [AText (rl_text r); AWord "engine"]]) (b_rules b).
Definition block_code (x : string) (b : block T) : list statement :=
  (declare "RuleBlock" x :: setup_code x b ++ rules_code x b ++ [add "addRuleBlock" x])%list.
Lemma declare_text class x : cpp_declaration namespaced class x = statement_text (declare class x).
Proof. unfold cpp_declaration, declare. cbn [statement_text]. rewrite <- !fl_app. now rewrite !sapp_assoc. Qed.
Lemma scalar_text x : cpp_scalar d x = expr_text (scalar x).
Proof. symmetry. apply number_text. Qed.
Lemma head_text x v : cpp_head d x v = map statement_text (head_code x v).
Proof. unfold cpp_head, head_code. cbn [map]. rewrite !scalar_text. unfold cpp_call. cbn [statement_text map join]. now rewrite !sapp_assoc. Qed.
Lemma terms_text inputs x v : variable_expressible inputs v -> cpp_terms d namespaced x v = Ok (map statement_text (terms_code x v)).
Proof.
  intros (_ & _ & F). unfold cpp_terms, terms_code. induction F as [|t ts H F IH]; [reflexivity|]. cbn [map rmapM]. rewrite (term_text inputs t H). cbn [rbind]. rewrite IH. reflexivity.
Qed.
Lemma input_text inputs x v : variable_expressible inputs v -> cpp_input d namespaced x v = Ok (map statement_text (input_code x v) ++ [""])%list.
Proof. intro H. unfold cpp_input. rewrite (terms_text _ _ _ H). cbn [rbind]. unfold input_code. cbn [map]. rewrite declare_text, head_text, !map_app. cbn [map app]. now rewrite <- !app_assoc. Qed.
Lemma output_text inputs x o : output_expressible namespaced inputs o -> cpp_output d namespaced x o = Ok (map statement_text (output_code x o) ++ [""])%list.
Proof.
  intros [H _]. unfold cpp_output. rewrite (terms_text _ _ _ H). cbn [rbind]. unfold output_code. cbn [map]. rewrite declare_text, head_text, !map_app. cbn [map app]. rewrite norm_text, defuzzifier_text, scalar_text. now rewrite <- !app_assoc.
Qed.
Lemma block_text x b : block_expressible b -> cpp_block d namespaced x b = (map statement_text (block_code x b) ++ [""])%list.
Proof.
  intro H. unfold cpp_block, block_code. cbn [map].
  assert (R : map (fun r => cpp_call x "addRule" (fl "Rule" ++ "::parse(" ++ quoted (rl_text r) ++ ", engine)")) (b_rules b) = map statement_text (rules_code x b)).
  { unfold rules_code. rewrite map_map. apply map_ext. intro r. unfold cpp_call. cbn [statement_text map join expr_text atom_text]. replace (fl "Rule::parse") with (fl "Rule" ++ "::parse") by apply fl_app. now rewrite !sapp_assoc. }
  rewrite R, declare_text, !map_app, !norm_text, (activation_text b H). cbn [map app]. now rewrite <- !app_assoc.
Qed.

(** ** the program *)
Variables (library : string) (named : bool).
Definition engine_code (e : engine T) : list statement :=
  [declare "Engine" "engine"; SMethod "engine" "setName" [text (e_name e)]; SMethod "engine" "setDescription" [text (e_description e)]].
Definition inputs_code (e : engine T) : list (list statement) :=
  map (fun p => input_code (cpp_variable_name named "inputVariable" (fst p) (List.length (e_inputs e)) (snd p)) (snd p)) (indexed (e_inputs e)).
Definition outputs_code (e : engine T) : list (list statement) :=
  map (fun p => output_code (cpp_variable_name named "outputVariable" (fst p) (List.length (e_outputs e)) (o_var (snd p))) (snd p)) (indexed (e_outputs e)).
Definition blocks_code (e : engine T) : list (list statement) :=
  map (fun p => block_code (cpp_block_name named (fst p) (List.length (e_blocks e)) (snd p)) (snd p)) (indexed (e_blocks e)).
Definition program (e : engine T) : list statement :=
  ((if namespaced then [] else [SUsing "fuzzylite"]) ++ engine_code e ++ List.concat (inputs_code e) ++ List.concat (outputs_code e) ++ List.concat (blocks_code e))%list.
(** parts with an empty line after each *)
Definition lines_of (l : list (list statement)) : list string := List.concat (map (fun ss => map statement_text ss ++ [""])%list l).
Lemma clean_part ss : Forall good_statement ss -> clean (text_of (map statement_text ss ++ [""])%list) (flat_map (fun s => statement_tokens s ++ [TSymbol ";"])%list ss).
Proof. intro F. rewrite text_of_app. rewrite <- (app_nil_r (flat_map _ ss)). apply clean_after; [now apply clean_lines|lit]. Qed.
Lemma clean_parts l : Forall (Forall good_statement) l -> clean (text_of (lines_of l)) (flat_map (fun s => statement_tokens s ++ [TSymbol ";"])%list (List.concat l)).
Proof.
  intro F. induction F as [|ss l H F IH]; [lit|]. unfold lines_of in *. cbn [map List.concat]. rewrite text_of_app, flat_map_app. apply clean_after; [now apply clean_part|exact IH].
Qed.
Lemma indexed_in {A} (l : list A) p : In p (indexed l) -> In (snd p) l.
Proof. unfold indexed. destruct p as [i a]. apply in_combine_r. Qed.
Lemma rmap_pure {A B} (f : A -> res B) (g : A -> B) l : (forall a, In a l -> f a = Ok (g a)) -> rmapM f l = Ok (map g l).
Proof. induction l as [|a l IH]; intro H; [reflexivity|]. cbn [rmapM map]. rewrite H by (now left). cbn [rbind]. rewrite IH; [reflexivity|]. intros b I. apply H. now right. Qed.
Lemma inputs_each vs : forall n, inputs_expressible n vs -> forall v, In v vs -> exists k, variable_expressible (T := T) k v.
Proof. induction vs as [|w vs IH]; intros n H v I; [destruct I|]. destruct H as [H1 H2]. destruct I as [<-|I]; [now exists n|]. exact (IH _ H2 v I). Qed.
Lemma concat_lines {A} (f : A -> list statement) l : List.concat (map (fun a => map statement_text (f a) ++ [""])%list l) = lines_of (map f l).
Proof. unfold lines_of. now rewrite map_map. Qed.
Lemma program_text e : expressible namespaced named e ->
  cpp_export d library namespaced named e = Ok (text_of ([("//Code automatically generated with " ++ library ++ ".")%string; ""] ++ lines_of ((if namespaced then [] else [[SUsing "fuzzylite"]]) ++ [engine_code e] ++ inputs_code e ++ outputs_code e ++ blocks_code e))%list).
Proof.
  intros (_ & _ & I & O & B & _). unfold cpp_export.
  rewrite (rmap_pure _ (fun p => map statement_text (input_code (cpp_variable_name named "inputVariable" (fst p) (List.length (e_inputs e)) (snd p)) (snd p)) ++ [""])%list).
  2: { intros p Q. apply indexed_in in Q. destruct (inputs_each _ _ I _ Q) as [k K]. now apply (input_text k). }
  cbn [rbind]. rewrite (rmap_pure _ (fun p => map statement_text (output_code (cpp_variable_name named "outputVariable" (fst p) (List.length (e_outputs e)) (o_var (snd p))) (snd p)) ++ [""])%list).
  2: { intros p Q. apply indexed_in in Q. rewrite Forall_forall in O. apply (output_text (List.length (e_inputs e))). auto. }
  cbn [rbind]. f_equal. f_equal. f_equal. unfold lines_of. rewrite !map_app, !concat_app. f_equal; [destruct namespaced; reflexivity|]. f_equal.
  - cbn [map List.concat app]. rewrite app_nil_r. cbn [map app engine_code]. rewrite declare_text. reflexivity.
  - f_equal; [apply concat_lines|]. f_equal; [apply concat_lines|]. rewrite flat_map_concat_map. unfold blocks_code. rewrite map_map. f_equal. apply map_ext_in. intros p Q. apply indexed_in in Q. rewrite Forall_forall in B. apply block_text. auto.
Qed.

End Atoms.
