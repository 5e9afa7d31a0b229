(** The engine rebuilt by the code written by the exporter to Java. *)
From Coq Require Import ZArith List Bool String Ascii Arith Lia.
From Verif Require Import Base Op Norm Hedge Shape Discrete Defuzz Aggregated Text Function Rule Var Activation Engine Factory SpecText TextProofs TextProofs2
  Fll SpecFll FllText FllLines FllExport FllRound FllSame Fis FclText FclRound2 Cpp SpecCpp CppSyntax CppAtoms CppRun CppProgram Java SpecJava.
Import ListNotations.
Local Open Scope string_scope.

(** ** texts and tokens of Java *)
Definition jexpr_text (e : expr) : string :=
  match e with
  | EAtom a => atom_text a
  | ENew c l => "new " ++ c ++ "(" ++ join (map atom_text l) ", " ++ ")"
  | ECall f l => f ++ "(" ++ join (map atom_text l) ", " ++ ")"
  end.
Definition jexpr_tokens (e : expr) : list token :=
  match e with
  | EAtom a => atom_tokens a
  | ENew c l => TWord "new" :: TWord c :: TSymbol "(" :: commas (map atom_tokens l) ++ [TSymbol ")"]
  | ECall f l => TWord f :: TSymbol "(" :: commas (map atom_tokens l) ++ [TSymbol ")"]
  end.
Definition jtext (s : statement) : string :=
  match s with
  | SUsing n => ""
  | SDeclare t x c => t ++ " " ++ x ++ " = new " ++ c ++ "();"
  | SMethod x m l => x ++ "." ++ m ++ "(" ++ join (map jexpr_text l) ", " ++ ");"
  end.
Definition jtokens (s : statement) : list token :=
  match s with
  | SUsing n => []
  | SDeclare t x c => [TWord t; TWord x; TSymbol "="; TWord "new"; TWord c; TSymbol "("; TSymbol ")"]
  | SMethod x m l => TWord (x ++ "." ++ m) :: TSymbol "(" :: commas (map jexpr_tokens l) ++ [TSymbol ")"]
  end.
(** statements which can be read *)
Definition jgood (s : statement) : Prop :=
  match s with
  | SUsing n => False
  | SDeclare t x c => word t /\ word x /\ word c
  | SMethod x m l => word x /\ word m /\ lacks "." x = true /\ lacks "." m = true /\ Forall good_expr l
  end.
Lemma lexes_jexpr e : good_expr e -> lexes (jexpr_text e) (jexpr_tokens e).
Proof.
  destruct e as [a|c l|f l]; cbn [good_expr jexpr_text jexpr_tokens].
  - apply lexes_atom.
  - intros [W F]. change (TWord "new" :: TWord c :: TSymbol "(" :: commas (map atom_tokens l) ++ [TSymbol ")"])%list with ([TWord "new"] ++ (TWord c :: TSymbol "(" :: commas (map atom_tokens l) ++ [TSymbol ")"]))%list. apply lexes_after; [lit|]. now apply lexes_call.
  - intros [W F]. now apply lexes_call.
Qed.
Lemma word_dot x m : word x -> word m -> word (x ++ "." ++ m).
Proof. intros [A B] [C D]. split; [destruct x; [congruence|discriminate]|]. rewrite !sforall_app, B. cbn [sforall]. now rewrite D. Qed.
Lemma clean_java s : jgood s -> clean (jtext s) (jtokens s ++ [TSymbol ";"]).
Proof.
  destruct s as [n|t x c|x m l]; cbn [jgood jtext jtokens]; [intros []| |].
  - intros (W1 & W2 & W3). change ([TWord t; TWord x; TSymbol "="; TWord "new"; TWord c; TSymbol "("; TSymbol ")"] ++ [TSymbol ";"])%list with ([TWord t] ++ ([] ++ ([TWord x] ++ ([TSymbol "="; TWord "new"] ++ ([TWord c] ++ [TSymbol "("; TSymbol ")"; TSymbol ";"])))))%list.
    apply clean_apart; [now apply lexes_word|reflexivity|]. apply clean_after; [lit|]. apply clean_apart; [now apply lexes_word|reflexivity|]. apply clean_after; [lit|]. apply clean_apart; [now apply lexes_word|reflexivity|lit].
  - intros (W1 & W2 & _ & _ & F). replace (x ++ "." ++ m ++ "(" ++ join (map jexpr_text l) ", " ++ ");") with ((x ++ "." ++ m) ++ "(" ++ join (map jexpr_text l) ", " ++ ");") by (now rewrite !sapp_assoc).
    change ((TWord (x ++ "." ++ m) :: TSymbol "(" :: commas (map jexpr_tokens l) ++ [TSymbol ")"]) ++ [TSymbol ";"])%list with ([TWord (x ++ "." ++ m)] ++ ([TSymbol "("] ++ ((commas (map jexpr_tokens l) ++ [TSymbol ")"]) ++ [TSymbol ";"])))%list.
    apply clean_apart; [apply lexes_word; now apply word_dot|reflexivity|]. apply clean_after; [lit|]. rewrite <- app_assoc. apply clean_apart; [|reflexivity|lit].
    apply lexes_join. eapply Forall_impl; [|exact F]. apply lexes_jexpr.
Qed.
Lemma solid_jexpr c e : Ascii.eqb "-" c = false -> Ascii.eqb "(" c = false -> Ascii.eqb ")" c = false -> solid c (jexpr_tokens e).
Proof.
  intros A B C. destruct e as [a|k l|f l]; [now apply solid_atom| |now apply solid_call]. apply (solid_app c [TWord "new"]); [apply solid_one|]. now apply (solid_call c k l).
Qed.
Lemma java_expr_tokens e : java_expr (jexpr_tokens e) = Some e.
Proof.
  destruct e as [[]|k l|f l]; [reflexivity|reflexivity|reflexivity| |].
  - cbn [jexpr_tokens java_expr]. cbn [parse_expr]. change (String.eqb "new" "new") with true. cbv iota. rewrite inside_paren. cbn [option_bind]. now rewrite parse_atoms.
  - cbn [jexpr_tokens java_expr parse_expr]. rewrite inside_paren. cbn [option_bind]. now rewrite parse_atoms.
Qed.
Lemma java_exprs l : parse_list java_expr (commas (map jexpr_tokens l)) = Some l.
Proof. apply parse_list_tokens. intro e. split; [apply java_expr_tokens|]. split; [now apply solid_jexpr|]. destruct e as [[]| |]; discriminate. Qed.
Lemma member_dot x m : lacks "." x = true -> lacks "." m = true -> member (x ++ "." ++ m) = Some (x, m).
Proof.
  intros X M. induction x as [|c x IH]; [cbn; now rewrite M|]. cbn [lacks] in X. apply andb_true_iff in X. destruct X as [X1 X2]. apply negb_true_iff in X1. cbn [append member]. rewrite X1. cbn [append] in IH. rewrite (IH X2). reflexivity.
Qed.
Lemma java_statement_tokens s : jgood s -> java_statement (jtokens s) = Some s.
Proof.
  destruct s as [n|t x c|x m l]; [intros []|reflexivity|]. intros (_ & _ & A & B & _). cbn [jtokens java_statement]. rewrite (member_dot x m A B). cbn [option_bind fst snd]. rewrite inside_paren. cbn [option_bind]. now rewrite java_exprs.
Qed.
Lemma solid_java s : solid ";" (jtokens s).
Proof.
  destruct s as [n|t x c|x m l]; [intros open cur rest; cbn; now rewrite app_nil_r| |].
  - cbn [jtokens]. change [TWord t; TWord x; TSymbol "="; TWord "new"; TWord c; TSymbol "("; TSymbol ")"] with ([TWord t; TWord x; TSymbol "="; TWord "new"; TWord c] ++ (TSymbol "(" :: [] ++ [TSymbol ")"]))%list.
    apply solid_app; [intros open cur rest; cbn; now rewrite <- ?app_assoc|]. apply solid_paren; [intros open cur rest; now rewrite app_nil_r|reflexivity|reflexivity].
  - cbn [jtokens]. apply (solid_app ";" [TWord (x ++ "." ++ m)]); [apply solid_one|]. apply solid_paren; [|reflexivity|reflexivity]. apply hidden_commas. apply Forall_forall. intros y I. apply in_map_iff in I. destruct I as (e & <- & _). now apply solid_hidden, solid_jexpr.
Qed.
Lemma java_statements ss : Forall jgood ss -> java_program (flat_map (fun s => jtokens s ++ [TSymbol ";"])%list ss) = Some ss.
Proof.
  intro F. unfold java_program. assert (E : parts ";" 0 [] (flat_map (fun s => jtokens s ++ [TSymbol ";"])%list ss) = (map jtokens ss ++ [[]])%list).
  { clear F. induction ss as [|s ss IH]; [reflexivity|]. cbn [flat_map map app]. rewrite <- app_assoc, solid_java. cbn [app parts]. change (Ascii.eqb ";" ";" && Nat.eqb 0 0)%bool with true. cbv iota. now rewrite IH. }
  rewrite E, last_last, removelast_last. rewrite (all_some_map _ _ (fun x => x)); [now rewrite map_id|]. intros s I. apply java_statement_tokens. rewrite Forall_forall in F. auto.
Qed.
Definition jlines (l : list (list statement)) : list string := List.concat (map (fun ss => map jtext ss ++ [""])%list l).
Lemma clean_jlines ss : Forall jgood ss -> clean (text_of (map jtext ss ++ [""])%list) (flat_map (fun s => jtokens s ++ [TSymbol ";"])%list ss).
Proof.
  intro F. induction F as [|s ss G F IH]; [lit|]. cbn [map flat_map app]. change (text_of (jtext s :: (map jtext ss ++ [""])%list)) with (jtext s ++ (char newline ++ text_of (map jtext ss ++ [""])%list)).
  apply clean_after; [now apply clean_java|]. rewrite <- (app_nil_l (flat_map _ ss)). apply clean_after; [lit|exact IH].
Qed.
Lemma clean_jparts l : Forall (Forall jgood) l -> clean (text_of (jlines l)) (flat_map (fun s => jtokens s ++ [TSymbol ";"])%list (List.concat l)).
Proof.
  intro F. induction F as [|ss l H F IH]; [lit|]. unfold jlines in *. cbn [map List.concat]. rewrite text_of_app, flat_map_app. apply clean_after; [now apply clean_jlines|exact IH].
Qed.

(** ** from C++ to Java *)
Definition ja (a : atom) : atom :=
  match a with
  | AText _ => a
  | AWord w => if String.eqb w "fl::nan" then AWord "Double.NaN" else if String.eqb w "fl::inf" then AWord "Double.POSITIVE_INFINITY" else if String.eqb w "fl::null" then AWord "null" else a
  | ANegative w => if String.eqb w "fl::inf" then AWord "Double.NEGATIVE_INFINITY" else a
  end.
Definition je (e : expr) : expr :=
  match e with
  | EAtom a => EAtom (ja a)
  | ENew c l => ENew c (map ja l)
  | ECall f l =>
    if String.eqb f "Rule::parse" then ECall "Rule.parse" (map ja l) else if String.eqb f "Function::create" then ECall "Function.create" (map ja l)
    else if String.eqb f "Linear::create" then ECall "Linear.create" (map ja l)
    else ECall "Discrete.create" (map ja (match l with name :: _ :: xy => name :: xy | _ => l end))
  end.
Definition js (s : statement) : statement := match s with SUsing _ | SDeclare _ _ _ => s | SMethod x m l => SMethod x m (map je l) end.
Definition fair (a : atom) : Prop := good_atom (ja a) /\ cpp_atom (ja a) = Some a.
Definition fair_expr (e : expr) : Prop := good_expr (je e) /\ cpp_expr (je e) = Some e.
Definition fair_statement (s : statement) : Prop := jgood (js s) /\ cpp_statement (js s) = Some s.
Lemma all_fair {A} (f : A -> A) (g : A -> option A) l : Forall (fun a => g (f a) = Some a) l -> all_some g (map f l) = Some l.
Proof. intro F. induction F as [|a l H F IH]; [reflexivity|]. cbn [map all_some fold_right]. rewrite H. change (fold_right _ (Some []) (map f l)) with (all_some g (map f l)). now rewrite IH. Qed.
Lemma fair_split l : Forall fair l -> Forall good_atom (map ja l) /\ all_some cpp_atom (map ja l) = Some l.
Proof. intro F. split; [apply Forall_map; eapply Forall_impl; [|exact F]; now intros a [H _]|]. apply all_fair. eapply Forall_impl; [|exact F]. now intros a [_ H]. Qed.
Lemma fair_text s : literal s -> fair (AText s). Proof. now split. Qed.
Definition plain (w : string) : Prop := word w /\ lacks ":" w = true /\ existsb (String.eqb w) ["Double.NaN"; "Double.POSITIVE_INFINITY"; "Double.NEGATIVE_INFINITY"; "null"] = false.
Lemma colon_not w v : lacks ":" w = true -> lacks ":" v = false -> String.eqb w v = false.
Proof. intros A B. destruct (String.eqb_spec w v); [congruence|reflexivity]. Qed.
Lemma fair_word w : plain w -> fair (AWord w).
Proof.
  intros (W & L & E). assert (J : ja (AWord w) = AWord w) by (cbn [ja]; now rewrite !colon_not). split; rewrite J; [exact W|]. cbn [existsb] in E. rewrite !orb_false_iff in E. destruct E as (E1 & E2 & E3 & E4 & _). cbn [cpp_atom]. rewrite E1, E2, E3, E4. unfold java_word. now rewrite L.
Qed.
Lemma fair_negative w : word w -> lacks ":" w = true -> fair (ANegative w).
Proof. intros W L. assert (J : ja (ANegative w) = ANegative w) by (cbn [ja]; now rewrite colon_not). split; rewrite J; [exact W|]. cbn [cpp_atom]. unfold java_word. now rewrite L. Qed.
Lemma literal_plain w : is_literal w = true -> plain w.
Proof.
  intro H. split; [now apply literal_word|]. destruct w as [|c w]; [discriminate|]. cbn [is_literal] in H. apply andb_true_iff in H. destruct H as [D H]. split.
  - rewrite lacks_sforall. eapply sforall_impl; [|exact H]. intros x Q. destruct (Ascii.eqb_spec x ":"); [subst x; discriminate|reflexivity].
  - cbn [existsb]. rewrite !head_not by (exact D || reflexivity). reflexivity.
Qed.
Lemma usable_plain x : usable x -> ~ In x java_keywords -> plain x.
Proof.
  intros U K. split; [now apply usable_word|]. split; [now apply usable_colon|]. destruct (usable_chars x U) as [_ B]. destruct (existsb _ _) eqn:E; [|reflexivity]. apply in_existsb in E.
  destruct E as [<-|[<-|[<-|[<-|[]]]]]; try discriminate B. exfalso. apply K. apply in_existsb. reflexivity.
Qed.
Lemma fair_atom a : fair a -> fair_expr (EAtom a).
Proof. intros [A B]. split; [exact A|]. cbn [je cpp_expr]. now rewrite B. Qed.
Lemma fair_new c l : word c -> lacks ":" c = true -> Forall fair l -> fair_expr (ENew c l).
Proof. intros W L F. destruct (fair_split l F) as [A B]. split; [now split|]. cbn [je cpp_expr]. unfold java_word. now rewrite L, B. Qed.
Lemma fair_method x m l : word x -> word m -> lacks "." x = true -> lacks ":" x = true -> lacks "." m = true -> lacks ":" m = true -> Forall fair_expr l -> fair_statement (SMethod x m l).
Proof.
  intros X M X1 X2 M1 M2 F. split.
  - repeat split; auto; try apply X; try apply M. apply Forall_map. eapply Forall_impl; [|exact F]. now intros e [H _].
  - cbn [js cpp_statement]. unfold java_word. rewrite X2, M2. cbn [andb]. rewrite (all_fair je cpp_expr); [reflexivity|]. eapply Forall_impl; [|exact F]. now intros e [_ H].
Qed.
Definition java_usable (x : string) : Prop := usable x /\ ~ In x java_keywords.
Lemma usable_dot x : usable x -> lacks "." x = true.
Proof. intro U. destruct (usable_chars x U) as [_ B]. rewrite lacks_sforall. eapply sforall_impl; [|exact B]. intros c H. destruct (Ascii.eqb_spec c "."); [subst c; discriminate|reflexivity]. Qed.
Lemma fair_declare class x : java_usable x -> word class -> lacks ":" class = true -> fair_statement (SDeclare class x class).
Proof.
  intros [U K] W L. split; [cbn; repeat split; try apply W; now apply usable_word|]. cbn [js cpp_statement]. unfold java_word. rewrite L, (usable_colon x U), (existsb_not _ _ K). reflexivity.
Qed.
Definition methods : list string :=
  ["setName"; "setDescription"; "setEnabled"; "setRange"; "setLockValueInRange"; "addTerm"; "setAggregation"; "setDefuzzifier"; "setDefaultValue"; "setLockPreviousValue"; "setConjunction";
   "setDisjunction"; "setImplication"; "setActivation"; "addRule"; "addInputVariable"; "addOutputVariable"; "addRuleBlock"].
Lemma fair_call x m l : java_usable x -> existsb (String.eqb m) methods = true -> Forall fair_expr l -> fair_statement (SMethod x m l).
Proof.
  intros [U K] M F. assert (Q : word m /\ lacks "." m = true /\ lacks ":" m = true).
  { apply in_existsb in M. assert (C : forallb (fun m => negb (sempty m) && sforall word_char m && lacks "." m && lacks ":" m)%bool methods = true) by reflexivity. rewrite forallb_forall in C. specialize (C m M). rewrite !andb_true_iff in C. destruct C as (((C1 & C2) & C3) & C4). split; [now apply word_of|]. now split. }
  destruct Q as (Q1 & Q2 & Q3). apply fair_method; auto; [now apply usable_word|now apply usable_dot|now apply usable_colon].
Qed.
Lemma engine_java : java_usable "engine". Proof. split; [apply engine_usable|]. apply not_existsb. reflexivity. Qed.

Section Java.
Context {T : Type} `{S : Scalar T}.
Variables (d : nat) (library : string) (named : bool).
Hypothesis N : printable (T := T) d.
Hypothesis D : d <> 0%nat.
Hypothesis SIGN : forall x : T, isNaN x = false -> isInf x = true -> s_ltb s_0 x = negb (s_ltb x s_0).

(** ** numbers *)
Lemma fair_fixed (neg : bool) n : fair (number_atom ((if neg then "-" else "") ++ fixed_text d n)).
Proof. rewrite fixed_atom. destruct (literal_plain _ (fixed_literal d n)) as (A & B & C). destruct neg; [now apply fair_negative|now apply fair_word]. Qed.
Lemma fair_num (x : T) : isFinite x = true -> fair (num d x).
Proof. intro F. apply finite_parts in F. destruct F as [A B]. unfold num. destruct (str_shape d x A B) as (neg & n & ->). apply fair_fixed. Qed.
Lemma fair_nums (l : list T) : Forall (fun x => isFinite x = true) l -> Forall fair (map (num d) l).
Proof. intro F. apply Forall_map. eapply Forall_impl; [|exact F]. apply fair_num. Qed.
Lemma digits_plain n : plain (nat_text n).
Proof. apply literal_plain. assert (A := nat_some n). assert (B := nat_digits n). destruct (nat_text n) as [|c t]; [congruence|]. cbn [is_literal]. assert (B' := B). cbn [sforall] in B'. apply andb_true_iff in B'. destruct B' as [-> _]. eapply sforall_impl; [|exact B]. intros x ->. reflexivity. Qed.
Lemma fair_int n : fair (int n).
Proof. rewrite int_atom. destruct (digits_plain (Z.abs n)) as (A & B & C). destruct (n <? 0)%Z; [now apply fair_negative|now apply fair_word]. Qed.
Lemma fair_scalar (x : T) : fair (scalar_atom d x).
Proof.
  unfold scalar_atom, cpp_scalar. destruct (isNaN x) eqn:A; [split; [split; [discriminate|reflexivity]|reflexivity]|]. destruct (isInf x) eqn:B; [destruct (s_ltb s_0 x); (split; [split; [discriminate|reflexivity]|reflexivity])|]. destruct (str_shape d x A B) as (neg & n & ->). apply fair_fixed.
Qed.
Lemma plain_same w : plain w -> ja (AWord w) = AWord w. Proof. intros (_ & L & _). cbn [ja]. now rewrite !colon_not. Qed.
Lemma num_same (x : T) : isFinite x = true -> ja (num d x) = num d x.
Proof.
  intro F. apply finite_parts in F. destruct F as [A B]. unfold num. destruct (str_shape d x A B) as (neg & n & ->). rewrite fixed_atom. destruct (literal_plain _ (fixed_literal d n)) as (W & L & C). destruct neg; [cbn [ja]; now rewrite colon_not|now apply plain_same].
Qed.
Lemma nums_same (l : list T) : Forall (fun x => isFinite x = true) l -> map ja (map (num d) l) = map (num d) l.
Proof. intro F. rewrite map_map. apply map_ext_in. intros x I. apply num_same. rewrite Forall_forall in F. auto. Qed.
Lemma int_same n : ja (int n) = int n.
Proof. rewrite int_atom. destruct (digits_plain (Z.abs n)) as (A & B & C). destruct (n <? 0)%Z; [cbn [ja]; now rewrite colon_not|apply plain_same; repeat split; auto; apply A]. Qed.
Lemma jscalar_text (x : T) : java_scalar d x = atom_text (ja (scalar_atom d x)).
Proof.
  unfold java_scalar, scalar_atom, cpp_scalar. destruct (isNaN x) eqn:A; [reflexivity|]. destruct (isInf x) eqn:B; [destruct (s_ltb s_0 x); reflexivity|]. assert (F : isFinite x = true) by (unfold isFinite, isInf in *; apply orb_false_iff in B; destruct B as [B1 B2]; now rewrite A, B1, B2).
  change (number_atom (str d x)) with (num d x). rewrite num_same by exact F. now rewrite num_text.
Qed.

(** ** expressions *)
Notation term_expr := (term_expr d false).
Lemma flag_plain b : plain (bool_text b). Proof. destruct b; (split; [split; [discriminate|reflexivity]|split; reflexivity]). Qed.
Lemma engine_plain : plain "engine". Proof. split; [split; [discriminate|reflexivity]|split; reflexivity]. Qed.
Lemma jnew_text c name l : l <> [] -> jexpr_text (ENew c (AText name :: l)) = "new " ++ c ++ "(" ++ quoted name ++ ", " ++ join (map atom_text l) ", " ++ ")".
Proof. intro H. cbn [jexpr_text map atom_text]. rewrite join_more by (destruct l; [congruence|discriminate]). now rewrite !sapp_assoc. Qed.
Lemma jcall_text f name l : l <> [] -> jexpr_text (ECall f (AText name :: l)) = f ++ "(" ++ quoted name ++ ", " ++ join (map atom_text l) ", " ++ ")".
Proof. intro H. cbn [jexpr_text map atom_text]. rewrite join_more by (destruct l; [congruence|discriminate]). now rewrite !sapp_assoc. Qed.
Lemma height_nums t s : Forall (fun x => isFinite x = true) (shape_list s) -> isEq (tm_height t) s_1 = true \/ isFinite (tm_height t) = true ->
  exists l, (map (num d) (shape_list s) ++ (if isEq (tm_height t) s_1 then [] else [num d (tm_height t)]))%list = map (num d) l /\ Forall (fun x : T => isFinite x = true) l.
Proof.
  intros A B. destruct (isEq (tm_height t) s_1); [exists (shape_list s); now rewrite app_nil_r|]. destruct B as [B|B]; [discriminate|]. exists (shape_list s ++ [tm_height t])%list. split; [now rewrite map_app|]. apply Forall_app. split; [exact A|]. now constructor.
Qed.
Lemma jterm_text inputs t : term_expressible inputs t -> java_term d t = Ok (jexpr_text (je (term_expr t))).
Proof.
  intros X. assert (X' := X). destruct X' as [_ H]. assert (Q := term_text d false N inputs t X). unfold java_term. unfold cpp_term in Q. unfold CppAtoms.term_expr, numbers in *. destruct (tm_body t) as [s|xy|v|cs b|f] eqn:E.
  - etransitivity; [exact Q|]. f_equal. destruct H as [A B]. destruct (height_nums t s A B) as (l & -> & F). cbn [je map]. rewrite (nums_same l F). reflexivity.
  - destruct H as (NE & _ & F & _). cbn [je]. change (cpp_fl false "Discrete::create") with "Discrete::create". cbn [String.eqb Ascii.eqb Bool.eqb]. cbv iota. cbn [map]. rewrite nums_same by (now apply pairs_finite). cbn [ja]. rewrite jcall_text.
    + rewrite nums_text. reflexivity.
    + destruct xy; [congruence|discriminate].
  - etransitivity; [exact Q|]. f_equal. cbn [je map]. rewrite (num_same v H). reflexivity.
  - destruct H as [F L]. cbn [je]. change (cpp_fl false "Linear::create") with "Linear::create". cbn [String.eqb Ascii.eqb Bool.eqb]. cbv iota. cbn [map]. rewrite nums_same by exact F. cbn [ja]. rewrite jcall_text by discriminate. cbn [map atom_text]. rewrite join_more; [|rewrite nums_text; destruct cs; discriminate]. rewrite nums_text. reflexivity.
  - cbn [je]. change (cpp_fl false "Function::create") with "Function::create". cbn [String.eqb Ascii.eqb Bool.eqb]. cbv iota. cbn [map ja]. rewrite jcall_text by discriminate. cbn [map atom_text join]. now rewrite !sapp_assoc.
Qed.
Lemma class_colon (b : tbody T) : lacks ":" (body_class b) = true. Proof. destruct b as [[]| | | |]; reflexivity. Qed.
Lemma fair_term inputs t : term_expressible inputs t -> fair_expr (term_expr t).
Proof.
  intros [L H]. unfold CppAtoms.term_expr, numbers. destruct (tm_body t) as [s|xy|v|cs b|f] eqn:E.
  - destruct H as [A B]. destruct (height_nums t s A B) as (l & -> & F). apply fair_new; [apply class_word|apply class_colon|]. constructor; [now apply fair_text|now apply fair_nums].
  - destruct H as (NE & _ & F & _). apply pairs_finite in F. assert (F' := fair_nums _ F). destruct (fair_split _ F') as [G1 G2].
    change (cpp_fl false "Discrete::create") with "Discrete::create". unfold fair_expr. cbn [je]. cbn [String.eqb Ascii.eqb Bool.eqb]. cbv iota. cbn [map ja]. split.
    + split; [split; [discriminate|reflexivity]|]. constructor; [exact L|exact G1].
    + cbn [cpp_expr all_some fold_right cpp_atom]. change (fold_right _ (Some []) (map ja (map (num d) ?l))) with (all_some cpp_atom (map ja (map (num d) l))). rewrite G2. cbn [option_bind]. cbn [String.eqb Ascii.eqb Bool.eqb]. cbv iota. do 3 f_equal. rewrite int_atom. rewrite map_length.
      assert (FL : List.length (flat_map (fun p => [fst p; snd p]) xy) = (List.length xy * 2)%nat) by (clear; induction xy as [|p xy IH]; [reflexivity|]; cbn [flat_map app List.length]; rewrite IH; lia). rewrite FL, str_nat.
      destruct (Z.ltb_spec (Z.of_nat (List.length xy * 2)) 0); [lia|]. now rewrite Z.abs_eq by lia.
  - apply fair_new; [apply class_word|apply class_colon|]. constructor; [now apply fair_text|]. constructor; [now apply fair_num|constructor].
  - destruct H as [F _]. assert (F' : Forall fair (AText (tm_name t) :: AWord "engine" :: map (num d) cs)) by (constructor; [now apply fair_text|]; constructor; [apply fair_word, engine_plain|]; now apply fair_nums). destruct (fair_split _ F') as [G1 G2].
    change (cpp_fl false "Linear::create") with "Linear::create". unfold fair_expr. cbn [je]. cbn [String.eqb Ascii.eqb Bool.eqb]. cbv iota. split; [split; [split; [discriminate|reflexivity]|exact G1]|]. cbn [cpp_expr]. rewrite G2. reflexivity.
  - assert (F' : Forall fair [AText (tm_name t); AText (fn_formula f); AWord "engine"]) by (constructor; [now apply fair_text|]; constructor; [now apply fair_text|]; constructor; [apply fair_word, engine_plain|constructor]). destruct (fair_split _ F') as [G1 G2].
    change (cpp_fl false "Function::create") with "Function::create". unfold fair_expr. cbn [je]. cbn [String.eqb Ascii.eqb Bool.eqb]. cbv iota. split; [split; [split; [discriminate|reflexivity]|exact G1]|]. cbn [cpp_expr]. rewrite G2. reflexivity.
Qed.
Lemma fair_null : fair_expr null. Proof. apply fair_atom. split; [split; [discriminate|reflexivity]|reflexivity]. Qed.
Lemma jnorm_text {A} (class : A -> string) n : java_norm class n = jexpr_text (je (norm_expr false class n)).
Proof. destruct n; reflexivity. Qed.
Lemma fair_tnorm (n : option tnorm) : fair_expr (norm_expr false tnorm_class n).
Proof. destruct n as [n|]; [|apply fair_null]. apply fair_new; [destruct n; (split; [discriminate|reflexivity])|destruct n; reflexivity|constructor]. Qed.
Lemma fair_snorm (n : option snorm) : fair_expr (norm_expr false snorm_class n).
Proof. destruct n as [n|]; [|apply fair_null]. apply fair_new; [destruct n; (split; [discriminate|reflexivity])|destruct n; reflexivity|constructor]. Qed.
Lemma jdefuzzifier_text z : java_defuzzifier z = jexpr_text (je (defuzzifier_expr false z)).
Proof. destruct z as [[k n|k ty]|]; cbn [defuzzifier_expr je map jexpr_text java_defuzzifier join]; rewrite ?int_same, ?int_text; reflexivity. Qed.
Lemma fair_defuzzifier z : fair_expr (defuzzifier_expr false z).
Proof.
  destruct z as [[k n|k ty]|]; [| |apply fair_null].
  - apply fair_new; [destruct k; (split; [discriminate|reflexivity])|destruct k; reflexivity|]. constructor; [apply fair_int|constructor].
  - apply fair_new; [destruct k; (split; [discriminate|reflexivity])|destruct k; reflexivity|]. constructor; [apply fair_text; destruct ty; repeat split|constructor].
Qed.
Lemma fair_activation b : block_expressible b -> fair_expr (activation_expr d false (b_activation b)).
Proof.
  intros (_ & _ & _ & H). destruct (b_activation b) as [a|]; [|apply fair_null]. apply fair_new; [destruct a; (split; [discriminate|reflexivity])|destruct a; reflexivity|].
  destruct a as [|n t|n t|n|n| |c v]; repeat constructor; try apply fair_int; try (apply fair_num; tauto). all: destruct c; reflexivity.
Qed.
Lemma jactivation_text b : block_expressible b -> java_activation d (b_activation b) = jexpr_text (je (activation_expr d false (b_activation b))).
Proof.
  intros X. assert (X' := X). destruct X' as (_ & _ & _ & H). assert (Q := activation_text d false N b X). unfold cpp_activation in Q. unfold java_activation. destruct (b_activation b) as [a|]; [|reflexivity].
  cbv zeta in *. change (cpp_fl false (activation_class a)) with (activation_class a) in Q. cbn [activation_expr je] in *. change (cpp_fl false (activation_class a)) with (activation_class a) in *.
  destruct a as [|n t|n t|n|n| |c v]; try reflexivity.
  all: match type of Q with (if ?c then _ else _) = _ => assert (Z : c = false) by (destruct c eqn:Z; [|reflexivity]; cbn [expr_text] in Q; exfalso; revert Q; clear; cbn; discriminate) end; rewrite Z in *; rewrite Q; cbn [expr_text jexpr_text map]; rewrite ?int_same, ?num_same by tauto; reflexivity.
Qed.

(** ** statements *)
Lemma jdeclare_text class x : java_declaration class x = jtext (js (declare false class x)). Proof. reflexivity. Qed.
Lemma jone_text x m a : java_call x m (jexpr_text (je a)) = jtext (js (SMethod x m [a])). Proof. reflexivity. Qed.
Lemma jflag_text b : bool_text b = jexpr_text (je (flag b)). Proof. destruct b; reflexivity. Qed.
Lemma jquoted_text s : quoted s = jexpr_text (je (text s)). Proof. reflexivity. Qed.
Lemma jvalue_text (x : T) : java_scalar d x = jexpr_text (je (scalar d x)). Proof. apply jscalar_text. Qed.
Lemma jhead_text x v : java_head d x v = map (fun s => jtext (js s)) (head_code d x v).
Proof.
  unfold java_head, head_code. cbn [map]. rewrite !jvalue_text, !jflag_text. unfold java_call. cbn [js jtext map join]. now rewrite !sapp_assoc.
Qed.
Lemma jterms_text inputs x v : variable_expressible inputs v -> java_terms d x v = Ok (map (fun s => jtext (js s)) (terms_code d false x v)).
Proof.
  intros (_ & _ & F). unfold java_terms, terms_code. induction F as [|t ts H F IH]; [reflexivity|]. cbn [map rmapM]. rewrite (jterm_text inputs t H). cbn [rbind]. rewrite IH. reflexivity.
Qed.
Lemma jadd_text m x : plain x -> java_call "engine" m x = jtext (js (add m x)).
Proof. intro W. unfold add. cbn [js map je]. rewrite (plain_same x W). reflexivity. Qed.
Lemma jinput_text inputs x v : plain x -> variable_expressible inputs v -> java_input d x v = Ok (map (fun s => jtext (js s)) (input_code d false x v) ++ [""])%list.
Proof. intros W H. unfold java_input. rewrite (jterms_text _ _ _ H). cbn [rbind]. unfold input_code. cbn [map]. rewrite jdeclare_text, jhead_text, !map_app. cbn [map app]. rewrite (jadd_text _ _ W). now rewrite <- !app_assoc. Qed.
Lemma joutput_text inputs x o : plain x -> output_expressible false inputs o -> java_output d x o = Ok (map (fun s => jtext (js s)) (output_code d false x o) ++ [""])%list.
Proof.
  intros W [H _]. unfold java_output. rewrite (jterms_text _ _ _ H). cbn [rbind]. unfold output_code, operators_code. cbn [map]. rewrite jdeclare_text, jhead_text, !map_app. cbn [map app]. rewrite jnorm_text, jdefuzzifier_text, jvalue_text, jflag_text, (jadd_text _ _ W). rewrite <- !app_assoc. cbn [app]. rewrite <- ?app_assoc. reflexivity.
Qed.
Lemma jblock_text x b : plain x -> block_expressible b -> java_block d x b = (map (fun s => jtext (js s)) (block_code d false x b) ++ [""])%list.
Proof.
  intros W H. unfold java_block, block_code, setup_code. cbn [map].
  assert (R : map (fun r => java_call x "addRule" ("Rule.parse(" ++ quoted (rl_text r) ++ ", engine)")) (b_rules b) = map (fun s => jtext (js s)) (rules_code false x b)).
  { unfold rules_code. rewrite map_map. apply map_ext. intro r. change (cpp_fl false "Rule::parse") with "Rule::parse". rewrite <- jone_text. f_equal. cbn [je]. cbn [String.eqb Ascii.eqb Bool.eqb]. cbv iota. cbn [map ja]. rewrite jcall_text by discriminate. reflexivity. }
  rewrite R, jdeclare_text, !map_app, !jnorm_text, (jactivation_text b H), jflag_text. cbn [map app]. rewrite (jadd_text _ _ W). rewrite <- !app_assoc. cbn [app]. rewrite <- ?app_assoc. reflexivity.
Qed.

(** ** statements are well formed *)
Lemma fair_one x m a : java_usable x -> existsb (String.eqb m) methods = true -> fair_expr a -> fair_statement (SMethod x m [a]).
Proof. intros U M F. apply fair_call; auto. Qed.
Lemma fair_flag b : fair_expr (flag b). Proof. apply fair_atom, fair_word, flag_plain. Qed.
Lemma fair_quoted s : literal s -> fair_expr (text s). Proof. intro L. now apply fair_atom, fair_text. Qed.
Lemma fair_value (x : T) : fair_expr (scalar d x). Proof. apply fair_atom, fair_scalar. Qed.
Lemma fair_object class x : java_usable x -> word class -> lacks ":" class = true -> fair_statement (declare false class x).
Proof. apply fair_declare. Qed.
Lemma fair_add m x : java_usable x -> existsb (String.eqb m) methods = true -> fair_statement (add m x).
Proof. intros [U K] M. apply fair_one; [apply engine_java|exact M|]. apply fair_atom, fair_word. now apply usable_plain. Qed.
Lemma fair_head x n v : java_usable x -> variable_expressible n v -> Forall fair_statement (head_code d x v).
Proof.
  intros U (A & B & _). unfold head_code. do 3 (constructor; [apply fair_one; [exact U|reflexivity|first [apply fair_quoted; assumption|apply fair_flag]]|]).
  constructor; [apply fair_call; [exact U|reflexivity|constructor; [apply fair_value|constructor; [apply fair_value|constructor]]]|]. constructor; [apply fair_one; [exact U|reflexivity|apply fair_flag]|constructor].
Qed.
Lemma fair_terms x n v : java_usable x -> variable_expressible n v -> Forall fair_statement (terms_code d false x v).
Proof. intros U (_ & _ & F). apply Forall_map. eapply Forall_impl; [|exact F]. intros t H. apply fair_one; [exact U|reflexivity|]. now apply (fair_term n). Qed.
Lemma fair_input x n v : java_usable x -> variable_expressible n v -> Forall fair_statement (input_code d false x v).
Proof.
  intros U H. unfold input_code. constructor; [apply fair_object; [exact U|now apply word_of|reflexivity]|]. rewrite !Forall_app. split; [now apply (fair_head x n)|]. split; [now apply (fair_terms x n)|]. constructor; [|constructor]. now apply fair_add.
Qed.
Lemma fair_output x n o : java_usable x -> output_expressible false n o -> Forall fair_statement (output_code d false x o).
Proof.
  intros U [H Z]. unfold output_code, operators_code. constructor; [apply fair_object; [exact U|now apply word_of|reflexivity]|]. rewrite !Forall_app. split; [now apply (fair_head x n)|]. split; [|split; [now apply (fair_terms x n)|]].
  - repeat (constructor; [apply fair_one; [exact U|reflexivity|]|]); [apply fair_snorm|apply fair_defuzzifier|apply fair_value|apply fair_flag|constructor].
  - constructor; [|constructor]. now apply fair_add.
Qed.
Lemma fair_rule x s : java_usable x -> literal s -> fair_statement (SMethod x "addRule" [ECall "Rule::parse" [AText s; AWord "engine"]]).
Proof.
  intros U L. apply fair_one; [exact U|reflexivity|]. assert (F : Forall fair [AText s; AWord "engine"]) by (constructor; [now apply fair_text|]; constructor; [apply fair_word, engine_plain|constructor]). destruct (fair_split _ F) as [A B].
  split; [split; [split; [discriminate|reflexivity]|exact A]|]. cbn [je]. cbn [String.eqb Ascii.eqb Bool.eqb]. cbv iota. cbn [cpp_expr]. rewrite B. reflexivity.
Qed.
Lemma fair_block x b : java_usable x -> block_expressible b -> Forall fair_statement (block_code d false x b).
Proof.
  intros U H. assert (H' := H). destruct H' as (A & B & C & _). unfold block_code, setup_code. constructor; [apply fair_object; [exact U|now apply word_of|reflexivity]|]. rewrite !Forall_app. split; [|split].
  - repeat (constructor; [apply fair_one; [exact U|reflexivity|]|]); [now apply fair_quoted|now apply fair_quoted|apply fair_flag|apply fair_tnorm|apply fair_snorm|apply fair_tnorm|now apply fair_activation|constructor].
  - apply Forall_map. eapply Forall_impl; [|exact C]. intros r L. now apply fair_rule.
  - constructor; [|constructor]. now apply fair_add.
Qed.

(** ** the program *)
Lemma java_names e : java_expressible named e -> Forall java_usable (all_names named e).
Proof.
  intros [X K]. destruct (names_fine false named e X) as [U _]. apply Forall_forall. intros x I. split; [rewrite Forall_forall in U; auto|].
  unfold all_names, input_names, output_names, rule_names in *. destruct named.
  - destruct X as (_ & _ & _ & _ & _ & H). specialize (K eq_refl). destruct (H eq_refl) as [_ V]. unfold program_names in K, V. inversion_clear V as [|? ? _ V1]. inversion_clear K as [|? ? _ K1]. assert (V2 := V1). rewrite !Forall_app in V2. destruct V2 as (UI & UO & UB).
    assert (NI : map fst (map (fun p => (cpp_variable_name true "inputVariable" (fst p) (List.length (e_inputs e)) (snd p), snd p)) (indexed (e_inputs e))) = map v_name (e_inputs e)).
    { apply fst_by_value. intros p J. unfold cpp_variable_name. apply usable_valid. rewrite Forall_forall in UI. apply UI. now apply in_map. }
    assert (NO : map fst (map (fun p => (cpp_variable_name true "outputVariable" (fst p) (List.length (e_outputs e)) (o_var (snd p)), snd p)) (indexed (e_outputs e))) = map (fun o => v_name (o_var o)) (e_outputs e)).
    { apply (fst_by_value _ (fun o => v_name (o_var o))). intros p J. unfold cpp_variable_name. apply usable_valid. rewrite Forall_forall in UO. apply UO. now apply (in_map (fun o => v_name (o_var o))). }
    assert (NB : map fst (map (fun p => (cpp_block_name true (fst p) (List.length (e_blocks e)) (snd p), snd p)) (indexed (e_blocks e))) = block_names 0 (List.length (e_blocks e)) (e_blocks e)).
    { rewrite map_map. cbn [fst]. now apply block_names_values. }
    rewrite NI, NO, NB in I. rewrite Forall_forall in K1. exact (K1 x I).
  - clear - I. rewrite (fst_by_number _ (fun i => cpp_numbered "inputVariable" i (List.length (e_inputs e)))) in I by reflexivity. rewrite (fst_by_number _ (fun i => cpp_numbered "outputVariable" i (List.length (e_outputs e)))) in I by reflexivity. rewrite (fst_by_number _ (fun i => cpp_numbered "ruleBlock" i (List.length (e_blocks e)))) in I by reflexivity.
    assert (SH : forall kind n, In x (map (fun i => cpp_numbered kind i n) (seq 0 n)) -> exists s, x = kind ++ s).
    { intros kind n J. apply in_map_iff in J. destruct J as (i & <- & _). destruct (numbered_shape kind i n) as (s & -> & _). now exists s. }
    rewrite !in_app_iff in I. apply not_existsb. destruct I as [I|[I|I]]; apply SH in I; destruct I as [s ->]; reflexivity.
Qed.
Definition java_parts (e : engine T) : list (list statement) := ([engine_code false e] ++ inputs_code d false named e ++ outputs_code d false named e ++ blocks_code d false named e)%list.
Lemma fair_parts e : java_expressible named e -> Forall (Forall fair_statement) (java_parts e).
Proof.
  intro X. assert (U := java_names e X). destruct X as [(LN & LD & XI & XO & XB & _) _]. unfold all_names in U. rewrite !Forall_app in U. destruct U as (UI & UO & UB). unfold java_parts. rewrite !Forall_app. split; [|split; [|split]].
  - constructor; [|constructor]. unfold engine_code. constructor; [apply fair_object; [apply engine_java|now apply word_of|reflexivity]|]. constructor; [apply fair_one; [apply engine_java|reflexivity|now apply fair_quoted]|]. constructor; [apply fair_one; [apply engine_java|reflexivity|now apply fair_quoted]|constructor].
  - apply Forall_map, Forall_forall. intros p I. assert (J := I). apply indexed_in in J. destruct (inputs_each _ _ XI _ J) as [k K]. apply (fair_input _ k); [|exact K]. rewrite Forall_forall in UI. apply UI. unfold input_names. rewrite map_map. cbn [fst]. now apply (in_map (fun p => cpp_variable_name named "inputVariable" (fst p) (List.length (e_inputs e)) (snd p))).
  - apply Forall_map, Forall_forall. intros p I. assert (J := I). apply indexed_in in J. rewrite Forall_forall in XO. apply (fair_output _ (List.length (e_inputs e))); [|auto]. rewrite Forall_forall in UO. apply UO. unfold output_names. rewrite map_map. cbn [fst]. now apply (in_map (fun p => cpp_variable_name named "outputVariable" (fst p) (List.length (e_outputs e)) (o_var (snd p)))).
  - apply Forall_map, Forall_forall. intros p I. assert (J := I). apply indexed_in in J. rewrite Forall_forall in XB. apply fair_block; [|auto]. rewrite Forall_forall in UB. apply UB. unfold rule_names. rewrite map_map. cbn [fst]. now apply (in_map (fun p => cpp_block_name named (fst p) (List.length (e_blocks e)) (snd p))).
Qed.
Lemma jconcat_lines {A} (f : A -> list statement) l : List.concat (map (fun a => map (fun s => jtext (js s)) (f a) ++ [""])%list l) = jlines (map (map js) (map f l)).
Proof. unfold jlines. rewrite !map_map. f_equal. apply map_ext. intro a. now rewrite map_map. Qed.
Lemma java_text e : java_expressible named e ->
  java_export d library named e = Ok (text_of ([("//Code automatically generated with " ++ library ++ ".")%string; ""] ++ jlines (map (map js) (java_parts e)))%list).
Proof.
  intro X. assert (U := java_names e X). destruct X as [(_ & _ & I & O & B & _) _]. unfold all_names in U. rewrite !Forall_app in U. destruct U as (UI & UO & UB). rewrite Forall_forall in UI, UO, UB. unfold java_export.
  rewrite (rmap_pure _ (fun p => map (fun s => jtext (js s)) (input_code d false (cpp_variable_name named "inputVariable" (fst p) (List.length (e_inputs e)) (snd p)) (snd p)) ++ [""])%list).
  2: { intros p Q. assert (J := Q). apply indexed_in in Q. destruct (inputs_each _ _ I _ Q) as [k K]. apply (jinput_text k); [|exact K]. apply usable_plain; apply UI; unfold input_names; rewrite map_map; cbn [fst]; now apply (in_map (fun p => cpp_variable_name named "inputVariable" (fst p) (List.length (e_inputs e)) (snd p))). }
  cbn [rbind]. rewrite (rmap_pure _ (fun p => map (fun s => jtext (js s)) (output_code d false (cpp_variable_name named "outputVariable" (fst p) (List.length (e_outputs e)) (o_var (snd p))) (snd p)) ++ [""])%list).
  2: { intros p Q. assert (J := Q). apply indexed_in in Q. rewrite Forall_forall in O. apply (joutput_text (List.length (e_inputs e))); [|auto]. apply usable_plain; apply UO; unfold output_names; rewrite map_map; cbn [fst]; now apply (in_map (fun p => cpp_variable_name named "outputVariable" (fst p) (List.length (e_outputs e)) (o_var (snd p)))). }
  cbn [rbind]. unfold java_parts. rewrite !map_app. unfold jlines at 1. rewrite !map_app, !concat_app. f_equal. f_equal. unfold engine_code. cbn [app map List.concat].
  do 6 (apply f_equal2; [reflexivity|]). apply f_equal2; [apply jconcat_lines|]. apply f_equal2; [apply jconcat_lines|].
  rewrite flat_map_concat_map. unfold blocks_code. rewrite !map_map. f_equal. apply map_ext_in. intros p Q. assert (J := Q). apply indexed_in in Q. rewrite Forall_forall in B. rewrite map_map. apply jblock_text; [|auto]. apply usable_plain; apply UB; unfold rule_names; rewrite map_map; cbn [fst]; now apply (in_map (fun p => cpp_block_name named (fst p) (List.length (e_blocks e)) (snd p))).
Qed.
(** the statements build the engine: by the theorem about C++ *)
Lemma statements_run e : expressible false named e ->
  (do st <- rfold run_statement start (SUsing "fuzzylite" :: List.concat (java_parts e)); match cs_engine st, cs_objects st with Some (_, e), [] => Ok e | _, _ => broken end) = rebuilt d e.
Proof.
  intro X. destruct (code_runs d "" false named N D SIGN e eq_refl X) as (text & E & R). rewrite (program_text d false N "" named e X) in E. injection E as <-. rewrite <- R. unfold run_cpp.
  destruct (names_fine false named e X) as [U _]. assert (X' := X). destruct X' as (LN & LD & XI & XO & XB & _). unfold all_names in U. rewrite !Forall_app in U. destruct U as (UI & UO & UB).
  set (parts := ([[SUsing "fuzzylite"]] ++ [engine_code false e] ++ inputs_code d false named e ++ outputs_code d false named e ++ blocks_code d false named e)%list).
  assert (G : Forall (Forall good_statement) parts).
  { unfold parts. rewrite !Forall_app. split; [repeat constructor; discriminate|]. split; [|split; [|split]].
    - constructor; [|constructor]. unfold engine_code. constructor; [apply declare_good; [apply engine_usable|now apply word_of]|]. constructor; [apply one_good; [apply engine_usable|now apply word_of|exact LN]|]. constructor; [apply one_good; [apply engine_usable|now apply word_of|exact LD]|constructor].
    - apply concat_good. intros p I. assert (J := I). apply indexed_in in J. destruct (inputs_each _ _ XI _ J) as [k K]. apply (input_good d false N D SIGN _ k); [|exact K]. rewrite Forall_forall in UI. apply UI. unfold input_names. rewrite map_map. cbn [fst]. now apply (in_map (fun p => cpp_variable_name named "inputVariable" (fst p) (List.length (e_inputs e)) (snd p))).
    - apply concat_good. intros p I. assert (J := I). apply indexed_in in J. rewrite Forall_forall in XO. apply (output_good d false N D SIGN _ (List.length (e_inputs e))); [|auto]. rewrite Forall_forall in UO. apply UO. unfold output_names. rewrite map_map. cbn [fst]. now apply (in_map (fun p => cpp_variable_name named "outputVariable" (fst p) (List.length (e_outputs e)) (o_var (snd p)))).
    - apply concat_good. intros p I. assert (J := I). apply indexed_in in J. rewrite Forall_forall in XB. apply (block_good d false N D); [|auto]. rewrite Forall_forall in UB. apply UB. unfold rule_names. rewrite map_map. cbn [fst]. now apply (in_map (fun p => cpp_block_name named (fst p) (List.length (e_blocks e)) (snd p))). }
  assert (C : clean (text_of ([("//Code automatically generated with " ++ "" ++ ".")%string; ""] ++ lines_of parts)%list) (flat_map (fun s => statement_tokens s ++ [TSymbol ";"])%list (List.concat parts))).
  { rewrite text_of_app. change (flat_map (fun s => statement_tokens s ++ [TSymbol ";"])%list (List.concat parts)) with ([] ++ flat_map (fun s => statement_tokens s ++ [TSymbol ";"])%list (List.concat parts))%list. apply clean_after; [|now apply clean_parts]. lit. }
  match goal with |- context [tokenize ?t] => change t with (text_of ([("//Code automatically generated with " ++ "" ++ ".")%string; ""] ++ lines_of parts)%list) end. rewrite (tokenize_clean _ _ C). cbn [option_bind]. rewrite parse_statements. reflexivity.
Qed.
Theorem java_runs e : one_line library -> java_expressible named e -> exists text, java_export d library named e = Ok text /\ run_java text = rebuilt d e.
Proof.
  intros L X. eexists. split; [now apply java_text|]. unfold run_java. assert (F := fair_parts e X).
  assert (G : Forall (Forall jgood) (map (map js) (java_parts e))).
  { apply Forall_map. eapply Forall_impl; [|exact F]. intros ss H. apply Forall_map. eapply Forall_impl; [|exact H]. now intros s [Q _]. }
  assert (C : clean (text_of ([("//Code automatically generated with " ++ library ++ ".")%string; ""] ++ jlines (map (map js) (java_parts e)))%list) (flat_map (fun s => jtokens s ++ [TSymbol ";"])%list (List.concat (map (map js) (java_parts e))))).
  { rewrite text_of_app. rewrite <- (app_nil_l (flat_map _ _)). apply clean_after; [|now apply clean_jparts].
    change (text_of [("//Code automatically generated with " ++ library ++ ".")%string; ""]) with (("//Code automatically generated with " ++ library ++ ".") ++ (char newline ++ char newline)).
    replace (("//Code automatically generated with " ++ library ++ ".") ++ (char newline ++ char newline)) with (("//" ++ ("Code automatically generated with " ++ library ++ ".") ++ char newline) ++ char newline) by (now rewrite !sapp_assoc).
    change (@nil token) with ([] ++ [] : list token)%list. apply clean_after; [|lit]. apply clean_comment. unfold one_line in *. rewrite lacks_sforall in *. rewrite !sforall_app, L. reflexivity. }
  rewrite (tokenize_clean _ _ C). cbn [option_bind]. rewrite java_statements by (now apply Forall_concat). cbn [option_bind]. rewrite <- concat_map.
  rewrite (all_fair js cpp_statement); [exact (statements_run e (proj1 X))|]. apply Forall_concat in F. eapply Forall_impl; [|exact F]. now intros s [_ Q].
Qed.
End Java.
