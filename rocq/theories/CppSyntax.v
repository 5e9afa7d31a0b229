(** Programs of the part of C++ described in SpecCpp, as texts. *)
From Coq Require Import ZArith List Bool String Ascii Arith Lia.
From Verif Require Import Base Op Norm Hedge Shape Discrete Defuzz Aggregated Text Function Rule Var Activation Engine Factory SpecText TextProofs TextProofs2
  Fll SpecFll FllText Fis FclText Cpp SpecCpp.
Import ListNotations.
Local Open Scope string_scope.

Definition atom_text (a : atom) : string := match a with AText s => quoted s | AWord w => w | ANegative w => String "-" w end.
Definition expr_text (e : expr) : string :=
  match e with
  | EAtom a => atom_text a
  | ENew c [] => "new " ++ c
  | ENew c l => "new " ++ c ++ "(" ++ join (map atom_text l) ", " ++ ")"
  | ECall f l => f ++ "(" ++ join (map atom_text l) ", " ++ ")"
  end.
Definition statement_text (s : statement) : string :=
  match s with
  | SUsing n => "using namespace " ++ n ++ ";"
  | SDeclare t x c => t ++ "* " ++ x ++ " = new " ++ c ++ ";"
  | SMethod x m l => x ++ "->" ++ m ++ "(" ++ join (map expr_text l) ", " ++ ");"
  end.
Definition word (w : string) : Prop := w <> "" /\ sforall word_char w = true.
Definition good_atom (a : atom) : Prop := match a with AText s => literal s | AWord w | ANegative w => word w end.
Definition good_expr (e : expr) : Prop :=
  match e with EAtom a => good_atom a | ENew c l | ECall c l => word c /\ Forall good_atom l end.
Definition good_statement (s : statement) : Prop :=
  match s with SUsing n => word n | SDeclare t x c => word t /\ word x /\ word c | SMethod x m l => word x /\ word m /\ Forall good_expr l end.

(** ** tokens *)
Definition commas (l : list (list token)) : list token :=
  match l with [] => [] | x :: r => (x ++ flat_map (fun y => TSymbol "," :: y) r)%list end.
Definition atom_tokens (a : atom) : list token := match a with AText s => [TText s] | AWord w => [TWord w] | ANegative w => [TSymbol "-"; TWord w] end.
Definition expr_tokens (e : expr) : list token :=
  match e with
  | EAtom a => atom_tokens a
  | ENew c [] => [TWord "new"; TWord c]
  | ENew c l => TWord "new" :: TWord c :: TSymbol "(" :: commas (map atom_tokens l) ++ [TSymbol ")"]
  | ECall f l => TWord f :: TSymbol "(" :: commas (map atom_tokens l) ++ [TSymbol ")"]
  end.
Definition statement_tokens (s : statement) : list token :=
  match s with
  | SUsing n => [TWord "using"; TWord "namespace"; TWord n]
  | SDeclare t x c => [TWord t; TSymbol "*"; TWord x; TSymbol "="; TWord "new"; TWord c]
  | SMethod x m l => TWord x :: TSymbol "-" :: TSymbol ">" :: TWord m :: TSymbol "(" :: commas (map expr_tokens l) ++ [TSymbol ")"]
  end.

(** ** lexing *)
Definition clean (s : string) (x : list token) : Prop := forall ts, lex_from (Lexer InCode "" ts) s = Some (Lexer InCode "" (ts ++ x)).
Definition lexes (s : string) (x : list token) : Prop := forall ts, exists w ts', lex_from (Lexer InCode "" ts) s = Some (Lexer InCode w ts') /\ flush w ts' = (ts ++ x)%list.
Definition apart (s : string) : bool := match s with "" => false | String c _ => negb (word_char c) end.
Lemma lex_app a : forall b st, lex_from st (a ++ b) = match lex_from st a with Some st => lex_from st b | None => None end.
Proof. induction a as [|c a IH]; intros b st; [reflexivity|]. cbn [append lex_from]. destruct (lex_char st c); [apply IH|reflexivity]. Qed.
Lemma clean_lexes s x : clean s x -> lexes s x.
Proof. intros H ts. exists "", (ts ++ x)%list. rewrite H. split; reflexivity. Qed.
Lemma lexes_after a x b y : clean a x -> lexes b y -> lexes (a ++ b) (x ++ y).
Proof. intros A B ts. rewrite lex_app, A. destruct (B (ts ++ x)%list) as (w & ts' & E & F). exists w, ts'. split; [exact E|]. now rewrite F, app_assoc. Qed.
Lemma clean_after a x b y : clean a x -> clean b y -> clean (a ++ b) (x ++ y).
Proof. intros A B ts. now rewrite lex_app, A, B, app_assoc. Qed.
Lemma flush_apart b w ts : apart b = true -> lex_from (Lexer InCode w ts) b = lex_from (Lexer InCode "" (flush w ts)) b.
Proof.
  destruct b as [|c b]; [discriminate|]. cbn [apart lex_from]. intro H. apply negb_true_iff in H. unfold lex_char. rewrite H. reflexivity.
Qed.
Lemma clean_apart a x b y : lexes a x -> apart b = true -> clean b y -> clean (a ++ b) (x ++ y).
Proof. intros A N B ts. rewrite lex_app. destruct (A ts) as (w & ts' & E & F). rewrite E, flush_apart by exact N. now rewrite B, F, app_assoc. Qed.
Lemma lexes_apart a x b y : lexes a x -> apart b = true -> lexes b y -> lexes (a ++ b) (x ++ y).
Proof.
  intros A N B ts. rewrite lex_app. destruct (A ts) as (w & ts' & E & F). rewrite E, flush_apart, F by exact N. destruct (B (ts ++ x)%list) as (w2 & ts2 & E2 & F2). exists w2, ts2. split; [exact E2|]. now rewrite F2, app_assoc.
Qed.
Lemma lex_word s : sforall word_char s = true -> forall w ts, lex_from (Lexer InCode w ts) s = Some (Lexer InCode (w ++ s) ts).
Proof.
  induction s as [|c s IH]; intros H w ts; [now rewrite sapp_nil_r|]. cbn [sforall] in H. apply andb_true_iff in H. destruct H as [H1 H2]. cbn [lex_from]. unfold lex_char. rewrite H1. rewrite (IH H2). now rewrite sapp_assoc.
Qed.
Lemma lexes_word w : word w -> lexes w [TWord w].
Proof. intros [N H] ts. exists w, ts. rewrite lex_word by exact H. split; [reflexivity|]. unfold flush. destruct w; [congruence|reflexivity]. Qed.
Lemma lex_text s : literal s -> forall w ts, lex_from (Lexer InText w ts) s = Some (Lexer InText (w ++ s) ts).
Proof.
  induction s as [|c s IH]; intros (A & B & C) w ts; [now rewrite sapp_nil_r|]. cbn [lacks] in A, B, C. apply andb_true_iff in A, B, C. destruct A as [A1 A2], B as [B1 B2], C as [C1 C2]. apply negb_true_iff in A1, B1, C1.
  cbn [lex_from]. unfold lex_char. rewrite A1, B1, C1. cbn [orb]. rewrite IH by (repeat split; assumption). now rewrite sapp_assoc.
Qed.
Lemma clean_quoted s : literal s -> clean (quoted s) [TText s].
Proof.
  intros L ts. unfold quoted, dq. rewrite lex_app. change (lex_from (Lexer InCode "" ts) (char "034")) with (Some (Lexer InText "" ts)). cbv iota. rewrite lex_app, lex_text by exact L. reflexivity.
Qed.
Ltac lit := let ts := fresh "ts" in intro ts; cbv -[app]; rewrite <- ?app_assoc, ?app_nil_r; reflexivity.
Lemma lexes_atom a : good_atom a -> lexes (atom_text a) (atom_tokens a).
Proof.
  destruct a; cbn [good_atom atom_text atom_tokens]; intro G; [apply clean_lexes, clean_quoted, G|now apply lexes_word|].
  change (String "-" w) with ("-" ++ w). change [TSymbol "-"; TWord w] with ([TSymbol "-"] ++ [TWord w])%list. apply lexes_after; [lit|now apply lexes_word].
Qed.
Lemma lexes_join {A} (text : A -> string) (toks : A -> list token) (l : list A) : Forall (fun a => lexes (text a) (toks a)) l -> lexes (join (map text l) ", ") (commas (map toks l)).
Proof.
  intro F. destruct F as [|a l H F]; [apply clean_lexes; lit|]. revert a H. induction F as [|b l H2 F IH]; intros a H.
  - cbn [map join commas flat_map]. now rewrite app_nil_r.
  - change (join (map text (a :: b :: l)) ", ") with (text a ++ ", " ++ join (map text (b :: l)) ", "). change (commas (map toks (a :: b :: l))) with (toks a ++ ([TSymbol ","] ++ commas (map toks (b :: l))))%list.
    apply lexes_apart; [exact H|reflexivity|]. apply lexes_after; [lit|]. now apply IH.
Qed.
Lemma lexes_atoms l : Forall good_atom l -> lexes (join (map atom_text l) ", ") (commas (map atom_tokens l)).
Proof. intro F. apply lexes_join. eapply Forall_impl; [|exact F]. apply lexes_atom. Qed.
Lemma lexes_call c l : word c -> Forall good_atom l -> lexes (c ++ "(" ++ join (map atom_text l) ", " ++ ")") (TWord c :: TSymbol "(" :: commas (map atom_tokens l) ++ [TSymbol ")"]).
Proof.
  intros W F. change (TWord c :: TSymbol "(" :: commas (map atom_tokens l) ++ [TSymbol ")"])%list with ([TWord c] ++ ([TSymbol "("] ++ (commas (map atom_tokens l) ++ [TSymbol ")"])))%list.
  apply lexes_apart; [now apply lexes_word|reflexivity|]. apply lexes_after; [lit|]. apply lexes_apart; [now apply lexes_atoms|reflexivity|apply clean_lexes; lit].
Qed.
Lemma lexes_expr e : good_expr e -> lexes (expr_text e) (expr_tokens e).
Proof.
  destruct e as [a|c l|f l]; cbn [good_expr].
  - apply lexes_atom.
  - intros [W F]. destruct l as [|a l].
    + cbn [expr_text expr_tokens]. change [TWord "new"; TWord c] with ([TWord "new"] ++ [TWord c])%list. apply lexes_after; [lit|now apply lexes_word].
    + change (expr_text (ENew c (a :: l))) with ("new " ++ (c ++ "(" ++ join (map atom_text (a :: l)) ", " ++ ")")). change (expr_tokens (ENew c (a :: l))) with ([TWord "new"] ++ (TWord c :: TSymbol "(" :: commas (map atom_tokens (a :: l)) ++ [TSymbol ")"]))%list. apply lexes_after; [lit|]. now apply lexes_call.
  - intros [W F]. cbn [expr_text expr_tokens]. now apply lexes_call.
Qed.
Lemma clean_statement s : good_statement s -> clean (statement_text s) (statement_tokens s ++ [TSymbol ";"]).
Proof.
  destruct s as [n|t x c|x m l]; cbn [good_statement statement_text statement_tokens].
  - intro W. change ([TWord "using"; TWord "namespace"; TWord n] ++ [TSymbol ";"])%list with ([TWord "using"; TWord "namespace"] ++ ([TWord n] ++ [TSymbol ";"]))%list. apply clean_after; [lit|]. apply clean_apart; [now apply lexes_word|reflexivity|lit].
  - intros (W1 & W2 & W3). change ([TWord t; TSymbol "*"; TWord x; TSymbol "="; TWord "new"; TWord c] ++ [TSymbol ";"])%list with ([TWord t] ++ ([TSymbol "*"] ++ ([TWord x] ++ ([TSymbol "="; TWord "new"] ++ ([TWord c] ++ [TSymbol ";"])))))%list.
    apply clean_apart; [now apply lexes_word|reflexivity|]. apply clean_after; [lit|]. apply clean_apart; [now apply lexes_word|reflexivity|]. apply clean_after; [lit|]. apply clean_apart; [now apply lexes_word|reflexivity|lit].
  - intros (W1 & W2 & F). change ((TWord x :: TSymbol "-" :: TSymbol ">" :: TWord m :: TSymbol "(" :: commas (map expr_tokens l) ++ [TSymbol ")"]) ++ [TSymbol ";"])%list with ([TWord x] ++ ([TSymbol "-"; TSymbol ">"] ++ ([TWord m] ++ ([TSymbol "("] ++ ((commas (map expr_tokens l) ++ [TSymbol ")"]) ++ [TSymbol ";"])))))%list.
    apply clean_apart; [now apply lexes_word|reflexivity|]. apply clean_after; [lit|]. apply clean_apart; [now apply lexes_word|reflexivity|]. apply clean_after; [lit|]. rewrite <- app_assoc. apply clean_apart; [|reflexivity|lit].
    apply lexes_join. eapply Forall_impl; [|exact F]. apply lexes_expr.
Qed.
Lemma clean_lines ss : Forall good_statement ss -> clean (text_of (map statement_text ss)) (flat_map (fun s => statement_tokens s ++ [TSymbol ";"])%list ss).
Proof.
  intro F. induction F as [|s ss G F IH]; [lit|]. cbn [map flat_map]. change (text_of (statement_text s :: map statement_text ss)) with (statement_text s ++ (char newline ++ text_of (map statement_text ss))).
  apply clean_after; [now apply clean_statement|]. rewrite <- (app_nil_l (flat_map _ ss)). apply clean_after; [lit|exact IH].
Qed.
Lemma clean_comment s : one_line s -> clean ("//" ++ s ++ char newline) [].
Proof.
  intros L ts. cbn [append lex_from lex_char word_char]. change (lex_from (Lexer InComment "" ts) (s ++ char newline) = Some (Lexer InCode "" (ts ++ []))). rewrite app_nil_r. unfold one_line in L. induction s as [|c s IH]; [reflexivity|]. cbn [lacks] in L. apply andb_true_iff in L. destruct L as [L1 L2]. apply negb_true_iff in L1. cbn [append lex_from]. unfold lex_char. rewrite L1. now apply IH.
Qed.
Lemma tokenize_clean s x : clean s x -> tokenize s = Some x.
Proof. intro H. unfold tokenize. now rewrite H. Qed.

(** ** parsing *)
Definition solid (c : ascii) (ts : list token) : Prop := forall open cur rest, parts c open cur (ts ++ rest) = parts c open (cur ++ ts) rest.
Definition hidden (c : ascii) (ts : list token) : Prop := forall open cur rest, parts c (Datatypes.S open) cur (ts ++ rest) = parts c (Datatypes.S open) (cur ++ ts) rest.
Lemma solid_hidden c ts : solid c ts -> hidden c ts. Proof. intros H open. apply H. Qed.
Lemma solid_app c a b : solid c a -> solid c b -> solid c (a ++ b).
Proof. intros A B open cur rest. now rewrite <- app_assoc, A, B, app_assoc. Qed.
Lemma hidden_app c a b : hidden c a -> hidden c b -> hidden c (a ++ b).
Proof. intros A B open cur rest. now rewrite <- app_assoc, A, B, app_assoc. Qed.
Lemma solid_atom c a : Ascii.eqb "-" c = false -> solid c (atom_tokens a).
Proof. intros N open cur rest. destruct a; cbn [atom_tokens app parts]; try reflexivity. rewrite N. cbn [andb]. cbn. now rewrite <- app_assoc. Qed.
Lemma hidden_symbol c x : Ascii.eqb x "(" = false -> Ascii.eqb x ")" = false -> hidden c [TSymbol x].
Proof. intros A B open cur rest. cbn [app parts]. rewrite A, B. rewrite andb_false_r. reflexivity. Qed.
Lemma hidden_commas c l : Forall (hidden c) l -> hidden c (commas l).
Proof.
  intro F. destruct F as [|x l H F]; [intros open cur rest; now rewrite app_nil_r|]. cbn [commas]. apply hidden_app; [exact H|]. clear H. induction F as [|y l H F IH]; [intros open cur rest; now rewrite app_nil_r|].
  cbn [flat_map]. apply hidden_app; [|exact IH]. apply (hidden_app c [TSymbol ","] y); [now apply hidden_symbol|exact H].
Qed.
Lemma solid_paren c ts : hidden c ts -> Ascii.eqb "(" c = false -> Ascii.eqb ")" c = false -> solid c (TSymbol "(" :: ts ++ [TSymbol ")"]).
Proof.
  intros H A B open cur rest. cbn [app parts]. rewrite A. cbn [andb]. change (Ascii.eqb "(" "(") with true. cbv iota. rewrite <- app_assoc, H. cbn [app parts]. rewrite B. cbn [andb]. change (Ascii.eqb ")" "(") with false. change (Ascii.eqb ")" ")") with true. cbv iota. cbn [Nat.pred]. now rewrite <- !app_assoc.
Qed.
Lemma solid_one c w : solid c [TWord w]. Proof. intros open cur rest. reflexivity. Qed.
Lemma solid_call c f l : Ascii.eqb "-" c = false -> Ascii.eqb "(" c = false -> Ascii.eqb ")" c = false -> solid c (TWord f :: TSymbol "(" :: commas (map atom_tokens l) ++ [TSymbol ")"]).
Proof.
  intros A B C. apply (solid_app c [TWord f]); [apply solid_one|]. apply solid_paren; auto. apply hidden_commas. apply Forall_forall. intros x I. apply in_map_iff in I. destruct I as (a & <- & _). now apply solid_hidden, solid_atom.
Qed.
Lemma solid_expr c e : Ascii.eqb "-" c = false -> Ascii.eqb "(" c = false -> Ascii.eqb ")" c = false -> solid c (expr_tokens e).
Proof.
  intros A B C. destruct e as [a|k l|f l]; [now apply solid_atom| |now apply solid_call]. destruct l as [|a l].
  - apply (solid_app c [TWord "new"] [TWord k]); apply solid_one.
  - apply (solid_app c [TWord "new"]); [apply solid_one|]. now apply (solid_call c k (a :: l)).
Qed.
Lemma parts_commas l : l <> [] -> Forall (solid ",") l -> parts "," 0 [] (commas l) = l.
Proof.
  intros N F. destruct F as [|x l H F]; [congruence|]. clear N. cbn [commas]. rewrite H. cbn [app]. clear H. revert x. induction F as [|y l H F IH]; intro x; [reflexivity|].
  cbn [flat_map app parts]. change (Ascii.eqb "," "," && Nat.eqb 0 0)%bool with true. cbv iota. rewrite H. cbn [app]. now rewrite IH.
Qed.
Lemma inside_paren ts : inside (ts ++ [TSymbol ")"]) = Some ts.
Proof. unfold inside. rewrite rev_app_distr. cbn [rev app]. now rewrite rev_involutive. Qed.
Lemma parse_atom_tokens a : parse_atom (atom_tokens a) = Some a.
Proof. destruct a; reflexivity. Qed.
Lemma all_some_map {A B C} (f : B -> option C) (g : A -> B) (h : A -> C) l : (forall a, In a l -> f (g a) = Some (h a)) -> all_some f (map g l) = Some (map h l).
Proof. intro H. induction l as [|a l IH]; [reflexivity|]. cbn [map all_some fold_right]. rewrite H by (now left). change (fold_right _ (Some []) (map g l)) with (all_some f (map g l)). rewrite IH; [reflexivity|]. intros b I. apply H. now right. Qed.
Lemma parse_list_tokens {A} (item : list token -> option A) (toks : A -> list token) (l : list A) : (forall a, item (toks a) = Some a /\ solid "," (toks a) /\ toks a <> []) -> parse_list item (commas (map toks l)) = Some l.
Proof.
  intro H. unfold parse_list. destruct l as [|a l]; [reflexivity|]. assert (N : commas (map toks (a :: l)) <> []) by (cbn [map commas]; destruct (H a) as (_ & _ & Q); destruct (toks a); [congruence|discriminate]).
  destruct (commas (map toks (a :: l))) eqn:E; [congruence|]. rewrite <- E. rewrite parts_commas; [|discriminate|].
  - rewrite (all_some_map item toks (fun x => x)); [now rewrite map_id|]. intros x _. apply H.
  - apply Forall_forall. intros x I. apply in_map_iff in I. destruct I as (y & <- & _). apply H.
Qed.
Lemma parse_atoms l : parse_list parse_atom (commas (map atom_tokens l)) = Some l.
Proof. apply parse_list_tokens. intro a. split; [apply parse_atom_tokens|]. split; [now apply solid_atom|]. destruct a; discriminate. Qed.
Lemma parse_expr_tokens e : parse_expr (expr_tokens e) = Some e.
Proof.
  destruct e as [a|k [|a l]|f l].
  - destruct a; reflexivity.
  - reflexivity.
  - change (expr_tokens (ENew k (a :: l))) with (TWord "new" :: TWord k :: TSymbol "(" :: commas (map atom_tokens (a :: l)) ++ [TSymbol ")"])%list. cbn [parse_expr]. change (String.eqb "new" "new") with true. cbv iota. rewrite inside_paren. cbn [option_bind]. now rewrite parse_atoms.
  - cbn [expr_tokens parse_expr]. rewrite inside_paren. cbn [option_bind]. now rewrite parse_atoms.
Qed.
Lemma parse_exprs l : parse_list parse_expr (commas (map expr_tokens l)) = Some l.
Proof. apply parse_list_tokens. intro e. split; [apply parse_expr_tokens|]. split; [now apply solid_expr|]. destruct e as [[]|? []|]; discriminate. Qed.
Lemma parse_statement_tokens s : parse_statement (statement_tokens s) = Some s.
Proof.
  destruct s as [n|t x c|x m l]; [reflexivity|reflexivity|]. cbn [statement_tokens parse_statement]. rewrite inside_paren. cbn [option_bind]. now rewrite parse_exprs.
Qed.
Lemma solid_statement s : solid ";" (statement_tokens s).
Proof.
  destruct s as [n|t x c|x m l]; try (intros open cur rest; cbn; now rewrite <- ?app_assoc).
  cbn [statement_tokens]. change (TWord x :: TSymbol "-" :: TSymbol ">" :: TWord m :: TSymbol "(" :: commas (map expr_tokens l) ++ [TSymbol ")"])%list with ([TWord x; TSymbol "-"; TSymbol ">"; TWord m] ++ (TSymbol "(" :: commas (map expr_tokens l) ++ [TSymbol ")"]))%list.
  apply solid_app; [intros open cur rest; cbn; now rewrite <- ?app_assoc|]. apply solid_paren; [|reflexivity|reflexivity]. apply hidden_commas. apply Forall_forall. intros y I. apply in_map_iff in I. destruct I as (e & <- & _). now apply solid_hidden, solid_expr.
Qed.
Lemma parse_statements ss : parse_program (flat_map (fun s => statement_tokens s ++ [TSymbol ";"])%list ss) = Some ss.
Proof.
  unfold parse_program. assert (E : parts ";" 0 [] (flat_map (fun s => statement_tokens s ++ [TSymbol ";"])%list ss) = (map statement_tokens ss ++ [[]])%list).
  { induction ss as [|s ss IH]; [reflexivity|]. cbn [flat_map map app]. rewrite <- app_assoc, solid_statement. cbn [app parts]. change (Ascii.eqb ";" ";" && Nat.eqb 0 0)%bool with true. cbv iota. now rewrite IH. }
  rewrite E, last_last, removelast_last. rewrite (all_some_map _ _ (fun x => x)); [now rewrite map_id|]. intros s _. apply parse_statement_tokens.
Qed.
