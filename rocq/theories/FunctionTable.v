(** The registered operators and functions: facts about the default table; binary64 constants; exhibits. *)
From Coq Require Import ZArith List Bool String Ascii Arith Lia Reals Lra.
From Flocq Require Import Core BinarySingleNaN.
From Verif Require Import Base Op F64 Text SpecText TextProofs TextProofs2 TextF64 Function SpecFormula FunctionProofs FunctionProofs2.
Import ListNotations.
Local Open Scope string_scope.

(** * lists of names *)
Lemma kind_in_In sg t k : kind_in sg t = Some k -> In (t, k) sg.
Proof. induction sg as [|[s x] sg IH]; simpl; [discriminate|]. destruct (String.eqb_spec s t) as [->|]; auto. intro E. injection E as ->. auto. Qed.
Definition level_eqb (a b : option (Z * bool)) : bool :=
  match a, b with Some (p, x), Some (q, y) => (negb (p =? q)%Z || Bool.eqb x y)%bool | _, _ => true end.
Definition prefix_top_ok (k l : kind) : bool := match k, prec_of l with KPrefix q, Some (r, _) => (r <=? q)%Z | _, _ => true end.
Definition delim_free (sg : signature) : bool := forallb (fun p => negb (is_delimiter (fst p))) sg.
Definition consistentb (sg : signature) : bool :=
  (delim_free sg && forallb (fun a => forallb (fun b => level_eqb (prec_of (snd a)) (prec_of (snd b)) && prefix_top_ok (snd a) (snd b)) sg) sg)%bool.
Lemma consistentb_ok sg : consistentb sg = true -> consistent sg.
Proof.
  unfold consistentb. intro H. apply andb_prop in H. destruct H as [HD HP]. unfold delim_free in HD. rewrite forallb_forall in HD, HP. split; [|split].
  - intros t D. destruct (kind_in sg t) eqn:E; auto. apply kind_in_In in E. apply HD in E. simpl in E. destruct D as [-> | [-> | ->]]; discriminate.
  - intros s t k l q b c Es Et Ek El. apply kind_in_In in Es, Et. specialize (HP _ Es). rewrite forallb_forall in HP. specialize (HP _ Et). apply andb_prop in HP. destruct HP as [HP _]. simpl in HP.
    rewrite Ek, El in HP. unfold level_eqb in HP. rewrite Z.eqb_refl in HP. now apply eqb_prop.
  - intros s t q l r b Es Et El. apply kind_in_In in Es, Et. specialize (HP _ Es). rewrite forallb_forall in HP. specialize (HP _ Et). apply andb_prop in HP. destruct HP as [_ HP]. simpl in HP.
    unfold prefix_top_ok in HP. rewrite El in HP. now apply Z.leb_le.
Qed.
Definition kind_eqb (a b : kind) : bool :=
  match a, b with
  | KPrefix p, KPrefix q => (p =? q)%Z
  | KInfix p x, KInfix q y => ((p =? q)%Z && Bool.eqb x y)%bool
  | KFun1, KFun1 | KFun2, KFun2 => true
  | _, _ => false
  end.
Lemma kind_eqb_ok a b : kind_eqb a b = true -> a = b.
Proof. destruct a, b; simpl; try discriminate; auto; intro H. { apply Z.eqb_eq in H. congruence. } apply andb_prop in H. destruct H as [H1 H2]. apply Z.eqb_eq in H1. apply eqb_prop in H2. congruence. Qed.
Definition agrees (sg sg' : signature) : bool :=
  forallb (fun p => match kind_in sg' (fst p) with Some k => kind_eqb (snd p) k | None => false end) sg.
Lemma agrees_ok sg sg' t k : agrees sg sg' = true -> kind_in sg t = Some k -> kind_in sg' t = Some k.
Proof. unfold agrees. rewrite forallb_forall. intros H E. apply kind_in_In in E. apply H in E. simpl in E. destruct (kind_in sg' t); [|discriminate]. apply kind_eqb_ok in E. congruence. Qed.
Lemma agrees_both sg sg' t : agrees sg sg' = true -> agrees sg' sg = true -> kind_in sg t = kind_in sg' t.
Proof. intros A B. destruct (kind_in sg t) eqn:E; [symmetry; eapply agrees_ok; eauto|]. destruct (kind_in sg' t) eqn:E'; auto. eapply agrees_ok in E'; eauto. congruence. Qed.

Lemma renders_ext sg sg' p e ts : (forall t, kind_in sg t = kind_in sg' t) -> Renders sg p e ts -> Renders sg' p e ts.
Proof.
  intros X. induction 1 as [p t K D|p q e ts R IH|p op q e ts K L R IH|p op q a b ts us K L Ra IHa Rb IHb|p op q a b ts us K L Ra IHa Rb IHb
                 |p q f e ts K R IH|p q r f a b ts us K Ra IHa Rb IHb]; try rewrite X in K.
  - now constructor. - econstructor; eauto. - econstructor; eauto. - eapply r_left; eauto. - eapply r_right; eauto. - econstructor; eauto. - econstructor; eauto.
Qed.
Lemma wf_ext sg sg' e : (forall t, kind_in sg t = kind_in sg' t) -> well_formed sg e -> well_formed sg' e.
Proof.
  intro X. induction e; simpl; try rewrite X; auto.
  - intros [[q K] W]. split; eauto.
  - intros [(q & l & K) [Wa Wb]]. repeat split; eauto.
  - intros [K W]. split; auto.
  - intros [K [Wa Wb]]. repeat split; auto.
Qed.
Lemma minimal_ext sg sg' e : (forall t, kind_in sg t = kind_in sg' t) -> forall p, minimal sg p e = minimal sg' p e.
Proof. intro X. induction e; intro p; simpl; rewrite ?X, ?IHe, ?IHe1, ?IHe2; auto; destruct (kind_in sg' op) as [[q|q [|]| |]|]; rewrite ?IHe, ?IHe1, ?IHe2; auto. Qed.

Section DT.
Context {T : Type} `{S : Scalar T}.
Notation dt := (@default_table T S).
Definition names_of_table : list (string * kind) := Eval cbv in sig_of dt.
Lemma dt_sig : sig_of dt = names_of_table. Proof. reflexivity. Qed.
Lemma dt_documented t : kind_in documented t = kind_in (sig_of dt) t.
Proof. rewrite dt_sig. apply agrees_both; vm_compute; reflexivity. Qed.
Lemma dt_consistent : consistent (sig_of dt).
Proof. rewrite dt_sig. apply consistentb_ok. vm_compute. reflexivity. Qed.
Lemma get_object_In (tb : table T) k e : get_object tb k = Some e -> In (k, e) tb.
Proof. induction tb as [|[k' e'] tb IH]; simpl; [discriminate|]. destruct (String.eqb_spec k' k) as [->|]; auto. intro E. injection E as ->. auto. Qed.
Lemma dt_sane : sane dt.
Proof.
  intros k e G. apply get_object_In in G. assert (F : Forall (fun p => el_name (snd p) = fst p /\ sane_element (snd p)) dt).
  { repeat (apply Forall_cons; [split; [reflexivity|]; unfold sane_element; cbn; try (split; [reflexivity|]; intro; lia); reflexivity|]). apply Forall_nil. }
  rewrite Forall_forall in F. apply (F _ G).
Qed.
Lemma dt_empty : get_object dt "" = None. Proof. reflexivity. Qed.
Definition special_chars : list ascii := ["("; ")"; ","; "!"; "%"; "*"; "+"; "-"; "/"; "^"; "~"]%char.
Lemma dt_spaced : spaced_by dt special_chars.
Proof. split; [reflexivity|]. repeat constructor. Qed.
(** names of functions and word operators are single tokens in the text *)
Definition lexemeb (w : string) : bool :=
  (match w with String c "" => one_of special_chars c | _ => false end || (negb (sempty w) && sforall (fun c => negb (is_space c) && negb (one_of special_chars c)) w))%bool.
Lemma lexemeb_ok w : lexemeb w = true -> lexeme special_chars w.
Proof.
  unfold lexemeb. intro H. apply orb_prop in H. destruct H as [H|H].
  - destruct w as [|c [|]]; try discriminate. left. apply one_of_in in H. exists c. repeat split; auto. destruct H as [<-|[<-|[<-|[<-|[<-|[<-|[<-|[<-|[<-|[<-|[<-|[]]]]]]]]]]]]; reflexivity.
  - apply andb_prop in H. destruct H as [H1 H2]. right. split. { apply negb_true_iff in H1. now apply sempty_false. } apply sforall_all in H2. clear H1.
    induction w as [|c w IH]; cbn [all_chars] in *; auto. destruct H2 as [H H2]. split; auto. apply andb_prop in H. destruct H as [Ha Hb]. apply negb_true_iff in Ha, Hb. split; auto.
    intro I. assert (O : one_of special_chars c = true) by (apply one_of_in; exact I). congruence.
Qed.
Lemma dt_names_lex t k : kind_in (sig_of dt) t = Some k -> lexeme special_chars t.
Proof.
  rewrite dt_sig. intro E. apply kind_in_In in E. assert (F : forallb (fun p => lexemeb (fst p)) names_of_table = true) by (vm_compute; reflexivity). rewrite forallb_forall in F. apply F in E. now apply lexemeb_ok.
Qed.
Fixpoint operands (e : expr) : list string :=
  match e with Operand t => [t] | Pre _ e | Call1 _ e => operands e | In_ _ a b | Call2 _ a b => (operands a ++ operands b)%list end.
Lemma dt_names e : well_formed (sig_of dt) e -> Forall (lexeme special_chars) (operands e) -> Forall (lexeme special_chars) (names e).
Proof.
  induction e as [t|op e IH|op a IHa b IHb|f e IH|f a IHa b IHb]; simpl; intros W F.
  - auto.
  - destruct W as [(q & K) W]. constructor; auto. eapply dt_names_lex; eauto.
  - destruct W as [(q & l & K) [Wa Wb]]. apply Forall_app in F. destruct F. constructor; [eapply dt_names_lex; eauto|]. apply Forall_app; auto.
  - destruct W as [K W]. constructor; auto. eapply dt_names_lex; eauto.
  - destruct W as [K [Wa Wb]]. apply Forall_app in F. destruct F. constructor; [eapply dt_names_lex; eauto|]. apply Forall_app; auto.
Qed.
Lemma lexeme_nonempty cs w : lexeme cs w -> w <> "".
Proof. intros [(c & _ & _ & ->)|[N _]]; auto. discriminate. Qed.

(** * C38 for the documented names *)
Lemma dt_parse s p e : Renders documented p e (lex special_chars s) -> exists n, parse dt s = Ok n /\ tree_of dt e n.
Proof. intro R. apply parse_correct with special_chars p; auto using dt_sane, dt_consistent, dt_spaced. eapply renders_ext; [|exact R]. apply dt_documented. Qed.
Lemma dt_minimal e p : well_formed documented e -> Forall (lexeme special_chars) (operands e) ->
  exists n, parse dt (join (minimal documented p e) " ") = Ok n /\ tree_of dt e n.
Proof.
  intros W L. assert (W' : well_formed (sig_of dt) e) by (eapply wf_ext; [|exact W]; apply dt_documented). rewrite (minimal_ext documented (sig_of dt)) by apply dt_documented.
  apply parse_minimal with special_chars; auto using dt_sane, dt_consistent, dt_spaced, dt_names.
Qed.
Lemma lex_nonempty bl sp s : forall cur t, In t (lex_from bl sp cur s) -> t <> "".
Proof.
  assert (Fl : forall cur t, In t (flush cur) -> t <> "") by (intros [|c cur] t; simpl; [intros []|intros [<-|[]]; discriminate]).
  induction s as [|c s IH]; intros cur t I; simpl in I; [eauto|]. destruct (bl c). { apply in_app_iff in I. destruct I; eauto. }
  destruct (sp c); [apply in_app_iff in I; destruct I as [I|[<-|I]]; eauto; discriminate|]. eauto.
Qed.
Lemma renders_names sg p e ts t : Renders sg p e ts -> In t (names e) -> In t ts.
Proof.
  intros R; revert t; induction R as [p t' K D|p q e ts R IH|p op q e ts K L R IH|p op q a b ts us K L Ra IHa Rb IHb|p op q a b ts us K L Ra IHa Rb IHb
                 |p q f e ts K R IH|p q r f a b ts us K Ra IHa Rb IHb]; intros t I; simpl in I |- *.
  all: rewrite ?in_app_iff in *; simpl; rewrite ?in_app_iff; repeat match goal with H : _ \/ _ |- _ => destruct H end; auto 9.
Qed.
Lemma dt_value s p e m : Renders documented p e (lex special_chars s) -> exists n, parse dt s = Ok n /\
  node_evaluate m n = match value (operand_value m) (name1 dt) (name2 dt) e with Some v => Ok v | None => Throw EFunction end.
Proof.
  intro R. destruct (dt_parse s p e R) as (n & E & Tn). exists n. split; auto. apply eval_tree; auto using dt_sane, dt_consistent.
  - eapply wf_ext; [apply dt_documented|]. clear - R. induction R; simpl; eauto.
  - apply Forall_forall. intros t I. eapply lex_nonempty. eapply renders_names in I; [|exact R]. exact I.
Qed.
End DT.

Lemma alike_impl {T} (S : Scalar T) (R Q : T -> T -> Prop) n m : (forall a b, R a b -> Q a b) -> alike R n m -> alike Q n m.
Proof. intro I. induction 1; constructor; auto. Qed.
(** * binary64 constants in printed trees *)
Section F64C.
Context (P : fparam).
#[local] Hint Extern 0 (Scalar _) => exact (F64Scalar P) : typeclass_instances.
Notation dt := (@default_table f64 (F64Scalar P)).
Notation fstr := (@str f64 (F64Scalar P)).

Definition number_text (t : string) : Prop :=
  t = "nan" \/ t = "inf" \/ t = "-inf" \/ exists c r, is_digit c = true /\ sforall (fun c => negb (is_space c)) r = true /\ (t = String c r \/ t = String "-" (String c r)).
Lemma fixed_number d n : (0 <= n)%Z -> exists c r, is_digit c = true /\ sforall (fun c => negb (is_space c)) r = true /\ fixed_text d n = String c r.
Proof.
  intro N. destruct (fixed_head d n N) as (c & r & E & D). exists c, r. repeat split; auto. pose proof (fixed_nospace d n N) as F. rewrite E in F. cbn [sforall] in F. apply andb_prop in F. apply F.
Qed.
Lemma str_number d x : number_text (fstr d x).
Proof.
  unfold str. destruct (isNaN x) eqn:Nx; [now left|]. destruct (isInf x) eqn:Ix. { destruct (_ <? _)%S; unfold number_text; auto. }
  right; right; right. destruct (isEq_tol _ _ _). { destruct (fixed_number d 0 ltac:(lia)) as (c & r & D & F & E). exists c, r. auto. }
  assert (F : is_finite x = true). { destruct x as [|s| |]; [reflexivity|destruct s; vm_compute in Ix; discriminate|vm_compute in Nx; discriminate|reflexivity]. }
  assert (N : (0 <= @s_fixed f64 (F64Scalar P) d x)%Z).
  { change (0 <= f64_fixed d x)%Z. rewrite (fixed_correct d x F). apply le_IZR. pose proof (Znearest_ge_floor (fun n => negb (Z.even n)) (Rabs (B2R x) * IZR (10 ^ Z.of_nat d))) as ZG.
    assert (0 <= Zfloor (Rabs (B2R x) * IZR (10 ^ Z.of_nat d)))%Z. { apply Zfloor_lub. simpl. apply Rmult_le_pos; [apply Rabs_pos|]. apply IZR_le. apply Z.pow_nonneg. lia. }
    apply IZR_le. lia. }
  destruct (fixed_number d _ N) as (c & r & D & Fr & E). exists c, r. repeat split; auto. rewrite E. destruct (_ <? _)%S; [right|left]; reflexivity.
Qed.
Lemma digit_not_space c : is_digit c = true -> is_space c = false. Proof. apply digit_name. Qed.
Lemma number_word t : number_text t -> word t.
Proof.
  intros [-> | [-> | [-> | (c & r & D & F & [-> | ->])]]]; split; try discriminate; try reflexivity; cbn [sforall]; rewrite (digit_not_space c D), F; reflexivity.
Qed.
(** no registered name looks like a number *)
Definition unlike_number (k : string) : bool :=
  (negb (String.eqb k "nan" || String.eqb k "inf" || String.eqb k "-inf") &&
   match k with String c r => negb (is_digit c) && negb (Ascii.eqb c "-" && match r with String c' _ => is_digit c' | _ => false end) | _ => true end)%bool.
Lemma unlike t k : unlike_number k = true -> number_text t -> k <> t.
Proof.
  intros U N ->. unfold unlike_number in U. destruct N as [-> | [-> | [-> | (c & r & D & _ & [-> | ->])]]]; try discriminate; apply andb_prop in U; destruct U as [_ U].
  - rewrite D in U. discriminate. - apply andb_prop in U. destruct U as [_ U]. simpl in U. rewrite D in U. discriminate.
Qed.
Lemma dt_no_number t : number_text t -> get_object dt t = None.
Proof.
  intro N. destruct (get_object dt t) as [e|] eqn:E; auto. apply get_object_In in E. assert (F : forallb (fun p => unlike_number (fst p)) dt = true) by (vm_compute; reflexivity).
  rewrite forallb_forall in F. apply F in E. simpl in E. now destruct (unlike t t E N).
Qed.
Lemma number_not_delim t : number_text t -> is_delimiter t = false.
Proof.
  intro N. unfold is_delimiter. destruct (String.eqb_spec t "(") as [->|]; [destruct (unlike "(" "(" eq_refl N); reflexivity|].
  destruct (String.eqb_spec t ")") as [->|]; [destruct (unlike ")" ")" eq_refl N); reflexivity|]. destruct (String.eqb_spec t ",") as [->|]; [destruct (unlike "," "," eq_refl N); reflexivity|]. reflexivity.
Qed.
(** constants are read back up to half a unit of the last decimal and printing is stable *)
Definition close (d : nat) (c c' : f64) : Prop :=
  (fstr d c' = fstr d c /\ isNaN c' = isNaN c) /\ ((is_finite c = true /\ is_finite c' = true /\ (Rabs (B2R c' - B2R c) <= / IZR (10 ^ Z.of_nat d))%R) \/ c' = c).
Lemma const_reads d c : exists c', reads_as dt d c c' /\ close d c c'.
Proof.
  assert (N := str_number d c). assert (X : forall c', @to_scalar f64 (F64Scalar P) (fstr d c) = Ok c' -> reads_as dt d c c').
  { intros c' E. repeat split; auto using number_not_delim, dt_no_number; apply (number_word _ N). }
  destruct (is_finite c) eqn:F.
  - destruct (round_trip P d c F) as (y & E & Fy & A & B). exists y. split; [apply X; exact E|]. split; [|left; auto]. split; [exact B|].
    transitivity false; [apply (finite_kind P y Fy)|symmetry; apply (finite_kind P c F)].
  - exists c. destruct c; try discriminate.
    + split; [apply X; apply (special_trip P d)|]. split; auto.
    + split; [apply X|split; auto]. destruct (special_trip P d) as (E & E2 & _). rewrite E by reflexivity. exact E2.
Qed.
Lemma dt_postfix d s (n : node f64) : parse dt s = Ok n ->
  exists n', build_tree dt (tokens (node_postfix d n)) = Ok n' /\
  alike (fun c c' => (is_finite c = true /\ is_finite c' = true /\ (Rabs (B2R c' - B2R c) <= / IZR (10 ^ Z.of_nat d))%R) \/ c' = c) n n' /\
  node_postfix d n' = node_postfix d n /\ node_prefix d n' = node_prefix d n /\ node_infix d n' = node_infix d n.
Proof.
  intro E. pose proof (parse_total dt s dt_sane dt_empty) as PT. rewrite E in PT.
  assert (NN : isNaN s_nan = true) by reflexivity.
  destruct (postfix_reads dt d (close d) n NN PT) as (n' & A & B). { intros c _. apply const_reads. }
  exists n'. split; [unfold build_tree; rewrite B; reflexivity|]. split.
  - eapply alike_impl; [|exact A]. intros a b [_ H]. exact H.
  - apply alike_text; auto. eapply alike_impl; [|exact A]. intros a b [H _]. exact H.
Qed.
End F64C.

(** facts about concrete results, decided by computation *)
Definition okb {A} (r : res A) (p : A -> bool) : bool := match r with Ok x => p x | _ => false end.
Lemma okb_ex {A} (r : res A) p : okb r p = true -> exists x, r = Ok x /\ p x = true.
Proof. destruct r; simpl; try discriminate. eauto. Qed.
#[local] Hint Extern 9 (Scalar _) => exact (F64Scalar fp_default) : typeclass_instances.
Lemma constants_change : exists s n n', parse (@default_table f64 (F64Scalar fp_default)) s = Ok n /\
  build_tree (@default_table f64 (F64Scalar fp_default)) (tokens (node_postfix 3 n)) = Ok n' /\ n <> n'.
Proof.
  assert (H : okb (parse default_table "0.0001") (fun n => okb (build_tree default_table (tokens (node_postfix 3 n))) (fun n' => negb (String.eqb (node_postfix 6 n) (node_postfix 6 n')))) = true)
    by (vm_compute; reflexivity).
  apply okb_ex in H. destruct H as (n & E & H). apply okb_ex in H. destruct H as (n' & E' & H). exists "0.0001", n, n'. repeat split; auto. intros <-. rewrite String.eqb_refl in H. discriminate.
Qed.
Lemma exponent_torn : @is_numeric f64 (F64Scalar fp_default) "1e-5" = true /\
  parse (@default_table f64 (F64Scalar fp_default)) "1e-5" = parse (@default_table f64 (F64Scalar fp_default)) "1e - 5" /\
  exists n, parse (@default_table f64 (F64Scalar fp_default)) "1e-5" = Ok n /\ node_evaluate [] n = Throw EFunction.
Proof.
  split; [vm_compute; reflexivity|]. split. { rewrite !(parse_lex default_table special_chars) by (auto using dt_spaced; discriminate). reflexivity. }
  assert (H : okb (parse default_table "1e-5") (fun n => match node_evaluate [] n with Throw EFunction => true | _ => false end) = true) by (vm_compute; reflexivity).
  apply okb_ex in H. destruct H as (n & E & H). exists n. split; auto. destruct (node_evaluate [] n) as [| [] | |]; try discriminate. reflexivity.
Qed.
Lemma stale_exists : exists (st st' : fstate f64) s e x v, fn_load (@default_table f64 (F64Scalar fp_default)) st s false [] = (st', Throw e) /\
  fn_formula st' = s /\ fn_root st' <> None /\ snd (fn_membership st' [] x) = Ok v /\ parse (@default_table f64 (F64Scalar fp_default)) s = Throw e.
Proof.
  exists {| fn_formula := "x"; fn_root := Some (mk_variable "x"); fn_vars := []; fn_engine := false |}, {| fn_formula := "(x"; fn_root := Some (mk_variable "x"); fn_vars := []; fn_engine := false |}.
  exists "(x", ESyntax, (f64_dec 1 0), (f64_dec 1 0). split; [reflexivity|]. split; [reflexivity|]. split; [discriminate|]. split; reflexivity.
Qed.
Lemma fresh_failed T (S : Scalar T) tb (st : fstate T) s eng ctx st' e : fn_root st = None -> parse tb s = Throw e ->
  fn_load tb st s eng ctx = (st', Throw e) -> forall ctx' x, snd (fn_membership st' ctx' x) = Throw EFunction.
Proof. intros Rt Ps L ctx' x. destruct (load_failed tb _ _ _ _ _ _ L) as (_ & _ & B). rewrite Ps in B. destruct B as [B _]. unfold fn_membership. rewrite B, Rt. reflexivity. Qed.
