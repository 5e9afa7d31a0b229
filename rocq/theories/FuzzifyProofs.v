(** Fuzzification: which terms take part, what is written, and that the text can be read. *)
From Coq Require Import ZArith List Bool String Ascii Reals Lra Lia.
From Verif Require Import Base Op Norm Defuzz Aggregated Text Function Var Fuzzify XR F64 OrdVal SpecDefuzz SpecAgg SpecFuzzify SpecFll TextProofs TextProofs2 FllText FisRule AggProofs AggProofs2 AggBundle.
Import ListNotations.
Local Open Scope string_scope.

Section Any.
Context {T : Type} `{S : Scalar T}.

Definition entry_of (p : nat * term T) (a : activated T nat) (vw : view T) (x : T) : Prop :=
  ac_term a = fst p /\ ac_implication a = None /\ takes_part vw (snd p) x (ac_degree a).
Lemma activations_rec vw x : forall (ps : list (nat * term T)) l,
  rmapM (fun p => match term_membership vw (snd p) x with
                  | Ok y => Ok (mkActivated (fst p) y None)
                  | Throw _ => Ok (mkActivated (fst p) s_nan None)
                  | UB => UB | Diverge => Diverge end) ps = Ok l <-> Forall2 (fun p a => entry_of p a vw x) ps l.
Proof.
  induction ps as [|p ps IH]; intro l.
  - cbn [rmapM]. split; [intro E; injection E as <-; constructor|]. intro F. inversion F. reflexivity.
  - split.
    + cbn [rmapM]. unfold rbind at 1. intro E.
      destruct (term_membership vw (snd p) x) as [y|e| |] eqn:M; try discriminate E; cbn [rbind] in E;
        (destruct (rmapM _ ps) as [l'| | |] eqn:L; try discriminate E; injection E as <-; constructor; [|apply IH; reflexivity]);
        (split; [reflexivity|]; split; [reflexivity|]); [left; exact M|right; split; [eauto|reflexivity]].
    + intro F. inversion F as [|? a ? l' A F']; subst. apply IH in F'. cbn [rmapM]. destruct a as [t y g]. destruct A as (Et & Eg & A). cbn in Et, Eg, A. subst t g.
      destruct A as [-> | [[e ->] ->]]; unfold rbind at 1; rewrite F'; reflexivity.
Qed.
Lemma Forall2_nth {A B} (Q : A -> B -> Prop) l m : Forall2 Q l m <-> List.length l = List.length m /\ forall i a b, nth_error l i = Some a -> nth_error m i = Some b -> Q a b.
Proof.
  split.
  - induction 1 as [|a b l m Qab F [L N]]; [split; [reflexivity|]; intros [|i]; discriminate|]. split; [cbn; congruence|].
    intros [|i] a' b'; cbn; [congruence|apply N].
  - revert m. induction l as [|a l IH]; intros [|b m] [L N]; try discriminate L; constructor.
    + apply (N 0%nat); reflexivity.
    + apply IH. split; [cbn in L; congruence|]. intros i. apply (N (Datatypes.S i)).
Qed.
Lemma nth_combine_seq {A} (l : list A) : forall k i p, nth_error (combine (seq k (List.length l)) l) i = Some p <-> exists t, nth_error l i = Some t /\ p = ((k + i)%nat, t).
Proof.
  induction l as [|a l IH]; intros k i p; cbn [List.length seq combine]; [destruct i; split; [discriminate| intros (? & E & _); discriminate E |discriminate| intros (? & E & _); discriminate E]|].
  destruct i as [|i]; cbn [nth_error].
  - rewrite Nat.add_0_r. split; [intro E; injection E as <-; eauto|]. intros (t & E & ->). congruence.
  - rewrite IH. replace (Datatypes.S k + i)%nat with (k + Datatypes.S i)%nat by lia. reflexivity.
Qed.
(** one entry for each term, in the order of the terms *)
Lemma activations vw (v : variable T) x l : v_activations vw v x = Ok l <->
  List.length l = List.length (v_terms v) /\
  forall i t, nth_error (v_terms v) i = Some t -> exists y, nth_error l i = Some (mkActivated i y None) /\ takes_part vw t x y.
Proof.
  unfold v_activations. rewrite activations_rec, Forall2_nth, combine_length, seq_length, Nat.min_id. split; intros [L N]; split; auto.
  - intros i t E. assert (nth_error l i <> None) as Q by (apply nth_error_Some; rewrite <- L; apply nth_error_Some; congruence).
    destruct (nth_error l i) as [[t' y g]|] eqn:Ei; [|congruence]. destruct (N i (i, t) _ (proj2 (nth_combine_seq _ _ _ _) (ex_intro _ t (conj E eq_refl))) Ei) as (Et & Eg & M).
    cbn in Et, Eg, M. subst. eauto.
  - intros i p b P B. apply nth_combine_seq in P. destruct P as (t & E & ->). destruct (N i t E) as (y & Y & M). rewrite Y in B. injection B as <-. repeat split. exact M.
Qed.
(** nothing else stops it *)
Lemma activations_total vw (v : variable T) x : (forall t, In t (v_terms v) -> (exists y, term_membership vw t x = Ok y) \/ exists e, term_membership vw t x = Throw e) ->
  exists l, v_activations vw v x = Ok l.
Proof.
  unfold v_activations. intro H.
  assert (forall p, In p (combine (seq 0 (List.length (v_terms v))) (v_terms v)) -> In (snd p) (v_terms v)) as I by (intros [i t] Hp; eapply in_combine_r; exact Hp).
  revert I. generalize (combine (seq 0 (List.length (v_terms v))) (v_terms v)). induction l as [|p l IH]; intro I; [eexists; reflexivity|].
  destruct IH as [l' L]; [intros; apply I; now right|]. cbn [rmapM]. destruct (H (snd p) (I p (or_introl eq_refl))) as [[y ->] | [e ->]]; unfold rbind at 1; rewrite L; eexists; reflexivity.
Qed.

(** ** the text *)
Definition addend_of {A} (d : nat) (name : A -> string) (negative : T -> bool) (a : activated T A) : addend :=
  (negative (ac_degree a), str d (s_abs (ac_degree a)), name (ac_term a)).
Lemma substring_all : forall s : string, substring 0 (String.length s) s = s.
Proof. induction s as [|c s IH]; [reflexivity|]. cbn. now rewrite IH. Qed.
Lemma sign_split (b : bool) t : let text := (if b then "+" else "-") ++ t in substring 0 1 text = sign_text (negb b) /\ substring 1 (String.length text - 1) text = t.
Proof.
  destruct b; cbn [append substring String.length negb sign_text]; (split; [destruct t; reflexivity|]); rewrite Nat.sub_0_r || idtac; cbn; rewrite ?Nat.sub_0_r; apply substring_all.
Qed.
Definition minus (y : T) : bool := negb ((s_0 <=? y)%S || isNaN y).
Lemma text_from {A} d (name : A -> string) : forall (l : list (activated T A)), fuzzy_value_from false d name l = addends_text (map (addend_of d name minus) l).
Proof.
  induction l as [|a l IH]; [reflexivity|]. cbn [fuzzy_value_from map addends_text]. unfold ac_fuzzy_value.
  destruct (sign_split ((s_0 <=? ac_degree a)%S || isNaN (ac_degree a)) (str d (s_abs (ac_degree a)) ++ "/" ++ name (ac_term a))) as [-> ->].
  cbn [andb]. rewrite IH. unfold addend_text, addend_of, minus. cbn [fst snd append]. rewrite !sapp_assoc. reflexivity.
Qed.
Lemma text {A} d (name : A -> string) (l : list (activated T A)) : fuzzy_value d name l = sum_text (map (addend_of d name minus) l).
Proof.
  destruct l as [|a l]; [reflexivity|]. unfold fuzzy_value. cbn [fuzzy_value_from map sum_text]. unfold ac_fuzzy_value.
  destruct (sign_split ((s_0 <=? ac_degree a)%S || isNaN (ac_degree a)) (str d (s_abs (ac_degree a)) ++ "/" ++ name (ac_term a))) as [-> ->].
  rewrite text_from. unfold addend_text, addend_of, minus. cbn [fst snd append andb]. rewrite !sapp_assoc.
  destruct ((s_0 <=? ac_degree a)%S || isNaN (ac_degree a)); reflexivity.
Qed.
End Any.

(** ** reading the text *)
Lemma cut c : forall a a' r r', lacks c a = true -> lacks c a' = true -> a ++ String c r = a' ++ String c r' -> a = a' /\ r = r'.
Proof.
  induction a as [|x a IH]; intros [|x' a'] r r' L L' E; cbn in E, L, L'.
  - injection E as E. auto.
  - injection E as E1 E2. rewrite <- E1, Ascii.eqb_refl in L'. discriminate L'.
  - injection E as E1 E2. rewrite E1, Ascii.eqb_refl in L. discriminate L.
  - injection E as E1 E2. apply andb_prop in L, L'. destruct (IH a' r r' (proj2 L) (proj2 L') E2). subst. auto.
Qed.
Definition starts_or_empty (c : ascii) (s : string) : Prop := s = "" \/ exists r, s = String c r.
Lemma cut_end c : forall a a' r r', lacks c a = true -> lacks c a' = true -> starts_or_empty c r -> starts_or_empty c r' -> a ++ r = a' ++ r' -> a = a' /\ r = r'.
Proof.
  assert (forall x s, lacks c (String x s) = true -> x <> c) as Z.
  { intros x s L ->. cbn in L. rewrite Ascii.eqb_refl in L. discriminate L. }
  induction a as [|x a IH]; intros [|x' a'] r r' L L' B B' E; cbn in E.
  - auto.
  - exfalso. destruct B as [-> | [s ->]]; [discriminate E|]. injection E as E1 E2. exact (Z _ _ L' (eq_sym E1)).
  - exfalso. destruct B' as [-> | [s ->]]; [discriminate E|]. injection E as E1 E2. exact (Z _ _ L E1).
  - injection E as -> E2. cbn in L, L'. apply andb_prop in L, L'. destruct (IH a' r r' (proj2 L) (proj2 L') B B' E2). subst. auto.
Qed.
(** a number without sign; a name of one word *)
Definition readable (a : addend) : Prop :=
  sforall numeral (snd (fst a)) = true /\ (forall r, snd (fst a) <> String "-" r) /\ lacks " " (snd a) = true.
Lemma addends_start l : starts_or_empty " " (addends_text l).
Proof. destruct l as [|a l]; [left; reflexivity|right; eexists; reflexivity]. Qed.
Lemma addend_cut a a' r r' : readable a -> readable a' -> starts_or_empty " " r -> starts_or_empty " " r' -> addend_text a ++ r = addend_text a' ++ r' ->
  snd (fst a) = snd (fst a') /\ snd a = snd a' /\ r = r'.
Proof.
  intros (N & _ & L) (N' & _ & L') B B' E. unfold addend_text in E. rewrite !sapp_assoc in E. cbn [append] in E.
  destruct (cut "/" _ _ _ _ (numeral_lacks _ "/" eq_refl N) (numeral_lacks _ "/" eq_refl N') E) as [E1 E2].
  destruct (cut_end " " _ _ _ _ L L' B B' E2) as [E3 E4]. auto.
Qed.
Lemma addends_read : forall l l', Forall readable l -> Forall readable l' -> addends_text l = addends_text l' -> l = l'.
Proof.
  induction l as [|a l IH]; intros [|a' l'] F F' E; try reflexivity; try discriminate E.
  inversion F as [|? ? A Fl]; subst. inversion F' as [|? ? A' Fl']; subst. cbn [addends_text append] in E. injection E as E.
  assert (fst (fst a) = fst (fst a')) as Es by (destruct (fst (fst a)), (fst (fst a')); try reflexivity; discriminate E).
  rewrite Es in E. assert (addend_text a ++ addends_text l = addend_text a' ++ addends_text l') as E'.
  { destruct (fst (fst a')); cbn [sign_text append] in E; injection E as E; exact E. }
  destruct (addend_cut _ _ _ _ A A' (addends_start l) (addends_start l') E') as (E1 & E2 & E3).
  rewrite (IH _ Fl Fl' E3). destruct a as [[]], a' as [[]]. cbn in *. congruence.
Qed.
Lemma sum_read l l' : Forall readable l -> Forall readable l' -> sum_text l = sum_text l' -> l = l'.
Proof.
  assert (forall a r, readable a -> addend_text a ++ r <> "") as NE.
  { intros [[b n] k] r _. unfold addend_text. cbn [fst snd]. destruct n; discriminate. }
  assert (forall a r s, readable a -> addend_text a ++ r <> String "-" s) as NM.
  { intros [[b n] k] r s (_ & N & _). unfold addend_text. cbn [fst snd] in *. destruct n as [|c n]; cbn [append]; [discriminate|]. intro E. injection E as -> _. exact (N _ eq_refl). }
  intros F F' E. destruct l as [|a l], l' as [|a' l']; try reflexivity.
  - inversion F'; subst. cbn [sum_text] in E. destruct (fst (fst a')); [discriminate E|]. symmetry in E. now apply NE in E.
  - inversion F; subst. cbn [sum_text] in E. destruct (fst (fst a)); [discriminate E|]. now apply NE in E.
  - inversion F as [|? ? A Fl]; subst. inversion F' as [|? ? A' Fl']; subst. cbn [sum_text] in E.
    assert (fst (fst a) = fst (fst a') /\ addend_text a ++ addends_text l = addend_text a' ++ addends_text l') as [Es E'].
    { destruct (fst (fst a)), (fst (fst a')); cbn [append] in E.
      - injection E as E. auto.
      - symmetry in E. now apply NM in E.
      - now apply NM in E.
      - auto. }
    destruct (addend_cut _ _ _ _ A A' (addends_start l) (addends_start l') E') as (E1 & E2 & E3).
    rewrite (addends_read _ _ Fl Fl' E3). destruct a as [[]], a' as [[]]. cbn in *. congruence.
Qed.

(** ** numbers written without sign *)
Definition unsigned (c : ascii) : bool := negb (Ascii.eqb c "-").
Lemma digit_unsigned m : (0 <= m < 10)%Z -> sforall unsigned (char (digit_char m)) = true.
Proof.
  intro H. assert (C : exists k, (k < 10)%nat /\ m = Z.of_nat k) by (exists (Z.to_nat m); lia). destruct C as (k & K & ->). unfold digit_char. rewrite Nat2Z.id.
  do 10 (destruct k as [|k]; [reflexivity|]). lia.
Qed.
Lemma digits_unsigned fuel : forall n, sforall unsigned (int_digits fuel n) = true.
Proof.
  induction fuel as [|f IH]; intro n; [reflexivity|]. cbn [int_digits]. destruct (Z.ltb_spec n 10).
  - destruct (Z.leb_spec 0 n); [apply digit_unsigned; lia|]. unfold digit_char. replace (Z.to_nat n) with 0%nat by lia. reflexivity.
  - rewrite sforall_app, IH. apply digit_unsigned. apply Z.mod_pos_bound. lia.
Qed.
Lemma frac_unsigned : forall k n, sforall unsigned (frac_digits k n) = true.
Proof. induction k as [|k IH]; intro n; [reflexivity|]. cbn [frac_digits]. rewrite sforall_app, IH. apply digit_unsigned. apply Z.mod_pos_bound. lia. Qed.
Lemma fixed_unsigned k n : sforall unsigned (fixed_text k n) = true.
Proof. unfold fixed_text, nat_text. rewrite sforall_app, digits_unsigned. destruct (Nat.eqb k 0); [reflexivity|]. cbn [append sforall]. rewrite frac_unsigned. reflexivity. Qed.

Section Read.
Context {T : Type} `{S : Scalar T}.
Lemma str_unsigned d (x : T) : s_ltb x s_0 = false -> sforall unsigned (str d x) = true.
Proof.
  intro H. unfold str. rewrite H. destruct (isNaN x); [reflexivity|]. destruct (isInf x); [reflexivity|]. destruct (isEq_tol _ x s_0); [apply fixed_unsigned|apply fixed_unsigned].
Qed.
Hypothesis abs_pos : forall x : T, s_ltb (s_abs x) s_0 = false.
Lemma readable_addend {A} d (name : A -> string) neg (a : activated T A) : lacks " " (name (ac_term a)) = true -> readable (addend_of d name neg a).
Proof.
  intro L. unfold readable, addend_of. cbn [fst snd]. split; [apply str_numeral|]. split; [|exact L].
  intros r E. pose proof (str_unsigned d _ (abs_pos (ac_degree a))) as U. rewrite E in U. discriminate U.
Qed.
Lemma read_back {A B} d (name : A -> string) (name' : B -> string) (l : list (activated T A)) (l' : list (activated T B)) :
  (forall a, In a l -> lacks " " (name (ac_term a)) = true) -> (forall a, In a l' -> lacks " " (name' (ac_term a)) = true) ->
  fuzzy_value d name l = fuzzy_value d name' l' -> map (addend_of d name minus) l = map (addend_of d name' minus) l'.
Proof.
  intros L L' E. rewrite !text in E. apply sum_read; [| |exact E]; apply Forall_forall; intros x I; apply in_map_iff in I; destruct I as (a & <- & I); apply readable_addend; auto.
Qed.
Variable v : T -> xr.
Hypothesis ov : ord_val S v.
Lemma minus_negative y : minus y = xltb (v y) (XFin 0).
Proof.
  unfold minus, isNaN. rewrite (ov_le _ _ ov), (ov_eq _ _ ov), (ov_0 _ _ ov). destruct (v y); cbn; try reflexivity.
  unfold Rleb, Rltb, Reqb. destruct (Rle_dec 0 r), (Rlt_dec r 0), (Req_EM_T r r); cbn; try reflexivity; exfalso; lra.
Qed.
End Read.
