(** The Fuzzy Inference System format: statements in binary64, and operator names. *)
From Coq Require Import ZArith Reals List Bool String Ascii Lia Lra Permutation Sorting.Sorted.
From Flocq Require Import Core BinarySingleNaN.
From Verif Require Import Base Op Norm Hedge Shape Discrete Defuzz Aggregated Text Function Rule Var Activation Engine Factory Fll Fis Fcl
  XR XRFacts F64 F64Facts F64Arith F64Err TextProofs TextProofs2 TextF64 SpecText SpecFormula SpecRule SpecFll FllText FllF64 RuleBundle SpecFis FisF64 FisRule FisRule2 FisRule3.
Import ListNotations.
Local Open Scope R_scope.

(** ** an exact fmod *)
Lemma floor_value (x : f64) : is_finite x = true -> B2R (f64_floor x) = IZR (Zfloor (B2R x)) /\ is_finite (f64_floor x) = true.
Proof.
  intro F. unfold f64_floor. destruct (Bnearbyint_correct prec64 emax64 Hemax64 mode_DN x) as (A & B & _). split; [|now rewrite B].
  rewrite A. unfold round, scaled_mantissa, cexp, FIX_exp, F2R; simpl. now rewrite !Rmult_1_r.
Qed.
Lemma frac_fmt x : fmt x -> 0 <= x -> fmt (x - IZR (Zfloor x)).
Proof.
  intros F X. destruct (FLT_format_generic radix2 (-1074) 53 x F) as [[m ex] E M X1]. cbn [Fnum Fexp] in *.
  destruct (Z.le_gt_cases 0 ex) as [L|L].
  - assert (I : x = IZR (m * 2 ^ ex)). { rewrite E. unfold F2R; cbn [Fnum Fexp]. rewrite mult_IZR. change 2%Z with (radix_val radix2). rewrite IZR_Zpower by auto. reflexivity. }
    rewrite I, Zfloor_IZR, Rminus_diag_eq by auto. apply fmt_0.
  - assert (K : bpow radix2 ex * IZR (2 ^ (- ex)) = 1). { change 2%Z with (radix_val radix2). rewrite IZR_Zpower by lia. rewrite <- bpow_plus. replace (ex + - ex)%Z with 0%Z by lia. reflexivity. }
    assert (FE : x - IZR (Zfloor x) = F2R (Float radix2 (m - Zfloor x * 2 ^ (- ex)) ex)).
    { unfold F2R; cbn [Fnum Fexp]. rewrite minus_IZR, mult_IZR, Rmult_minus_distr_r. f_equal; [rewrite E at 1; reflexivity|]. rewrite Rmult_assoc, (Rmult_comm (IZR (2 ^ (- ex)))), K. ring. }
    assert (B1 := Zfloor_lb x). assert (B0 : (0 <= Zfloor x)%Z) by (apply Zfloor_lub; exact X).
    assert (P2 : (0 < 2 ^ (- ex))%Z) by (apply Z.pow_pos_nonneg; lia).
    assert (NN : (0 <= m - Zfloor x * 2 ^ (- ex))%Z).
    { apply le_IZR. apply (Rmult_le_reg_r (bpow radix2 ex)); [apply bpow_gt_0|]. rewrite Rmult_0_l. unfold F2R in FE; cbn [Fnum Fexp] in FE. rewrite <- FE. lra. }
    apply (generic_format_FLT radix2 (-1074) 53). eexists; [exact FE| |exact X1]. cbn [Fnum]. assert (0 <= Zfloor x * 2 ^ (- ex))%Z by (apply Z.mul_nonneg_nonneg; lia). lia.
Qed.
(** decimal arithmetic of the library with a tolerance of 1e-6, and x - floor x for fmod(x, 1) *)
Definition fis_params : fparam := {| fp_eps := fp_eps fp_default; fp_fn1 := fp_fn1 fp_default; fp_fn2 := fun _ x _ => Bminus mode_NE x (f64_floor x) |}.
Lemma params_fmod : exact_fmod fis_params.
Proof.
  intros x F X. cbn [fp_fn2 fis_params]. destruct (floor_value x F) as [V G]. assert (L := Zfloor_lb (B2R x)). assert (U := Zfloor_ub (B2R x)).
  destruct (minus_ok x (f64_floor x) F G) as [A B]; [rewrite V; lra|]. split; [exact B|]. rewrite A, V. apply rnd_id. apply frac_fmt; auto. apply fmt_B2R.
Qed.
Lemma params_settings d : (2 <= d)%nat -> fis_settings fis_params d.
Proof.
  intro D. split; [exact D|]. split; [vm_compute; reflexivity|]. split; [|exact params_fmod].
  cbn [fp_eps fis_params]. assert (E : B2SF (fp_eps fp_default) = SpecFloat.S754_finite false 4722366482869645 (-72)) by (vm_compute; reflexivity).
  rewrite <- SF2R_B2SF, E. simpl. unfold F2R; simpl. lra.
Qed.

(** ** propositions *)
Section Numbers.
Variable P : fparam.
Variable d : nat.
Hypothesis settings : fis_settings P d.
Local Notation FS := (F64Scalar P).
Lemma code_none_f64 props v n : find (fun p => varref_eqb (pr_var p) v) props = None ->
  exists z : f64, @to_scalar f64 FS (@code_word f64 FS d props v n) = Ok z /\ @isEq f64 FS z (@s_0 f64 FS) = true.
Proof.
  intro Fn. unfold code_word. rewrite Fn. destruct f64_0_correct as [Z0 F0]. destruct (finite_kind P (@s_0 f64 FS) F0) as [N0 _]. rewrite N0. cbn [append]. change (Z.of_nat 0) with 0%Z.
  destruct (plus_ok (@s_int f64 FS 0) (@s_0 f64 FS) F0 F0) as [A B]; [change (@s_int f64 FS 0) with (f64_lit 0 1); change (@s_0 f64 FS) with (f64_lit 0 1); rewrite Z0; lra|].
  assert (V : B2R (Bplus mode_NE (@s_int f64 FS 0) (@s_0 f64 FS)) = 0). { rewrite A. change (@s_int f64 FS 0) with (f64_lit 0 1). change (@s_0 f64 FS) with (f64_lit 0 1). rewrite Z0, Rplus_0_r. apply rnd_0. }
  assert (ST : @str f64 FS d (@s_add f64 FS (@s_int f64 FS 0) (@s_0 f64 FS)) = fixed_text d 0) by (apply (str_tiny P d); [exact B|left; exact V]).
  rewrite ST. destruct (read_fixed d 0 ltac:(lia)) as [R0 _]. destruct (dec_correct 0 d) as [W WF]; [rewrite Rmult_0_l, rnd_0, Rabs_R0; apply Rlt_bool_true, bpow_gt_0|]. rewrite Rmult_0_l, rnd_0 in W.
  exists (f64_dec 0 (- Z.of_nat d)). split.
  - unfold to_scalar. rewrite R0. change (@s_dec f64 FS 0 (- Z.of_nat d)) with (f64_dec 0 (- Z.of_nat d)). destruct (finite_kind P _ WF) as [_ ->]. reflexivity.
  - apply (isEq_close P d settings); [exact WF|exact F0|]. rewrite W. change (@s_0 f64 FS) with (f64_lit 0 1). rewrite Z0, Rminus_diag_eq, Rabs_R0 by auto. apply bpow_ge_0.
Qed.
Lemma code_some_f64 env props v p : find (fun p => varref_eqb (pr_var p) v) props = Some p -> codable env p ->
  exists y : f64, @to_scalar f64 FS (@code_word f64 FS d props v (List.length (terms_of env v))) = Ok y /\ @isEq f64 FS y (@s_0 f64 FS) = false /\
  @translate_proposition f64 FS y (terms_of env v) = Ok (SpecRule.words (map hedge_name (pr_hedges p)) ++ term_text env p)%string.
Proof.
  intros Fp (neg & c & H & C). destruct (found_var _ _ _ Fp) as [_ V]. subst v. set (terms := terms_of env (pr_var p)) in *.
  assert (K : exists hs, hedges_code hs c /\ pr_hedges p = ((if neg then [Not] else []) ++ hs)%list) by (destruct H as [hs c K|hs c K]; exists hs; auto).
  destruct K as (hs & HC & Eh). assert (Cb := code_bounds _ _ HC).
  set (n := match pr_term p with Some t => Z.of_nat (Datatypes.S t) | None => 0%Z end).
  assert (Hn : (0 <= n <= 2 ^ 20)%Z /\ (1 <= n \/ c = 99)%Z /\ (n <= Z.of_nat (List.length terms))%Z).
  { unfold n. destruct (pr_term p) as [t|]; [|lia]. destruct C as [C1 C2]. fold terms in C1. lia. }
  destruct Hn as (Hn & Hpos & Hlen).
  assert (Fold : fold_left (@hedge_code f64 FS) (pr_hedges p) (false, @s_0 f64 FS) = hedge_sum P neg hs) by (rewrite Eh; destruct neg; reflexivity).
  destruct (hedges_sum P hs c neg HC) as (B1 & B2 & B3 & B4).
  assert (CW : @code_word f64 FS d props (pr_var p) (List.length terms) = ((if neg then "-" else "") ++ @str f64 FS d (Bplus mode_NE (f64_lit n 1) (snd (hedge_sum P neg hs))))%string).
  { unfold code_word. rewrite Fp, Fold. destruct (hedge_sum P neg hs) as [ng plus] eqn:ES. cbn [fst snd] in *. subst ng. destruct (finite_kind P plus B2) as [NP _]. rewrite NP. f_equal. f_equal.
    change (@s_add f64 FS) with (@Bplus prec64 emax64 Hprec64 Hemax64 mode_NE). unfold s_int. change (@s_lit f64 FS) with f64_lit. f_equal. f_equal. unfold n.
    destruct (pr_term p) as [t|]; [|reflexivity]. destruct C as [C1 _]. fold terms in C1. destruct (Nat.ltb_spec t (List.length terms)); [reflexivity|lia]. }
  destruct (code_value n c (snd (hedge_sum P neg hs)) Hn Cb B2 B3 B4) as (X1 & X2 & X3).
  destruct (number_read P d settings n c _ Hn Cb Hpos X1 X2 X3) as (y & Y1 & Y2 & Y3 & Y4).
  destruct (translate_code P d settings hs c neg n y terms HC Hn Hpos Hlen Y1 Y2 Y3) as [Z1 Z2].
  exists (if neg then Bopp y else y). rewrite CW. split; [apply Y4|]. split; [exact Z1|]. etransitivity; [exact Z2|]. rewrite Eh. f_equal. f_equal. unfold term_text, n. fold terms.
  destruct (pr_term p) as [t|]; [|reflexivity]. destruct (Z.eqb_spec (Z.of_nat (Datatypes.S t)) 0); [lia|]. f_equal. lia.
Qed.
Lemma proposition_restored env p : codable env p -> exists code (y : f64),
  @fis_code f64 FS d [p] (pr_var p) (List.length (terms_of env (pr_var p))) = (code ++ " ")%string /\
  @to_scalar f64 FS code = Ok y /\ @isEq f64 FS y (@s_0 f64 FS) = false /\
  @translate_proposition f64 FS y (terms_of env (pr_var p)) =
    Ok (SpecRule.words (map hedge_name (pr_hedges p)) ++ match pr_term p with Some t => nth t (terms_of env (pr_var p)) "" | None => "" end)%string.
Proof.
  intro C. assert (F : find (fun q => varref_eqb (pr_var q) (pr_var p)) [p] = Some p) by (cbn; now rewrite (proj2 (varref_eq _ _) eq_refl)).
  destruct (code_some_f64 env [p] (pr_var p) p F C) as (y & A & B & D). exists (@code_word f64 FS d [p] (pr_var p) (List.length (terms_of env (pr_var p)))), y. split; [apply code_split|auto].
Qed.
Lemma rule_restored_f64 (e : engine f64) r op ex : let env := engine_env (e_inputs e) (e_outputs e) in
  fis_names env -> rl_antecedent r = Some ex -> fis_expressible env op ex (rl_consequent r) ->
  exists line r' ps cs, @fis_rule f64 FS d e r = Ok line /\ (forall b, @fis_rule_line f64 FS d env b line = Ok (set_rules (b_rules b ++ [r'])%list b)) /\
  Permutation ps (propositions_of ex) /\ StronglySorted before_of ps /\ Permutation cs (rl_consequent r) /\ StronglySorted before_of cs /\
  rl_enabled r' = true /\ rl_antecedent r' = chained op ps /\ rl_consequent r' = cs /\
  let w := @reread f64 FS d (rl_weight r) in rl_weight r' = if @isEq f64 FS w (@s_1 f64 FS) then @s_1 f64 FS else w.
Proof.
  intros env N A X. exact (@rule_restored f64 FS d e N code_none_f64 (code_some_f64 env) (read_any P d) r op ex A X).
Qed.
End Numbers.

(** ** what the codes cannot express *)
Section Lost.
Context {T : Type} `{S : Scalar T}.
Lemma negation_moved d v h t n : h <> Not -> @fis_code T S d [mkProp v [h; Not] t] v n = @fis_code T S d [mkProp v [Not; h] t] v n.
Proof. intro H. unfold fis_code. cbn [find pr_var]. rewrite (proj2 (varref_eq v v) eq_refl). cbn [pr_term pr_hedges fold_left]. destruct h; [| |congruence| | |]; reflexivity. Qed.
Lemma negations_cancelled d v hs t n : @fis_code T S d [mkProp v (Not :: Not :: hs) t] v n = @fis_code T S d [mkProp v hs t] v n.
Proof. unfold fis_code. cbn [find pr_var]. rewrite (proj2 (varref_eq v v) eq_refl). reflexivity. Qed.
Lemma second_dropped d p q l vars : pr_var q = pr_var p -> @fis_codes T S d (p :: q :: l) vars = @fis_codes T S d (p :: l) vars.
Proof.
  intro E. rewrite !codes_words. f_equal. apply map_ext. intros [v n]. unfold code_word. cbn [find fst snd]. rewrite E. destruct (varref_eqb (pr_var p) v); reflexivity.
Qed.
Lemma number_kind {A} f (size : A -> nat) l : forall i v, In v (number_from f size i l) -> exists k, fst v = f k.
Proof. induction l as [|x l IH]; intros i v I; [contradiction|]. destruct I as [<-|I]; [eexists; reflexivity|eauto]. Qed.
Lemma outputs_dropped d p j l (e : engine T) : pr_var p = VOut j -> @fis_codes T S d (p :: l) (input_sizes e) = @fis_codes T S d l (input_sizes e).
Proof.
  intro E. rewrite !codes_words. f_equal. apply map_ext_in. intros v I. apply number_kind in I. destruct I as (k & K). unfold code_word. cbn [find]. rewrite E, K. reflexivity.
Qed.
End Lost.

(** ** operator names *)
Section Names.
Local Open Scope string_scope.
Lemma fis_tnorms n : construct (translate_tnorm (fis_tnorm n)) tnorm_factory = Ok (Some n) /\ construct (translate_tnorm (tnorm_class n)) tnorm_factory = Ok (Some n).
Proof. destruct n; split; reflexivity. Qed.
Lemma fis_snorms n : construct (translate_snorm (fis_snorm n)) snorm_factory = Ok (Some n) /\ construct (translate_snorm (snorm_class n)) snorm_factory = Ok (Some n).
Proof. destruct n; split; reflexivity. Qed.
Lemma fis_defuzzifiers resolution z : construct (translate_defuzzifier (fis_defuzzifier z)) (defuzzifier_factory resolution) = Ok (option_map (like resolution) z).
Proof. destruct z as [[k n|k ty]|]; [destruct k|destruct k|]; reflexivity. Qed.
Lemma two_parts_key key value : lacks ":" key = true -> key <> "" -> lacks ":" value = true -> two_parts (key ++ ": " ++ value) ":" = Ok (key, " " ++ value).
Proof.
  intros A B C. unfold two_parts. change (key ++ ": " ++ value) with (key ++ String ":" (" " ++ value)). 
  assert (E : split (key ++ String ":" (" " ++ value)) ":" true = [key; " " ++ value]) by (apply (split_two ":" key (" " ++ value)); auto; discriminate). rewrite E. reflexivity.
Qed.
Lemma fcl_tnorms key n : lacks ":" key = true -> key <> "" -> fcl_parse_tnorm (key ++ ": " ++ fcl_tnorm n) = Ok n.
Proof. intros A B. unfold fcl_parse_tnorm. rewrite two_parts_key by (auto; destruct n as [[]|]; reflexivity). destruct n as [[]|]; reflexivity. Qed.
Lemma fcl_snorms key n : lacks ":" key = true -> key <> "" -> fcl_parse_snorm (key ++ ": " ++ fcl_snorm n) = Ok n.
Proof. intros A B. unfold fcl_parse_snorm. rewrite two_parts_key by (auto; destruct n as [[]|]; reflexivity). destruct n as [[]|]; reflexivity. Qed.
Lemma fcl_defuzzifiers resolution key z : lacks ":" key = true -> key <> "" ->
  fcl_parse_defuzzifier resolution (key ++ ": " ++ fcl_defuzzifier z) = Ok (option_map (like resolution) z).
Proof. intros A B. unfold fcl_parse_defuzzifier. rewrite two_parts_key by first [assumption | destruct z as [[k n|k ty]|]; [destruct k|destruct k|]; reflexivity]. destruct z as [[k n|k ty]|]; [destruct k|destruct k|]; reflexivity. Qed.
End Names.

(** ** examples *)
Section Examples.
Local Open Scope string_scope.
#[local] Hint Extern 9 (Scalar _) => exact (F64Scalar fis_params) : typeclass_instances.
(** a fan: two inputs with two terms, two outputs with three terms *)
Definition fan_input (name : string) : variable f64 := mkVariable name "" s_nan (f64_lit 0 1) (f64_lit 1 1) true false
  [mkTerm "low" (f64_lit 1 1) (TShape (Ramp (f64_lit 1 1) (f64_lit 0 1))); mkTerm "high" (f64_lit 1 1) (TShape (Ramp (f64_lit 0 1) (f64_lit 1 1)))].
Definition fan_output (name : string) : output f64 := mkOutput (mkVariable name "" s_nan (f64_lit 0 1) (f64_lit 1 1) true false
  (map (fun n => mkTerm n (f64_lit 1 1) (TConstant (f64_lit 1 2))) ["off"; "half"; "full"])) [] None (Some (DWeighted WeightedAverage WAutomatic)) s_nan s_nan false.
Definition fan_rule (weight : f64) (antecedent : expression) (consequent : list proposition) : rule f64 :=
  mkRule true "" weight (f64_lit 0 1) false "" (Some antecedent) "" consequent.
Definition fan (rules : list (rule f64)) : engine f64 :=
  mkEngine "fan" "" [fan_input "heat"; fan_input "damp"] [fan_output "speed"; fan_output "swing"]
    [mkBlock true "" "" rules (Some Minimum) (Some Maximum) (Some Minimum) (Some General)].
Definition fan_env : penv := engine_env (e_inputs (fan [])) (e_outputs (fan [])).
Definition p_damp : proposition := mkProp (VIn 1%nat) [Somewhat] (Some 1%nat).
Definition p_heat : proposition := mkProp (VIn 0%nat) [Not; Very; Very] (Some 0%nat).
Definition p_any : proposition := mkProp (VIn 0%nat) [Not; Any] None.
Definition p_swing : proposition := mkProp (VOut 1%nat) [Not] (Some 1%nat).
Definition p_speed : proposition := mkProp (VOut 0%nat) [] (Some 2%nat).
Lemma terms_in v n : In n (terms_of fan_env v) -> In n ["low"; "high"; "off"; "half"; "full"].
Proof.
  destruct v as [[|[|i]]|[|[|i]]]; cbn; try (now destruct i); intro H; repeat (destruct H as [<-|H]; [auto 6|]); contradiction.
Qed.
Lemma fan_names : fis_names fan_env.
Proof.
  assert (NM : forall n, named fan_env n -> In n ["heat"; "damp"; "speed"; "swing"; "low"; "high"; "off"; "half"; "full"]).
  { intros n [H|[H|[v H]]].
    - destruct H as [<-|[<-|[]]]; cbn; auto 10.
    - destruct H as [<-|[<-|[]]]; cbn; auto 10.
    - apply terms_in in H. cbn in H |- *. tauto. }
  split.
  - intros x H. apply NM in H. repeat (destruct H as [<-|H]; [split; [reflexivity|intros [K|[K|K]]; discriminate]|]). contradiction.
  - intros n H. apply NM in H. repeat (destruct H as [<-|H]; [repeat split; discriminate|]). contradiction.
  - intros v n H K. apply terms_in in H. repeat (destruct H as [<-|H]; [discriminate K || (destruct K as (h & K); destruct h; discriminate)|]). contradiction.
  - cbn. repeat (constructor; [cbn; intuition discriminate|]). constructor.
  - cbn. repeat (constructor; [cbn; intuition discriminate|]). constructor.
  - intro v. destruct v as [[|[|i]]|[|[|i]]]; cbn; try (destruct i; constructor); repeat (constructor; [cbn; intuition discriminate|]); constructor.
Qed.
End Examples.
