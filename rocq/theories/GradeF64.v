(** Degrees of antecedents and of rules in binary64 against the documented formulas, for operators without jumps and all hedges. *)
From Coq Require Import ZArith Reals String Bool List Lra Lia.
From Coquelicot Require Import Coquelicot.
From Flocq Require Import Core BinarySingleNaN.
From Verif Require Import Base Op XR XRFacts F64 F64Facts F64Arith F64Err F64Sum F64Quot Shape Norm Hedge Defuzz Aggregated Rule Var Activation Engine SpecRule SpecDegree SpecActivation SpecEngine SpecInfer SpecTerm SpecNorm SpecDefuzz SpecRound SpecMamdani
  SpecLimit LimitMamdani SpecNormErr SpecGrade NormSpec NormF64 NormErr HedgeErr OpProofs ShapeF64 MamdaniF64 EngineF64.
Import ListNotations.
Local Open Scope R_scope.

(** ** hedges *)
Lemma sqrt_steady a b : 0 <= a -> 0 <= b -> Rabs (sqrt a - sqrt b) <= sqrt (Rabs (a - b)).
Proof.
  assert (G : forall x y, 0 <= x <= y -> sqrt y - sqrt x <= sqrt (y - x)).
  { intros x y H. assert (A := sqrt_pos x). assert (B := sqrt_pos (y - x)). assert (Q : sqrt y <= sqrt x + sqrt (y - x)); [|lra]. apply Rsqr_incr_0_var; [|lra]. unfold Rsqr. rewrite sqrt_sqrt by lra. assert (E1 := sqrt_sqrt x ltac:(lra)). assert (E2 := sqrt_sqrt (y - x) ltac:(lra)). assert (0 <= sqrt x * sqrt (y - x)) by (apply Rmult_le_pos; assumption). lra. }
  intros A B. destruct (Rle_dec a b) as [L|L].
  - rewrite (Rabs_minus_sym a), (Rabs_pos_eq (b - a)) by lra. rewrite Rabs_minus_sym, Rabs_pos_eq; [now apply G|]. assert (Q := sqrt_le_1_alt a b L). lra.
  - rewrite (Rabs_pos_eq (a - b)) by lra. rewrite Rabs_pos_eq; [apply G; lra|]. assert (Q := sqrt_le_1_alt b a ltac:(lra)). lra.
Qed.
Lemma square_steady a b : 0 <= a <= 1 -> 0 <= b <= 1 -> Rabs (a * a - b * b) <= 2 * Rabs (a - b).
Proof. intros A B. replace (a * a - b * b) with ((a + b) * (a - b)) by ring. rewrite Rabs_mult, (Rabs_pos_eq (a + b)) by lra. apply Rmult_le_compat_r; [apply Rabs_pos|lra]. Qed.
Lemma half_square a b : 0 <= a <= 1 / 2 -> 0 <= b <= 1 / 2 -> Rabs (2 * a * a - 2 * b * b) <= 2 * Rabs (a - b).
Proof. intros A B. replace (2 * a * a - 2 * b * b) with (2 * ((a + b) * (a - b))) by ring. rewrite !Rabs_mult, (Rabs_pos_eq 2), (Rabs_pos_eq (a + b)) by lra. assert ((a + b) * Rabs (a - b) <= 1 * Rabs (a - b)) by (apply Rmult_le_compat_r; [apply Rabs_pos|lra]). lra. Qed.
Lemma half_root a b : 0 <= a <= 1 -> 0 <= b <= 1 -> Rabs (sqrt (a / 2) - sqrt (b / 2)) <= sqrt (Rabs (a - b) / 2).
Proof. intros A B. replace (Rabs (a - b) / 2) with (Rabs (a / 2 - b / 2)); [apply sqrt_steady; lra|]. replace (a / 2 - b / 2) with ((a - b) * / 2) by lra. rewrite Rabs_mult, (Rabs_pos_eq (/ 2)) by lra. reflexivity. Qed.
Lemma root_quarter : sqrt (1 / 2 / 2) = 1 / 2.
Proof. replace (1 / 2 / 2) with (1 / 2 * (1 / 2)) by lra. apply sqrt_square. lra. Qed.
Lemma roots_add p q : 0 <= p -> 0 <= q -> sqrt (p / 2) + sqrt (q / 2) <= sqrt (p + q).
Proof.
  intros P Q. assert (A := sqrt_pos (p / 2)). assert (B := sqrt_pos (q / 2)). apply Rsqr_incr_0_var; [|apply sqrt_pos]. unfold Rsqr. rewrite (sqrt_sqrt (p + q)) by lra. assert (E1 := sqrt_sqrt (p / 2) ltac:(lra)). assert (E2 := sqrt_sqrt (q / 2) ltac:(lra)).
  assert (0 <= (sqrt (p / 2) - sqrt (q / 2)) * (sqrt (p / 2) - sqrt (q / 2))) by (apply Rle_0_sqr). lra.
Qed.
Lemma spread_mono h d d' : d <= d' -> hedge_spread h d <= hedge_spread h d'.
Proof. intro D. destruct h; cbn [hedge_spread]; try lra; now apply sqrt_le_1_alt. Qed.
Lemma spread_pos h d : 0 <= d -> 0 <= hedge_spread h d.
Proof. intro D. destruct h; cbn [hedge_spread]; try lra; apply sqrt_pos. Qed.
Theorem hedge_steady h a b : 0 <= a <= 1 -> 0 <= b <= 1 -> Rabs (h_formula (hname_of h) a - h_formula (hname_of h) b) <= hedge_spread h (Rabs (a - b)).
Proof.
  assert (ext : forall a b, 0 <= a <= 1 / 2 -> 1 / 2 < b <= 1 -> Rabs (2 * a * a - (1 - 2 * (1 - b) * (1 - b))) <= 2 * Rabs (a - b)).
  { intros x y X Y. assert (A := half_square x (1 / 2) ltac:(lra) ltac:(lra)). assert (B := half_square (1 / 2) (1 - y) ltac:(lra) ltac:(lra)). unfold Rabs in *. repeat destruct Rcase_abs in *; repeat destruct Rcase_abs; lra. }
  assert (sel : forall a b, 0 <= a <= 1 / 2 -> 1 / 2 < b <= 1 -> Rabs (sqrt (a / 2) - (1 - sqrt ((1 - b) / 2))) <= sqrt (Rabs (a - b))).
  { intros x y X Y. assert (A := half_root x (1 / 2) ltac:(lra) ltac:(lra)). assert (B := half_root (1 / 2) (1 - y) ltac:(lra) ltac:(lra)). rewrite root_quarter in A, B. rewrite (Rabs_minus_sym x (1 / 2)), (Rabs_pos_eq (1 / 2 - x)) in A by lra. rewrite (Rabs_pos_eq (1 / 2 - (1 - y))) in B by lra.
    assert (Q := roots_add (1 / 2 - x) (1 / 2 - (1 - y)) ltac:(lra) ltac:(lra)). rewrite (Rabs_minus_sym x y), (Rabs_pos_eq (y - x)) by lra. replace (1 / 2 - x + (1 / 2 - (1 - y))) with (y - x) in Q by lra.
    assert (Z := Rabs_triang (sqrt (x / 2) - 1 / 2) (-(1 / 2 - sqrt ((1 - y) / 2)))). rewrite Rabs_Ropp in Z. replace (sqrt (x / 2) - 1 / 2 + - (1 / 2 - sqrt ((1 - y) / 2))) with (sqrt (x / 2) - (1 - sqrt ((1 - y) / 2))) in Z by lra. lra. }
  intros A B. destruct h; cbn [hname_of h_formula hedge_spread].
  - rewrite Rminus_eq_0, Rabs_R0. lra.
  - destruct (Rle_dec a (1 / 2)), (Rle_dec b (1 / 2)).
    + apply half_square; lra.
    + apply ext; lra.
    + rewrite Rabs_minus_sym, (Rabs_minus_sym a b). apply ext; lra.
    + assert (Q := half_square (1 - b) (1 - a) ltac:(lra) ltac:(lra)). replace (1 - 2 * (1 - a) * (1 - a) - (1 - 2 * (1 - b) * (1 - b))) with (2 * (1 - b) * (1 - b) - 2 * (1 - a) * (1 - a)) by ring. replace (1 - b - (1 - a)) with (a - b) in Q by ring. exact Q.
  - replace (1 - a - (1 - b)) with (- (a - b)) by ring. rewrite Rabs_Ropp. lra.
  - assert (M : forall x, 0 <= x -> sqrt (x / 2) <= sqrt x) by (intros x X; apply sqrt_le_1_alt; lra). assert (Rp := Rabs_pos (a - b)). destruct (Rle_dec a (1 / 2)), (Rle_dec b (1 / 2)).
    + apply Rle_trans with (2 := M _ Rp). apply half_root; lra.
    + apply sel; lra.
    + rewrite Rabs_minus_sym, (Rabs_minus_sym a b). apply sel; lra.
    + apply Rle_trans with (2 := M _ Rp). assert (Q := half_root (1 - b) (1 - a) ltac:(lra) ltac:(lra)). replace (1 - sqrt ((1 - a) / 2) - (1 - sqrt ((1 - b) / 2))) with (sqrt ((1 - b) / 2) - sqrt ((1 - a) / 2)) by ring. replace (1 - b - (1 - a)) with (a - b) in Q by ring. exact Q.
  - apply sqrt_steady; lra.
  - now apply square_steady.
Qed.
Lemma h_range h a : 0 <= a <= 1 -> 0 <= h_formula (hname_of h) a <= 1.
Proof.
  assert (R1 : forall x, 0 <= x <= 1 -> 0 <= sqrt x <= 1) by (intros x X; split; [apply sqrt_pos|rewrite <- sqrt_1; apply sqrt_le_1_alt; lra]). assert (SQ : forall x, 0 <= x <= 1 / 2 -> 0 <= 2 * x * x <= 1 / 2). { intros x X. assert (0 <= x * x <= 1 / 2 * (1 / 2)) by (split; [apply Rmult_le_pos; lra|apply Rmult_le_compat; lra]). lra. }
  intro A. destruct h; cbn [hname_of h_formula]; try lra.
  - destruct Rle_dec; [assert (Q := SQ a ltac:(lra))|assert (Q := SQ (1 - a) ltac:(lra))]; lra.
  - destruct Rle_dec; [apply R1; lra|assert (Q := R1 ((1 - a) / 2) ltac:(lra)); lra].
  - now apply R1.
  - split; [apply Rmult_le_pos; lra|]. replace 1 with (1 * 1) by ring. apply Rmult_le_compat; lra.
Qed.
Lemma hedged_range hs a : 0 <= a <= 1 -> 0 <= hedged hs a <= 1.
Proof. intro A. induction hs as [|h hs IH]; [exact A|]. cbn [hedged fold_right]. apply h_range. exact IH. Qed.
Lemma hedge_error_pos h eps : 0 <= eps -> 0 <= hedge_error h eps.
Proof. intro E. destruct u_tiny. destruct h; cbn [hedge_error]; lra. Qed.
Lemma tnorm_error_pos n eps : 0 <= eps -> 0 <= tnorm_error n eps.
Proof. intro E. destruct u_tiny. destruct n; cbn [tnorm_error]; lra. Qed.
Lemma snorm_error_pos n : 0 <= snorm_error n.
Proof. destruct u_tiny. destruct n; cbn [snorm_error]; lra. Qed.
Lemma hedged_error_pos eps hs d : 0 <= eps -> 0 <= d -> 0 <= hedged_error eps hs d.
Proof. intros E D. induction hs as [|h hs IH]; [exact D|]. cbn [hedged_error fold_right]. assert (Q := spread_pos h _ IH). assert (Q2 := hedge_error_pos h eps E). unfold hedged_error in *. lra. Qed.

Section Grade.
Variables (P : fparam) (e : engine f64) (delta : R).
#[local] Instance S64g : Scalar f64 := F64Scalar P.
Let eps := B2R (fp_eps P).
Hypothesis eps_fin : is_finite (fp_eps P) = true.
Hypothesis eps_ok : 0 <= eps <= 1 / 8.
Hypothesis delta_pos : 0 <= delta.
Lemma hedged_round hs (m x : f64) m' d : Hedged hs m x -> fdegree m -> 0 <= m' <= 1 -> Rabs (B2R m - m') <= d ->
  fdegree x /\ Rabs (B2R x - hedged hs m') <= hedged_error eps hs d.
Proof.
  intros H Dm M D. induction H as [x|h hs x y H IH].
  - split; [exact Dm|exact D].
  - destruct (IH Dm D) as [Dy Ey]. destruct (hedge_round P eps_fin eps_ok y Dy h) as [Dh Eh]. split; [exact Dh|]. cbn [hedged hedged_error fold_right]. change (fold_right (fun h y => h_formula (hname_of h) y) m' hs) with (hedged hs m'). change (fold_right (fun h y => hedge_error h eps + hedge_spread h y) d hs) with (hedged_error eps hs d).
    apply (via _ _ _ _ _ Eh). apply Rle_trans with (1 := hedge_steady h (B2R y) (hedged hs m') (proj2 Dy) (hedged_range hs m' M)). now apply spread_mono.
Qed.
Hypothesis inputs : measured e P delta.
Lemma hedged_any hs x : hedged (hs ++ [Any]) x = hedged hs 1.
Proof. unfold hedged. rewrite fold_right_app. reflexivity. Qed.
Lemma error_any hs d : hedged_error eps (hs ++ [Any]) d = hedged_error eps hs 0.
Proof. unfold hedged_error. rewrite fold_right_app. cbn [fold_right hedge_error hedge_spread]. now rewrite Rplus_0_l. Qed.
Lemma both_steady plain x y x' y' E1 E2 : Rabs (x - x') <= E1 -> Rabs (y - y') <= E2 -> Rabs (x - x') + Rabs (y - y') <= E1 + E2 /\ (plain = true -> Rabs (Rmin x y - Rmin x' y') <= both plain E1 E2 /\ Rabs (Rmax x y - Rmax x' y') <= both plain E1 E2).
Proof.
  intros A B. split; [lra|]. intros ->. cbn [both]. assert (A1 := Rle_trans _ _ _ A (Rmax_l E1 E2)). assert (B1 := Rle_trans _ _ _ B (Rmax_r E1 E2)). split; [now apply min_slope|]. apply max_slope; assumption.
Qed.
Lemma grade_error_pos b a : 0 <= grade_error b eps delta a.
Proof.
  assert (BP : forall pl x y, 0 <= x -> 0 <= y -> 0 <= both pl x y) by (intros [] x y X Y; cbn [both]; [apply Rle_trans with (1 := X), Rmax_l|lra]).
  induction a as [p|name l IHl r IHr]; cbn [grade_error]; [apply hedged_error_pos; [apply eps_ok|exact delta_pos]|]. destruct (String.eqb name "and").
  - destruct (b_conjunction b) as [n|]; [|lra]. assert (Q := tnorm_error_pos n eps (proj1 eps_ok)). specialize (BP (match n with Minimum => true | _ => false end) _ _ IHl IHr). lra.
  - destruct (b_disjunction b) as [n|]; [|lra]. assert (Q := snorm_error_pos n). specialize (BP (match n with Maximum => true | _ => false end) _ _ IHl IHr). lra.
Qed.
Section Block.
Variable b : block f64.
Hypothesis conj : forall n, b_conjunction b = Some n -> even_tnorm n.
Hypothesis disj : forall n, b_disjunction b = Some n -> even_snorm n.
Theorem grade_close known a d : Strength e b known a d -> (forall p, In p (propositions a) -> exists i v, pr_var p = VIn i /\ nth_error (e_inputs e) i = Some v) ->
  fdegree d /\ 0 <= grade e b a <= 1 /\ Rabs (B2R d - grade e b a) <= grade_error b eps delta a.
Proof.
  intros H. destruct f64_0_correct as [Z1 Z2]. destruct f64_1_correct as [O1 O2].
  induction H as [p I|p hs x A Q H|p t m x A NA T Ho H|l r x y n Q H1 IH1 H2 IH2|l r x y n Q H1 IH1 H2 IH2]; intro F.
  - destruct (F p (or_introl eq_refl)) as (i & v0 & V & _). cbn [grade grade_error]. unfold grade_of. rewrite V in *. destruct I as (v & I1 & I2). rewrite I1, I2. change (@s_0 f64 _) with (f64_lit 0 1). split; [split; [exact Z2|rewrite Z1; lra]|]. split; [lra|]. rewrite Z1, Rminus_eq_0, Rabs_R0. apply hedged_error_pos; [apply eps_ok|exact delta_pos].
  - destruct (F p (or_introl eq_refl)) as (i & v & V & NI). cbn [grade grade_error]. unfold grade_of. rewrite V, Q, NI in *. destruct (v_enabled v) eqn:EN; [|exfalso; apply A; exists v; auto]. rewrite hedged_any, error_any.
    destruct (hedged_round hs (f64_lit 1 1) x 1 0 H) as [C1 C2]; [split; [exact O2|rewrite O1; lra]|lra|rewrite O1, Rminus_eq_0, Rabs_R0; lra|]. split; [exact C1|]. split; [apply hedged_range; lra|exact C2].
  - destruct (F p (or_introl eq_refl)) as (i & v0 & V & _). cbn [grade grade_error]. unfold grade_of. rewrite V, T in *. inversion Ho as [i' v t' tm m' N1 N2 N3|]; subst. rewrite N1. destruct (v_enabled v) eqn:EN; [|exfalso; apply A; exists v; auto].
    destruct (inputs v t tm (nth_error_In _ _ N1) N2) as [DO ME]. destruct (ME m N3) as [M1 M2]. destruct (hedged_round (pr_hedges p) m x _ delta H M1 DO M2) as [C1 C2]. split; [exact C1|]. split; [now apply hedged_range|exact C2].
  - destruct IH1 as (A1 & A2 & A3); [intros p I; apply F; cbn [propositions]; apply in_or_app; now left|]. destruct IH2 as (B1 & B2 & B3); [intros p I; apply F; cbn [propositions]; apply in_or_app; now right|].
    cbn [grade grade_error String.eqb Ascii.eqb Bool.eqb]. rewrite Q. destruct (t_round P x y A1 B1 n (conj n Q) eps_fin (proj1 eps_ok)) as [T1 T2]. split; [exact T1|]. split; [now apply t_range|]. fold eps in T2. apply (via _ _ _ _ _ T2).
    destruct (both_steady (match n with Minimum => true | _ => false end) _ _ _ _ _ _ A3 B3) as [G1 G2]. assert (ST := t_steady n _ _ _ _ (conj n Q) (proj2 A1) (proj2 B1) A2 B2). destruct n; try (cbn [both]; lra). exact (proj1 (G2 eq_refl)).
  - destruct IH1 as (A1 & A2 & A3); [intros p I; apply F; cbn [propositions]; apply in_or_app; now left|]. destruct IH2 as (B1 & B2 & B3); [intros p I; apply F; cbn [propositions]; apply in_or_app; now right|].
    cbn [grade grade_error String.eqb Ascii.eqb Bool.eqb]. rewrite Q. destruct (s_round P x y A1 B1 n (disj n Q)) as [T1 T2]. split; [exact T1|]. split; [apply NormErr.s_range; auto|]. apply (via _ _ _ _ _ T2).
    destruct (both_steady (match n with Maximum => true | _ => false end) _ _ _ _ _ _ A3 B3) as [G1 G2]. assert (ST := s_steady n _ _ _ _ (disj n Q) (proj2 A1) (proj2 B1) A2 B2). destruct n; try (cbn [both]; lra). exact (proj2 (G2 eq_refl)).
Qed.
Lemma weigh (w d : f64) : fdegree w -> fdegree d -> fdegree (Bmult mode_NE w d) /\ Rabs (B2R (Bmult mode_NE w d) - B2R w * B2R d) <= u64.
Proof.
  intros Dw Dd. destruct (prod_fin P w d Dw Dd) as (F & E & R & _). change (@s_mul f64 (F64Scalar P) w d) with (Bmult mode_NE w d) in F, E. destruct Dw as [_ W]. destruct Dd as [_ D]. assert (0 <= B2R w * B2R d <= 1 * 1) by (split; [apply Rmult_le_pos; lra|apply Rmult_le_compat; lra]). split; [split; [exact F|]|].
  - rewrite E. apply rnd_between; [apply fmt_0|apply fmt_1|lra].
  - rewrite E. apply rnd_small. rewrite Rabs_pos_eq; lra.
Qed.
(** what a rule concludes, and to which degree *)
Theorem rule_close known r a d : fdegree (rl_weight r) -> rl_antecedent r = Some a -> Strength e b known a d -> (forall p, In p (propositions a) -> exists i v, pr_var p = VIn i /\ nth_error (e_inputs e) i = Some v) ->
  let m := Bmult mode_NE (rl_weight r) d in fdegree m /\ Rabs (B2R m - B2R (rl_weight r) * grade e b a) <= grade_error b eps delta a + u64.
Proof.
  intros W A H F m. destruct (grade_close known a d H F) as (G1 & G2 & G3). destruct (weigh (rl_weight r) d W G1) as [M1 M2]. fold m in M1, M2. split; [exact M1|].
  assert (Q : Rabs (B2R (rl_weight r) * B2R d - B2R (rl_weight r) * grade e b a) <= grade_error b eps delta a). { replace (B2R (rl_weight r) * B2R d - B2R (rl_weight r) * grade e b a) with (B2R (rl_weight r) * (B2R d - grade e b a)) by ring. destruct W as [_ W]. rewrite Rabs_mult, (Rabs_pos_eq (B2R (rl_weight r))) by lra. apply Rle_trans with (2 := G3). rewrite <- (Rmult_1_l (Rabs _)) at 2. apply Rmult_le_compat_r; [apply Rabs_pos|lra]. }
  assert (Z := via _ _ _ _ _ M2 Q). lra.
Qed.
End Block.
End Grade.
