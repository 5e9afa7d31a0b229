(** The fuzzy output of an engine in binary64 against the documented set, for operators without jumps. *)
From Coq Require Import ZArith Reals String Bool List Lra Lia.
From Coquelicot Require Import Coquelicot.
From Flocq Require Import Core BinarySingleNaN.
From Verif Require Import Base Op XR XRFacts F64 F64Facts F64Arith F64Err F64Sum F64Quot Shape Norm Hedge Defuzz Aggregated Rule Var Activation Engine SpecRule SpecDegree SpecActivation SpecEngine SpecInfer SpecTerm SpecNorm SpecDefuzz SpecRound SpecMamdani
  SpecLimit LimitProofs LimitMamdani SpecNormErr SpecGrade NormSpec NormF64 NormErr HedgeErr OpProofs ShapeF64 MamdaniF64 InferProofs InferBundle GradeF64.
Import ListNotations.
Local Open Scope R_scope.

Lemma t_zero n m : even_tnorm n -> 0 <= m <= 1 -> t_formula (tname_of n) m 0 = 0.
Proof.
  intros [E1 E2] M. destruct n; try congruence; cbn [tname_of t_formula]; unfold Rmin, Rmax, Rdiv; repeat destruct Rle_dec; repeat destruct Req_EM_T; try lra.
  all: rewrite ?Rmult_0_r, ?Rmult_0_l; lra.
Qed.
Lemma s_zero n m : even_snorm n -> 0 <= m <= 1 -> s_formula (sname_of n) m 0 = m.
Proof.
  intros (E1 & E2 & E3 & E4) M. destruct n; try congruence; cbn [sname_of s_formula]; try (unfold Rmin, Rmax; repeat destruct Rle_dec; lra).
  - rewrite Rmult_0_r, !Rplus_0_r. unfold Rdiv. rewrite Rinv_1. lra.
  - rewrite !Rplus_0_r, norm_sum by lra. apply Rmin_right. lra.
Qed.
Lemma t_below n m w : even_tnorm n -> 0 <= m <= 1 -> 0 <= w <= 1 -> 0 <= t_formula (tname_of n) m w <= w.
Proof.
  intros E M W. assert (Q := t_steady n m w m 0 E M W M ltac:(lra)). rewrite t_zero in Q by assumption. rewrite Rminus_0_r, Rminus_eq_0, Rabs_R0, Rplus_0_l, Rminus_0_r, (Rabs_pos_eq w) in Q by lra. assert (Z := t_range (tname_of n) m w M W). rewrite Rabs_pos_eq in Q by lra. lra.
Qed.
Section Sets.
Variables (P : fparam) (e : engine f64) (delta delta' : R) (vw : view f64) (ts : list (term f64)) (s : snorm) (j : nat) (x : f64) (z : R).
#[local] Instance S64s : Scalar f64 := F64Scalar P.
Let eps := B2R (fp_eps P).
Hypothesis eps_fin : is_finite (fp_eps P) = true.
Hypothesis eps_ok : 0 <= eps <= 1 / 8.
Hypothesis delta_pos : 0 <= delta.
Hypothesis delta_pos' : 0 <= delta'.
Hypothesis inputs : measured e P delta.
Hypothesis even : even_engine e.
Hypothesis aggregation : even_snorm s.
Hypothesis x_num : is_finite x = true.
Hypothesis doc_range : forall t, 0 <= documented ts t z <= 1.
Let memb t x := match nth_error ts t with Some tm => term_membership vw tm x | None => UB end.
Let step := fun m a => do v <- ac_membership memb a x; Ok (snorm_compute s m v).
Definition heads_of (ps : list proposition) : list nat := flat_map (fun p => match pr_var p, pr_term p with VOut k, Some t => if Nat.eqb k j then [t] else [] | _, _ => [] end) ps.
Definition cut (n : tnorm) (W : R) (t : nat) : R := t_formula (tname_of n) (documented ts t z) W.
Lemma x_is_num : isNaN x = false.
Proof. transitivity (is_nan x); [apply f_isNaN|]. destruct x; try reflexivity; discriminate x_num. Qed.
Lemma fold_range n W l A : 0 <= W <= 1 -> 0 <= A <= 1 -> 0 <= fold_left (s_formula (sname_of s)) (map (cut n W) l) A <= 1.
Proof.
  intros HW. revert A. induction l as [|t l IH]; intros A HA; cbn [map fold_left]; [exact HA|]. apply IH. apply NormErr.s_range; [exact aggregation|exact HA|]. apply t_range; [apply doc_range|exact HW].
Qed.
Lemma join_step (acc m d : f64) n A t W E er : even_tnorm n -> fdegree acc -> fdegree m -> fdegree d -> 0 <= A <= 1 -> 0 <= W <= 1 -> Rabs (B2R acc - A) <= er -> Rabs (B2R m - documented ts t z) <= delta' -> Rabs (B2R d - W) <= E ->
  fdegree (snorm_compute s acc (tnorm_compute n m d)) /\ Rabs (B2R (snorm_compute s acc (tnorm_compute n m d)) - s_formula (sname_of s) A (cut n W t)) <= er + (delta' + E + tnorm_error n eps + snorm_error s).
Proof.
  intros En Da Dm Dd HA HW Ea Em Ed. destruct (t_round P m d Dm Dd n En eps_fin (proj1 eps_ok)) as [T1 T2]. fold eps in T2. destruct (s_round P acc _ Da T1 s aggregation) as [S1 S2]. split; [exact S1|].
  assert (TR := t_range (tname_of n) (documented ts t z) W (doc_range t) HW). assert (Q1 := t_steady n (B2R m) (B2R d) (documented ts t z) W En (proj2 Dm) (proj2 Dd) (doc_range t) HW).
  assert (Q2 := s_steady s (B2R acc) _ A (cut n W t) aggregation (proj2 Da) (proj2 T1) HA TR). assert (Q3 := via _ _ _ _ _ T2 Q1). fold (cut n W t) in Q3. assert (Q4 := via _ _ _ _ _ S2 Q2).
  change (@tnorm_compute f64 S64s n m d) with (@tnorm_compute f64 (F64Scalar P) n m d) in *. change (@snorm_compute f64 S64s) with (@snorm_compute f64 (F64Scalar P)) in *. lra.
Qed.
(** conclusions of a rule which fires *)
Lemma follows_join b n (d : f64) (ps : list proposition) cs W E : active e (VOut j) -> Follows e b d ps cs -> (forall p, In p ps -> pr_hedges p = []) -> b_implication b = Some n -> even_tnorm n ->
  (forall t, In t (heads_of ps) -> traced P vw ts delta' x z t) -> fdegree d -> 0 <= W <= 1 -> Rabs (B2R d - W) <= E ->
  forall acc A er, fdegree acc -> 0 <= A <= 1 -> Rabs (B2R acc - A) <= er ->
  exists y, rfold step acc (about j cs) = Ok y /\ fdegree y /\ Rabs (B2R y - fold_left (s_formula (sname_of s)) (map (cut n W) (heads_of ps)) A) <= er + INR (List.length (heads_of ps)) * (delta' + E + tnorm_error n eps + snorm_error s).
Proof.
  intros AJ H. induction H as [d|d p ps cs I H IH|d d' p ps cs i t Ac V T Hh H IH]; intros F BI En TR Dd HW Ed acc A er Da HA Ea.
  - exists acc. split; [reflexivity|]. split; [exact Da|]. cbn [heads_of flat_map map fold_left List.length INR]. lra.
  - assert (Z : heads_of (p :: ps) = heads_of ps). { unfold heads_of. cbn [flat_map]. destruct (pr_var p) as [i|i] eqn:V; [reflexivity|]. destruct (pr_term p); [|reflexivity]. destruct (Nat.eqb_spec i j) as [->|]; [|reflexivity]. exfalso. now apply AJ. }
    rewrite Z in *. apply IH; auto. intros q Q. apply F. now right.
  - assert (HH := F p (or_introl eq_refl)). rewrite HH in Hh. inversion Hh; subst.
    assert (AB : about j ((i, mkActivated t d' (b_implication b)) :: cs) = if Nat.eqb i j then mkActivated t d' (b_implication b) :: about j cs else about j cs) by (unfold about; cbn [filter fst]; destruct (Nat.eqb i j); reflexivity).
    assert (HE : heads_of (p :: ps) = if Nat.eqb i j then t :: heads_of ps else heads_of ps) by (unfold heads_of; cbn [flat_map]; rewrite V, T; destruct (Nat.eqb i j); reflexivity).
    rewrite AB. rewrite HE in *. destruct (Nat.eqb i j).
    + destruct (TR t (or_introl eq_refl)) as (tm & m & N1 & N2 & N3 & N4). assert (ST : step acc (mkActivated t d' (b_implication b)) = Ok (snorm_compute s acc (tnorm_compute n m d'))). { unfold step, ac_membership. cbn [ac_implication ac_term ac_degree]. rewrite x_is_num, BI. unfold memb. rewrite N1. change (@term_membership f64 S64s) with (@term_membership f64 (F64Scalar P)). rewrite N2. reflexivity. }
      cbn [rfold map fold_left List.length]. rewrite ST. cbn [rbind]. destruct (join_step acc m d' n A t W E er En Da N3 Dd HA HW Ea N4 Ed) as [J1 J2]. rewrite S_INR.
      destruct (IH (fun q Q => F q (or_intror Q)) BI En (fun t' I' => TR t' (or_intror I')) Dd HW Ed _ (s_formula (sname_of s) A (cut n W t)) _ J1 (NormErr.s_range s A (cut n W t) aggregation HA (t_range (tname_of n) (documented ts t z) W (doc_range t) HW)) J2) as (y & Y1 & Y2 & Y3). exists y. split; [exact Y1|]. split; [exact Y2|]. lra.
    + apply IH; auto. intros q Q. apply F. now right.
Qed.
(** a rule which does not fire would not say much *)
Lemma idle_join n W E l : even_tnorm n -> 0 <= W <= 1 -> W <= E -> forall A u er, 0 <= A <= 1 -> Rabs (u - A) <= er ->
  Rabs (u - fold_left (s_formula (sname_of s)) (map (cut n W) l) A) <= er + INR (List.length l) * E.
Proof.
  intros En HW WE. induction l as [|t l IH]; intros A u er HA D; cbn [map fold_left List.length]; [cbn [INR]; lra|]. rewrite S_INR.
  assert (B := t_below n (documented ts t z) W En (doc_range t) HW). fold (cut n W t) in B. assert (Q := s_steady s A (cut n W t) A 0 aggregation HA ltac:(lra) HA ltac:(lra)). rewrite s_zero in Q by assumption. rewrite Rminus_eq_0, Rabs_R0, Rplus_0_l, Rminus_0_r, (Rabs_pos_eq (cut n W t)) in Q by lra. rewrite Rabs_minus_sym in Q.
  assert (Q2 := IH (s_formula (sname_of s) A (cut n W t)) u (er + E) (NormErr.s_range s A (cut n W t) aggregation HA ltac:(lra))). assert (Q3 := via _ _ _ _ _ D Q). specialize (Q2 ltac:(lra)). lra.
Qed.
Lemma grade_range b r : In (b, r) (in_force e) -> (exists a, rl_antecedent r = Some a /\ 0 <= grade e b a <= 1) \/ rl_antecedent r = None -> 0 <= rule_grade e b r <= 1.
Proof.
  intros I H. destruct (ee_weights _ even (b, r) I) as [_ W]. cbn [snd] in W. unfold rule_grade. destruct H as [(a & -> & G)| ->]; [|lra]. destruct (rl_enabled r); [|lra]. split; [apply Rmult_le_pos; lra|]. replace 1 with (1 * 1) by ring. apply Rmult_le_compat; lra.
Qed.
Lemma draws_join br known cs : active e (VOut j) -> In br (in_force e) -> In (fst br) (e_blocks e) -> b_enabled (fst br) = true -> Draws e (fst br) known (snd br) cs ->
  (forall t, In t (heads j (snd br)) -> traced P vw ts delta' x z t) ->
  forall acc A er, fdegree acc -> 0 <= A <= 1 -> Rabs (B2R acc - A) <= er ->
  exists y, rfold step acc (about j cs) = Ok y /\ fdegree y /\ 0 <= fold_left (s_formula (sname_of s)) (says e ts j z br) A <= 1 /\
  Rabs (B2R y - fold_left (s_formula (sname_of s)) (says e ts j z br) A) <= er + INR (List.length (heads j (snd br))) * head_error eps delta delta' s br.
Proof.
  destruct br as [b r]. cbn [fst snd]. intros AJ IR IB EB H TR acc A er Da HA Ea. destruct (ee_blocks _ even b IB EB) as (BC & BD & n & BI & En). assert (LW := ee_weights _ even (b, r) IR). cbn [snd] in LW. destruct u_tiny as [U1 U2].
  assert (AN : forall a p, rl_antecedent r = Some a -> In p (propositions a) -> exists i v, pr_var p = VIn i /\ nth_error (e_inputs e) i = Some v) by (intros a p RA Ip; exact (ee_antecedents _ even (b, r) a p IR RA Ip)).
  assert (SY : says e ts j z (b, r) = map (cut n (rule_grade e b r)) (heads j r)) by (unfold says; cbn [fst snd]; rewrite BI; reflexivity). rewrite SY. clear SY.
  assert (TP := tnorm_error_pos n eps (proj1 eps_ok)). assert (SP := snorm_error_pos s). set (L := INR (List.length (heads j r))). assert (LP : 0 <= L) by apply pos_INR.
  assert (HE : head_error eps delta delta' s (b, r) = delta' + rule_error b eps delta r + tnorm_error n eps + snorm_error s) by (unfold head_error; cbn [fst snd]; rewrite BI; reflexivity). rewrite HE. clear HE.
  assert (nothing : forall E, 0 <= rule_grade e b r <= 1 -> rule_grade e b r <= E -> E <= rule_error b eps delta r -> exists y, Ok acc = Ok y /\ fdegree y /\ 0 <= fold_left (s_formula (sname_of s)) (map (cut n (rule_grade e b r)) (heads j r)) A <= 1 /\
    Rabs (B2R y - fold_left (s_formula (sname_of s)) (map (cut n (rule_grade e b r)) (heads j r)) A) <= er + L * (delta' + rule_error b eps delta r + tnorm_error n eps + snorm_error s)).
  { intros E G1 G2 G3. exists acc. split; [reflexivity|]. split; [exact Da|]. split; [now apply fold_range|]. assert (Q := idle_join n (rule_grade e b r) E (heads j r) En G1 G2 A (B2R acc) er HA Ea). fold L in Q. assert (L * E <= L * (delta' + rule_error b eps delta r + tnorm_error n eps + snorm_error s)) by (apply Rmult_le_compat_l; lra). lra. }
  assert (EP := proj1 eps_ok).
  assert (REP : 0 <= rule_error b eps delta r). { unfold rule_error. destruct (rl_antecedent r) as [a|]; [|lra]. assert (Q := grade_error_pos P delta eps_ok delta_pos b a). fold eps in Q. lra. }
  destruct H as [LD|a d LD RA ST NF|a d cs LD RA ST EN FI FO].
  - unfold rule_loaded in LD. cbn [about map filter rfold]. destruct (rl_antecedent r) as [a|] eqn:RA.
    + unfold heads in *. unfold L in *. destruct (rl_consequent r); [|discriminate LD]. cbn [flat_map map fold_left List.length INR]. exists acc. split; [reflexivity|]. split; [exact Da|]. split; [exact HA|lra].
    + apply (nothing 0); [unfold rule_grade; rewrite RA; lra|unfold rule_grade; rewrite RA; lra|exact REP].
  - cbn [about map filter rfold]. destruct (rule_close P e delta eps_fin eps_ok delta_pos inputs b BC BD known r a d LW RA ST (fun p Ip => AN a p RA Ip)) as [M1 M2]. destruct (grade_close P e delta eps_fin eps_ok delta_pos inputs b BC BD known a d ST (fun p Ip => AN a p RA Ip)) as (_ & G2 & _). fold eps in M2.
    assert (GR : 0 <= rule_grade e b r <= 1) by (apply grade_range; [exact IR|left; exists a; auto]). assert (GP := grade_error_pos P delta eps_ok delta_pos b a). fold eps in GP.
    apply (nothing (rule_error b eps delta r)); [exact GR| |lra]. unfold rule_grade, rule_error in *. rewrite RA in *. destruct (rl_enabled r); [|exact REP]. destruct NF as [NF|NF]; [discriminate NF|].
    set (m := Bmult mode_NE (rl_weight r) d) in *. destruct f64_0_correct as [Z1 Z2]. assert (TZ : tame (f64_lit 0 1)) by (split; [exact Z2|]; rewrite Z1, Rabs_R0; assert (Q := big_pos); lra). assert (TM : tame m) by (apply tame_degree; [apply M1|destruct M1; lra]).
    assert (NF2 : @isGt f64 (F64Scalar P) m (f64_lit 0 1) = false) by exact NF. apply (gt_false P eps_fin) in NF2; [|exact TM|exact TZ]. rewrite Z1, Rminus_0_r in NF2. fold eps in NF2. destruct M1 as [_ MR]. rewrite (Rabs_pos_eq (B2R m)) in NF2 by lra. unfold Rabs in M2. destruct Rcase_abs in M2; lra.
  - destruct (rule_close P e delta eps_fin eps_ok delta_pos inputs b BC BD known r a d LW RA ST (fun p Ip => AN a p RA Ip)) as [M1 M2]. destruct (grade_close P e delta eps_fin eps_ok delta_pos inputs b BC BD known a d ST (fun p Ip => AN a p RA Ip)) as (_ & G2 & _). fold eps in M2.
    assert (GR : 0 <= rule_grade e b r <= 1) by (apply grade_range; [exact IR|left; exists a; auto]). change (@s_mul f64 S64s (rl_weight r) d) with (Bmult mode_NE (rl_weight r) d) in FO. set (m := Bmult mode_NE (rl_weight r) d) in *.
    assert (GE : rule_grade e b r = B2R (rl_weight r) * grade e b a) by (unfold rule_grade; rewrite RA, EN; reflexivity). rewrite <- GE in M2. assert (RE : grade_error b eps delta a + u64 <= rule_error b eps delta r) by (unfold rule_error; rewrite RA; lra).
    destruct (follows_join b n m (rl_consequent r) cs (rule_grade e b r) (rule_error b eps delta r) AJ FO (fun p Ip => ee_conclusions _ even (b, r) p IR Ip) BI En TR M1 GR ltac:(lra) acc A er Da HA Ea) as (y & Y1 & Y2 & Y3). exists y. split; [exact Y1|]. split; [exact Y2|]. split; [now apply fold_range|exact Y3].
Qed.
Lemma rfold_app {X Y} (f : X -> Y -> res X) l m u : rfold f u (l ++ m) = (do v <- rfold f u l; rfold f v m).
Proof. revert u. induction l as [|y l IH]; intro u; cbn [rfold app]; [reflexivity|]. destruct (f u y); cbn [rbind]; auto. Qed.
Lemma about_cat (l m : facts f64) : about j (l ++ m) = (about j l ++ about j m)%list.
Proof. unfold about. now rewrite filter_app, map_app. Qed.
Lemma pairs_join prs css : active e (VOut j) -> List.Forall2 (fun br cs => Draws e (fst br) [] (snd br) cs) prs css ->
  (forall br, In br prs -> In br (in_force e) /\ In (fst br) (e_blocks e) /\ b_enabled (fst br) = true /\ forall t, In t (heads j (snd br)) -> traced P vw ts delta' x z t) ->
  forall acc A er, fdegree acc -> 0 <= A <= 1 -> Rabs (B2R acc - A) <= er ->
  exists y, rfold step acc (about j (List.concat css)) = Ok y /\ fdegree y /\ 0 <= fold_left (s_formula (sname_of s)) (flat_map (says e ts j z) prs) A <= 1 /\
  Rabs (B2R y - fold_left (s_formula (sname_of s)) (flat_map (says e ts j z) prs) A) <= er + fold_right Rplus 0 (map (fun br => INR (List.length (heads j (snd br))) * head_error eps delta delta' s br) prs).
Proof.
  intros AJ H. induction H as [|br cs prs css D H IH]; intros Q acc A er Da HA Ea.
  - exists acc. split; [reflexivity|]. split; [exact Da|]. split; [exact HA|]. cbn [flat_map fold_left map fold_right]. lra.
  - destruct (Q br (or_introl eq_refl)) as (B1 & B2 & B3 & B4). destruct (draws_join br [] cs AJ B1 B2 B3 D B4 acc A er Da HA Ea) as (y & Y1 & Y2 & Y3 & Y4). cbn [List.concat flat_map map fold_right]. rewrite about_cat, rfold_app, Y1. cbn [rbind]. rewrite fold_left_app.
    destruct (IH (fun br' I' => Q br' (or_intror I')) y _ _ Y2 Y3 Y4) as (y2 & Z1 & Z2 & Z3 & Z4). exists y2. split; [exact Z1|]. split; [exact Z2|]. split; [exact Z3|lra].
Qed.
Lemma even_reads b : In b (e_blocks e) -> b_enabled b = true -> List.Forall (@reads_inputs f64) (b_rules b).
Proof.
  intros IB EB. apply List.Forall_forall. intros r IR a v t AN C. assert (RF : In (b, r) (in_force e)) by (unfold in_force; apply in_flat_map; exists b; rewrite EB; split; [exact IB|now apply in_map]).
  assert (G : forall p, In p (propositions a) -> exists i, pr_var p = VIn i) by (intros p Ip; destruct (ee_antecedents _ even (b, r) a p RF AN Ip) as (i & v' & V & _); exists i; exact V).
  clear AN. revert C G. induction a as [p|name l IHl r0 IHr]; cbn [consults propositions]; intros C G.
  - destruct C as [C _]. destruct (G p (or_introl eq_refl)) as [i V]. exists i. congruence.
  - destruct C as [C|C]; [apply (IHl C)|apply (IHr C)]; intros p Ip; apply G; apply in_or_app; auto.
Qed.
Theorem joint_close known : active e (VOut j) -> Infers e known -> (forall br t, In br (in_force e) -> In t (heads j (snd br)) -> traced P vw ts delta' x z t) ->
  exists y, agg_membership memb (Some s) (about j known) x = Ok y /\ fdegree y /\ Rabs (B2R y - joint_set e s ts j z) <= joint_error e eps delta delta' s j.
Proof.
  intros AJ H TR. destruct (independent e known) as (css & D & ->); [apply List.Forall_forall; intros b IB EB; now apply even_reads|exact H|]. destruct f64_0_correct as [Z1 Z2].
  destruct (pairs_join _ _ AJ D) with (acc := f64_lit 0 1) (A := 0) (er := 0) as (y & Y1 & Y2 & Y3 & Y4).
  - intros [b r] Ib. split; [exact Ib|]. assert (TR' := fun t => TR (b, r) t Ib). apply in_flat_map in Ib. destruct Ib as (b' & I1 & I2). destruct (b_enabled b') eqn:EB; [|destruct I2]. apply in_map_iff in I2. destruct I2 as (r' & Z & I2). injection Z as <- <-. cbn [fst snd]. auto.
  - split; [exact Z2|]. rewrite Z1. lra.
  - lra.
  - rewrite Z1, Rminus_eq_0, Rabs_R0. lra.
  - exists y. split; [|split; [exact Y2|]].
    + unfold agg_membership. rewrite x_is_num. destruct (about j (List.concat css)); exact Y1.
    + unfold joint_set, joint_error. unfold working in Y4. rewrite Rplus_0_l in Y4. exact Y4.
Qed.
End Sets.
