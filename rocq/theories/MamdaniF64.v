(** The double-precision output of Mamdani inference with Triangle, Trapezoid and Ramp terms, against the center of gravity of the documented set. *)
From Coq Require Import ZArith Reals Bool List Lra Lia.
From Coquelicot Require Import Coquelicot.
From Flocq Require Import Core BinarySingleNaN.
From Verif Require Import Base Op XR XRFacts F64 F64Facts F64Arith F64Err F64Sum F64Quot Shape Norm Defuzz Aggregated Var SpecTerm SpecDefuzz SpecRound SpecLimit OpProofs DefuzzReal LimitRiemann LimitProofs LimitMax LimitMamdani
  F64Centroid ShapeF64.
Import ListNotations.
Local Open Scope R_scope.

(** ** slopes of the documented functions *)
Definition lip (g : R -> R) (K : R) : Prop := forall x y, Rabs (g x - g y) <= K * Rabs (x - y).
Lemma lip_const c K : 0 <= K -> lip (fun _ => c) K.
Proof. intros H x y. rewrite Rminus_eq_0, Rabs_R0. apply Rmult_le_pos; [exact H|apply Rabs_pos]. Qed.
Lemma lip_max f g K : lip f K -> lip g K -> lip (fun x => Rmax (f x) (g x)) K.
Proof. intros F G x y. apply max_slope; auto. Qed.
Lemma min_slope u v u' v' E : Rabs (u - u') <= E -> Rabs (v - v') <= E -> Rabs (Rmin u v - Rmin u' v') <= E.
Proof. unfold Rmin. intros. repeat destruct Rle_dec; unfold Rabs in *; repeat destruct Rcase_abs in *; repeat destruct Rcase_abs; lra. Qed.
Lemma lip_min f g K : lip f K -> lip g K -> lip (fun x => Rmin (f x) (g x)) K.
Proof. intros F G x y. apply min_slope; auto. Qed.
Lemma lip_ext f g K : (forall x, f x = g x) -> lip g K -> lip f K.
Proof. intros E G x y. rewrite !E. apply G. Qed.
Lemma lip_line h k c q w : 0 <= h <= 1 -> 0 < w <= q -> Rabs k <= 1 -> lip (fun x => h * (k * x + c) / q) (1 / w).
Proof.
  intros H W K x y. replace (h * (k * x + c) / q - h * (k * y + c) / q) with (h * k * / q * (x - y)) by (field; lra). rewrite Rabs_mult. apply Rmult_le_compat_r; [apply Rabs_pos|].
  assert (IQ := Rinv_0_lt_compat q ltac:(lra)). assert (IW : / q <= / w) by (apply Rinv_le_contravar; lra). rewrite !Rabs_mult, (Rabs_pos_eq h), (Rabs_pos_eq (/ q)) by lra. unfold Rdiv. apply Rmult_le_compat; [apply Rmult_le_pos; [lra|apply Rabs_pos]|lra| |exact IW].
  replace 1 with (1 * 1) by ring. apply Rmult_le_compat; [lra|apply Rabs_pos|lra|exact K].
Qed.
Lemma frac_le h p q : 0 <= h -> 0 < q -> p <= q -> h * p / q <= h.
Proof. intros H Q P. apply (Rmult_le_reg_r q); [exact Q|]. replace (h * p / q * q) with (h * p) by (field; lra). apply Rmult_le_compat_l; lra. Qed.
Lemma frac_ge h p q : 0 <= h -> 0 < q -> q <= p -> h <= h * p / q.
Proof. intros H Q P. apply (Rmult_le_reg_r q); [exact Q|]. replace (h * p / q * q) with (h * p) by (field; lra). apply Rmult_le_compat_l; lra. Qed.
Lemma frac_neg h p q : 0 <= h -> 0 < q -> p <= 0 -> h * p / q <= 0.
Proof. intros H Q P. apply (Rmult_le_reg_r q); [exact Q|]. replace (h * p / q * q) with (h * p) by (field; lra). rewrite Rmult_0_l. assert (h * p <= h * 0) by (apply Rmult_le_compat_l; lra). lra. Qed.
Lemma frac_pos h p q : 0 <= h -> 0 < q -> 0 <= p -> 0 <= h * p / q.
Proof. intros H Q P. apply Rmult_le_pos; [apply Rmult_le_pos; lra|apply Rlt_le, Rinv_0_lt_compat, Q]. Qed.
Ltac mm := unfold Rmax, Rmin; repeat destruct Rle_dec; lra.

Lemma triangle_doc a b c h x : 0 <= h -> a < b -> b < c -> doc_membership (Triangle a b c) h x = Rmax 0 (Rmin (h * (1 * x + - a) / (b - a)) (h * (-1 * x + c) / (c - b))).
Proof.
  intros H AB BC. cbn [doc_membership]. replace (1 * x + - a) with (x - a) by ring. replace (-1 * x + c) with (c - x) by ring. destruct Rlt_dec as [L|L]. { assert (Q := frac_neg h (x - a) (b - a) H ltac:(lra) ltac:(lra)). mm. }
  assert (P1 := frac_pos h (x - a) (b - a) H ltac:(lra) ltac:(lra)).
  destruct Rlt_dec as [L2|L2]. { assert (Q := frac_neg h (c - x) (c - b) H ltac:(lra) ltac:(lra)). mm. }
  assert (P2 := frac_pos h (c - x) (c - b) H ltac:(lra) ltac:(lra)).
  destruct Req_EM_T as [->|N]. { replace (h * (b - a) / (b - a)) with h by (field; lra). replace (h * (c - b) / (c - b)) with h by (field; lra). mm. }
  destruct Rlt_dec as [L3|L3].
  - assert (Q := frac_ge h (c - x) (c - b) H ltac:(lra) ltac:(lra)). assert (Q2 := frac_le h (x - a) (b - a) H ltac:(lra) ltac:(lra)). mm.
  - assert (Q := frac_le h (c - x) (c - b) H ltac:(lra) ltac:(lra)). assert (Q2 := frac_ge h (x - a) (b - a) H ltac:(lra) ltac:(lra)). mm.
Qed.
Lemma trapezoid_doc a b c d h x : 0 <= h -> a < b -> b <= c -> c < d -> doc_membership (Trapezoid a b c d) h x = Rmax 0 (Rmin h (Rmin (h * (1 * x + - a) / (b - a)) (h * (-1 * x + d) / (d - c)))).
Proof.
  intros H AB BC CD. cbn [doc_membership]. replace (1 * x + - a) with (x - a) by ring. replace (-1 * x + d) with (d - x) by ring. destruct Rlt_dec as [L|L]. { assert (Q := frac_neg h (x - a) (b - a) H ltac:(lra) ltac:(lra)). mm. }
  assert (P1 := frac_pos h (x - a) (b - a) H ltac:(lra) ltac:(lra)).
  destruct Rlt_dec as [L2|L2]. { assert (Q := frac_neg h (d - x) (d - c) H ltac:(lra) ltac:(lra)). mm. }
  assert (P2 := frac_pos h (d - x) (d - c) H ltac:(lra) ltac:(lra)).
  destruct Rlt_dec as [L3|L3].
  - assert (Q := frac_ge h (d - x) (d - c) H ltac:(lra) ltac:(lra)). assert (Q2 := frac_le h (x - a) (b - a) H ltac:(lra) ltac:(lra)).
    rewrite (Rmin_right 1 ((x - a) / (b - a))). { replace (h * ((x - a) / (b - a))) with (h * (x - a) / (b - a)) by (field; lra). mm. }
    apply (Rmult_le_reg_r (b - a)); [lra|]. replace ((x - a) / (b - a) * (b - a)) with (x - a) by (field; lra). lra.
  - assert (Q := frac_ge h (x - a) (b - a) H ltac:(lra) ltac:(lra)). destruct Rle_dec as [L4|L4].
    + assert (Q2 := frac_ge h (d - x) (d - c) H ltac:(lra) ltac:(lra)). mm.
    + assert (Q2 := frac_le h (d - x) (d - c) H ltac:(lra) ltac:(lra)). destruct Rlt_dec; [mm|]. assert (x = d) by lra. subst x. replace (h * (d - d) / (d - c)) with 0 by (field; lra). mm.
Qed.
Lemma ramp_up a b h x : 0 <= h -> a < b -> doc_membership (Ramp a b) h x = Rmax 0 (Rmin h (h * (1 * x + - a) / (b - a))).
Proof.
  intros H AB. cbn [doc_membership]. replace (1 * x + - a) with (x - a) by ring. destruct Rlt_dec; [|lra]. destruct Rle_dec as [L|L]. { assert (Q := frac_neg h (x - a) (b - a) H ltac:(lra) ltac:(lra)). mm. }
  assert (P1 := frac_pos h (x - a) (b - a) H ltac:(lra) ltac:(lra)). destruct Rle_dec as [L2|L2].
  - assert (Q := frac_ge h (x - a) (b - a) H ltac:(lra) ltac:(lra)). mm.
  - assert (Q := frac_le h (x - a) (b - a) H ltac:(lra) ltac:(lra)). mm.
Qed.
Lemma ramp_down a b h x : 0 <= h -> b < a -> doc_membership (Ramp a b) h x = Rmax 0 (Rmin h (h * (-1 * x + a) / (a - b))).
Proof.
  intros H AB. cbn [doc_membership]. replace (-1 * x + a) with (a - x) by ring. destruct Rlt_dec; [lra|]. destruct Rle_dec as [L|L]. { assert (Q := frac_neg h (a - x) (a - b) H ltac:(lra) ltac:(lra)). mm. }
  assert (P1 := frac_pos h (a - x) (a - b) H ltac:(lra) ltac:(lra)). destruct Rle_dec as [L2|L2].
  - assert (Q := frac_ge h (a - x) (a - b) H ltac:(lra) ltac:(lra)). mm.
  - assert (Q := frac_le h (a - x) (a - b) H ltac:(lra) ltac:(lra)). mm.
Qed.
Lemma doc_lines s h w : 0 < w -> 0 <= h <= 1 -> sloped s w -> lip (doc_membership s h) (1 / w) /\ forall x, 0 <= doc_membership s h x <= 1.
Proof.
  intros W H Sl. assert (K1 : Rabs 1 <= 1) by (rewrite Rabs_R1; lra). assert (K2 : Rabs (-1) <= 1) by (rewrite Rabs_left by lra; lra). assert (K0 : 0 <= 1 / w) by (apply Rmult_le_pos; [lra|apply Rlt_le, Rinv_0_lt_compat, W]).
  destruct s; cbn [sloped] in Sl; try contradiction.
  - unfold Rabs in Sl. destruct Rcase_abs in Sl.
    + split; [|intro x; rewrite ramp_down by lra; mm]. apply (lip_ext _ _ _ (fun x => ramp_down start finish h x ltac:(lra) ltac:(lra))). apply lip_max; [now apply lip_const|]. apply lip_min; [now apply lip_const|]. apply lip_line; auto; lra.
    + split; [|intro x; rewrite ramp_up by lra; mm]. apply (lip_ext _ _ _ (fun x => ramp_up start finish h x ltac:(lra) ltac:(lra))). apply lip_max; [now apply lip_const|]. apply lip_min; [now apply lip_const|]. apply lip_line; auto; lra.
  - destruct Sl as (S1 & S2 & S3). split; [|intro x; rewrite trapezoid_doc by lra; mm]. apply (lip_ext _ _ _ (fun x => trapezoid_doc a b c d h x ltac:(lra) ltac:(lra) ltac:(lra) ltac:(lra))). apply lip_max; [now apply lip_const|]. apply lip_min; [now apply lip_const|]. apply lip_min; apply lip_line; auto; lra.
  - destruct Sl as (S1 & S2). split.
    + apply (lip_ext _ _ _ (fun x => triangle_doc a b c h x ltac:(lra) ltac:(lra) ltac:(lra))). apply lip_max; [now apply lip_const|]. apply lip_min; apply lip_line; auto; lra.
    + intro x. rewrite triangle_doc by lra. replace (1 * x + - a) with (x - a) by ring. replace (-1 * x + c) with (c - x) by ring. destruct (Rle_dec x b).
      * assert (Q := frac_le h (x - a) (b - a) ltac:(lra) ltac:(lra) ltac:(lra)). mm.
      * assert (Q := frac_le h (c - x) (c - b) ltac:(lra) ltac:(lra) ltac:(lra)). mm.
Qed.

(** ** memberships of line terms *)
Lemma tame_within X x : X <= big -> within X x -> tame x.
Proof. intros H [F B]. split; [exact F|lra]. Qed.
Lemma line_close (P : fparam) vw t w x : is_finite (fp_eps P) = true -> 0 <= B2R (fp_eps P) <= w -> eta64 <= w -> line_term w t -> tame x ->
  exists m, @term_membership f64 (F64Scalar P) vw t x = Ok m /\ is_finite m = true /\
  match tm_body t with TShape s => Rabs (B2R m - doc_membership (shape_map B2R s) (B2R (tm_height t)) (B2R x)) | _ => 0 end <= shape_error (B2R (tm_height t)) w (B2R (fp_eps P)).
Proof.
  intros FE PE WE (H1 & H2 & H3) TX. assert (B0 : bpow radix2 300 <= big) by (apply bpow_le; lia). assert (TH : is_finite (tm_height t) = true /\ 0 <= B2R (tm_height t) <= 1) by (destruct H1 as [F B]; rewrite Rabs_pos_eq in B by exact H2; auto).
  unfold term_membership. destruct (tm_body t) as [s| | | |]; try contradiction. destruct H3 as [Sl Pa]. exists (@sh_membership f64 (F64Scalar P) s (tm_height t) x). split; [reflexivity|].
  destruct s; try contradiction; cbn [sloped shape_map] in Sl |- *; repeat match goal with H : List.Forall _ (_ :: _) |- _ => inversion H; clear H; subst end.
  - apply ramp_close; try assumption; eapply tame_within; eassumption.
  - destruct Sl as (S1 & S2 & S3). apply trapezoid_close; try assumption; eapply tame_within; eassumption.
  - destruct Sl as (S1 & S2). apply triangle_close; try assumption; eapply tame_within; eassumption.
Qed.

(** ** aggregation with Maximum of Minimum *)
Lemma f_min P (a b : f64) : is_finite a = true -> is_finite b = true -> is_finite (@op_min f64 (F64Scalar P) a b) = true /\ B2R (@op_min f64 (F64Scalar P) a b) = Rmin (B2R a) (B2R b).
Proof.
  intros A B. unfold op_min. rewrite !f_isNaN. assert (N1 : is_nan a = false) by (destruct a; try reflexivity; discriminate A). assert (N2 : is_nan b = false) by (destruct b; try reflexivity; discriminate B). rewrite N1, N2. cbn [orb]. unfold std_min. change (@s_ltb f64 (F64Scalar P) b a) with (Bltb b a).
  rewrite f_ltb, !f2x_finite by assumption. cbn [xltb]. destruct (Rltb (B2R b) (B2R a)) eqn:E.
  - apply ltb_yes in E. split; [exact B|]. rewrite Rmin_right; lra.
  - apply ltb_no in E. split; [exact A|]. rewrite Rmin_left; lra.
Qed.
Lemma f_max P (a b : f64) : is_finite a = true -> is_finite b = true -> is_finite (@op_max f64 (F64Scalar P) a b) = true /\ B2R (@op_max f64 (F64Scalar P) a b) = Rmax (B2R a) (B2R b).
Proof.
  intros A B. unfold op_max. rewrite !f_isNaN. assert (N1 : is_nan a = false) by (destruct a; try reflexivity; discriminate A). assert (N2 : is_nan b = false) by (destruct b; try reflexivity; discriminate B). rewrite N1, N2. cbn [orb]. unfold std_max. change (@s_ltb f64 (F64Scalar P) a b) with (Bltb a b).
  rewrite f_ltb, !f2x_finite by assumption. cbn [xltb]. destruct (Rltb (B2R a) (B2R b)) eqn:E.
  - apply ltb_yes in E. split; [exact B|]. rewrite Rmax_right; lra.
  - apply ltb_no in E. split; [exact A|]. rewrite Rmax_left; lra.
Qed.
Section Agg.
Variables (P : fparam) (memb : nat -> f64 -> res f64) (mu : nat -> R -> R) (x : f64) (z delta D : R).
#[local] Instance S64a : Scalar f64 := F64Scalar P.
Hypothesis x_num : is_finite x = true.
Definition served (c : activated f64 nat) : Prop := cut_off D c /\ exists m, memb (ac_term c) x = Ok m /\ is_finite m = true /\ Rabs (B2R m - mu (ac_term c) z) <= delta.
Lemma x_not_nan : isNaN x = false.
Proof. transitivity (is_nan x); [apply f_isNaN|]. destruct x; try reflexivity; discriminate x_num. Qed.
Lemma join_close cs : List.Forall served cs -> forall acc A, is_finite acc = true -> 0 <= B2R acc <= D -> Rabs (B2R acc - A) <= delta ->
  exists y, rfold (fun m a => do v <- ac_membership memb a x; Ok (snorm_compute Maximum m v)) acc cs = Ok y /\ is_finite y = true /\ 0 <= B2R y <= D /\
  Rabs (B2R y - fold_left (fun m c => Rmax m (Rmin (mu (ac_term c) z) (B2R (ac_degree c)))) cs A) <= delta.
Proof.
  induction cs as [|c cs IH]; intros F acc A FA BA DA; cbn [rfold fold_left].
  - exists acc. auto.
  - inversion F as [|? ? ((I1 & I2 & I3) & m & M1 & M2 & M3) F2]; subst. unfold ac_membership at 1. rewrite x_not_nan, I1, M1. cbn [rbind tnorm_compute snorm_compute].
    destruct (f_min P m (ac_degree c) M2 I2) as [F1 E1]. destruct (f_max P acc _ FA F1) as [F3 E3]. change (@op_max f64 S64a acc (@op_min f64 S64a m (ac_degree c))) with (@op_max f64 (F64Scalar P) acc (@op_min f64 (F64Scalar P) m (ac_degree c))). apply IH; [exact F2|exact F3| |].
    + rewrite E3, E1. mm.
    + rewrite E3, E1. apply max_slope; [exact DA|]. apply min_slope; [exact M3|]. rewrite Rminus_eq_0, Rabs_R0. assert (Q := Rabs_pos (B2R acc - A)). lra.
Qed.
Lemma agg_close cs : 0 <= delta -> 0 <= D -> List.Forall served cs -> exists y, agg_membership memb (Some Maximum) cs x = Ok y /\ is_finite y = true /\ 0 <= B2R y <= D /\ Rabs (B2R y - mamdani_set mu cs z) <= delta.
Proof.
  intros Dl D0 F. destruct f64_0_correct as [Z1 Z2]. destruct (join_close cs F (f64_lit 0 1) 0 Z2) as (y & Y1 & Y2); [rewrite Z1; lra|rewrite Z1, Rminus_eq_0, Rabs_R0; exact Dl|].
  exists y. split; [|exact Y2]. unfold agg_membership. rewrite x_not_nan. destruct cs; [exact Y1|exact Y1].
Qed.
End Agg.
Lemma set_slope mu cs K : (forall c, In c cs -> lip (mu (ac_term c)) K) -> 0 <= K -> lip (mamdani_set mu cs) K.
Proof.
  intros H K0. unfold mamdani_set. assert (G : forall g, lip g K -> lip (fun x => fold_left (fun m c => Rmax m (Rmin (mu (ac_term c) x) (B2R (ac_degree c)))) cs (g x)) K); [|apply (G (fun _ => 0)), lip_const, K0].
  induction cs as [|c cs IH]; intros g Hg; cbn [fold_left]; [exact Hg|]. apply (IH (fun c' I' => H c' (or_intror I')) (fun x => Rmax (g x) (Rmin (mu (ac_term c) x) (B2R (ac_degree c))))). apply lip_max; [exact Hg|]. apply lip_min; [apply H; now left|now apply lip_const].
Qed.
Lemma set_range mu cs x : (forall c, In c cs -> B2R (ac_degree c) <= 1) -> 0 <= mamdani_set mu cs x <= 1.
Proof.
  intro H. unfold mamdani_set. assert (G : forall v, 0 <= v <= 1 -> 0 <= fold_left (fun m c => Rmax m (Rmin (mu (ac_term c) x) (B2R (ac_degree c)))) cs v <= 1); [|apply G; lra].
  induction cs as [|c cs IH]; intros v V; cbn [fold_left]; [exact V|]. apply (IH (fun c' I' => H c' (or_intror I'))). assert (Q := H c (or_introl eq_refl)). mm.
Qed.

(** ** the value of an output variable *)
Lemma bound_close (v g lo hi : R) : lo <= g <= hi -> Rabs ((if Rltb hi v then hi else if Rltb v lo then lo else v) - g) <= Rabs (v - g).
Proof. intro G. destruct (Rltb_spec hi v); [|destruct (Rltb_spec v lo)]; unfold Rabs; repeat destruct Rcase_abs; lra. Qed.
Section Output.
Variables (P : fparam) (vw : view f64) (o : output f64) (n : nat) (X w D : R).
#[local] Instance S64b : Scalar f64 := F64Scalar P.
Let a := v_minimum (o_var o).
Let b := v_maximum (o_var o).
Let eps := B2R (fp_eps P).
Hypothesis eps_ok : is_finite (fp_eps P) = true /\ 0 <= eps <= w.
Hypothesis w_pos : eta64 <= w.
Hypothesis a_ok : within X a.
Hypothesis b_ok : within X b.
Hypothesis ab : B2R a < B2R b.
Hypothesis X_small : X <= bpow radix2 300.
Hypothesis n_pos : (1 <= n)%nat.
Hypothesis n_small : (Z.of_nat n < 2 ^ 46)%Z.
Hypothesis D_ok : 0 <= D <= bpow radix2 400.
Hypothesis aggregation : o_aggregation o = Some Maximum.
Hypothesis conclusions : forall c, In c (o_fuzzy o) -> cut_off D c /\ exists t, nth_error (v_terms (o_var o)) (ac_term c) = Some t /\ line_term w t.
Let f := mamdani_set (documented (v_terms (o_var o))) (o_fuzzy o).
Let delta := shape_error 1 w eps + sample_error (INR n) X / w.
Let d := B2R b - B2R a.
(** a set close to that of the conclusions *)
Variables (g : R -> R) (delta2 : R).
Hypothesis g_close : forall x, B2R a <= x <= B2R b -> Rabs (f x - g x) <= delta2.
Hypothesis g_slope : lipschitz g (B2R a) (B2R b) (1 / w).
Hypothesis g_range : forall x, B2R a <= x <= B2R b -> 0 <= g x <= 1.
Let A := area g (B2R a) (B2R b).
Lemma out_w : 0 < w /\ 0 <= 1 / w.
Proof. destruct eta64_small as [T _]. assert (W : 0 < w) by lra. split; [exact W|]. apply Rmult_le_pos; [lra|]. apply Rlt_le, Rinv_0_lt_compat, W. Qed.
Lemma X_pos : 0 <= X.
Proof. destruct a_ok as [_ Q]. assert (Z := Rabs_pos (B2R a)). lra. Qed.
Lemma sample_pos : 0 <= sample_error (INR n) X <= X + 1.
Proof.
  assert (H := X_pos). destruct u_tiny as [U1 U2]. destruct eta64_small as [T1 T2]. destruct u64_small as [U3 U4]. unfold sample_error. assert (N := pos_INR n). assert (SC := small_count n n_small). rewrite S_INR in SC. assert (0 <= u64 * X <= 1 / 1000 * X) by (split; [apply Rmult_le_pos; lra|apply Rmult_le_compat_r; lra]).
  assert (0 <= (INR n + 1) * eta64 <= (INR n + 1) * u64) by (split; [apply Rmult_le_pos; lra|apply Rmult_le_compat_l; lra]). lra.
Qed.
Lemma error_pos : 0 <= delta.
Proof.
  destruct out_w as [W W2]. destruct u_tiny as [U1 U2]. destruct eta64_small as [T1 T2]. assert (S0 := sample_pos). unfold delta, shape_error. assert (0 <= 2 * eta64 / w) by (apply Rmult_le_pos; [lra|apply Rlt_le, Rinv_0_lt_compat, W]). assert (0 <= 1 * eps / w) by (apply Rmult_le_pos; [lra|apply Rlt_le, Rinv_0_lt_compat, W]).
  assert (0 <= sample_error (INR n) X / w) by (apply Rmult_le_pos; [lra|apply Rlt_le, Rinv_0_lt_compat, W]). lra.
Qed.
Lemma error_mono h : 0 <= h <= 1 -> shape_error h w eps <= shape_error 1 w eps.
Proof.
  intro H. destruct out_w as [W W2]. destruct u_tiny as [U1 U2]. unfold shape_error. assert (5 * u64 * h <= 5 * u64 * 1) by (apply Rmult_le_compat_l; lra). assert (h * eps / w <= 1 * eps / w); [|lra]. apply Rmult_le_compat_r; [apply Rlt_le, Rinv_0_lt_compat, W|]. apply Rmult_le_compat_r; lra.
Qed.
Let memb t x := match nth_error (v_terms (o_var o)) t with Some tm => term_membership vw tm x | None => UB end.
Lemma doc_slope c : In c (o_fuzzy o) -> lip (documented (v_terms (o_var o)) (ac_term c)) (1 / w).
Proof.
  intro I. destruct (conclusions c I) as (_ & t & T & (H1 & H2 & H3)). destruct out_w as [W W2]. unfold documented. rewrite T. destruct (tm_body t) as [s| | | |]; try contradiction. destruct H3 as [Sl _]. apply doc_lines; [exact W| |exact Sl]. destruct H1 as [_ B]. rewrite Rabs_pos_eq in B by exact H2. lra.
Qed.
Lemma point i : (i < n)%nat -> List.Forall (served memb (documented (v_terms (o_var o))) (sample a b (Z.of_nat n) i) (mid (B2R a) (B2R b) n i) delta D) (o_fuzzy o) /\ is_finite (sample a b (Z.of_nat n) i) = true.
Proof.
  intro HI. destruct (sample_close P a b X n a_ok b_ok X_small n_pos n_small i HI) as [F E]. change (@sample f64 S64b a b (Z.of_nat n) i) with (@sample f64 (F64Centroid.S64 P) a b (Z.of_nat n) i). split; [|exact F]. set (x := sample a b (Z.of_nat n) i) in *. set (z := mid (B2R a) (B2R b) n i) in *.
  assert (S0 := sample_pos). assert (X0 := X_pos). destruct out_w as [W W2].
  assert (Z1 : Rabs z <= X). { assert (M := mid_in (B2R a) (B2R b) n i HI ltac:(lra)). fold z in M. destruct a_ok as [_ A1]. destruct b_ok as [_ B1]. unfold Rabs in *. repeat destruct Rcase_abs in *; repeat destruct Rcase_abs; lra. }
  assert (TX : tame x). { split; [exact F|]. assert (Q := Rabs_triang (B2R x - z) z). replace (B2R x - z + z) with (B2R x) in Q by ring. assert (Q2 : bpow radix2 300 + (bpow radix2 300 + 1) <= big). { assert (Q3 : 1 <= bpow radix2 300) by (change 1 with (bpow radix2 0); apply bpow_le; lia). apply Rle_trans with (bpow radix2 2 * bpow radix2 300); [change (bpow radix2 2) with 4; lra|]. unfold big. rewrite <- bpow_plus. apply bpow_le. lia. } lra. }
  apply List.Forall_forall. intros c I. destruct (conclusions c I) as (C1 & t & T & LT). split; [exact C1|]. destruct (line_close P vw t w x (proj1 eps_ok) (proj2 eps_ok) w_pos LT TX) as (m & M1 & M2 & M3). exists m. split; [unfold memb; rewrite T; exact M1|]. split; [exact M2|].
  assert (DS := doc_slope c I (B2R x) z). unfold documented in DS |- *. rewrite T in DS |- *. destruct LT as (H1 & H2 & H3). destruct (tm_body t) as [s| | | |]; try contradiction.
  assert (EM := error_mono (B2R (tm_height t)) ltac:(destruct H1 as [_ B1]; rewrite Rabs_pos_eq in B1 by exact H2; lra)). fold eps in M3.
  apply Rle_trans with (1 := via _ _ _ _ _ M3 DS). unfold delta. assert (1 / w * Rabs (B2R x - z) <= 1 / w * sample_error (INR n) X) by (apply Rmult_le_compat_l; assumption). replace (sample_error (INR n) X / w) with (1 / w * sample_error (INR n) X) by (unfold Rdiv; ring). lra.
Qed.
Lemma delta2_pos : 0 <= delta2.
Proof. assert (Q := g_close (B2R a) ltac:(lra)). assert (Z := Rabs_pos (f (B2R a) - g (B2R a))). lra. Qed.
Theorem output_near : 0 < A / d - 1 / w * d / (2 * INR n) - (delta + delta2) -> exists r, defuzzified vw (DIntegral Centroid (Z.of_nat n)) o = Ok r /\ is_finite r = true /\
  Rabs (B2R r - gravity g (B2R a) (B2R b)) <= gravity_error (INR n) d X A (1 / w) (delta + delta2).
Proof.
  intro Om. set (mem := agg_membership memb (Some Maximum) (o_fuzzy o)). set (y := fun i => match mem (sample a b (Z.of_nat n) i) with Ok v => v | _ => f64_lit 0 1 end).
  assert (V : forall i, (i < n)%nat -> mem (sample a b (Z.of_nat n) i) = Ok (y i) /\ is_finite (y i) = true /\ 0 <= B2R (y i) <= D /\ Rabs (B2R (y i) - f (mid (B2R a) (B2R b) n i)) <= delta).
  { intros i HI. destruct (point i HI) as [F N]. destruct (agg_close P memb _ _ _ delta D N (o_fuzzy o) error_pos (proj1 D_ok) F) as (v & V1 & V2). unfold y. assert (E : mem (sample a b (Z.of_nat n) i) = Ok v) by exact V1. rewrite E. auto. }
  destruct (centroid_total P mem a b X D n y a_ok b_ok X_small) with (f := g) (delta := delta + delta2) (L := 1 / w) (B := 1) as (r & R1 & R2 & R3); try assumption.
  - apply D_ok.
  - intros i HI. destruct (V i HI) as (V1 & V2 & V3 & _). auto.
  - intros i HI. destruct (V i HI) as (_ & _ & _ & V4). apply (via _ _ _ _ _ V4). apply g_close. apply mid_in; [exact HI|lra].
  - exists r. split; [|split; [exact R2|exact R3]]. unfold defuzzified. rewrite aggregation. exact R1.
Qed.
Theorem value_near : v_enabled (o_var o) = true -> o_defuzzifier o = Some (DIntegral Centroid (Z.of_nat n)) -> 0 < A / d - 1 / w * d / (2 * INR n) - (delta + delta2) ->
  let v := v_value (o_var (fst (defuzzify vw o))) in snd (defuzzify vw o) = Ok tt /\ is_finite v = true /\ Rabs (B2R v - gravity g (B2R a) (B2R b)) <= gravity_error (INR n) d X A (1 / w) (delta + delta2).
Proof.
  intros En De Om. destruct (output_near Om) as (r & R1 & R2 & R3). unfold defuzzify. rewrite En, De, R1. cbn [negb fst snd]. cbv zeta. split; [reflexivity|].
  assert (NN : isNaN r = false) by (transitivity (is_nan r); [apply f_isNaN|]; destruct r; try reflexivity; discriminate R2).
  unfold settle. rewrite NN, andb_false_r, NN. cbn [set_output_value set_var o_var set_previous set_value v_value v_lock_range v_minimum v_maximum]. fold a b. destruct (v_lock_range (o_var o)); [|auto].
  assert (D0 : 0 < d) by (unfold d; lra). destruct out_w as [W W2]. assert (EP := error_pos). assert (EP2 := delta2_pos).
  assert (AP : 0 < A). { assert (0 <= 1 / w * d / (2 * INR n)) by (apply Rmult_le_pos; [apply Rmult_le_pos; lra|apply Rlt_le, Rinv_0_lt_compat; assert (Q := lt_0_INR n ltac:(lia)); lra]). assert (Q : 0 < A / d) by lra. replace A with (A / d * d) by (field; lra). apply Rmult_lt_0_compat; assumption. }
  assert (G := gravity_in g (B2R a) (B2R b) ab (1 / w) 1 g_slope g_range AP).
  assert (Q := bound_close (B2R r) (gravity g (B2R a) (B2R b)) (B2R a) (B2R b) G).
  assert (E : bound r a b = if Rltb (B2R b) (B2R r) then b else if Rltb (B2R r) (B2R a) then a else r). { unfold bound. change (@s_ltb f64 S64b) with (@Bltb prec64 emax64). rewrite !f_ltb, !f2x_finite by (exact R2 || apply a_ok || apply b_ok). reflexivity. }
  rewrite E. destruct (Rltb (B2R b) (B2R r)); [split; [apply b_ok|lra]|]. destruct (Rltb (B2R r) (B2R a)); [split; [apply a_ok|lra]|auto].
Qed.
End Output.
Section Value.
Variables (P : fparam) (vw : view f64) (o : output f64) (n : nat) (X w : R).
#[local] Instance S64c : Scalar f64 := F64Scalar P.
Let a := v_minimum (o_var o).
Let b := v_maximum (o_var o).
Let eps := B2R (fp_eps P).
Theorem value_close : is_finite (fp_eps P) = true /\ 0 <= eps <= w -> eta64 <= w -> within X a -> within X b -> B2R a < B2R b -> X <= bpow radix2 300 -> (1 <= n)%nat -> (Z.of_nat n < 2 ^ 46)%Z ->
  o_aggregation o = Some Maximum -> (forall c, In c (o_fuzzy o) -> cut_off 1 c /\ exists t, nth_error (v_terms (o_var o)) (ac_term c) = Some t /\ line_term w t) ->
  v_enabled (o_var o) = true -> o_defuzzifier o = Some (DIntegral Centroid (Z.of_nat n)) ->
  let f := mamdani_set (documented (v_terms (o_var o))) (o_fuzzy o) in let delta := shape_error 1 w eps + sample_error (INR n) X / w in
  let d := B2R b - B2R a in let A := area f (B2R a) (B2R b) in
  0 < A / d - 1 / w * d / (2 * INR n) - delta ->
  let v := v_value (o_var (fst (defuzzify vw o))) in snd (defuzzify vw o) = Ok tt /\ is_finite v = true /\ Rabs (B2R v - gravity f (B2R a) (B2R b)) <= gravity_error (INR n) d X A (1 / w) delta.
Proof.
  intros EO W0 A0 B0 AB XS N1 N2 AG CO EN DE f delta d A OM. rewrite <- (Rplus_0_r delta) in OM |- *.
  apply (value_near P vw o n X w 1 EO W0 A0 B0 AB XS N1 N2) with (g := f) (delta2 := 0); try assumption.
  - split; [lra|]. change 1 with (bpow radix2 0). apply bpow_le. lia.
  - intros x _. rewrite Rminus_eq_0, Rabs_R0. lra.
  - intros x y _ _. apply set_slope.
    + intros c I. exact (doc_slope o w 1 W0 CO c I).
    + exact (proj2 (out_w w W0)).
  - intros x _. apply set_range. intros c I. destruct (CO c I) as ((_ & _ & _ & H) & _). exact H.
Qed.
End Value.
