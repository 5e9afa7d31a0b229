(** Monotonicity, Tsukamoto inverses and symmetries of the shape terms. *)
From Coq Require Import ZArith Reals Bool List Lra Psatz.
From Verif Require Import Base Op XR XRFacts Shape SpecTerm NormAlg ShapeFacts ShapeDoc ShapeRange.
Import ListNotations.
Local Open Scope R_scope.

(** a monotonic term whose parameters make it strictly monotone on its support; +1 increasing, -1 decreasing *)
Definition strictly_oriented (s : shape R) : Prop :=
  match s with
  | Concave i e => i <> e
  | Ramp s e => s <> e
  | Sigmoid _ s => s <> 0
  | SShape s e | ZShape s e => s < e
  | _ => False
  end.
Definition increasing (s : shape R) : Prop :=
  match s with
  | Concave i e => i < e
  | Ramp s e => s < e
  | Sigmoid _ s => 0 < s
  | SShape _ _ => True
  | _ => False
  end.

Lemma oriented_ordered s : strictly_oriented s -> well_ordered s.
Proof. destruct s; simpl; auto; tauto. Qed.

(** the two ends of a curve, used as quotients *)
Lemma quad_le w a b : 0 < w -> 0 <= a <= b -> sq (a / w) <= sq (b / w).
Proof. intros. unfold sq, Rdiv. assert (0 < / w) by (apply Rinv_0_lt_compat; lra). assert (a * / w <= b * / w) by nra. assert (0 <= a * / w) by nra. nra. Qed.
Lemma quad_quarter w : 0 < w -> sq ((w / 2) / w) = 1/4.
Proof. intros. unfold sq. field. lra. Qed.
Lemma sq_flip a w : w <> 0 -> sq (- a / w) = sq (a / w).
Proof. intros. unfold sq. field. auto. Qed.

Lemma sshape_mono s e h x y : 0 <= h -> s < e -> x <= y -> doc_membership (SShape s e) h x <= doc_membership (SShape s e) h y.
Proof.
  intros H O L. unfold doc_membership.
  assert (F : forall u, (u - e) = - (e - u)) by (intro; lra).
  assert (Q := quad_quarter (e - s) ltac:(lra)).
  assert (N : forall u, 0 <= sq u) by (intro u; apply (Rle_0_sqr u)).
  assert (A : forall u v, s <= u <= v -> sq ((u - s) / (e - s)) <= sq ((v - s) / (e - s))) by (intros; apply quad_le; lra).
  assert (B : forall u v, u <= v <= e -> sq ((v - e) / (e - s)) <= sq ((u - e) / (e - s))).
  { intros. rewrite !F, !sq_flip by lra. apply quad_le; lra. }
  assert (M1 : forall u, s <= u <= (s+e)/2 -> sq ((u - s) / (e - s)) <= 1/4).
  { intros. rewrite <- Q. replace ((e - s)/2) with ((s+e)/2 - s) by lra. apply A. lra. }
  assert (M2 : forall u, (s+e)/2 <= u <= e -> sq ((u - e) / (e - s)) <= 1/4).
  { intros. rewrite <- Q. replace ((e-s)/2) with (- ((s+e)/2 - e)) by lra. rewrite sq_flip by lra. apply B. lra. }
  pose proof (N ((y - s) / (e - s))). pose proof (N ((x - e) / (e - s))).
  rdec; try lra; try (assert (0 <= h * sq ((y - s) / (e - s))) by (apply Rmult_le_pos; auto); lra); try (assert (0 <= h * sq ((x - e) / (e - s))) by (apply Rmult_le_pos; auto); lra).
  all: try (specialize (A x y ltac:(lra)); nra); try (specialize (B x y ltac:(lra)); nra).
  all: try (specialize (M1 x ltac:(lra))); try (specialize (M2 y ltac:(lra))); nra.
Qed.
Lemma zshape_compl s e h x : doc_membership (SShape s e) h x + doc_membership (ZShape s e) h x = h.
Proof. unfold doc_membership. rdec; lra. Qed.
Lemma zshape_mono s e h x y : 0 <= h -> s < e -> x <= y -> doc_membership (ZShape s e) h y <= doc_membership (ZShape s e) h x.
Proof.
  intros H O L. pose proof (sshape_mono s e h x y H O L). pose proof (zshape_compl s e h x). pose proof (zshape_compl s e h y). lra.
Qed.
Lemma logistic_mono s z w : s * z <= s * w -> logistic s z <= logistic s w.
Proof.
  intro. unfold logistic. apply Rinv_le_contravar. { pose proof (exp_pos (- s * w)); lra. }
  assert (exp (- s * w) <= exp (- s * z)); [|lra].
  destruct (Req_dec (s * z) (s * w)) as [E|E]; [replace (- s * w) with (- s * z) by lra; lra|].
  left; apply exp_increasing. lra.
Qed.

Section D.
Context (P : xparam).
#[local] Hint Extern 0 (Scalar xr) => exact (XRScalar P) : typeclass_instances.
Notation eps := (xp_eps P).
Notation fm := (fm P).
Context (E0 : 0 <= xp_eps P).

(** ordered results *)
Definition xle (a b : xr) : Prop := exists u v, a = XFin u /\ b = XFin v /\ u <= v.
Lemma xle_fin u v : u <= v -> xle (XFin u) (XFin v).
Proof. exists u, v; auto. Qed.

Ltac start := intros; unfold ShapeFacts.fm, sh_membership, shape_map in *; rewrite ?xe_isNaN; offs; xe P.
Lemma quot_le h u v w : 0 <= h -> 0 < w -> u <= v -> h * u / w <= h * v / w.
Proof. intros. assert (h * u <= h * v) by nra. apply div_le_cross; nra. Qed.
Lemma quot_le2 h u v w : 0 <= h -> 0 <= u -> 0 < w <= v -> h * u / v <= h * u / w.
Proof. intros. apply div_le_cross; try lra. assert (0 <= h * u) by nra. nra. Qed.

Lemma ramp_mono s e h x y : 0 <= h -> oriented eps (Ramp s e) -> s < e -> x <= y -> xle (fm (Ramp s e) h x) (fm (Ramp s e) h y).
Proof.
  unfold oriented; start; (destruct (isEq_spec P s e) as [C|C]; unfold Rabs in C; repeat destruct Rcase_abs; try lra);
  repeat (xcmp P; try lra); xe P; apply xle_fin; try lra; try (apply quot_le; lra);
  try (rewrite Rmult_0_r; apply div_nonneg; nra); try (rewrite Rmult_1_r; apply div_le_iff; nra).
Qed.
Lemma ramp_mono_dec s e h x y : 0 <= h -> oriented eps (Ramp s e) -> e < s -> x <= y -> xle (fm (Ramp s e) h y) (fm (Ramp s e) h x).
Proof.
  unfold oriented; start; (destruct (isEq_spec P s e) as [C|C]; unfold Rabs in C; repeat destruct Rcase_abs; try lra);
  repeat (xcmp P; try lra); xe P; apply xle_fin; try lra; try (apply quot_le; lra);
  try (rewrite Rmult_0_r; apply div_nonneg; nra); try (rewrite Rmult_1_r; apply div_le_iff; nra).
Qed.
Lemma concave_mono i e h x y : 0 <= h -> i < e -> x <= y -> xle (fm (Concave i e) h x) (fm (Concave i e) h y).
Proof.
  start; repeat (xcmp P; try lra); xe P; apply xle_fin; try lra; try (apply quot_le2; lra);
  try (rewrite Rmult_1_r; apply div_le_iff; nra).
Qed.
Lemma concave_mono_dec i e h x y : 0 <= h -> oriented eps (Concave i e) -> e < i -> x <= y -> xle (fm (Concave i e) h y) (fm (Concave i e) h x).
Proof.
  unfold oriented; start; repeat (xcmp P; try lra); xe P; apply xle_fin; try lra; try (apply quot_le2; lra);
  try (rewrite Rmult_1_r; apply div_le_iff; nra).
Qed.

Definition xdir (s : shape R) (a b : xr) : Prop := (increasing s -> xle a b) /\ (~ increasing s -> xle b a).

(** Concave, Ramp and Sigmoid are monotone at any tolerance *)
Lemma mono_any s h x y : 0 <= h -> strictly_oriented s -> oriented eps s ->
  match s with SShape _ _ | ZShape _ _ => False | _ => True end -> x <= y -> xdir s (fm s h x) (fm s h y).
Proof.
  intros H O OE K L; destruct s; simpl in O; try contradiction; split; unfold increasing; intro D; simpl in OE.
  - now apply concave_mono.
  - apply concave_mono_dec; auto; lra.
  - now apply ramp_mono.
  - apply ramp_mono_dec; auto; lra.
  - rewrite !doc_sigmoid. apply xle_fin. simpl. apply Rmult_le_compat_l; auto. apply logistic_mono. nra.
  - rewrite !doc_sigmoid. apply xle_fin. simpl. apply Rmult_le_compat_l; auto. apply logistic_mono. nra.
Qed.
(** SShape and ZShape outside the tolerance bands *)
Lemma mono_off s h x y : 0 <= h -> strictly_oriented s -> oriented eps s ->
  Forall (fun v => off eps v x) (breakpoints s) -> Forall (fun v => off eps v y) (breakpoints s) ->
  x <= y -> xdir s (fm s h x) (fm s h y).
Proof.
  intros H O OE Fx Fy L. destruct s eqn:E; simpl in O; try contradiction; try (now apply mono_any);
  rewrite <- E in *; assert (well_ordered s) by (subst; auto); rewrite !doc_main by (subst; auto); subst; unfold xdir; simpl increasing; split; intro; try tauto; apply xle_fin.
  - now apply sshape_mono.
  - now apply zshape_mono.
Qed.

(** Tsukamoto *)
Definition tsu (s : shape R) (h y : R) : res xr := sh_tsukamoto (shape_map XFin s) (XFin h) (XFin y).

(** inverse of the documented function on (0,h) *)
Definition doc_inverse (s : shape R) (h y : R) : R :=
  match s with
  | Concave i e => h * (i - e) / y + 2 * e - i
  | Ramp s e => s + (e - s) * y / h
  | SShape s e => if Rle_dec y (h / 2) then s + (e - s) * sqrt (y / (2 * h)) else e - (e - s) * sqrt ((h - y) / (2 * h))
  | ZShape s e => if Rle_dec y (h / 2) then e - (e - s) * sqrt (y / (2 * h)) else s + (e - s) * sqrt ((h - y) / (2 * h))
  | Sigmoid i s => i + ln (h / y - 1) / (- s)
  | _ => 0
  end.
Lemma xe_sqrt a : 0 <= a -> s_sqrt (XFin a) = XFin (sqrt a).
Proof. intro. simpl. rewrite Rltb_false by lra. reflexivity. Qed.
Lemma ratio_pos h y : 0 < y < h -> 0 < h / y - 1.
Proof. intro. assert (1 < h / y); [|lra]. apply Rmult_lt_reg_r with y; [lra|]. replace (h / y * y) with h by (field; lra). lra. Qed.
Lemma tsu_value s h y : strictly_oriented s -> 0 < y < h -> tsu s h y = Ok (XFin (doc_inverse s h y)).
Proof.
  intros O Y. destruct s; simpl in O; try contradiction; unfold tsu, sh_tsukamoto, shape_map, doc_inverse; xe P.
  - reflexivity.
  - reflexivity.
  - assert (0 <= y / (2 * h)) by (apply div_nonneg; lra). assert (0 <= (h - y) / (2 * h)) by (apply div_nonneg; lra).
    repeat (xcmp P; try lra); rewrite xe_sqrt by lra; xe P; reflexivity.
  - simpl. pose proof (ratio_pos h y Y). rewrite Rltb_false, Reqb_false by lra. simpl.
    destruct Req_EM_T; [lra|]. reflexivity.
  - assert (0 <= y / (2 * h)) by (apply div_nonneg; lra). assert (0 <= (h - y) / (2 * h)) by (apply div_nonneg; lra).
    repeat (xcmp P; try lra); rewrite xe_sqrt by lra; xe P; reflexivity.
Qed.

Lemma sqrt_band y h : 0 < y <= h / 2 -> 0 < h -> 0 < sqrt (y / (2 * h)) <= 1/2 /\ sqrt (y / (2 * h)) * sqrt (y / (2 * h)) = y / (2*h).
Proof.
  intros Y H. assert (0 < y / (2 * h)) by (apply Rdiv_lt_0_compat; lra). split; [|apply sqrt_sqrt; lra].
  split; [apply sqrt_lt_R0; auto|]. replace (1/2) with (sqrt ((1/2)*(1/2))) by (apply sqrt_square; lra).
  apply sqrt_le_1; try lra. apply div_le_iff; lra.
Qed.

Lemma inv_right s h y : strictly_oriented s -> 0 < y < h -> doc_membership s h (doc_inverse s h y) = y.
Proof.
  intros O Y. destruct s; simpl in O; try contradiction; unfold doc_inverse, doc_membership.
  - (* Concave *)
    apply Rdichotomy in O.
    assert (K : h * (inflection - finish) / y = (inflection - finish) * (h / y)) by (field; lra).
    pose proof (ratio_pos h y Y).
    destruct O; destruct (Rle_dec inflection finish); try lra; rdec; try nra.
    + replace (2 * finish - inflection - (h * (inflection - finish) / y + 2 * finish - inflection)) with ((finish - inflection) * h / y) by (field; lra).
      set (d := finish - inflection) in *. assert (0 < d) by (unfold d; lra). clearbody d. field. repeat split; lra.
    + replace (-2 * finish + inflection + (h * (inflection - finish) / y + 2 * finish - inflection)) with ((inflection - finish) * h / y) by (field; lra).
      set (d := inflection - finish) in *. assert (0 < d) by (unfold d; lra). clearbody d. field. repeat split; lra.
  - (* Ramp *)
    apply Rdichotomy in O.
    assert (K : (finish - start) * y / h = (finish - start) * (y / h)) by (field; lra). rewrite K.
    assert (0 < y / h < 1).
    { split; [apply Rdiv_lt_0_compat; lra|]. apply Rmult_lt_reg_r with h; [lra|]. replace (y / h * h) with y by (field; lra). lra. }
    rdec; destruct O; try nra; field; lra.
  - (* SShape *)
    destruct (Rle_dec y (h / 2)).
    + destruct (sqrt_band y h ltac:(lra) ltac:(lra)) as [B E]. set (q := sqrt (y / (2 * h))) in *.
      assert ((finish - start) * q <= (finish - start) / 2) by nra. assert (0 < (finish - start) * q) by nra.
      rdec; try lra.
      unfold sq. replace ((start + (finish - start) * q - start) / (finish - start)) with q by (field; lra). rewrite E. field. lra.
    + destruct (sqrt_band (h - y) h ltac:(lra) ltac:(lra)) as [B E]. set (q := sqrt ((h - y) / (2 * h))) in *.
      assert ((finish - start) * q < (finish - start) / 2).
      { assert (q <> 1/2). { intro C. rewrite C in E. assert ((h - y) = 2 * h * ((h-y) / (2*h))) by (field; lra). nra. } nra. }
      assert (0 < (finish - start) * q) by nra.
      rdec; try lra.
      unfold sq. replace ((finish - (finish - start) * q - finish) / (finish - start)) with (- q) by (field; lra).
      replace (- q * - q) with (q * q) by ring. rewrite E. field. lra.
  - (* Sigmoid *)
    pose proof (ratio_pos h y Y). unfold logistic.
    replace (- slope * (inflection + ln (h / y - 1) / - slope - inflection)) with (ln (h / y - 1)) by (field; lra).
    rewrite exp_ln by lra. field. split; lra.
  - (* ZShape *)
    destruct (Rle_dec y (h / 2)).
    + destruct (sqrt_band y h ltac:(lra) ltac:(lra)) as [B E]. set (q := sqrt (y / (2 * h))) in *.
      assert ((finish - start) * q <= (finish - start) / 2) by nra. assert (0 < (finish - start) * q) by nra.
      rdec; try lra; unfold sq.
      * assert (q = 1/2) by nra. rewrite H1 in *.
        replace ((finish - (finish - start) * (1/2) - start) / (finish - start)) with (1/2) by (field; lra).
        assert (y = h/2); [|lra]. assert (y = 2 * h * (y / (2*h))) by (field; lra). nra.
      * replace ((finish - (finish - start) * q - finish) / (finish - start)) with (-q) by (field; lra).
        replace (-q * -q) with (q*q) by ring. rewrite E. field. lra.
    + destruct (sqrt_band (h - y) h ltac:(lra) ltac:(lra)) as [B E]. set (q := sqrt ((h - y) / (2 * h))) in *.
      assert ((finish - start) * q <= (finish - start) / 2) by nra. assert (0 < (finish - start) * q) by nra.
      rdec; try lra. unfold sq.
      replace ((start + (finish - start) * q - start) / (finish - start)) with q by (field; lra).
      rewrite E. field. lra.
Qed.

(** the documented function is injective strictly inside (0,h), so the inverse is the only solution *)
Lemma sq_inj_div a b w : 0 < w -> 0 <= a -> 0 <= b -> sq (a / w) = sq (b / w) -> a = b.
Proof.
  intros W A B. unfold sq. intro E. assert (a / w = b / w).
  { assert (0 <= a / w) by (apply div_nonneg; lra). assert (0 <= b / w) by (apply div_nonneg; lra). nra. }
  replace a with (a / w * w) by (field; lra). rewrite H. field. lra.
Qed.
Lemma sq_neg_div a w : 0 < w -> sq (a / w) = sq (- a / w).
Proof. intro. unfold sq. field. lra. Qed.
Lemma doc_inj s h x x' : 0 < h -> strictly_oriented s -> 0 < doc_membership s h x < h ->
  doc_membership s h x = doc_membership s h x' -> x = x'.
Proof.
  intros H O. destruct s; simpl in O; try contradiction; unfold doc_membership.
  - apply Rdichotomy in O. assert (T : forall d u v, 0 < d -> d < u -> d < v -> h * d / u = h * d / v -> u = v).
    { intros d u v D U V E. assert (h * d * v = h * d * u).
      { replace v with (v / u * u) at 1 by (field; lra).  replace (h * d * (v / u * u)) with (h * d / u * v * u) by (field; lra). rewrite E. field. lra. }
      assert (h * d > 0) by nra. nra. }
    rdec; destruct O; intros R E; try lra.
    + specialize (T (finish - inflection) (2 * finish - inflection - x) (2 * finish - inflection - x')). specialize (T ltac:(lra) ltac:(lra) ltac:(lra) E). lra.
    + specialize (T (inflection - finish) (-2 * finish + inflection + x) (-2 * finish + inflection + x')). specialize (T ltac:(lra) ltac:(lra) ltac:(lra) E). lra.
  - apply Rdichotomy in O. assert (T : forall u v w, 0 < w -> h * u / w = h * v / w -> u = v).
    { intros u v w W E. assert (h * u = h * v) by (replace (h * u) with (h * u / w * w) by (field; lra); rewrite E; field; lra). nra. }
    rdec; destruct O; intros R E; try lra; apply T in E; lra.
  - assert (Q := quad_quarter (finish - start) ltac:(lra)).
    rdec; intros R E; try lra.
    + assert (x - start = x' - start); [|lra]. apply sq_inj_div with (finish - start); try lra. nra.
    + exfalso. assert (sq ((x - start) / (finish - start)) <= 1/4) by (rewrite <- Q; apply quad_le; lra).
      rewrite (sq_neg_div (x' - finish)) in E by lra.
      assert (sq (- (x' - finish) / (finish - start)) < 1/4).
      { assert (sq (- (x' - finish) / (finish - start)) <= 1/4) by (rewrite <- Q; apply quad_le; lra).
        destruct H1; auto. exfalso. rewrite <- Q in H1. apply sq_inj_div in H1; lra. }
      nra.
    + exfalso. assert (sq ((x' - start) / (finish - start)) <= 1/4) by (rewrite <- Q; apply quad_le; lra).
      rewrite (sq_neg_div (x - finish)) in E by lra.
      assert (sq (- (x - finish) / (finish - start)) < 1/4).
      { assert (sq (- (x - finish) / (finish - start)) <= 1/4) by (rewrite <- Q; apply quad_le; lra).
        destruct H1; auto. exfalso. rewrite <- Q in H1. apply sq_inj_div in H1; lra. }
      nra.
    + rewrite (sq_neg_div (x - finish)), (sq_neg_div (x' - finish)) in E by lra.
      assert (- (x - finish) = - (x' - finish)); [|lra]. apply sq_inj_div with (finish - start); try lra. nra.
  - intros R E. unfold logistic in E.
    pose proof (exp_pos (- slope * (x - inflection))). pose proof (exp_pos (- slope * (x' - inflection))).
    assert (/ (1 + exp (- slope * (x - inflection))) = / (1 + exp (- slope * (x' - inflection)))) by nra.
    apply (f_equal Rinv) in H2. rewrite !Rinv_inv in H2. assert (exp (- slope * (x - inflection)) = exp (- slope * (x' - inflection))) by lra.
    apply exp_inv in H3. assert (slope * (x - x') = 0) by lra. apply Rmult_integral in H4. lra.
  - assert (Q := quad_quarter (finish - start) ltac:(lra)).
    rdec; intros R E; try lra.
    + assert (x - start = x' - start); [|lra]. apply sq_inj_div with (finish - start); try lra. nra.
    + exfalso. assert (sq ((x - start) / (finish - start)) <= 1/4) by (rewrite <- Q; apply quad_le; lra).
      rewrite (sq_neg_div (x' - finish)) in E by lra.
      assert (sq (- (x' - finish) / (finish - start)) < 1/4).
      { assert (sq (- (x' - finish) / (finish - start)) <= 1/4) by (rewrite <- Q; apply quad_le; lra).
        destruct H1; auto. exfalso. rewrite <- Q in H1. apply sq_inj_div in H1; lra. }
      nra.
    + exfalso. assert (sq ((x' - start) / (finish - start)) <= 1/4) by (rewrite <- Q; apply quad_le; lra).
      rewrite (sq_neg_div (x - finish)) in E by lra.
      assert (sq (- (x - finish) / (finish - start)) < 1/4).
      { assert (sq (- (x - finish) / (finish - start)) <= 1/4) by (rewrite <- Q; apply quad_le; lra).
        destruct H1; auto. exfalso. rewrite <- Q in H1. apply sq_inj_div in H1; lra. }
      nra.
    + rewrite (sq_neg_div (x - finish)), (sq_neg_div (x' - finish)) in E by lra.
      assert (- (x - finish) = - (x' - finish)); [|lra]. apply sq_inj_div with (finish - start); try lra. nra.
Qed.

(** membership(tsukamoto(y)) = y, and tsukamoto(membership(x)) = x *)
Lemma tsu_right s h y : strictly_oriented s -> oriented eps s -> 0 < y < h ->
  exists x, tsu s h y = Ok (XFin x) /\
    (Forall (fun v => off eps v x) (breakpoints s) -> fm s h x = XFin y).
Proof.
  intros O OE Y. exists (doc_inverse s h y). split; [now apply tsu_value|]. intro F.
  rewrite doc_main; auto using oriented_ordered. now rewrite inv_right.
Qed.
Lemma tsu_left s h x y : strictly_oriented s -> oriented eps s -> 0 < y < h ->
  Forall (fun v => off eps v x) (breakpoints s) -> fm s h x = XFin y -> tsu s h y = Ok (XFin x).
Proof.
  intros O OE Y F E. rewrite doc_main in E; auto using oriented_ordered. injection E as E.
  rewrite tsu_value by auto. do 2 f_equal. symmetry. apply (doc_inj s h); try lra; auto. rewrite inv_right; auto.
Qed.
Lemma monotonic_oriented s : strictly_oriented s -> sh_monotonic (shape_map XFin s) = true.
Proof. destruct s; simpl; tauto. Qed.
Lemma nonmonotonic_throws (s : shape xr) h y : sh_monotonic s = false -> sh_tsukamoto s h y = Throw ETerm.
Proof. destruct s; simpl; try discriminate; auto. Qed.
End D.
