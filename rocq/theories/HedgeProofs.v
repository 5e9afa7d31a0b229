(** Hedges on the extended reals. *)
From Coq Require Import ZArith Reals Bool Lra Psatz.
From Verif Require Import Base Op XR XRFacts Norm NormFacts NormAlg SpecNorm Hedge.
Local Open Scope R_scope.

Section HP.
Context (P : xparam).
#[local] Hint Extern 0 (Scalar xr) => exact (XRScalar P) : typeclass_instances.
Notation eps := (xp_eps P).

(** closed real form on [0,1] *)
Definition rH (h : hedge) (x : R) : R :=
  match h with
  | Any => 1
  | Extremely => if Rle_dec x (1/2) then 2 * x * x
                 else if Rlt_dec x (1/2 + eps) then 2 * x * x else 1 - 2 * (1 - x) * (1 - x)
  | Not => 1 - x
  | Seldom => if Rle_dec x (1/2) then sqrt (1/2 * x)
              else if Rlt_dec x (1/2 + eps) then sqrt (1/2 * x) else 1 - sqrt (1/2 * (1 - x))
  | Somewhat => sqrt x
  | Very => x * x
  end.

Lemma xsqrt_fin r : 0 <= r -> xsqrt (XFin r) = XFin (sqrt r).
Proof. intro. simpl. rewrite Rltb_false; auto. Qed.

Lemma hedge_fin h x : unit x -> hedge_apply h (XFin x) = XFin (rH h x).
Proof.
  unfold unit; intros Hx. destruct h; unfold hedge_apply; rewrite ?x_1, ?x_2, ?x_half; auto.
  - destruct (isLE_spec P x (1/2)); unfold rH.
    + destruct Rle_dec; [reflexivity|]. destruct Rlt_dec; [reflexivity|lra].
    + destruct Rle_dec; [lra|]. destruct Rlt_dec; [lra|reflexivity].
  - destruct (isLE_spec P x (1/2)); unfold rH.
    + change (s_sqrt (s_mul (XFin (1/2)) (XFin x))) with (xsqrt (XFin (1/2 * x))). rewrite xsqrt_fin by lra.
      destruct Rle_dec; [reflexivity|]. destruct Rlt_dec; [reflexivity|lra].
    + change (s_sqrt (s_mul (XFin (1/2)) (s_sub (XFin 1) (XFin x)))) with (xsqrt (XFin (1/2 * (1 - x)))).
      rewrite xsqrt_fin by lra.
      destruct Rle_dec; [lra|]. destruct Rlt_dec; [lra|reflexivity].
  - change (s_sqrt (XFin x)) with (xsqrt (XFin x)). apply xsqrt_fin; lra.
Qed.

Lemma sqrt_unit x : unit x -> unit (sqrt x).
Proof.
  unfold unit; intros. pose proof (sqrt_pos x). split; auto.
  rewrite <- sqrt_1. apply sqrt_le_1_alt; lra.
Qed.
Lemma sqrt_bounds x y : 0 <= y -> 0 <= x -> (x <= y * y -> sqrt x <= y) /\ (y * y <= x -> y <= sqrt x).
Proof.
  intros Hy Hx; split; intros H; pose proof (sqrt_sqrt x Hx); pose proof (sqrt_pos x); nra.
Qed.

Lemma rH_range h x : 0 <= eps <= /10 -> unit x -> unit (rH h x).
Proof.
  intros He Hx. destruct h; unfold rH.
  - unfold unit; lra.
  - unfold unit in *. rdec; nra.
  - unfold unit in *; lra.
  - rdec; try (apply sqrt_unit; unfold unit in *; lra).
    assert (unit (sqrt (1/2 * (1 - x)))) by (apply sqrt_unit; unfold unit in *; lra). unfold unit in *; lra.
  - apply sqrt_unit; auto.
  - unfold unit in *; nra.
Qed.

Lemma rH_fix h x : 0 <= eps <= /10 -> (h <> Any -> h <> Not -> (x = 0 \/ x = 1) -> rH h x = x).
Proof.
  intros He Ha Hn [->| ->]; destruct h; try contradiction; unfold rH; rdec; try lra;
   rewrite ?Rmult_0_r, ?sqrt_0, ?sqrt_1; auto; try lra.
  replace (1 / 2 * (1 - 1)) with 0 by lra. rewrite sqrt_0; lra.
Qed.

Lemma sqrt_band x y : 0 <= x -> x <= y -> y <= 1 -> sqrt (1/2 * x) <= 1 - sqrt (1/2 * (1 - y)).
Proof.
  intros. pose proof (sqrt_sqrt (1/2 * x) ltac:(lra)). pose proof (sqrt_sqrt (1/2 * (1 - y)) ltac:(lra)).
  pose proof (sqrt_pos (1/2 * x)). pose proof (sqrt_pos (1/2 * (1 - y))).
  set (p := sqrt (1/2 * x)) in *. set (q := sqrt (1/2 * (1 - y))) in *.
  assert (p * p + q * q <= 1/2) by nra.
  assert (0 <= (p - q) * (p - q)) by (apply Rle_0_sqr). nra.
Qed.
Lemma rH_mono h x y : 0 <= eps <= /10 -> h <> Not -> (h = Extremely -> eps = 0) -> unit x -> unit y -> x <= y -> rH h x <= rH h y.
Proof.
  unfold unit; intros He Hn Hx0 Hx Hy H. destruct h; unfold rH; try contradiction.
  - lra.
  - rewrite Hx0 by auto. rdec; try lra; try nra.
  - rdec; try (exfalso; lra); try (apply sqrt_le_1_alt; lra); try (apply sqrt_band; lra).
    assert (sqrt (1/2 * (1 - y)) <= sqrt (1/2 * (1 - x))) by (apply sqrt_le_1_alt; lra). lra.
  - apply sqrt_le_1_alt; auto.
  - nra.
Qed.

Lemma rH_not_antitone x y : x <= y -> rH Not y <= rH Not x.
Proof. unfold rH; lra. Qed.

Lemma rH_very_somewhat x : unit x -> rH Very (rH Somewhat x) = x /\ rH Somewhat (rH Very x) = x.
Proof. unfold unit, rH; intros. split; [apply sqrt_sqrt; lra|apply sqrt_square; lra]. Qed.

Lemma rH_extremely_seldom x : eps = 0 -> unit x -> rH Extremely (rH Seldom x) = x /\ rH Seldom (rH Extremely x) = x.
Proof.
  unfold unit; intros He Hx. split.
  - unfold rH at 2. rewrite He. destruct (Rle_dec x (1/2)) as [H|H].
    + assert (sqrt (1/2 * x) <= 1/2) by (apply sqrt_bounds; lra).
      unfold rH. destruct Rle_dec; [|contradiction].
      rewrite Rmult_assoc, sqrt_sqrt; lra.
    + destruct Rlt_dec; [lra|].
      pose proof (sqrt_sqrt (1/2 * (1 - x)) ltac:(lra)). pose proof (sqrt_pos (1/2 * (1 - x))).
      set (q := sqrt (1/2 * (1 - x))) in *.
      assert (q < 1/2) by nra. unfold rH. rewrite He. destruct Rle_dec; [lra|]. destruct Rlt_dec; [lra|]. nra.
  - unfold rH at 2. rewrite He. destruct (Rle_dec x (1/2)) as [H|H].
    + unfold rH. destruct Rle_dec; [|nra].
      replace (1 / 2 * (2 * x * x)) with (x * x) by field. apply sqrt_square; lra.
    + destruct Rlt_dec; [lra|]. unfold rH. rewrite He.
      destruct Rle_dec; [nra|]. destruct Rlt_dec; [nra|].
      replace (1 / 2 * (1 - (1 - 2 * (1 - x) * (1 - x)))) with ((1 - x) * (1 - x)) by field.
      rewrite sqrt_square; lra.
Qed.

Lemma rH_order x : 0 <= eps <= /10 -> unit x ->
  rH Very x <= x <= rH Somewhat x /\
  (x <= 1/2 -> rH Extremely x <= x <= rH Seldom x) /\
  (1/2 + eps <= x -> x < 1 -> rH Seldom x <= x <= rH Extremely x).
Proof.
  unfold unit; intros He Hx. split; [|split]; unfold rH.
  - split; [nra|]. apply (sqrt_bounds x x); nra.
  - intros. destruct Rle_dec; [|lra]. split; [nra|]. apply (sqrt_bounds (1/2 * x) x); nra.
  - intros H H1. destruct Rle_dec; [|destruct Rlt_dec; [lra|]].
    + assert (x = 1/2) by lra. subst x. split; [|lra].
      apply sqrt_bounds; lra.
    + split; [|nra]. assert (1 - x <= sqrt (1/2 * (1 - x))) by (apply (sqrt_bounds (1/2 * (1-x)) (1-x)); nra). lra.
Qed.

(** statements about hedge_apply *)
Lemma hedge_degree h x : 0 <= eps <= /10 -> degree x -> degree (hedge_apply h x).
Proof. intros He (r & -> & Hr). rewrite hedge_fin by auto. eexists; split; eauto. apply rH_range; auto. Qed.
Lemma hedges_degree hs x : 0 <= eps <= /10 -> degree x -> degree (hedges_apply hs x).
Proof. intros He Hx. induction hs; simpl; auto. apply hedge_degree; auto. Qed.
Lemma hedge_mono h x y : 0 <= eps <= /10 -> h <> Not -> (h = Extremely -> eps = 0) ->
  degree x -> degree y -> fle x y -> fle (hedge_apply h x) (hedge_apply h y).
Proof.
  intros He Hn Hx (r & -> & Hr) (s & -> & Hs) (p & q & E1 & E2 & H). injection E1 as <-. injection E2 as <-.
  rewrite !hedge_fin by auto. do 2 eexists; repeat split; eauto. apply rH_mono; auto.
Qed.
Lemma hedge_fix h x : 0 <= eps <= /10 -> h <> Any -> h <> Not -> x = XFin 0 \/ x = XFin 1 -> hedge_apply h x = x.
Proof. intros He Ha Hn [->| ->]; rewrite hedge_fin by (unfold unit; lra); f_equal; apply rH_fix; auto. Qed.
Lemma hedge_not_antitone x y : degree x -> degree y -> fle x y -> fle (hedge_apply Not y) (hedge_apply Not x).
Proof.
  intros (r & -> & Hr) (s & -> & Hs) (p & q & E1 & E2 & H). injection E1 as <-. injection E2 as <-.
  rewrite !hedge_fin by auto. do 2 eexists; repeat split; eauto. apply rH_not_antitone; auto.
Qed.
Lemma hedge_not_involutive x : degree x -> hedge_apply Not (hedge_apply Not x) = x.
Proof. intros (r & -> & Hr). unfold hedge_apply. rewrite x_1. simpl. f_equal; lra. Qed.
Lemma hedge_any x : hedge_apply Any x = XFin 1.
Proof. unfold hedge_apply. apply x_1. Qed.
Lemma hedge_very_somewhat x : degree x ->
  hedge_apply Very (hedge_apply Somewhat x) = x /\ hedge_apply Somewhat (hedge_apply Very x) = x.
Proof.
  intros (r & -> & Hr). rewrite (hedge_fin Somewhat r), (hedge_fin Very r) by auto.
  destruct (rH_very_somewhat r Hr) as [A B].
  assert (U : forall h, h = Very \/ h = Somewhat -> unit (rH h r)).
  { intros h [->| ->]; unfold rH; [unfold unit in *; nra|apply sqrt_unit; auto]. }
  rewrite !hedge_fin by (apply U; auto). now rewrite A, B.
Qed.
Lemma hedge_extremely_seldom x : eps = 0 -> degree x ->
  hedge_apply Extremely (hedge_apply Seldom x) = x /\ hedge_apply Seldom (hedge_apply Extremely x) = x.
Proof.
  intros He (r & -> & Hr). rewrite (hedge_fin Seldom r), (hedge_fin Extremely r) by auto.
  destruct (rH_extremely_seldom r He Hr) as [A B].
  rewrite !hedge_fin by (apply rH_range; auto; lra). now rewrite A, B.
Qed.
Lemma hedge_order r : 0 <= eps <= /10 -> 0 <= r <= 1 ->
  fle (hedge_apply Very (XFin r)) (XFin r) /\ fle (XFin r) (hedge_apply Somewhat (XFin r)) /\
  (r <= 1/2 -> fle (hedge_apply Extremely (XFin r)) (XFin r) /\ fle (XFin r) (hedge_apply Seldom (XFin r))) /\
  (1/2 + eps <= r -> fle (XFin r) (hedge_apply Extremely (XFin r)) /\ fle (hedge_apply Seldom (XFin r)) (XFin r)).
Proof.
  intros He Hr. destruct (rH_order r He Hr) as (A & B & C). rewrite !hedge_fin by auto.
  assert (L : forall x y, x <= y -> fle (XFin x) (XFin y)) by (intros; do 2 eexists; eauto).
  split; [apply L; lra|]. split; [apply L; lra|]. split.
  - intros H. specialize (B H). split; apply L; lra.
  - intros H. destruct (Req_EM_T r 1) as [->|Hn].
    + rewrite (rH_fix Extremely), (rH_fix Seldom) by (auto; discriminate). split; apply L; lra.
    + specialize (C H ltac:(lra)). split; apply L; lra.
Qed.
Lemma hedge_nan h : h <> Any -> hedge_apply h XNaN = XNaN.
Proof.
  destruct h; intro H; try contradiction; unfold hedge_apply, isLE, isLE_tol; rewrite ?x_isNaN; simpl; auto.
Qed.
End HP.

(** At the default tolerance `extremely` is not monotone: it steps down at 0.5 + 1e-6. *)
Lemma extremely_not_monotone :
  let x := XFin (1/2 + 999999/1000000000000) in let y := XFin (1/2 + /1000000) in
  fle x y /\
  ~ fle (@hedge_apply xr (XRScalar xp_default) Extremely x) (@hedge_apply xr (XRScalar xp_default) Extremely y).
Proof.
  intros x y. unfold x, y. split.
  - do 2 eexists; repeat split; lra.
  - rewrite !hedge_fin by (unfold unit; lra). intros (r & s & E1 & E2 & H). injection E1 as E1. injection E2 as E2.
    unfold rH in *. simpl in *. revert E1 E2. rdec; intros; lra.
Qed.
