(** Statements assembled for the property files of the shape terms. *)
From Coq Require Import ZArith Reals Bool List Lra Psatz.
From Flocq Require Import Core BinarySingleNaN.
From Verif Require Import Base Op XR XRFacts F64 Norm Hedge Shape SpecTerm NormAlg ShapeFacts ShapeDoc ShapeRange ShapeMono ShapeSym.
Import ListNotations.
Local Open Scope R_scope.

(** what the library computes for finite parameters, height and argument *)
Definition xmembership (P : xparam) (s : shape R) (h x : R) : xr :=
  @sh_membership xr (XRScalar P) (shape_map XFin s) (XFin h) (XFin x).
Definition xtsukamoto (P : xparam) (s : shape R) (h y : R) : res xr :=
  @sh_tsukamoto xr (XRScalar P) (shape_map XFin s) (XFin h) (XFin y).

Lemma b_infinite_vertices : forall (P : xparam) (h x : R), 0 <= xp_eps P -> 0 <= h ->
  let M := @sh_membership xr (XRScalar P) in let e := xp_eps P in
  (forall b c, b <= c -> ~ (c < x < c + e) -> within h (M (Triangle XNInf (XFin b) (XFin c)) (XFin h) (XFin x))) /\
  (forall a b, a <= b -> ~ (a - e < x < a) -> within h (M (Triangle (XFin a) (XFin b) XPInf) (XFin h) (XFin x))) /\
  (forall b c d, b <= c -> c <= d -> within h (M (Trapezoid XNInf (XFin b) (XFin c) (XFin d)) (XFin h) (XFin x))) /\
  (forall a b c, a <= b -> b <= c -> ~ (a - e < x < a) -> within h (M (Trapezoid (XFin a) (XFin b) (XFin c) XPInf) (XFin h) (XFin x))).
Proof.
  intros P h x E H. repeat split; intros; [apply tri_left|apply tri_right|apply trap_left|apply trap_right]; auto.
Qed.
Lemma b_infinite_full : forall (P : xparam) (h x : R), 0 <= xp_eps P ->
  let M := @sh_membership xr (XRScalar P) in
  (forall b c, x <= b -> b <= c -> M (Triangle XNInf (XFin b) (XFin c)) (XFin h) (XFin x) = XFin h) /\
  (forall a b, a <= b <= x -> M (Triangle (XFin a) (XFin b) XPInf) (XFin h) (XFin x) = XFin h) /\
  (forall b c d, x <= c -> b <= c -> c <= d -> M (Trapezoid XNInf (XFin b) (XFin c) (XFin d)) (XFin h) (XFin x) = XFin h) /\
  (forall a b c, b <= x -> a <= b -> b <= c -> M (Trapezoid (XFin a) (XFin b) (XFin c) XPInf) (XFin h) (XFin x) = XFin h).
Proof.
  intros P h x E. repeat split; intros; [apply tri_left_full|apply tri_right_full|apply trap_left_full|apply trap_right_full]; auto.
Qed.

Section Def.
#[local] Hint Extern 0 (Scalar xr) => exact (XRScalar xp_default) : typeclass_instances.
Ltac go := unfold xmembership, sh_membership, shape_map; rewrite ?xe_isNaN; xe xp_default;
  repeat (xcmp xp_default; simpl xp_eps in *; try lra); xe xp_default.

Lemma b_triangle_neg : exists m, xmembership xp_default (Triangle 0 1 2) 1 (- / 2000000) = XFin m /\ m < 0.
Proof.
  unfold xmembership, sh_membership, shape_map; rewrite ?xe_isNaN; xe xp_default.
  destruct (isEq_spec xp_default (- / 2000000) 1) as [C|C]; simpl xp_eps in *; unfold Rabs in C; destruct Rcase_abs in C; try lra.
  repeat (xcmp xp_default; simpl xp_eps in *; try lra); xe xp_default; eexists; (split; [reflexivity|lra]).
Qed.
Lemma b_trapezoid_neg : exists m, xmembership xp_default (Trapezoid 0 1 2 3) 1 (- / 2000000) = XFin m /\ m < 0.
Proof. go. eexists. split; [reflexivity|]. unfold Rmin. destruct Rle_dec; lra. Qed.
Lemma b_sshape_big : exists m, xmembership xp_default (SShape 0 (/ 10000000)) 1 (101 / 100000000) = XFin m /\ 200 < m.
Proof. go. eexists. split; [reflexivity|]. unfold sq. lra. Qed.
Lemma b_sshape_nonmono : exists x y u v, x < y /\
  xmembership xp_default (SShape 0 1) 1 x = XFin u /\ xmembership xp_default (SShape 0 1) 1 y = XFin v /\ v < u.
Proof.
  exists (1/2 + / 1000000 - / 1000000000000), (1/2 + / 1000000). do 2 eexists. split; [lra|]. repeat split.
  - go. reflexivity.
  - go. reflexivity.
  - unfold sq. lra.
Qed.
Lemma b_ramp_tsukamoto : exists x, xtsukamoto xp_default (Ramp 0 1) 1 (/ 2000000) = Ok (XFin x) /\
  xmembership xp_default (Ramp 0 1) 1 x = XFin 0.
Proof.
  exists (/ 2000000). split.
  - unfold xtsukamoto, sh_tsukamoto, shape_map. xe xp_default. do 2 f_equal. field.
  - unfold xmembership, sh_membership, shape_map; rewrite ?xe_isNaN; xe xp_default.
    destruct (isEq_spec xp_default 0 1) as [C|C]; simpl xp_eps in *; unfold Rabs in C; destruct Rcase_abs in C; try lra.
    go. f_equal; lra.
Qed.
Lemma b_binary_finite : exists x, 1 <= x /\ xmembership xp_default (Binary 0 1) 1 x = XFin 1.
Proof. exists 2. split; [lra|]. go. f_equal; lra. Qed.
End Def.

Section NaN.
Context (P : xparam).
#[local] Hint Extern 0 (Scalar xr) => exact (XRScalar P) : typeclass_instances.
Lemma nan_cmp (v : xr) : isEq XNaN (XFin 0) = false /\ isEq XNaN (XFin 1) = false /\ isGt XNaN (XFin 1) = false /\ isLt XNaN (XFin 1) = false.
Proof. unfold isEq, isGt, isLt, isEq_tol, isGt_tol, isLt_tol. rewrite !x_isNaN. simpl. auto. Qed.
Lemma add_nan b : (XNaN + b)%S = XNaN /\ (b + XNaN)%S = XNaN. Proof. destruct b; auto. Qed.
Lemma mul_nan b : (XNaN * b)%S = XNaN /\ (b * XNaN)%S = XNaN. Proof. destruct b; auto. Qed.
Lemma sub_nan b : (XNaN - b)%S = XNaN /\ (b - XNaN)%S = XNaN. Proof. destruct b; auto. Qed.
Lemma div_nan b : (XNaN / b)%S = XNaN /\ (b / XNaN)%S = XNaN. Proof. destruct b; auto. Qed.
Lemma min_nan b : op_min XNaN b = XNaN /\ op_min b XNaN = XNaN.
Proof. unfold op_min. rewrite !x_isNaN. destruct b; auto. Qed.
Lemma max_nan b : op_max XNaN b = XNaN /\ op_max b XNaN = XNaN.
Proof. unfold op_max. rewrite !x_isNaN. destruct b; auto. Qed.
Ltac nans := repeat (match goal with
  | |- context [s_add XNaN ?b] => rewrite (proj1 (add_nan b))
  | |- context [s_add ?b XNaN] => rewrite (proj2 (add_nan b))
  | |- context [s_mul XNaN ?b] => rewrite (proj1 (mul_nan b))
  | |- context [s_mul ?b XNaN] => rewrite (proj2 (mul_nan b))
  | |- context [s_sub XNaN ?b] => rewrite (proj1 (sub_nan b))
  | |- context [s_sub ?b XNaN] => rewrite (proj2 (sub_nan b))
  | |- context [s_div XNaN ?b] => rewrite (proj1 (div_nan b))
  | |- context [s_div ?b XNaN] => rewrite (proj2 (div_nan b))
  | |- context [op_min XNaN ?b] => rewrite (proj1 (min_nan b))
  | |- context [op_min ?b XNaN] => rewrite (proj2 (min_nan b))
  | |- context [op_max XNaN ?b] => rewrite (proj1 (max_nan b))
  | |- context [op_max ?b XNaN] => rewrite (proj2 (max_nan b)) end).
Lemma tnorm_nan n b : let T := @tnorm_compute xr (XRScalar P) in
  (T n XNaN b = XNaN \/ T n XNaN b = XFin 0) /\ (T n b XNaN = XNaN \/ T n b XNaN = XFin 0).
Proof.
  destruct (nan_cmp b) as (C0 & C1 & C2 & C3).
  destruct n; unfold tnorm_compute; nans; rewrite ?(x_0 P), ?(x_1 P), ?C0, ?C1, ?C2, ?C3; nans; auto.
Qed.
Lemma snorm_nan n b : let S := @snorm_compute xr (XRScalar P) in n <> DrasticSum -> n <> NilpotentMaximum ->
  S n XNaN b = XNaN /\ S n b XNaN = XNaN.
Proof.
  destruct (nan_cmp b) as (C0 & C1 & C2 & C3).
  destruct n; unfold snorm_compute; intros; try congruence; nans; rewrite ?(x_0 P), ?(x_1 P), ?C0, ?C1, ?C2, ?C3; nans; auto.
Qed.
Lemma snorm_nan_one n b : n = DrasticSum \/ n = NilpotentMaximum -> @snorm_compute xr (XRScalar P) n XNaN b = XFin 1.
Proof.
  destruct (nan_cmp b) as (C0 & C1 & C2 & C3).
  intros [->| ->]; unfold snorm_compute; nans; rewrite ?(x_0 P), ?(x_1 P), ?C0, ?C1, ?C2, ?C3; auto.
Qed.
End NaN.
Lemma b_nan_xr : forall P (s : shape xr) h, @sh_membership xr (XRScalar P) s h XNaN = XNaN.
Proof. reflexivity. Qed.
Lemma b_nan_f64 : forall P (s : shape f64) h, @sh_membership f64 (F64Scalar P) s h B754_nan = B754_nan.
Proof. reflexivity. Qed.

Lemma b_symmetry : forall (P : xparam) s h m d, 0 <= xp_eps P -> well_ordered s -> symmetric_about s m ->
  (match s with Trapezoid _ _ _ _ | PiShape _ _ _ _ =>
     Forall (fun v => off (xp_eps P) v (m + d) /\ off (xp_eps P) v (m - d)) (breakpoints s) | _ => True end) ->
  xmembership P s h (m + d) = xmembership P s h (m - d).
Proof.
  intros P s h m d E W SY F. destruct s; try (apply sym_even; simpl; auto; fail); simpl in SY; try contradiction;
  (apply sym_off; auto; (eapply Forall_impl; [|exact F]; simpl; tauto)).
Qed.
Lemma b_complement : forall (P : xparam) h x, 0 <= xp_eps P ->
  (forall s e, s < e -> @s_add xr (XRScalar P) (xmembership P (SShape s e) h x) (xmembership P (ZShape s e) h x) = XFin h) /\
  (forall s e, off (xp_eps P) s e -> s <> e -> off (xp_eps P) s x -> off (xp_eps P) e x ->
     @s_add xr (XRScalar P) (xmembership P (Ramp s e) h x) (xmembership P (Ramp e s) h x) = XFin h) /\
  (forall i s, @s_add xr (XRScalar P) (xmembership P (Sigmoid i s) h x) (xmembership P (Sigmoid i (- s)) h x) = XFin h) /\
  (forall s e, xmembership P (Ramp s e) h x = xmembership P (Ramp e s) h (s + e - x)) /\
  (forall i s, xmembership P (Sigmoid i s) h x = xmembership P (Sigmoid i (- s)) h (2 * i - x)).
Proof.
  intros P h x E. repeat split; intros.
  - now apply sz_sum.
  - destruct (ramp_compl P s e h x) as [A|(v & V & N & L)]; auto. exfalso.
    destruct V as [->| ->]; [destruct H1|destruct H2]; auto; lra.
  - now apply sigmoid_compl.
  - now apply ramp_mirror.
  - now apply sigmoid_mirror.
Qed.
Lemma b_monotone : forall (P : xparam) s h x y, 0 <= xp_eps P -> 0 <= h -> strictly_oriented s -> oriented (xp_eps P) s -> x <= y ->
  (match s with SShape _ _ | ZShape _ _ =>
     Forall (fun v => off (xp_eps P) v x /\ off (xp_eps P) v y) (breakpoints s) | _ => True end) ->
  (increasing s -> xle (xmembership P s h x) (xmembership P s h y)) /\
  (~ increasing s -> xle (xmembership P s h y) (xmembership P s h x)).
Proof.
  intros P s h x y E H O OE L F. destruct s; simpl in O; try contradiction; try (now apply mono_any);
  (apply mono_off; auto; (eapply Forall_impl; [|exact F]; simpl; tauto)).
Qed.
Lemma b_tsukamoto : forall (P : xparam) s h y, 0 <= xp_eps P -> strictly_oriented s -> oriented (xp_eps P) s -> 0 < y < h ->
  (exists x, xtsukamoto P s h y = Ok (XFin x) /\
    (Forall (fun v => off (xp_eps P) v x) (breakpoints s) -> xmembership P s h x = XFin y)) /\
  (forall x, Forall (fun v => off (xp_eps P) v x) (breakpoints s) -> xmembership P s h x = XFin y -> xtsukamoto P s h y = Ok (XFin x)).
Proof. intros. split; [now apply tsu_right|intros; now apply tsu_left]. Qed.
Lemma b_monotonic_flag : forall (P : xparam) (s : shape xr),
  @sh_monotonic xr s = true <-> forall h y, exists x, @sh_tsukamoto xr (XRScalar P) s h y = Ok x.
Proof.
  intros P s; split.
  - intros M h y. destruct s; simpl in M; try discriminate; eexists; reflexivity.
  - intro A. destruct s; auto; destruct (A XNaN XNaN) as [x E]; simpl in E; discriminate.
Qed.
Lemma sn_default_off v x : off (xp_eps xp_exact) v x.
Proof. right. simpl. apply Rabs_pos. Qed.

(** shapes made from two end points *)
Lemma b_two_points (P : xparam) (a b : R) : a <= b ->
  exists t z, @mk_triangle xr (XRScalar P) (XFin a) (XFin b) XNaN = shape_map XFin t /\ @mk_trapezoid xr (XRScalar P) (XFin a) (XFin b) XNaN XNaN = shape_map XFin z /\
    t = Triangle a ((a + b) / 2) b /\ z = Trapezoid a (a + (b - a) / 5) (b - (b - a) / 5) b /\ well_ordered t /\ well_ordered z /\ symmetric_about t ((a + b) / 2) /\ symmetric_about z ((a + b) / 2).
Proof.
  intro H. exists (Triangle a ((a + b) / 2) b), (Trapezoid a (a + (b - a) / 5) (b - (b - a) / 5) b). split; [|split].
  - unfold mk_triangle. change (@isNaN xr (XRScalar P) XNaN) with true. cbv iota. rewrite (x_half P), (xe_add P), (xe_mul P). unfold shape_map. f_equal. f_equal. lra.
  - unfold mk_trapezoid. change (@isNaN xr (XRScalar P) XNaN) with true. cbn [andb]. cbn zeta. rewrite (x_1 P), (xe_4 P), (xe_5 P), (xe_sub P), !(xe_mul P), !(xe_div P), !(xe_add P) by lra.
    unfold shape_map. f_equal; f_equal; lra.
  - repeat split; simpl; lra.
Qed.
