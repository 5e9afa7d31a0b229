(** Symmetric and complementary shapes, infinite vertices, and the effects of the comparison tolerance. *)
From Coq Require Import ZArith Reals Bool List Lra Psatz.
From Verif Require Import Base Op XR XRFacts Shape SpecTerm NormAlg Norm ShapeFacts ShapeDoc ShapeRange ShapeMono.
Import ListNotations.
Local Open Scope R_scope.

(** [symmetric_about s c]: the parameters of [s] are placed symmetrically around [c] *)
Definition symmetric_about (s : shape R) (m : R) : Prop :=
  match s with
  | Bell c _ _ | Cosine c _ | Gaussian c _ | Spike c _ => m = c
  | Rectangle s e => 2 * m = s + e
  | Triangle a b c => m = b /\ 2 * m = a + c
  | Trapezoid a b c d | PiShape a b c d => 2 * m = a + d /\ 2 * m = b + c
  | GaussianProduct ma sa mb sb => 2 * m = ma + mb /\ sa = sb
  | SigmoidProduct il sl sr ir | SigmoidDifference il sl sr ir => 2 * m = il + ir /\ sl = - sr
  | _ => False
  end.

Section D.
Context (P : xparam).
#[local] Hint Extern 0 (Scalar xr) => exact (XRScalar P) : typeclass_instances.
Notation eps := (xp_eps P).
Notation fm := (fm P).
Context (E0 : 0 <= xp_eps P).
Ltac start := intros; unfold ShapeFacts.fm, sh_membership, shape_map in *; rewrite ?xe_isNaN; offs; xe P.

(** shapes whose code treats both sides alike at every tolerance *)
Definition even_code (s : shape R) : Prop :=
  match s with Bell _ _ _ | Cosine _ _ | Gaussian _ _ | Spike _ _ | Rectangle _ _ | Triangle _ _ _ | GaussianProduct _ _ _ _ 
  | SigmoidProduct _ _ _ _ | SigmoidDifference _ _ _ _ => True | _ => False end.

Lemma bell_even m sd d : bell_curve m sd (m + d) = bell_curve m sd (m - d).
Proof. unfold bell_curve. do 2 f_equal. unfold sq. ring. Qed.
Lemma bell_mirror ma mb sd x y : x - ma = mb - y -> bell_curve ma sd x = bell_curve mb sd y.
Proof. intro. unfold bell_curve, sq. rewrite H. do 2 f_equal. ring. Qed.

Lemma sym_even s h m d : even_code s -> well_ordered s -> symmetric_about s m -> fm s h (m + d) = fm s h (m - d).
Proof.
  intros EC W SY. destruct s; simpl in EC; try contradiction; simpl in SY, W.
  - subst. rewrite !doc_bell by auto. f_equal. unfold doc_membership.
    replace (center + d - center) with d by lra. replace (center - d - center) with (- d) by lra. rewrite Rabs_Ropp.
    rdec; try lra.
  - subst. start. replace (center + d - center) with d by lra. replace (center - d - center) with (- d) by lra.
    replace (2 / width * PI * - d) with (- (2 / width * PI * d)) by ring. rewrite cos_neg.
    repeat (xcmp P; try lra); xe P; reflexivity.
  - subst. rewrite !doc_gaussian by auto. f_equal. unfold doc_membership. f_equal. apply bell_even.
  - destruct W as [W1 W2], SY as [SY ->]. start. pose proof (sq_pos _ W1). xe P. rewrite !bell_rw by auto.
    rewrite (bell_mirror meanA meanB sdB (m+d) (m-d)) by lra.
    rewrite (bell_mirror meanA meanB sdB (m-d) (m+d)) by lra.
    repeat (xcmp P; try lra); xe P; f_equal; ring.
  - start; repeat (xcmp P; try lra); reflexivity.
  - destruct SY as [SY ->]. rewrite !doc_sigdiff. f_equal. unfold doc_membership. f_equal.
    unfold logistic. rewrite Rabs_minus_sym.
    replace (- falling * (m + d - rgt)) with (- - falling * (m - d - lft)) by nra.
    replace (- - falling * (m + d - lft)) with (- falling * (m - d - rgt)) by nra. reflexivity.
  - destruct SY as [SY ->]. rewrite !doc_sigprod. f_equal. unfold doc_membership. f_equal.
    unfold logistic. rewrite Rmult_comm.
    replace (- falling * (m + d - rgt)) with (- - falling * (m - d - lft)) by nra.
    replace (- - falling * (m + d - lft)) with (- falling * (m - d - rgt)) by nra. reflexivity.
  - subst. rewrite !doc_spike by auto. f_equal. unfold doc_membership. do 3 f_equal.
    replace (10 / width * (center - d - center)) with (- (10 / width * (center + d - center))) by ring.
    now rewrite Rabs_Ropp.
  - destruct SY as [-> SY]. start.
    replace (isEq (XFin (b + d)) (XFin b)) with (isEq (XFin (b - d)) (XFin b)).
    2:{ rewrite !x_isEq. replace (b + d - b) with (- (b - d - b)) by ring. rewrite Rabs_Ropp. f_equal.
        destruct (Reqb_spec (b - d) b), (Reqb_spec (b + d) b); auto; lra. }
    destruct (isEq_spec P (b - d) b) as [C|C].
    + repeat (xcmp P; try lra); xe P; reflexivity.
    + assert (d <> 0) by (intro; subst; apply C; left; lra). apply Rdichotomy in H.
      assert (C' : ~ (Rabs (b - d - b) < eps)) by tauto. unfold Rabs in C'; destruct Rcase_abs in C'; 
      repeat (xcmp P; try lra); xe P; try reflexivity; f_equal; try (f_equal; lra);
      replace (b + d - a) with (c - (b - d)) by lra; replace (b - d - a) with (c - (b + d)) by lra;
      replace (c - b) with (b - a) by lra; reflexivity.
Qed.
Lemma sym_off s h m d : match s with Trapezoid _ _ _ _ | PiShape _ _ _ _ => True | _ => False end ->
  well_ordered s -> symmetric_about s m ->
  Forall (fun v => off eps v (m + d)) (breakpoints s) -> Forall (fun v => off eps v (m - d)) (breakpoints s) ->
  fm s h (m + d) = fm s h (m - d).
Proof.
  intros K W SY F1 F2. rewrite !doc_main by (auto; destruct s; simpl in *; tauto).
  destruct s; simpl in K; try contradiction; simpl in SY, W; destruct SY as [S1 S2]; f_equal; unfold doc_membership; clear F1 F2.
  - assert (A : forall u v w z, u = - v -> w = z -> z <> 0 -> sq (u / w) = sq (v / z)).
    { intros. subst. apply sq_flip. auto. }
    assert (A1 : sq ((m + d - topRight) / (bottomRight - topRight)) = sq ((m - d - topLeft) / (topLeft - bottomLeft))) by (apply A; lra).
    assert (A2 : sq ((m + d - topLeft) / (topLeft - bottomLeft)) = sq ((m - d - topRight) / (bottomRight - topRight))) by (apply A; lra).
    assert (A3 : sq ((m + d - bottomRight) / (bottomRight - topRight)) = sq ((m - d - bottomLeft) / (topLeft - bottomLeft))) by (apply A; lra).
    assert (A4 : sq ((m + d - bottomLeft) / (topLeft - bottomLeft)) = sq ((m - d - bottomRight) / (bottomRight - topRight))) by (apply A; lra).
    assert (M1 : m + d = (bottomLeft + topLeft) / 2 -> sq ((m + d - bottomLeft) / (topLeft - bottomLeft)) = 1/4).
    { intros ->. unfold sq. field. lra. }
    assert (M2 : m + d = (topRight + bottomRight) / 2 -> sq ((m + d - bottomRight) / (bottomRight - topRight)) = 1/4).
    { intros ->. unfold sq. field. lra. }
    assert (M3 : m + d = (bottomLeft + topLeft) / 2 -> sq ((m + d - topLeft) / (topLeft - bottomLeft)) = 1/4).
    { intros ->. unfold sq. field. lra. }
    assert (M4 : m + d = (topRight + bottomRight) / 2 -> sq ((m + d - topRight) / (bottomRight - topRight)) = 1/4).
    { intros ->. unfold sq. field. lra. }
    assert (M5 : m + d = topLeft \/ m + d = topRight -> 0 = 0) by auto.
    assert (Z0 : forall z, sq (0 / z) = 0) by (intro; unfold sq, Rdiv; ring).
    rdec; try lra; rewrite <- ?A1, <- ?A2, <- ?A3, <- ?A4;
     first [lra | rewrite M1, M3 by lra; lra | rewrite M2, M4 by lra; lra].
  - assert (B1 : (m + d - a) = (d0 - (m - d))) by lra. assert (B2 : m - d - a = d0 - (m + d)) by lra.
    assert (B3 : b - a = d0 - c) by lra. rewrite B1, B2, B3.
    assert (T : forall u v, 0 <= u <= v -> 0 < v -> h * Rmin 1 (u / v) = h * u / v).
    { intros u v U V. assert (u / v <= 1) by (apply div_le_1; lra). rewrite Rmin_right by auto. field. lra. }
    assert (Z : forall v, 0 < v -> h * Rmin 1 (0 / v) = 0).
    { intros v V. rewrite T by lra. unfold Rdiv. ring. }
    rdec; try lra; rewrite ?T by lra; try lra;
    try (replace (d0 - (m - d)) with 0 by lra; unfold Rdiv; ring); try (replace (d0 - (m + d)) with 0 by lra; unfold Rdiv; ring).
Qed.

(** SShape and ZShape add up to the height at every tolerance and for every pair start, end *)
Lemma sz_sum s e h x : s < e -> (fm (SShape s e) h x + fm (ZShape s e) h x)%S = XFin h.
Proof. start; repeat (xcmp P; try lra); xe P; f_equal; ring. Qed.
(** opposite ramps and sigmoids are complementary and mirror each other *)
Lemma ramp_compl s e h x : oriented eps (Ramp s e) -> s <> e -> (fm (Ramp s e) h x + fm (Ramp e s) h x)%S = XFin h
  \/ (exists v, (v = s \/ v = e) /\ x <> v /\ Rabs (x - v) < eps).
Proof.
  intros O N. unfold oriented in O. 
  destruct (Req_dec x s) as [->|Nx]; [|destruct (Rlt_dec (Rabs (x - s)) eps); [right; exists s; auto|]];
  [left| ].
  - start; (destruct (isEq_spec P s e) as [C|C]; unfold Rabs in C; repeat destruct Rcase_abs; try lra);
    (destruct (isEq_spec P e s) as [C'|C']; unfold Rabs in C'; repeat destruct Rcase_abs; try lra);
    repeat (xcmp P; try lra); xe P; f_equal; field; lra.
  - destruct (Req_dec x e) as [->|Ne]; [|destruct (Rlt_dec (Rabs (x - e)) eps); [right; exists e; auto|]];
    left; unfold Rabs in *; start; (destruct (isEq_spec P s e) as [C|C]; unfold Rabs in C; repeat destruct Rcase_abs; try lra);
    (destruct (isEq_spec P e s) as [C'|C']; unfold Rabs in C'; repeat destruct Rcase_abs; try lra);
    repeat (xcmp P; try lra); xe P; f_equal; field; lra.
Qed.
Lemma ramp_mirror s e h x : fm (Ramp s e) h x = fm (Ramp e s) h (s + e - x).
Proof.
  start. rewrite !x_isEq. rewrite (Rabs_minus_sym e s).
  replace (Reqb e s) with (Reqb s e) by (destruct (Reqb_spec s e), (Reqb_spec e s); auto; lra).
  destruct (Reqb_spec s e), (Rltb_spec (Rabs (s - e)) eps); cbn [orb]; auto.
  unfold Rabs in *; destruct Rcase_abs;
  repeat (xcmp P; try lra); xe P; try reflexivity; f_equal;
   try (replace (e - (s + e - x)) with (x - s) by lra); try (replace (s + e - x - e) with (s - x) by lra); reflexivity.
Qed.
Lemma sigmoid_mirror i s h x : fm (Sigmoid i s) h x = fm (Sigmoid i (- s)) h (2 * i - x).
Proof. rewrite !doc_sigmoid. f_equal. unfold doc_membership, logistic. do 4 f_equal. ring. Qed.
Lemma sigmoid_compl i s h x : (fm (Sigmoid i s) h x + fm (Sigmoid i (- s)%R) h x)%S = XFin h.
Proof.
  rewrite !doc_sigmoid. simpl. f_equal. unfold logistic. replace (- - s * (x - i)) with (- (- s * (x - i))) by ring.
  rewrite (exp_Ropp (- s * (x - i))). pose proof (exp_pos (- s * (x - i))). field. split; lra.
Qed.

(** infinite vertices: Triangle and Trapezoid become shoulders *)
Lemma tri_left b c h x : 0 <= h -> b <= c -> ~ (c < x < c + eps) -> within h (sh_membership (Triangle XNInf (XFin b) (XFin c)) (XFin h) (XFin x)).
Proof.
  intros H O B. unfold sh_membership. rewrite xe_isNaN, (proj2 (proj2 (proj2 (x_isLt_inf P x)))). xe P.
  destruct (isEq_spec P x b) as [C|C]; unfold Rabs in C; repeat destruct Rcase_abs; try lra;
  repeat (xcmp P; try lra); simpl s_eqb; xe P; cbn [orb]; try (apply within_fin; lra); try (apply hquot; lra).
Qed.
Lemma tri_right a b h x : 0 <= h -> a <= b -> ~ (a - eps < x < a) -> within h (sh_membership (Triangle (XFin a) (XFin b) XPInf) (XFin h) (XFin x)).
Proof.
  intros H O B. unfold sh_membership. rewrite xe_isNaN, (proj1 (x_isGt_inf P x)). xe P.
  destruct (isEq_spec P x b) as [C|C]; unfold Rabs in C; repeat destruct Rcase_abs; try lra;
  repeat (xcmp P; try lra); simpl s_eqb; xe P; cbn [orb]; try (apply within_fin; lra); try (apply hquot; lra).
Qed.
Lemma trap_left b c d h x : 0 <= h -> b <= c -> c <= d -> within h (sh_membership (Trapezoid XNInf (XFin b) (XFin c) (XFin d)) (XFin h) (XFin x)).
Proof.
  intros H O O'. unfold sh_membership. rewrite xe_isNaN, (proj2 (proj2 (proj2 (x_isLt_inf P x)))). xe P.
  repeat (xcmp P; try lra); simpl s_eqb; xe P; try (apply within_fin; lra); try (apply hquot; lra).
Qed.
Lemma trap_right a b c h x : 0 <= h -> a <= b -> b <= c -> ~ (a - eps < x < a) -> within h (sh_membership (Trapezoid (XFin a) (XFin b) (XFin c) XPInf) (XFin h) (XFin x)).
Proof.
  intros H O O' B. unfold sh_membership. rewrite xe_isNaN, (proj1 (x_isGt_inf P x)), (proj1 (x_isLt_inf P x)). xe P.
  repeat (xcmp P; try lra); simpl s_eqb; xe P; try (apply within_fin; lra).
  apply within_mul; auto. assert (0 <= (x - a) / (b - a) <= 1) by (apply quot; lra). minmax.
Qed.
(** full height on the infinite side *)
Lemma tri_left_full b c h x : x <= b -> b <= c -> sh_membership (Triangle XNInf (XFin b) (XFin c)) (XFin h) (XFin x) = XFin h.
Proof.
  intros L O. unfold sh_membership. rewrite xe_isNaN, (proj2 (proj2 (proj2 (x_isLt_inf P x)))). xe P.
  destruct (isEq_spec P x b) as [C|C]; unfold Rabs in C; repeat destruct Rcase_abs; try lra;
  repeat (xcmp P; try lra); simpl s_eqb; xe P; cbn [orb]; f_equal; lra.
Qed.
Lemma tri_right_full a b h x : a <= b <= x -> sh_membership (Triangle (XFin a) (XFin b) XPInf) (XFin h) (XFin x) = XFin h.
Proof.
  intros O. unfold sh_membership. rewrite xe_isNaN, (proj1 (x_isGt_inf P x)). xe P.
  destruct (isEq_spec P x b) as [C|C]; unfold Rabs in C; repeat destruct Rcase_abs; try lra;
  repeat (xcmp P; try lra); simpl s_eqb; xe P; cbn [orb]; f_equal; lra.
Qed.
Lemma trap_left_full b c d h x : x <= c -> b <= c -> c <= d -> sh_membership (Trapezoid XNInf (XFin b) (XFin c) (XFin d)) (XFin h) (XFin x) = XFin h.
Proof.
  intros L O O'. unfold sh_membership. rewrite xe_isNaN, (proj2 (proj2 (proj2 (x_isLt_inf P x)))). xe P.
  repeat (xcmp P; try lra); simpl s_eqb; xe P; cbv iota; f_equal; lra.
Qed.
Lemma trap_right_full a b c h x : b <= x -> a <= b -> b <= c -> sh_membership (Trapezoid (XFin a) (XFin b) (XFin c) XPInf) (XFin h) (XFin x) = XFin h.
Proof.
  intros L O O'. unfold sh_membership. rewrite xe_isNaN, (proj1 (x_isGt_inf P x)), (proj1 (x_isLt_inf P x)). xe P.
  repeat (xcmp P; try lra); simpl s_eqb; xe P; cbv iota; f_equal; lra.
Qed.
End D.
