(** Memberships of the shape terms lie in [0,h]. *)
From Coq Require Import ZArith Reals Bool List Lra Psatz.
From Verif Require Import Base Op XR XRFacts Shape SpecTerm NormAlg ShapeFacts ShapeDoc.
Local Open Scope R_scope.

Definition within (h : R) (y : xr) : Prop := exists m, y = XFin m /\ 0 <= m <= h.
Lemma within_fin h m : 0 <= m <= h -> within h (XFin m).
Proof. exists m; auto. Qed.
Lemma within_mul h u : 0 <= h -> 0 <= u <= 1 -> within h (XFin (h * u)).
Proof. intros. apply within_fin. nra. Qed.
Lemma within_mul2 h u v : 0 <= h -> 0 <= u <= 1 -> 0 <= v <= 1 -> within h (XFin (h * u * v)).
Proof. intros. rewrite Rmult_assoc. apply within_mul; nra. Qed.

Section D.
Context (P : xparam).
#[local] Hint Extern 0 (Scalar xr) => exact (XRScalar P) : typeclass_instances.
Notation eps := (xp_eps P).
Notation fm := (fm P).

Ltac start := intros; unfold ShapeFacts.fm, sh_membership, shape_map, well_ordered, oriented, wide, in_vertex_band in *;
  rewrite ?xe_isNaN; offs.
Lemma quot a b : 0 <= a -> a <= b -> 0 < b -> 0 <= a / b <= 1.
Proof. intros. split; [now apply div_nonneg|now apply div_le_1]. Qed.
Lemma hquot h a b : 0 <= h -> 0 <= a -> a <= b -> 0 < b -> within h (XFin (h * a / b)).
Proof. intros. replace (h * a / b) with (h * (a / b)) by (field; lra). apply within_mul; auto. now apply quot. Qed.
Lemma exp_neg z : z <= 0 -> 0 <= exp z <= 1.
Proof. intro. pose proof (exp_pos z). split; [lra|]. destruct H; [|subst; rewrite exp_0; lra]. left. rewrite <- exp_0. now apply exp_increasing. Qed.
Lemma sq_gt0 a : a <> 0 -> 0 < 2 * a * a.
Proof. intro. destruct (Rdichotomy _ _ H); nra. Qed.
Lemma bell_range m sd x : sd <> 0 -> 0 <= bell_curve m sd x <= 1.
Proof.
  intro. apply exp_neg. unfold sq. assert (0 <= (x-m)*(x-m) / (2*(sd*sd))); [|unfold Rdiv in *; lra].
  pose proof (sq_gt0 _ H). apply div_nonneg; [apply (Rle_0_sqr (x - m))|lra].
Qed.
Lemma logistic_range s z : 0 <= logistic s z <= 1.
Proof.
  unfold logistic. pose proof (exp_pos (- s * z)). replace (/ (1 + exp (-s*z))) with (1 / (1 + exp (-s*z))) by (field; lra).
  apply quot; lra.
Qed.
Lemma sq_half u : 0 <= u <= 7/10 -> 0 <= 2 * sq u <= 1.
Proof. unfold sq. nra. Qed.
Lemma sq_div a b : 0 < b -> - (7/10 * b) <= a <= 7/10 * b -> 0 <= 2 * sq (a / b) <= 1.
Proof.
  intros. unfold sq. replace (a / b * (a / b)) with (a * a / (b * b)) by (field; lra).
  assert (0 <= a * a / (b * b) <= 1/2); [|lra]. split; [apply div_nonneg; nra|]. apply div_le_iff; nra.
Qed.
Context (E0 : 0 <= xp_eps P).
Ltac hm := apply within_mul; [auto|].

Lemma rg_bell c w s h x : 0 <= h -> well_ordered (Bell c w s) -> within h (fm (Bell c w s) h x).
Proof.
  intros. rewrite doc_bell by auto. unfold doc_membership. apply within_fin.
  rdec; try lra. assert (0 < Rpower (Rabs (x - c) / Rabs w) (2 * s)) by apply exp_pos.
  assert (0 <= 1 / (1 + Rpower (Rabs (x - c) / Rabs w) (2 * s)) <= 1) by (apply quot; lra).
  replace (h / (1 + Rpower (Rabs (x - c) / Rabs w) (2 * s))) with (h * (1 / (1 + Rpower (Rabs (x - c) / Rabs w) (2 * s)))) by (field; lra).
  nra.
Qed.
Lemma rg_binary s d h x : 0 <= h -> within h (fm (Binary s d) h x).
Proof. start; xe P; repeat xcmp P; xe P; apply within_fin; lra. Qed.
Lemma rg_concave i e h x : 0 <= h -> oriented eps (Concave i e) -> within h (fm (Concave i e) h x).
Proof. start; xe P; repeat (xcmp P; try lra); xe P; first [apply within_fin; lra | apply hquot; lra]. Qed.
Lemma rg_cosine c w h x : 0 <= h -> well_ordered (Cosine c w) -> within h (fm (Cosine c w) h x).
Proof.
  start; xe P; repeat (xcmp P; try lra); xe P; hm; try lra.
  pose proof (COS_bound (2 / w * PI * (x - c))). lra.
Qed.
Lemma rg_gaussian c w h x : 0 <= h -> well_ordered (Gaussian c w) -> within h (fm (Gaussian c w) h x).
Proof. intros. rewrite doc_gaussian by auto. hm. now apply bell_range. Qed.
Lemma rg_gaussianproduct ma sa mb sb h x : 0 <= h -> well_ordered (GaussianProduct ma sa mb sb) ->
  within h (fm (GaussianProduct ma sa mb sb) h x).
Proof.
  start; destruct H0; pose proof (sq_pos sa H0); pose proof (sq_pos sb H1); xe P; rewrite !bell_rw by auto.
  pose proof (bell_range ma sa x H0). pose proof (bell_range mb sb x H1).
  repeat (xcmp P; try lra); xe P; apply within_mul2; lra.
Qed.
Lemma rg_sshape s e h x : 0 <= h -> well_ordered (SShape s e) -> wide eps (SShape s e) -> within h (fm (SShape s e) h x).
Proof.
  start; xe P; repeat (xcmp P; try lra); xe P; hm; try lra.
  - apply sq_div; lra.
  - assert (0 <= 2 * sq ((x - e) / (e - s)) <= 1) by (apply sq_div; lra). lra.
Qed.
Lemma rg_zshape s e h x : 0 <= h -> well_ordered (ZShape s e) -> wide eps (ZShape s e) -> within h (fm (ZShape s e) h x).
Proof.
  start; xe P; repeat (xcmp P; try lra); xe P; hm; try lra.
  - assert (0 <= 2 * sq ((x - s) / (e - s)) <= 1) by (apply sq_div; lra). lra.
  - apply sq_div; lra.
Qed.
Lemma rg_pishape bl tl tr br h x : 0 <= h -> bl < tl -> tr < br -> wide eps (PiShape bl tl tr br) ->
  within h (fm (PiShape bl tl tr br) h x).
Proof.
  intros H L R W. unfold ShapeFacts.fm, sh_membership, shape_map, wide in *. rewrite xe_isNaN. xe P.
  match goal with |- within h (s_mul (s_mul _ ?a) ?b) => assert (A : within 1 a); [|assert (B : within 1 b)] end.
  - repeat (xcmp P; try lra); xe P; apply within_fin; try lra.
    + apply sq_div; lra.
    + assert (0 <= 2 * sq ((x - tl) / (tl - bl)) <= 1) by (apply sq_div; lra). lra.
  - repeat (xcmp P; try lra); xe P; apply within_fin; try lra.
    + assert (0 <= 2 * sq ((x - tr) / (br - tr)) <= 1) by (apply sq_div; lra). lra.
    + apply sq_div; lra.
  - destruct A as (a & -> & A), B as (b & -> & B). rewrite !(xe_mul P). apply within_mul2; lra.
Qed.
Lemma rg_ramp s e h x : 0 <= h -> well_ordered (Ramp s e) -> oriented eps (Ramp s e) -> within h (fm (Ramp s e) h x).
Proof.
  start; destruct (isEq_spec P s e) as [C|C]; unfold Rabs in C; repeat destruct Rcase_abs; try lra;
  repeat (xcmp P; try lra); xe P; first [apply within_fin; lra | apply hquot; lra].
Qed.
Lemma rg_rectangle s e h x : 0 <= h -> within h (fm (Rectangle s e) h x).
Proof. start; xe P; repeat xcmp P; xe P; apply within_fin; lra. Qed.
Lemma rg_sigmoid i s h x : 0 <= h -> within h (fm (Sigmoid i s) h x).
Proof. intros. rewrite doc_sigmoid. hm. apply logistic_range. Qed.
Lemma rg_sigdiff il sl sr ir h x : 0 <= h -> within h (fm (SigmoidDifference il sl sr ir) h x).
Proof.
  intros. rewrite doc_sigdiff. hm. pose proof (logistic_range sl (x - il)). pose proof (logistic_range sr (x - ir)).
  unfold Rabs; destruct Rcase_abs; lra.
Qed.
Lemma rg_sigprod il sl sr ir h x : 0 <= h -> within h (fm (SigmoidProduct il sl sr ir) h x).
Proof.
  intros. rewrite doc_sigprod. hm. pose proof (logistic_range sl (x - il)). pose proof (logistic_range sr (x - ir)). nra.
Qed.
Lemma rg_spike c w h x : 0 <= h -> well_ordered (Spike c w) -> within h (fm (Spike c w) h x).
Proof. intros. rewrite doc_spike by auto. hm. apply exp_neg. pose proof (Rabs_pos (10 / w * (x - c))). lra. Qed.
Lemma rg_trapezoid a b c d h x : 0 <= h -> well_ordered (Trapezoid a b c d) -> ~ in_vertex_band eps (Trapezoid a b c d) x ->
  within h (fm (Trapezoid a b c d) h x).
Proof.
  start; xe P; repeat (xcmp P; try lra); xe P; try (apply within_fin; lra).
  - hm. assert (0 <= (x - a) / (b - a) <= 1) by (apply quot; lra). minmax.
  - apply hquot; lra.
Qed.
Lemma rg_triangle a b c h x : 0 <= h -> well_ordered (Triangle a b c) -> ~ in_vertex_band eps (Triangle a b c) x ->
  within h (fm (Triangle a b c) h x).
Proof.
  start; xe P; destruct (isEq_spec P x b) as [C|C]; unfold Rabs in C; repeat destruct Rcase_abs; try lra;
  repeat (xcmp P; try lra); xe P; try (apply within_fin; lra); try (apply hquot; lra).
Qed.

Lemma range_main s h x : 0 <= h -> well_ordered s -> oriented eps s -> wide eps s -> ~ in_vertex_band eps s x ->
  within h (fm s h x).
Proof.
  intros; destruct s;
   auto using rg_bell, rg_binary, rg_concave, rg_cosine, rg_gaussian, rg_gaussianproduct, rg_ramp,
    rg_rectangle, rg_sshape, rg_zshape, rg_sigmoid, rg_sigdiff, rg_sigprod, rg_spike, rg_trapezoid, rg_triangle.
  destruct H0 as (?&?&?). apply rg_pishape; auto.
Qed.

(** in the excluded bands the error is at most the slope times the tolerance *)
Lemma band_triangle a b c h x : 0 <= h -> a < b < c -> in_vertex_band eps (Triangle a b c) x ->
  exists m, fm (Triangle a b c) h x = XFin m /\ (- (h * eps / (b - a)) <= m <= h \/ - (h * eps / (c - b)) <= m <= h).
Proof.
  intros H O B. unfold in_vertex_band in B. unfold ShapeFacts.fm, sh_membership, shape_map. rewrite xe_isNaN. xe P.
  assert (A1 : 0 <= h * eps / (b - a)) by (apply div_nonneg; nra).
  assert (A2 : 0 <= h * eps / (c - b)) by (apply div_nonneg; nra).
  assert (Hd : forall u v, 0 < v -> - eps <= u <= v -> - (h * eps / v) <= h * u / v <= h).
  { intros u v V U. split.
    - replace (- (h * eps / v)) with ((- (h * eps)) / v) by (field; lra). apply div_le_cross; try lra. assert (0 <= h * (u + eps)) by nra. nra.
    - apply div_le_iff; nra. }
  destruct (isEq_spec P x b) as [C|C]; unfold Rabs in C; repeat destruct Rcase_abs; try lra;
  repeat (xcmp P; try lra); xe P; eexists; (split; [reflexivity|]); try lra;
  first [left; apply Hd; lra | right; apply Hd; lra].
Qed.

(** infinite arguments *)
Lemma x_isLE_inf a : isLE (XFin a) XPInf = true /\ isLE XNInf (XFin a) = true /\ isLE XPInf (XFin a) = false /\ isLE (XFin a) XNInf = false.
Proof. unfold isLE, isLE_tol. rewrite !x_isNaN. simpl. auto. Qed.
Lemma x_isLt_inf a : isLt (XFin a) XPInf = true /\ isLt XNInf (XFin a) = true /\ isLt XPInf (XFin a) = false /\ isLt (XFin a) XNInf = false.
Proof. unfold isLt, isLt_tol. rewrite !x_isNaN. simpl. auto. Qed.
Lemma x_isGE_inf a : isGE (XFin a) XPInf = false /\ isGE XNInf (XFin a) = false /\ isGE XPInf (XFin a) = true /\ isGE (XFin a) XNInf = true.
Proof. unfold isGE, isGE_tol. rewrite !x_isNaN. simpl. auto. Qed.
Lemma x_isGt_inf a : isGt (XFin a) XPInf = false /\ isGt XNInf (XFin a) = false /\ isGt XPInf (XFin a) = true /\ isGt (XFin a) XNInf = true.
Proof. unfold isGt, isGt_tol. rewrite !x_isNaN. simpl. auto. Qed.
Lemma x_isEq_inf a : isEq (XFin a) XPInf = false /\ isEq XNInf (XFin a) = false /\ isEq XPInf (XFin a) = false /\ isEq (XFin a) XNInf = false.
Proof. unfold isEq, isEq_tol. rewrite !x_isNaN. simpl. auto. Qed.

Definition xinfinite (x : xr) : Prop := x = XPInf \/ x = XNInf.


Lemma inf_cmp x v : xinfinite x ->
  isLE x (XFin v) = isLt x (XFin v) /\ isGE x (XFin v) = isGt x (XFin v) /\ isEq x (XFin v) = false /\
  isGt x (XFin v) = negb (isLt x (XFin v)) /\
  isLt x (XFin v) = match x with XNInf => true | _ => false end.
Proof.
  intro H. destruct (x_isLE_inf v) as (?&?&?&_), (x_isLt_inf v) as (?&?&?&_), (x_isGE_inf v) as (?&?&?&_),
   (x_isGt_inf v) as (?&?&?&_), (x_isEq_inf v) as (?&?&?&_).
  destruct H; subst x; repeat split; congruence.
Qed.

Lemma inf_simpl x : xinfinite x -> isNaN x = false.
Proof. intros [->| ->]; apply x_isNaN. Qed.

Ltac infr X := repeat match goal with |- context [_ ?x (XFin ?v)] =>
    first [ rewrite (proj1 (inf_cmp x v X)) | rewrite (proj1 (proj2 (inf_cmp x v X)))
          | rewrite (proj1 (proj2 (proj2 (inf_cmp x v X)))) | rewrite (proj1 (proj2 (proj2 (proj2 (inf_cmp x v X)))))
          | rewrite (proj2 (proj2 (proj2 (proj2 (inf_cmp x v X))))) ] end.

Lemma div_inf h : (XFin h / XPInf)%S = XFin 0. Proof. reflexivity. Qed.
Lemma w0 h : 0 <= h -> within h (XFin 0). Proof. intro; apply within_fin; lra. Qed.
Lemma wh h : 0 <= h -> within h (XFin h). Proof. intro; apply within_fin; lra. Qed.

(** the sign of the exponent at an infinite point *)
Lemma sig_inf s i x : s <> 0 -> xinfinite x -> let e := ((- XFin s) * (x - XFin i))%S in e = XPInf \/ e = XNInf.
Proof.
  intros Hs [->| ->]; simpl; unfold xinf_mul; destruct (Rltb_spec 0 (-s)), (Rltb_spec (-s) 0); simpl; auto; lra.
Qed.
Lemma exp_inf e : e = XPInf \/ e = XNInf -> s_exp e = XPInf \/ s_exp e = XFin 0.
Proof. intros [->| ->]; simpl; auto. Qed.

Lemma range_inf s h x : 0 <= h -> well_ordered s -> oriented eps s -> tail_ok s -> xinfinite x ->
  within h (sh_membership (shape_map XFin s) (XFin h) x).
Proof.
  intros H W O TO X.
  destruct s; unfold sh_membership, shape_map; rewrite (inf_simpl _ X); unfold well_ordered, oriented, tail_ok in *; xe P; infr X.
  - (* Bell *)
    assert (E : s_abs ((x - XFin center) / XFin width)%S = XPInf).
    { destruct X as [->| ->]; simpl; destruct Rltb; reflexivity. }
    rewrite E. simpl. destruct (Reqb_spec (2 * slope) 0); [|destruct (Rltb_spec 0 (2 * slope))]; simpl.
    + destruct Req_EM_T; [lra|]. apply within_fin. lra.
    + apply within_fin. lra.
    + destruct Req_EM_T; [lra|]. apply within_fin. lra.
  - destruct X as [->| ->]; cbn [negb]; repeat xcmp P; xe P; auto using within_mul; apply within_mul; lra.
  - offs; destruct X as [->| ->]; cbn [negb]; repeat (xcmp P; try lra); xe P; try (apply within_mul; lra); simpl; now apply w0.
  - destruct X as [->| ->]; cbn [negb orb]; xe P; apply within_mul; lra.
  - assert (S2 := sq_gt0 _ W). destruct X as [->| ->]; simpl;  rewrite Rltb_false by lra; simpl; apply within_mul; lra.
  - destruct W as [W1 W2]. pose proof (sq_gt0 _ W1). pose proof (sq_gt0 _ W2).
    destruct X as [->| ->]; simpl; rewrite !Rltb_false by lra; simpl; apply within_fin; nra.
  - destruct X as [->| ->]; cbn [negb]; xe P; apply within_fin; nra.
  - destruct (isEq_spec P start finish) as [C|C]; [offs; unfold Rabs in C; destruct Rcase_abs in C; lra|].
    destruct X as [->| ->]; cbn [negb]; repeat xcmp P; xe P; apply within_mul; lra.
  - destruct X as [->| ->]; cbn [negb andb]; xe P; apply within_mul; lra.
  - destruct X as [->| ->]; cbn [negb andb]; xe P; apply within_mul; lra.
  - destruct (exp_inf _ (sig_inf slope inflection x TO X)) as [E|E]; xe P; rewrite xe_neg in E; rewrite E.
    + simpl. now apply w0.
    + xe P. apply within_fin. lra.
  - destruct TO as [T1 T2].
    destruct (exp_inf _ (sig_inf rising lft x T1 X)) as [E|E], (exp_inf _ (sig_inf falling rgt x T2 X)) as [E'|E'];
      rewrite xe_neg in E, E'; rewrite E, E'; simpl; rdec; try lra; simpl; apply within_fin;
      unfold Rabs; destruct Rcase_abs; lra.
  - destruct TO as [T1 T2].
    destruct (exp_inf _ (sig_inf rising lft x T1 X)) as [E|E], (exp_inf _ (sig_inf falling rgt x T2 X)) as [E'|E'];
      rewrite xe_neg in E, E'; rewrite E, E'; simpl; unfold xinf_mul;
      repeat (first [rewrite Rltb_true by lra | rewrite Rltb_false by lra]); simpl; rdec; try lra; simpl; apply within_fin;
      lra.
  - assert (E : s_abs (XFin (10 / width) * (x - XFin center))%S = XPInf).
    { assert (10 / width <> 0) by (apply Rmult_integral_contrapositive_currified; [lra|now apply Rinv_neq_0_compat]).
      destruct X as [->| ->]; simpl; unfold xinf_mul; destruct (Rltb_spec 0 (10/width)), (Rltb_spec (10/width) 0); simpl; auto; lra. }
    rewrite E. simpl. apply within_mul; lra.
  - destruct X as [->| ->]; cbn [negb orb]; xe P; apply within_mul; lra.
  - destruct X as [->| ->]; cbn [negb orb]; xe P; apply within_mul; lra.
  - destruct X as [->| ->]; cbn [negb andb]; xe P; apply within_mul; lra.
Qed.
End D.
