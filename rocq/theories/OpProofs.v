(** Tolerant comparisons, min, max, bound on binary64. *)
From Coq Require Import ZArith Reals Bool Lra Psatz.
From Flocq Require Import Core BinarySingleNaN.
From Verif Require Import Base Op XR XRFacts F64 F64Facts.
Local Open Scope R_scope.

Section OP.
Context (P : fparam).
#[local] Hint Extern 0 (Scalar f64) => exact (F64Scalar P) : typeclass_instances.

Lemma f_isNaN (x : f64) : isNaN x = is_nan x.
Proof.
  unfold isNaN. simpl s_eqb. rewrite f_eqb, is_nan_f2x. destruct (f2x x); simpl; auto. now rewrite Reqb_refl.
Qed.

Lemma isLE_decomp t (a b : f64) : isLE_tol t a b = isLt_tol t a b || isEq_tol t a b.
Proof. unfold isLE_tol, isLt_tol, isEq_tol. set (e := (a =? b)%S || (s_abs (a - b)%S <? t)%S || isNaN a && isNaN b). destruct e, (a <? b)%S; reflexivity. Qed.
Lemma isGE_decomp t (a b : f64) : isGE_tol t a b = isGt_tol t a b || isEq_tol t a b.
Proof. unfold isGE_tol, isGt_tol, isEq_tol. set (e := (a =? b)%S || (s_abs (a - b)%S <? t)%S || isNaN a && isNaN b). destruct e, (b <? a)%S; reflexivity. Qed.

Lemma not_nan_f2x (x : f64) : is_nan x = false -> f2x x <> XNaN.
Proof. rewrite is_nan_f2x. destruct (f2x x); congruence. Qed.

Lemma tol_trichotomy t (a b : f64) : is_nan a = false -> is_nan b = false ->
  (isLt_tol t a b, isEq_tol t a b, isGt_tol t a b) = (true, false, false) \/
  (isLt_tol t a b, isEq_tol t a b, isGt_tol t a b) = (false, true, false) \/
  (isLt_tol t a b, isEq_tol t a b, isGt_tol t a b) = (false, false, true).
Proof.
  intros Ha Hb. unfold isLt_tol, isEq_tol, isGt_tol. rewrite !f_isNaN, Ha, Hb.
  simpl. rewrite f_eqb, !f_ltb.
  destruct (xtrich (f2x a) (f2x b)) as [H|[H|H]]; auto using not_nan_f2x.
  - rewrite H, (xltb_asym _ _ H). destruct (_ || _ || _); simpl; auto.
  - rewrite H. simpl. auto.
  - rewrite H, (xltb_asym _ _ H). destruct (_ || _ || _); simpl; auto.
Qed.

Lemma Bminus_nan_l (b : f64) : Bminus mode_NE (B754_nan : f64) b = B754_nan.
Proof. reflexivity. Qed.
Lemma Bminus_nan_r (a : f64) : Bminus mode_NE a (B754_nan : f64) = B754_nan.
Proof. destruct a as [s|[|]| |[|] m e H]; reflexivity. Qed.

Lemma tol_one_nan t (a b : f64) : is_nan a <> is_nan b ->
  isLt_tol t a b = false /\ isEq_tol t a b = false /\ isGt_tol t a b = false /\
  isLE_tol t a b = false /\ isGE_tol t a b = false.
Proof.
  intros H. unfold isLt_tol, isEq_tol, isGt_tol, isLE_tol, isGE_tol. rewrite !f_isNaN. simpl.
  rewrite !f_eqb, !f_ltb.
  assert (E : (is_nan a = true /\ is_nan b = false) \/ (is_nan a = false /\ is_nan b = true)).
  { destruct (is_nan a), (is_nan b); auto; congruence. }
  destruct E as [[Ea Eb]|[Ea Eb]]; rewrite ?Ea, ?Eb.
  - assert (a = B754_nan) by (destruct a; auto; discriminate). subst a. rewrite Bminus_nan_l. simpl.
    destruct (f2x b); simpl; auto.
  - assert (b = B754_nan) by (destruct b; auto; discriminate). subst b. rewrite Bminus_nan_r. simpl.
    destruct (f2x a); simpl; auto.
Qed.

Lemma isEq_refl t (a : f64) : isEq_tol t a a = true.
Proof.
  unfold isEq_tol. rewrite !f_isNaN, is_nan_f2x. simpl. rewrite f_eqb.
  destruct (f2x a); simpl; auto using orb_true_r. now rewrite Reqb_refl.
Qed.
Lemma isEq_sym t (a b : f64) : isEq_tol t a b = isEq_tol t b a.
Proof.
  unfold isEq_tol. simpl. rewrite Bminus_abs_sym, !f_eqb, xeqb_sym. f_equal. apply andb_comm.
Qed.
Lemma isLt_isGt t (a b : f64) : isLt_tol t a b = isGt_tol t b a.
Proof.
  unfold isLt_tol, isGt_tol. simpl. rewrite Bminus_abs_sym, !f_eqb, xeqb_sym, (andb_comm (isNaN a)). reflexivity.
Qed.
Lemma isLE_isGE t (a b : f64) : isLE_tol t a b = isGE_tol t b a.
Proof. rewrite isLE_decomp, isGE_decomp, isLt_isGt, isEq_sym. reflexivity. Qed.

(** min, max *)
Lemma f_op_min_nan (a b : f64) : is_nan (op_min a b) = is_nan a || is_nan b.
Proof.
  unfold op_min, std_min. rewrite !f_isNaN. destruct (is_nan a) eqn:Ea, (is_nan b) eqn:Eb; simpl; auto.
  destruct (Bltb b a); auto.
Qed.
Lemma f_op_max_nan (a b : f64) : is_nan (op_max a b) = is_nan a || is_nan b.
Proof.
  unfold op_max, std_max. rewrite !f_isNaN. destruct (is_nan a) eqn:Ea, (is_nan b) eqn:Eb; simpl; auto.
  destruct (Bltb a b); auto.
Qed.

Definition xmin (x y : xr) := match x, y with XNaN, _ | _, XNaN => XNaN | _, _ => if xltb y x then y else x end.
Definition xmax (x y : xr) := match x, y with XNaN, _ | _, XNaN => XNaN | _, _ => if xltb x y then y else x end.
Lemma f_op_min a b : f2x (op_min a b) = xmin (f2x a) (f2x b).
Proof.
  unfold op_min, std_min. rewrite !f_isNaN, !is_nan_f2x. simpl. rewrite f_ltb.
  destruct (f2x a) eqn:Ea, (f2x b) eqn:Eb; simpl; auto. destruct (Rltb r0 r); auto.
Qed.
Lemma f_op_max a b : f2x (op_max a b) = xmax (f2x a) (f2x b).
Proof.
  unfold op_max, std_max. rewrite !f_isNaN, !is_nan_f2x. simpl. rewrite f_ltb.
  destruct (f2x a) eqn:Ea, (f2x b) eqn:Eb; simpl; auto. destruct (Rltb r r0); auto.
Qed.

Lemma xmin_spec x y : x <> XNaN -> y <> XNaN ->
  (xmin x y = x \/ xmin x y = y) /\ xleb (xmin x y) x = true /\ xleb (xmin x y) y = true.
Proof.
  destruct x, y; simpl; try congruence; intros _ _; try (split; [auto|split; auto; try apply Rleb_true; lra]).
  destruct (Rltb_spec r0 r); simpl; split; auto; split; apply Rleb_true; lra.
Qed.
Lemma xmax_spec x y : x <> XNaN -> y <> XNaN ->
  (xmax x y = x \/ xmax x y = y) /\ xleb x (xmax x y) = true /\ xleb y (xmax x y) = true.
Proof.
  destruct x, y; simpl; try congruence; intros _ _; try (split; [auto|split; auto; try apply Rleb_true; lra]).
  destruct (Rltb_spec r r0); simpl; split; auto; split; apply Rleb_true; lra.
Qed.
Lemma xmin_comm x y : xmin x y = xmin y x.
Proof.
  destruct x, y; simpl; auto. destruct (Rltb_spec r0 r), (Rltb_spec r r0); auto; try lra. f_equal; lra.
Qed.
Lemma xmax_comm x y : xmax x y = xmax y x.
Proof.
  destruct x, y; simpl; auto. destruct (Rltb_spec r0 r), (Rltb_spec r r0); auto; try lra. f_equal; lra.
Qed.
Lemma xmin_assoc x y z : xmin (xmin x y) z = xmin x (xmin y z).
Proof.
  destruct x, y, z; simpl; auto;
  repeat match goal with |- context [Rltb ?a ?b] => destruct (Rltb_spec a b); simpl end; auto; try lra.
Qed.
Lemma xmax_assoc x y z : xmax (xmax x y) z = xmax x (xmax y z).
Proof.
  destruct x, y, z; simpl; auto;
  repeat match goal with |- context [Rltb ?a ?b] => destruct (Rltb_spec a b); simpl end; auto; try lra.
Qed.

(** bound *)
Lemma f_bound_nan (x lo hi : f64) : is_nan x = true -> bound x lo hi = x.
Proof.
  intros H. assert (x = B754_nan) by (destruct x; auto; discriminate). subst. unfold bound. simpl.
  rewrite !f_ltb. simpl. destruct (f2x hi); simpl; auto.
Qed.
Lemma f_bound_in (x lo hi : f64) : is_nan x = false -> Bleb lo hi = true ->
  Bleb lo (bound x lo hi) = true /\ Bleb (bound x lo hi) hi = true.
Proof.
  unfold bound. simpl. rewrite is_nan_f2x, !f_ltb, !f_leb. intros Hx Hl.
  destruct (xltb (f2x hi) (f2x x)) eqn:E1; rewrite ?f_leb.
  { split; auto. destruct (f2x lo), (f2x hi); simpl in *; auto; try discriminate; apply Rleb_true; lra. }
  destruct (xltb (f2x x) (f2x lo)) eqn:E2; rewrite ?f_leb.
  { split; auto. destruct (f2x lo), (f2x hi); simpl in *; auto; try discriminate; apply Rleb_true; lra. }
  destruct (f2x lo), (f2x hi), (f2x x); simpl in *; auto; try discriminate;
  repeat match goal with H : context [Rltb ?a ?b] |- _ => destruct (Rltb_spec a b); try discriminate end;
  split; auto; apply Rleb_true; lra.
Qed.
Lemma f_bound_id (x lo hi : f64) : Bleb lo x = true -> Bleb x hi = true -> bound x lo hi = x.
Proof.
  unfold bound. simpl. rewrite !f_ltb, !f_leb. intros H1 H2.
  replace (xltb (f2x hi) (f2x x)) with false; [replace (xltb (f2x x) (f2x lo)) with false; auto|].
  - destruct (f2x lo), (f2x x); simpl in *; auto; try discriminate.
    destruct (Rleb_spec r r0); try discriminate. symmetry; apply Rltb_false; lra.
  - destruct (f2x hi), (f2x x); simpl in *; auto; try discriminate.
    destruct (Rleb_spec r0 r); try discriminate. symmetry; apply Rltb_false; lra.
Qed.
Lemma f_bound_idem (x lo hi : f64) : Bleb lo hi = true -> bound (bound x lo hi) lo hi = bound x lo hi.
Proof.
  intros H. destruct (is_nan x) eqn:E.
  - rewrite !f_bound_nan; auto. now rewrite f_bound_nan.
  - destruct (f_bound_in x lo hi E H). now apply f_bound_id.
Qed.
End OP.
