(** Bundled forms of the facts on comparisons, min, max, bound. *)
From Coq Require Import ZArith Reals Bool Lra.
From Flocq Require Import Core BinarySingleNaN.
From Verif Require Import Base Op XR XRFacts F64 F64Facts OpProofs.
Local Open Scope R_scope.

Section S.
Context (P : fparam).
#[local] Hint Extern 0 (Scalar f64) => exact (F64Scalar P) : typeclass_instances.

Lemma C01_main (t a b : f64) :
  isLE_tol t a b = isLt_tol t a b || isEq_tol t a b /\
  isGE_tol t a b = isGt_tol t a b || isEq_tol t a b /\
  (is_nan a = false -> is_nan b = false ->
     (isLt_tol t a b, isEq_tol t a b, isGt_tol t a b) = (true, false, false) \/
     (isLt_tol t a b, isEq_tol t a b, isGt_tol t a b) = (false, true, false) \/
     (isLt_tol t a b, isEq_tol t a b, isGt_tol t a b) = (false, false, true)) /\
  (is_nan a <> is_nan b ->
     isLt_tol t a b = false /\ isEq_tol t a b = false /\ isGt_tol t a b = false /\
     isLE_tol t a b = false /\ isGE_tol t a b = false) /\
  isEq_tol t a a = true /\
  isEq_tol t a b = isEq_tol t b a /\
  isLt_tol t a b = isGt_tol t b a /\
  isLE_tol t a b = isGE_tol t b a.
Proof.
  repeat apply conj; intros; auto using isLE_decomp, isGE_decomp, tol_trichotomy, isEq_refl, isEq_sym, isLt_isGt, isLE_isGE.
  now apply tol_one_nan.
Qed.

Definition veq_ (x y : f64) : Prop := (is_nan x = true /\ is_nan y = true) \/ Beqb x y = true.
Lemma veq_f2x x y : f2x x = f2x y -> veq_ x y.
Proof.
  intros H. unfold veq_. rewrite !is_nan_f2x, f_eqb, H. destruct (f2x y); simpl; auto. right. apply Reqb_refl.
Qed.
Lemma f2x_id_cases (a b : f64) : op_min a b = a \/ op_min a b = b \/ (is_nan a = true \/ is_nan b = true).
Proof.
  unfold op_min, std_min. rewrite !f_isNaN. destruct (is_nan a), (is_nan b); simpl; auto. destruct (Bltb b a); auto.
Qed.
Lemma f2x_id_cases' (a b : f64) : op_max a b = a \/ op_max a b = b \/ (is_nan a = true \/ is_nan b = true).
Proof.
  unfold op_max, std_max. rewrite !f_isNaN. destruct (is_nan a), (is_nan b); simpl; auto. destruct (Bltb a b); auto.
Qed.

Lemma C02_min_max_main : forall a b c : f64,
  is_nan (op_min a b) = is_nan a || is_nan b /\
  is_nan (op_max a b) = is_nan a || is_nan b /\
  (is_nan a = false -> is_nan b = false ->
     (op_min a b = a \/ op_min a b = b) /\ Bleb (op_min a b) a = true /\ Bleb (op_min a b) b = true /\
     (op_max a b = a \/ op_max a b = b) /\ Bleb a (op_max a b) = true /\ Bleb b (op_max a b) = true) /\
  veq_ (op_min a b) (op_min b a) /\ veq_ (op_max a b) (op_max b a) /\
  veq_ (op_min (op_min a b) c) (op_min a (op_min b c)) /\
  veq_ (op_max (op_max a b) c) (op_max a (op_max b c)) /\
  veq_ (op_min a a) a /\ veq_ (op_max a a) a.
Proof.
  intros a b c. split; [apply f_op_min_nan|]. split; [apply f_op_max_nan|]. split; [|repeat apply conj].
  - intros Ha Hb. pose proof (not_nan_f2x a Ha) as Na. pose proof (not_nan_f2x b Hb) as Nb.
    rewrite !f_leb, f_op_min, f_op_max.
    destruct (xmin_spec _ _ Na Nb) as (_ & ? & ?). destruct (xmax_spec _ _ Na Nb) as (_ & ? & ?).
    destruct (f2x_id_cases a b) as [?|[?|[?|?]]], (f2x_id_cases' a b) as [?|[?|[?|?]]]; try congruence; tauto.
  - apply veq_f2x. rewrite !f_op_min. apply xmin_comm.
  - apply veq_f2x. rewrite !f_op_max. apply xmax_comm.
  - apply veq_f2x. rewrite !f_op_min. apply xmin_assoc.
  - apply veq_f2x. rewrite !f_op_max. apply xmax_assoc.
  - apply veq_f2x. rewrite !f_op_min. destruct (f2x a); simpl; auto. now rewrite Rltb_false by lra.
  - apply veq_f2x. rewrite !f_op_max. destruct (f2x a); simpl; auto. now rewrite Rltb_false by lra.
Qed.

Lemma C02_bound_main : forall x lo hi : f64, Bleb lo hi = true ->
  (is_nan x = true -> is_nan (bound x lo hi) = true) /\
  (is_nan x = false -> Bleb lo (bound x lo hi) = true /\ Bleb (bound x lo hi) hi = true) /\
  (Bleb lo x = true -> Bleb x hi = true -> bound x lo hi = x) /\
  (Bltb x lo = true -> bound x lo hi = lo) /\
  (Bltb hi x = true -> bound x lo hi = hi) /\
  bound (bound x lo hi) lo hi = bound x lo hi.
Proof.
  intros x lo hi H. repeat apply conj; intros.
  - rewrite f_bound_nan; auto.
  - now apply f_bound_in.
  - now apply f_bound_id.
  - unfold bound. change (s_ltb hi x) with (Bltb hi x). change (s_ltb x lo) with (Bltb x lo). rewrite H0.
    destruct (Bltb hi x) eqn:E; auto. exfalso. rewrite !f_ltb, f_leb in *.
    destruct (f2x lo), (f2x hi), (f2x x); simpl in *; try discriminate.
    revert H H0 E. xr_destruct; try discriminate; try lra.
  - unfold bound. change (s_ltb hi x) with (Bltb hi x). now rewrite H0.
  - now apply f_bound_idem.
Qed.
End S.

Lemma C01_meaning : forall (P : xparam) (a b : R), 0 <= xp_eps P ->
  (@isEq xr (XRScalar P) (XFin a) (XFin b) = true <-> a = b \/ Rabs (a - b) < xp_eps P) /\
  (@isLt xr (XRScalar P) (XFin a) (XFin b) = true <-> a < b /\ xp_eps P <= b - a) /\
  (@isGt xr (XRScalar P) (XFin a) (XFin b) = true <-> b < a /\ xp_eps P <= a - b) /\
  (@isLE xr (XRScalar P) (XFin a) (XFin b) = true <-> a <= b \/ a - b < xp_eps P) /\
  (@isGE xr (XRScalar P) (XFin a) (XFin b) = true <-> b <= a \/ b - a < xp_eps P).
Proof.
  intros P a b He.
  destruct (isEq_spec P a b), (isLt_spec P a b), (isGt_spec P a b), (isLE_spec P a b), (isGE_spec P a b);
  repeat apply conj; intros; try discriminate; auto; try tauto; try lra.
Qed.
