(** Automation and basic facts for the extended-real instance. *)
From Coq Require Import ZArith Reals Bool Lra Psatz.
From Verif Require Import Base Op XR.
Local Open Scope R_scope.

Lemma Rltb_spec a b : reflect (a < b) (Rltb a b).
Proof. unfold Rltb; destruct Rlt_dec; constructor; auto. Qed.
Lemma Rleb_spec a b : reflect (a <= b) (Rleb a b).
Proof. unfold Rleb; destruct Rle_dec; constructor; auto. Qed.
Lemma Reqb_spec a b : reflect (a = b) (Reqb a b).
Proof. unfold Reqb; destruct Req_EM_T; constructor; auto. Qed.

Lemma Rltb_true a b : a < b -> Rltb a b = true.
Proof. destruct (Rltb_spec a b); auto; lra. Qed.
Lemma Rltb_false a b : b <= a -> Rltb a b = false.
Proof. destruct (Rltb_spec a b); auto; lra. Qed.
Lemma Rleb_true a b : a <= b -> Rleb a b = true.
Proof. destruct (Rleb_spec a b); auto; lra. Qed.
Lemma Rleb_false a b : b < a -> Rleb a b = false.
Proof. destruct (Rleb_spec a b); auto; lra. Qed.
Lemma Reqb_true a b : a = b -> Reqb a b = true.
Proof. destruct (Reqb_spec a b); auto; lra. Qed.
Lemma Reqb_false a b : a <> b -> Reqb a b = false.
Proof. destruct (Reqb_spec a b); auto; lra. Qed.
Lemma Reqb_refl a : Reqb a a = true.
Proof. apply Reqb_true; auto. Qed.

Section XRF.
Context (P : xparam).
#[local] Hint Extern 0 (Scalar xr) => exact (XRScalar P) : typeclass_instances.
Notation eps := (xp_eps P).

Lemma x_lit n d : s_lit n d = XFin (IZR n / IZR (Zpos d)).
Proof. reflexivity. Qed.
Lemma x_int n : s_int n = XFin (IZR n).
Proof. unfold s_int; simpl. f_equal. field. Qed.
Lemma x_0 : s_0 = XFin 0.
Proof. apply x_int. Qed.
Lemma x_1 : s_1 = XFin 1.
Proof. apply x_int. Qed.
Lemma x_2 : s_2 = XFin 2.
Proof. apply x_int. Qed.
Lemma x_half : s_half = XFin (1/2).
Proof. reflexivity. Qed.

Lemma x_isNaN (x : xr) : isNaN x = match x with XNaN => true | _ => false end.
Proof. destruct x; unfold isNaN; simpl; auto. rewrite Reqb_refl. reflexivity. Qed.

Lemma x_op_min a b : op_min (XFin a) (XFin b) = XFin (Rmin a b).
Proof.
  unfold op_min, std_min. rewrite !x_isNaN. simpl.
  unfold Rmin. destruct (Rltb_spec b a), (Rle_dec a b); auto; lra.
Qed.
Lemma x_op_max a b : op_max (XFin a) (XFin b) = XFin (Rmax a b).
Proof.
  unfold op_max, std_max. rewrite !x_isNaN. simpl.
  unfold Rmax. destruct (Rltb_spec a b), (Rle_dec a b); auto; try lra.
  f_equal; lra.
Qed.

(** tolerant comparisons of finite values *)
Lemma x_isEq a b : isEq (XFin a) (XFin b) = Reqb a b || Rltb (Rabs (a - b)) eps.
Proof. unfold isEq, isEq_tol. rewrite !x_isNaN. simpl. now rewrite orb_false_r. Qed.
Lemma x_isLt a b : isLt (XFin a) (XFin b) = Rltb a b && negb (Rltb (Rabs (a - b)) eps).
Proof.
  unfold isLt, isLt_tol. rewrite !x_isNaN. simpl. rewrite orb_false_r.
  destruct (Reqb_spec a b), (Rltb_spec a b), (Rltb_spec (Rabs (a-b)) eps); simpl; auto; lra.
Qed.
Lemma x_isLE a b : isLE (XFin a) (XFin b) = Rleb a b || Rltb (Rabs (a - b)) eps.
Proof.
  unfold isLE, isLE_tol. rewrite !x_isNaN. simpl. rewrite orb_false_r.
  destruct (Reqb_spec a b), (Rltb_spec a b), (Rltb_spec (Rabs (a-b)) eps), (Rleb_spec a b); simpl; auto; lra.
Qed.
Lemma x_isGt a b : isGt (XFin a) (XFin b) = Rltb b a && negb (Rltb (Rabs (a - b)) eps).
Proof.
  unfold isGt, isGt_tol. rewrite !x_isNaN. simpl. rewrite orb_false_r.
  destruct (Reqb_spec a b), (Rltb_spec b a), (Rltb_spec (Rabs (a-b)) eps); simpl; auto; lra.
Qed.
Lemma x_isGE a b : isGE (XFin a) (XFin b) = Rleb b a || Rltb (Rabs (a - b)) eps.
Proof.
  unfold isGE, isGE_tol. rewrite !x_isNaN. simpl. rewrite orb_false_r.
  destruct (Reqb_spec a b), (Rltb_spec b a), (Rltb_spec (Rabs (a-b)) eps), (Rleb_spec b a); simpl; auto; lra.
Qed.

(** the same as reflected real inequalities, for a nonnegative tolerance *)
Lemma isEq_spec a b : reflect (a = b \/ Rabs (a - b) < eps) (isEq (XFin a) (XFin b)).
Proof.
  rewrite x_isEq. destruct (Reqb_spec a b), (Rltb_spec (Rabs (a-b)) eps); simpl; constructor; tauto.
Qed.
Lemma isLt_spec a b : reflect (a < b /\ a + eps <= b) (isLt (XFin a) (XFin b)).
Proof.
  rewrite x_isLt. destruct (Rltb_spec a b), (Rltb_spec (Rabs (a-b)) eps); simpl; constructor;
    unfold Rabs in *; destruct Rcase_abs; lra.
Qed.
Lemma isGt_spec a b : reflect (b < a /\ b + eps <= a) (isGt (XFin a) (XFin b)).
Proof.
  rewrite x_isGt. destruct (Rltb_spec b a), (Rltb_spec (Rabs (a-b)) eps); simpl; constructor;
    unfold Rabs in *; destruct Rcase_abs; lra.
Qed.
Lemma isLE_spec a b : reflect (a <= b \/ a < b + eps) (isLE (XFin a) (XFin b)).
Proof.
  rewrite x_isLE. destruct (Rleb_spec a b), (Rltb_spec (Rabs (a-b)) eps); simpl; constructor;
    unfold Rabs in *; destruct Rcase_abs; lra.
Qed.
Lemma isGE_spec a b : reflect (b <= a \/ b < a + eps) (isGE (XFin a) (XFin b)).
Proof.
  rewrite x_isGE. destruct (Rleb_spec b a), (Rltb_spec (Rabs (a-b)) eps); simpl; constructor;
    unfold Rabs in *; destruct Rcase_abs; lra.
Qed.

Lemma x_div a b : b <> 0 -> xdiv (XFin a) (XFin b) = XFin (a / b).
Proof. intro; simpl. destruct Req_EM_T; [contradiction|reflexivity]. Qed.
Lemma x_div0 a : xdiv (XFin a) (XFin 0) = xinf_div a.
Proof. simpl. destruct Req_EM_T; [reflexivity|lra]. Qed.
End XRF.

(** Destruct every decision in the goal. *)
Ltac xr_destruct :=
  repeat match goal with
  | |- context [Rltb ?a ?b] => destruct (Rltb_spec a b); simpl
  | |- context [Rleb ?a ?b] => destruct (Rleb_spec a b); simpl
  | |- context [Reqb ?a ?b] => destruct (Reqb_spec a b); simpl
  end.
