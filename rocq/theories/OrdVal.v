(** Scalars ordered by a value: what the comparisons of both instances have in common. *)
From Coq Require Import ZArith Reals Bool List Lra.
From Flocq Require Import IEEE754.BinarySingleNaN.
From Verif Require Import Base Op XR XRFacts F64 F64Facts.
Import ListNotations.
Local Open Scope R_scope.

Definition xnum (a : xr) : Prop := a <> XNaN.

(** [v] maps a scalar to the extended real it stands for *)
Record ord_val {T} (S : Scalar T) (v : T -> xr) : Prop := {
  ov_lt : forall a b, s_ltb a b = xltb (v a) (v b);
  ov_le : forall a b, s_leb a b = xleb (v a) (v b);
  ov_eq : forall a b, s_eqb a b = xeqb (v a) (v b);
  ov_nan : v s_nan = XNaN;
  ov_inf : v s_inf = XPInf;
  ov_ninf : v (s_neg s_inf) = XNInf;
  ov_0 : v s_0 = XFin 0
}.
Lemma ord_val_XR P : ord_val (XRScalar P) (fun x => x).
Proof. split; intros; try reflexivity. apply (x_0 P). Qed.
Lemma ord_val_F64 P : ord_val (F64Scalar P) f2x.
Proof.
  split; intros; try reflexivity.
  - exact (f_ltb a b). - exact (f_leb a b). - exact (f_eqb a b).
Qed.

Lemma xleb_refl a : xnum a -> xleb a a = true.
Proof. unfold xnum; destruct a; simpl; auto; try congruence. intros; apply Rleb_true; lra. Qed.
Lemma xleb_trans a b c : xleb a b = true -> xleb b c = true -> xleb a c = true.
Proof.
  destruct a, b, c; simpl; auto; try discriminate.
  destruct (Rleb_spec r r0), (Rleb_spec r0 r1); try discriminate. intros; apply Rleb_true; lra.
Qed.
Lemma xltb_le a b : xltb a b = true -> xleb a b = true.
Proof. destruct a, b; simpl; auto; try discriminate. destruct (Rltb_spec r r0); try discriminate. intros; apply Rleb_true; lra. Qed.
Lemma xltb_le_trans a b c : xltb a b = true -> xleb b c = true -> xltb a c = true.
Proof.
  destruct a, b, c; simpl; auto; try discriminate.
  destruct (Rltb_spec r r0), (Rleb_spec r0 r1); try discriminate. intros; apply Rltb_true; lra.
Qed.
Lemma xle_ltb_trans a b c : xleb a b = true -> xltb b c = true -> xltb a c = true.
Proof.
  destruct a, b, c; simpl; auto; try discriminate.
  destruct (Rleb_spec r r0), (Rltb_spec r0 r1); try discriminate. intros; apply Rltb_true; lra.
Qed.
Lemma xltb_false a b : xnum a -> xnum b -> xltb a b = false -> xleb b a = true.
Proof.
  unfold xnum. destruct a, b; simpl; auto; try congruence.
  destruct (Rltb_spec r r0); try discriminate. intros; apply Rleb_true; lra.
Qed.
Lemma xleb_false a b : xnum a -> xnum b -> xleb a b = false -> xltb b a = true.
Proof.
  unfold xnum. destruct a, b; simpl; auto; try congruence.
  destruct (Rleb_spec r r0); try discriminate. intros; apply Rltb_true; lra.
Qed.
Lemma xeqb_eq a b : xeqb a b = true -> a = b /\ xnum a.
Proof.
  unfold xnum. destruct a, b; simpl; try discriminate; try (split; congruence).
  destruct (Reqb_spec r r0); try discriminate. subst. split; congruence.
Qed.
Lemma xeqb_refl a : xnum a -> xeqb a a = true.
Proof. unfold xnum. destruct a; simpl; try congruence. intros. apply Reqb_refl. Qed.
Lemma xltb_num a b : xltb a b = true -> xnum a /\ xnum b.
Proof. unfold xnum; destruct a, b; simpl; try discriminate; split; congruence. Qed.
Lemma xleb_num a b : xleb a b = true -> xnum a /\ xnum b.
Proof. unfold xnum; destruct a, b; simpl; try discriminate; split; congruence. Qed.
Lemma xle_antisym a b : xleb a b = true -> xleb b a = true -> a = b.
Proof.
  destruct a, b; simpl; auto; try discriminate.
  destruct (Rleb_spec r r0), (Rleb_spec r0 r); try discriminate. intros; f_equal; lra.
Qed.
Lemma xninf_le a : xnum a -> xleb XNInf a = true.
Proof. unfold xnum; destruct a; simpl; auto; congruence. Qed.
Lemma xnum_dec (a : xr) : {xnum a} + {a = XNaN}.
Proof. unfold xnum; destruct a; auto; left; congruence. Qed.
Lemma ov_isNaN {T} {S : Scalar T} {v} (O : ord_val S v) a : isNaN a = match v a with XNaN => true | _ => false end.
Proof.
  unfold isNaN. rewrite (ov_eq _ _ O). destruct (v a); simpl; auto. rewrite Reqb_refl. reflexivity.
Qed.
