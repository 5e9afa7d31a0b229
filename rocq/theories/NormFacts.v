(** Algebra of the norms on the extended reals. *)
From Coq Require Import ZArith Reals Bool Lra Psatz.
From Verif Require Import Base Op XR XRFacts Norm.
Local Open Scope R_scope.

Section NF.
Context (P : xparam).
#[local] Hint Extern 0 (Scalar xr) => exact (XRScalar P) : typeclass_instances.
Notation eps := (xp_eps P).

(** closed real form of a T-norm on finite arguments *)
Definition rT (n : tnorm) (a b : R) : R :=
  match n with
  | AlgebraicProduct => a * b
  | BoundedDifference => Rmax 0 (a + b - 1)
  | DrasticProduct => if Req_EM_T (Rmax a b) 1 then Rmin a b
                      else if Rlt_dec (Rabs (Rmax a b - 1)) eps then Rmin a b else 0
  | EinsteinProduct => a * b / (2 - (a + b - a * b))
  | HamacherProduct => if Req_EM_T (a + b) 0 then 0
                       else if Rlt_dec (Rabs (a + b)) eps then 0 else a * b / (a + b - a * b)
  | Minimum => Rmin a b
  | NilpotentMinimum => if Rlt_dec 1 (a + b) then if Rle_dec (1 + eps) (a + b) then Rmin a b else 0 else 0
  end.

Definition rS (n : snorm) (a b : R) : R :=
  match n with
  | AlgebraicSum => a + b - a * b
  | BoundedSum => Rmin 1 (a + b)
  | DrasticSum => if Req_EM_T (Rmin a b) 0 then Rmax a b
                  else if Rlt_dec (Rabs (Rmin a b)) eps then Rmax a b else 1
  | EinsteinSum => (a + b) / (1 + a * b)
  | HamacherSum => if Req_EM_T (a * b) 1 then 1
                   else if Rlt_dec (Rabs (a * b - 1)) eps then 1 else (a + b - 2 * a * b) / (1 - a * b)
  | Maximum => Rmax a b
  | NilpotentMaximum => if Rlt_dec (a + b) 1 then if Rle_dec (a + b + eps) 1 then Rmax a b else 1 else 1
  | NormalizedSum => (a + b) / Rmax 1 (a + b)
  | UnboundedSum => a + b
  end.

Definition unit (a : R) := 0 <= a <= 1.

Lemma tcompute_fin n a b : unit a -> unit b ->
  tnorm_compute n (XFin a) (XFin b) = XFin (rT n a b).
Proof.
  unfold unit; intros Ha Hb. destruct n; unfold tnorm_compute; rewrite ?x_0, ?x_1, ?x_2.
  - reflexivity.
  - change (s_sub (s_add (XFin a) (XFin b)) (XFin 1)) with (XFin (a + b - 1)). apply x_op_max.
  - rewrite x_op_max, x_isEq, x_op_min. unfold rT, Reqb, Rltb.
    destruct Req_EM_T; simpl; auto. destruct Rlt_dec; auto.
  - unfold rT.
    change (s_div (s_mul (XFin a) (XFin b)) (s_sub (XFin 2) (s_sub (s_add (XFin a) (XFin b)) (s_mul (XFin a) (XFin b)))))
      with (xdiv (XFin (a * b)) (XFin (2 - (a + b - a * b)))).
    rewrite x_div; auto. nra.
  - change (s_add (XFin a) (XFin b)) with (XFin (a + b)). rewrite x_isEq. unfold rT, Reqb, Rltb.
    rewrite Rminus_0_r. destruct Req_EM_T; simpl orb; auto. destruct Rlt_dec; auto.
    change (s_div (s_mul (XFin a) (XFin b)) (s_sub (XFin (a + b)) (s_mul (XFin a) (XFin b))))
      with (xdiv (XFin (a * b)) (XFin (a + b - a * b))).
    rewrite x_div; auto. nra.
  - apply x_op_min.
  - change (s_add (XFin a) (XFin b)) with (XFin (a + b)). rewrite x_op_min. unfold rT.
    destruct (isGt_spec P (a + b) 1).
    + destruct Rlt_dec; [|lra]. destruct Rle_dec; [auto|lra].
    + destruct Rlt_dec; auto. destruct Rle_dec; auto. lra.
Qed.

Lemma scompute_fin n a b : unit a -> unit b ->
  snorm_compute n (XFin a) (XFin b) = XFin (rS n a b).
Proof.
  unfold unit; intros Ha Hb. destruct n; unfold snorm_compute; rewrite ?x_0, ?x_1, ?x_2.
  - reflexivity.
  - change (s_add (XFin a) (XFin b)) with (XFin (a + b)). apply x_op_min.
  - rewrite x_op_max, x_op_min, x_isEq. unfold rS, Reqb, Rltb.
    rewrite Rminus_0_r. destruct Req_EM_T; simpl; auto. destruct Rlt_dec; auto.
  - change (xdiv (XFin (a + b)) (XFin (1 + a * b)) = XFin (rS EinsteinSum a b)).
    rewrite x_div; auto. nra.
  - change (s_mul (XFin a) (XFin b)) with (XFin (a * b)). rewrite x_isEq. unfold rS, Reqb, Rltb.
    destruct Req_EM_T; simpl orb; auto. destruct Rlt_dec; auto.
    change (xdiv (XFin (a + b - 2 * a * b)) (XFin (1 - a * b)) = XFin ((a + b - 2 * a * b) / (1 - a * b))).
    rewrite x_div; auto. nra.
  - apply x_op_max.
  - change (s_add (XFin a) (XFin b)) with (XFin (a + b)). rewrite x_op_max. unfold rS.
    destruct (isLt_spec P (a + b) 1).
    + destruct Rlt_dec; [|lra]. destruct Rle_dec; [auto|lra].
    + destruct Rlt_dec; auto. destruct Rle_dec; auto. lra.
  - change (s_add (XFin a) (XFin b)) with (XFin (a + b)). rewrite x_op_max.
    change (xdiv (XFin (a + b)) (XFin (Rmax 1 (a + b))) = XFin (rS NormalizedSum a b)).
    rewrite x_div; auto. unfold Rmax; destruct Rle_dec; lra.
  - reflexivity.
Qed.
End NF.
