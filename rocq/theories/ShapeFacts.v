(** Tactics to evaluate shape memberships over extended reals. *)
From Coq Require Import ZArith Reals Bool Lra Psatz.
From Verif Require Import Base Op XR XRFacts Shape SpecTerm.
Local Open Scope R_scope.

Section XE.
Context (P : xparam).
#[local] Hint Extern 0 (Scalar xr) => exact (XRScalar P) : typeclass_instances.

Lemma xe_add a b : s_add (XFin a) (XFin b) = XFin (a + b). Proof. reflexivity. Qed.
Lemma xe_sub a b : s_sub (XFin a) (XFin b) = XFin (a - b). Proof. reflexivity. Qed.
Lemma xe_mul a b : s_mul (XFin a) (XFin b) = XFin (a * b). Proof. reflexivity. Qed.
Lemma xe_neg a : s_neg (XFin a) = XFin (- a). Proof. reflexivity. Qed.
Lemma xe_abs a : s_abs (XFin a) = XFin (Rabs a). Proof. reflexivity. Qed.
Lemma xe_exp a : s_exp (XFin a) = XFin (exp a). Proof. reflexivity. Qed.
Lemma xe_cos a : s_fn1 LCos (XFin a) = XFin (cos a). Proof. reflexivity. Qed.
Lemma xe_4 : s_4 = XFin 4. Proof. apply x_int. Qed.
Lemma xe_5 : s_5 = XFin 5. Proof. apply x_int. Qed.
Lemma xe_10 : s_10 = XFin 10. Proof. apply x_int. Qed.
Lemma xe_pi : s_mul s_4 (s_fn1 LAtan s_1) = XFin PI.
Proof. rewrite xe_4, x_1. simpl. rewrite atan_1. f_equal. field. Qed.
Lemma xe_ltb a b : s_ltb (XFin a) (XFin b) = Rltb a b. Proof. reflexivity. Qed.
Lemma xe_leb a b : s_leb (XFin a) (XFin b) = Rleb a b. Proof. reflexivity. Qed.
Lemma xe_eqninf a : s_eqb (XFin a) (s_neg s_inf) = false. Proof. reflexivity. Qed.
Lemma xe_eqinf a : s_eqb (XFin a) s_inf = false. Proof. reflexivity. Qed.
Lemma xe_div a b : b <> 0 -> s_div (XFin a) (XFin b) = XFin (a / b).
Proof. apply x_div. Qed.
Lemma xe_isNaN a : isNaN (XFin a) = false. Proof. apply x_isNaN. Qed.

Lemma Int_part_IZR n : Int_part (IZR n) = n.
Proof.
  unfold Int_part. rewrite <- (tech_up (IZR n) (n + 1)); [lia| |]; rewrite plus_IZR; lra.
Qed.
Lemma Rint_of_2 : Rint_of 2 = Some 2%Z.
Proof. unfold Rint_of. rewrite (Int_part_IZR 2). destruct Req_EM_T; [reflexivity|lra]. Qed.
Lemma Rpower_2 x : 0 < x -> Rpower x 2 = x * x.
Proof. intro. replace 2 with (1 + 1) by lra. rewrite Rpower_plus, Rpower_1; auto. Qed.
Lemma xe_pow2 a : pow2 (XFin a) = XFin (sq a).
Proof.
  unfold pow2, sq. rewrite x_2. simpl. rewrite (Reqb_false 2 0) by lra.
  destruct (Rltb_spec 0 a); [now rewrite Rpower_2|]. rewrite (Rltb_true 0 2) by lra.
  destruct (Reqb_spec a 0); [f_equal; subst; ring|].
  rewrite Rint_of_2. simpl. rewrite Rpower_2 by lra. f_equal. ring.
Qed.
End XE.

Ltac xe P :=
  rewrite ?xe_isNaN, ?(xe_pi P), ?(x_0 P), ?(x_1 P), ?(x_2 P), ?(x_half P), ?(xe_10 P), ?(xe_eqninf P), ?(xe_eqinf P);
  repeat first
   [ progress rewrite ?(xe_add P), ?(xe_sub P), ?(xe_mul P), ?(xe_neg P), ?(xe_abs P), ?(xe_exp P), ?(xe_pow2 P),
       ?(xe_cos P), ?(x_op_min P), ?(xe_ltb P), ?(xe_leb P)
   | rewrite (xe_div P) by first [ assumption | lra | nra ] ].

(** decide the tolerant comparisons one at a time *)
Ltac xcmp P :=
  match goal with
  | |- context [isLE (XFin ?a) (XFin ?b)] => destruct (isLE_spec P a b)
  | |- context [isLt (XFin ?a) (XFin ?b)] => destruct (isLt_spec P a b)
  | |- context [isGE (XFin ?a) (XFin ?b)] => destruct (isGE_spec P a b)
  | |- context [isGt (XFin ?a) (XFin ?b)] => destruct (isGt_spec P a b)
  | |- context [isEq (XFin ?a) (XFin ?b)] => destruct (isEq_spec P a b)
  | |- context [Rltb ?a ?b] => destruct (Rltb_spec a b)
  | |- context [Rleb ?a ?b] => destruct (Rleb_spec a b)
  | |- context [Rlt_dec ?a ?b] => destruct (Rlt_dec a b)
  | |- context [Rle_dec ?a ?b] => destruct (Rle_dec a b)
  | |- context [Req_EM_T ?a ?b] => destruct (Req_EM_T a b)
  end; cbn [andb orb negb].
Ltac offs :=
  repeat match goal with H : List.Forall _ (_ :: _) |- _ => apply List.Forall_cons_iff in H; destruct H end;
  repeat match goal with H : off _ _ _ |- _ => unfold off, Rabs in H end;
  repeat match goal with H : context [Rcase_abs ?x] |- _ => destruct (Rcase_abs x) end.

Section M.
Context (P : xparam).
#[local] Hint Extern 0 (Scalar xr) => exact (XRScalar P) : typeclass_instances.
Notation eps := (xp_eps P).

(** membership of finite parameters at a finite point *)
Definition fm (s : shape R) (h x : R) : xr := sh_membership (shape_map XFin s) (XFin h) (XFin x).
End M.
