(** What the registered operators and functions compute. *)
From Coq Require Import ZArith List Bool String Reals Lra Lia.
From Verif Require Import Base Op XR XRFacts Text Function FunctionProofs2 FunctionTable.
Import ListNotations.
Local Open Scope string_scope.

(** functions of <cmath> under their own names, and the operators % and ^ *)
Definition cmath1 : list (string * libm1) :=
  [("acos", LAcos); ("acosh", LAcosh); ("asin", LAsin); ("asinh", LAsinh); ("atan", LAtan); ("atanh", LAtanh); ("cos", LCos); ("cosh", LCosh);
   ("exp", LExp); ("log", LLog); ("log10", LLog10); ("log1p", LLog1p); ("sin", LSin); ("sinh", LSinh); ("tan", LTan); ("tanh", LTanh)].
Definition cmath2 : list (string * libm2) := [("atan2", LAtan2); ("fmod", LFmod); ("%", LFmod); ("pow", LPow); ("^", LPow)].
Lemma cmath_meaning T (S : Scalar T) :
  (forall n f, In (n, f) cmath1 -> name1 default_table n = s_fn1 f) /\ (forall n f, In (n, f) cmath2 -> name2 default_table n = s_fn2 f).
Proof.
  split; intros n f H; cbn [cmath1 cmath2 In] in H; repeat (destruct H as [H|H]; [injection H as <- <-; reflexivity|]); contradiction.
Qed.

Section Exact.
Context (P : xparam).
#[local] Hint Extern 0 (Scalar xr) => exact (XRScalar P) : typeclass_instances.
Notation F1 := (@name1 xr default_table).
Notation F2 := (@name2 xr default_table).
Local Open Scope R_scope.
(** 1 if and only if the proposition holds, else 0 *)
Definition truth (x : xr) (Q : Prop) : Prop := (Q /\ x = XFin 1) \/ (~ Q /\ x = XFin 0).
Lemma truth_of b (Q : Prop) : (b = true <-> Q) -> truth (of_bool b) Q.
Proof. intros H. unfold of_bool, truth. destruct b; [left|right]; (split; [intuition congruence|]); [exact (x_1 P)|exact (x_0 P)]. Qed.
Lemma int_part_INR n : Int_part (INR n) = Z.of_nat n.
Proof.
  rewrite INR_IZR_INZ. destruct (base_Int_part (IZR (Z.of_nat n))) as [A B]. apply eq_IZR.
  assert (Z.of_nat n - 1 < Int_part (IZR (Z.of_nat n)))%Z as C by (apply lt_IZR; rewrite minus_IZR; lra).
  apply le_IZR in A. f_equal. lia.
Qed.
Lemma odd_pow n x : x < 0 -> (if Z.odd (Z.of_nat n) then - (- x) ^ n else (- x) ^ n) = x ^ n.
Proof.
  intros N. induction n as [|n IH]; [reflexivity|]. rewrite Nat2Z.inj_succ, Z.odd_succ, <- Z.negb_odd. cbn [pow].
  destruct (Z.odd (Z.of_nat n)); cbn [negb]; rewrite <- IH; ring.
Qed.
Lemma pow_meaning a b : 0 < a -> xpow (XFin a) (XFin b) = XFin (Rpower a b).
Proof.
  intros A. cbn. destruct (Reqb_spec b 0) as [-> |]; [rewrite Rpower_O by exact A; reflexivity|]. destruct (Rltb_spec 0 a); [reflexivity|lra].
Qed.
Lemma pow_nat_meaning a n : (0 < n)%nat -> xpow (XFin a) (XFin (INR n)) = XFin (a ^ n).
Proof.
  intros N. assert (0 < INR n) as I by (apply lt_0_INR; exact N). cbn [xpow]. destruct (Reqb_spec (INR n) 0); [lra|].
  destruct (Rltb_spec 0 a); [rewrite Rpower_pow by assumption; reflexivity|].
  destruct (Reqb_spec a 0) as [-> |].
  - destruct (Rltb_spec 0 (INR n)); [|lra]. rewrite pow_i by exact N. reflexivity.
  - unfold Rint_of. rewrite int_part_INR, <- INR_IZR_INZ. destruct (Req_EM_T (INR n) (INR n)); [|congruence]. rewrite Rpower_pow by lra. rewrite odd_pow by lra. reflexivity.
Qed.
Lemma arithmetic_meaning a b :
  F2 "+" (XFin a) (XFin b) = XFin (a + b) /\ F2 "-" (XFin a) (XFin b) = XFin (a - b) /\ F2 "*" (XFin a) (XFin b) = XFin (a * b) /\
  (b <> 0 -> F2 "/" (XFin a) (XFin b) = XFin (a / b)) /\ F1 "~" (XFin a) = XFin (- a) /\
  F2 "min" (XFin a) (XFin b) = XFin (Rmin a b) /\ F2 "max" (XFin a) (XFin b) = XFin (Rmax a b) /\
  F1 "abs" (XFin a) = XFin (Rabs a) /\ F1 "fabs" (XFin a) = XFin (Rabs a) /\ (0 <= a -> F1 "sqrt" (XFin a) = XFin (sqrt a)) /\
  F1 "exp" (XFin a) = XFin (exp a) /\ (0 < a -> F1 "log" (XFin a) = XFin (ln a)) /\ F1 "cos" (XFin a) = XFin (cos a) /\
  (0 < a -> F2 "^" (XFin a) (XFin b) = XFin (Rpower a b)) /\ (forall n : nat, (0 < n)%nat -> F2 "^" (XFin a) (XFin (INR n)) = XFin (a ^ n)).
Proof.
  split; [reflexivity|]. split; [reflexivity|]. split; [reflexivity|]. split; [exact (x_div a b)|]. split; [reflexivity|].
  split; [exact (x_op_min P a b)|]. split; [exact (x_op_max P a b)|]. split; [reflexivity|]. split; [reflexivity|].
  split; [intros H; change (xsqrt (XFin a) = XFin (sqrt a)); cbn; destruct (Rltb_spec a 0); [lra|reflexivity]|].
  split; [reflexivity|].
  split; [intros H; change (xlog (XFin a) = XFin (ln a)); cbn; destruct (Rltb_spec a 0); [lra|]; destruct (Reqb_spec a 0); [lra|reflexivity]|].
  split; [reflexivity|]. split; [exact (pow_meaning a b)|exact (pow_nat_meaning a)].
Qed.
Lemma rounding_meaning a :
  (exists z, F1 "floor" (XFin a) = XFin (IZR z) /\ IZR z <= a < IZR z + 1) /\
  (exists z, F1 "ceil" (XFin a) = XFin (IZR z) /\ IZR z - 1 < a <= IZR z) /\
  (exists z, F1 "round" (XFin a) = XFin (IZR z) /\ (0 < a -> IZR z - 1/2 <= a < IZR z + 1/2) /\ (a <= 0 -> IZR z - 1/2 < a <= IZR z + 1/2)).
Proof.
  assert (forall r, IZR (Int_part r) <= r < IZR (Int_part r) + 1) as B by (intros r; destruct (base_Int_part r); lra).
  split; [exists (Int_part a); split; [reflexivity|apply B]|].
  split; [exists (- Int_part (- a))%Z; rewrite opp_IZR; split; [reflexivity|specialize (B (- a)); lra]|].
  change (F1 "round" (XFin a)) with (op_round (XFin a)). unfold op_round. change (s_0 <? XFin a)%S with (xltb s_0 (XFin a)). rewrite (x_0 P), (x_half P).
  cbn [xltb]. destruct (Rltb_spec 0 a).
  - exists (Int_part (a + 1/2)). split; [reflexivity|]. specialize (B (a + 1/2)). lra.
  - exists (- Int_part (- (a - 1/2)))%Z. rewrite opp_IZR. split; [reflexivity|]. specialize (B (- (a - 1/2))). lra.
Qed.
Lemma comparison_meaning a b : xp_eps P = 0 ->
  truth (F2 "lt" (XFin a) (XFin b)) (a < b) /\ truth (F2 "le" (XFin a) (XFin b)) (a <= b) /\ truth (F2 "eq" (XFin a) (XFin b)) (a = b) /\
  truth (F2 "neq" (XFin a) (XFin b)) (a <> b) /\ truth (F2 "ge" (XFin a) (XFin b)) (a >= b) /\ truth (F2 "gt" (XFin a) (XFin b)) (a > b).
Proof.
  intros E. assert (forall r, Rltb (Rabs r) (xp_eps P) = false) as Z by (intros r; rewrite E; destruct (Rltb_spec (Rabs r) 0); [pose proof (Rabs_pos r); lra|reflexivity]).
  repeat split.
  - change (truth (of_bool (isLt (XFin a) (XFin b))) (a < b)). apply truth_of. rewrite (x_isLt P), Z. destruct (Rltb_spec a b); cbn; intuition (try discriminate; lra).
  - change (truth (of_bool (isLE (XFin a) (XFin b))) (a <= b)). apply truth_of. rewrite (x_isLE P), Z. destruct (Rleb_spec a b); cbn; intuition (try discriminate; lra).
  - change (truth (of_bool (isEq (XFin a) (XFin b))) (a = b)). apply truth_of. rewrite (x_isEq P), Z. destruct (Reqb_spec a b); cbn; intuition (try discriminate; lra).
  - change (truth (of_bool (negb (isEq (XFin a) (XFin b)))) (a <> b)). apply truth_of. rewrite (x_isEq P), Z. destruct (Reqb_spec a b); cbn; intuition (try discriminate; lra).
  - change (truth (of_bool (isGE (XFin a) (XFin b))) (a >= b)). apply truth_of. rewrite (x_isGE P), Z. destruct (Rleb_spec b a); cbn; intuition (try discriminate; lra).
  - change (truth (of_bool (isGt (XFin a) (XFin b))) (a > b)). apply truth_of. rewrite (x_isGt P), Z. destruct (Rltb_spec b a); cbn; intuition (try discriminate; lra).
Qed.
(** truth values *)
Lemma logic_meaning a b : xp_eps P <= 1 -> a = 0 \/ a = 1 -> b = 0 \/ b = 1 ->
  truth (F1 "!" (XFin a)) (a <> 1) /\ truth (F2 "and" (XFin a) (XFin b)) (a = 1 /\ b = 1) /\ truth (F2 "or" (XFin a) (XFin b)) (a = 1 \/ b = 1).
Proof.
  intros E A B. assert (forall c, c = 0 \/ c = 1 -> isEq (XFin c) s_1 = true <-> c = 1) as Q.
  { intros c C. rewrite (x_1 P), (x_isEq P). destruct C as [-> | ->].
    - destruct (Reqb_spec 0 1); [lra|]. destruct (Rltb_spec (Rabs (0 - 1)) (xp_eps P)) as [K|K]; [rewrite Rabs_left in K by lra; lra|]. cbn. split; [discriminate|lra].
    - destruct (Reqb_spec 1 1); [|lra]. cbn. tauto. }
  pose proof (Q a A) as QA. pose proof (Q b B) as QB.
  split; [|split].
  - change (F1 "!" (XFin a)) with (if isEq (XFin a) s_1 then s_0 else s_1 : xr). destruct (isEq (XFin a) s_1); [right|left]; (split; [intuition congruence|]); [exact (x_0 P)|exact (x_1 P)].
  - change (F2 "and" (XFin a) (XFin b)) with (of_bool (isEq (XFin a) s_1 && isEq (XFin b) s_1) : xr). apply truth_of. rewrite andb_true_iff. tauto.
  - change (F2 "or" (XFin a) (XFin b)) with (of_bool (isEq (XFin a) s_1 || isEq (XFin b) s_1) : xr). apply truth_of. rewrite orb_true_iff. tauto.
Qed.
End Exact.
