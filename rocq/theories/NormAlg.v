(** Real algebra behind the norm axioms. *)
From Coq Require Import ZArith Reals Bool Lra Psatz.
From Verif Require Import Base Op XR XRFacts Norm NormFacts.
Local Open Scope R_scope.

Lemma div_le_cross x y z w : 0 < y -> 0 < w -> x * w <= z * y -> x / y <= z / w.
Proof.
  intros Hy Hw H. apply Rmult_le_reg_r with (y * w); [nra|].
  replace (x / y * (y * w)) with (x * w) by (field; lra).
  replace (z / w * (y * w)) with (z * y) by (field; lra). exact H.
Qed.
Lemma div_le_1 x y : 0 < y -> x <= y -> x / y <= 1.
Proof. intros. replace 1 with (y / y) by (field; lra). apply div_le_cross; nra. Qed.
Lemma div_nonneg x y : 0 <= x -> 0 < y -> 0 <= x / y.
Proof. intros. apply Rmult_le_pos; auto. left. apply Rinv_0_lt_compat; auto. Qed.
Lemma div_le_iff x y z : 0 < y -> x <= z * y -> x / y <= z.
Proof. intros. replace z with (z * y / y) by (field; lra). apply div_le_cross; nra. Qed.
Lemma div_ge_iff x y z : 0 < y -> z * y <= x -> z <= x / y.
Proof. intros. replace z with (z * y / y) by (field; lra). apply div_le_cross; nra. Qed.

Ltac minmax := unfold Rmin, Rmax in *; repeat destruct Rle_dec; try lra.
Ltac rdec :=
  repeat match goal with
  | |- context [Req_EM_T ?a ?b] => destruct (Req_EM_T a b)
  | |- context [Rlt_dec ?a ?b] => destruct (Rlt_dec a b)
  | |- context [Rle_dec ?a ?b] => destruct (Rle_dec a b)
  end.
Ltac pos := repeat (apply Rmult_le_pos); lra.
Ltac rabs := unfold Rabs in *; repeat destruct Rcase_abs.

Section TN.
Context (P : xparam).
Notation eps := (xp_eps P).
Notation rT := (rT P).
Notation rS := (rS P).

Lemma rT_comm n a b : rT n a b = rT n b a.
Proof.
  destruct n; unfold NormFacts.rT; rewrite ?(Rmax_comm a b), ?(Rmin_comm a b), ?(Rplus_comm a b), ?(Rmult_comm a b); auto.
Qed.
Lemma rS_comm n a b : rS n a b = rS n b a.
Proof.
  destruct n; unfold NormFacts.rS; rewrite ?(Rmax_comm a b), ?(Rmin_comm a b), ?(Rplus_comm a b), ?(Rmult_comm a b); auto.
  replace (b + a - 2 * a * b) with (b + a - 2 * b * a) by ring. auto.
Qed.

Lemma hamacher_pos a b : unit a -> unit b -> 0 < a + b -> 0 < a + b - a * b.
Proof. unfold unit; intros. nra. Qed.
Lemma einstein_pos a b : unit a -> unit b -> 1 <= 2 - (a + b - a * b).
Proof. unfold unit; intros. nra. Qed.

Lemma rT_le_min n a b : unit a -> unit b -> 0 <= rT n a b <= Rmin a b.
Proof.
  intros Ha Hb. assert (Hm : 0 <= Rmin a b /\ (a * b <= Rmin a b)) by (unfold unit in *; minmax; nra).
  destruct n; unfold NormFacts.rT.
  - unfold unit in *; nra.
  - unfold unit in *; minmax.
  - rdec; lra.
  - pose proof (einstein_pos a b Ha Hb). split.
    + apply div_nonneg; [unfold unit in *; nra|lra].
    + apply div_le_iff; [lra|]. unfold unit in *. nra.
  - rdec; try lra. pose proof (hamacher_pos a b Ha Hb ltac:(unfold unit in *; lra)). split.
    + apply div_nonneg; [unfold unit in *; nra|lra].
    + apply div_le_iff; [lra|]. unfold unit in *. minmax; nra.
  - lra.
  - rdec; lra.
Qed.

Lemma rS_ge_max n a b : unit a -> unit b -> Rmax a b <= rS n a b.
Proof.
  intros Ha Hb. destruct n; unfold NormFacts.rS; unfold unit in *.
  - minmax; nra.
  - minmax.
  - rdec; minmax; lra.
  - apply div_ge_iff; [nra|]. assert (b * b <= 1) by nra. assert (a * a <= 1) by nra. minmax; nra.
  - rdec; try (minmax; lra). assert (a * b <= 1) by nra. apply div_ge_iff; [lra|].
    assert (0 <= a * ((1 - b) * (1 - b))) by pos. assert (0 <= b * ((1 - a) * (1 - a))) by pos.
    minmax; nra.
  - lra.
  - rdec; minmax; lra.
  - apply div_ge_iff; minmax; nra.
  - minmax.
Qed.
Lemma rS_le_1 n a b : n <> UnboundedSum -> unit a -> unit b -> rS n a b <= 1.
Proof.
  intros Hn Ha Hb. destruct n; unfold NormFacts.rS; unfold unit in *.
  - nra.
  - minmax.
  - rdec; minmax; lra.
  - apply div_le_1; nra.
  - rdec; try (minmax; lra). apply div_le_1; nra.
  - minmax.
  - rdec; minmax; lra.
  - apply div_le_1; minmax; nra.
  - contradiction.
Qed.

Lemma rT_range n a b : unit a -> unit b -> unit (rT n a b).
Proof.
  intros Ha Hb. pose proof (rT_le_min n a b Ha Hb). unfold unit in *. pose proof (Rmin_l a b). lra.
Qed.
Lemma rS_range n a b : n <> UnboundedSum -> unit a -> unit b -> unit (rS n a b).
Proof.
  intros Hn Ha Hb. pose proof (rS_ge_max n a b Ha Hb). pose proof (rS_le_1 n a b Hn Ha Hb).
  unfold unit in *. pose proof (Rmax_l a b). lra.
Qed.

Lemma rT_mono_l n a a' b : 0 <= eps -> unit a -> unit a' -> unit b -> a <= a' -> rT n a b <= rT n a' b.
Proof.
  intros He Ha Ha' Hb Hle. pose proof (rT_le_min n a' b Ha' Hb) as Hge0.
  destruct n; unfold NormFacts.rT in *; unfold unit in *.
  - nra.
  - minmax.
  - assert (Rmin a b <= Rmin a' b) by minmax.
    assert (Rmax a b <= Rmax a' b) by minmax.
    assert (Rmax a' b <= 1) by minmax.
    revert Hge0. rdec; rabs; lra.
  - assert (0 <= (a' - a) * (b * (2 - b))) by pos. apply div_le_cross; nra.
  - revert Hge0. rdec; try (rabs; lra).
    intros. assert (0 < a + b) by lra.
    assert (0 <= (a' - a) * (b * b)) by pos.
    apply div_le_cross; try nra.
  - minmax.
  - assert (Rmin a b <= Rmin a' b) by minmax. revert Hge0. rdec; lra.
Qed.
Lemma rS_mono_l n a a' b : 0 <= eps -> unit a -> unit a' -> unit b -> a <= a' -> rS n a b <= rS n a' b.
Proof.
  intros He Ha Ha' Hb Hle.
  assert (HS : n <> UnboundedSum -> rS n a b <= 1) by (intro; apply rS_le_1; auto).
  assert (HS' : Rmax a' b <= rS n a' b) by (apply rS_ge_max; auto).
  destruct n; unfold NormFacts.rS in *; unfold unit in *.
  - nra.
  - minmax.
  - assert (Rmin a b <= Rmin a' b) by minmax.
    assert (Rmax a b <= Rmax a' b) by minmax.
    assert (0 <= Rmin a b) by minmax.
    assert (Rmax a b <= 1) by minmax.
    revert HS'. rdec; rabs; try lra.
  - assert (0 <= (a' - a) * ((1 - b) * (1 + b))) by pos. apply div_le_cross; nra.
  - assert (HS1 := HS ltac:(discriminate)). clear HS HS'. assert (a * b <= a' * b <= 1) by nra.
    revert HS1. rdec; intros; try (rabs; lra).
    assert (0 <= (a' - a) * ((1 - b) * (1 - b))) by pos. apply div_le_cross; nra.
  - minmax.
  - assert (Rmax a b <= Rmax a' b) by minmax. assert (Rmax a b <= 1) by minmax. revert HS'. rdec; lra.
  - apply div_le_cross; minmax; nra.
  - lra.
Qed.

Lemma rT_identity n a : eps <= 1 -> n <> NilpotentMinimum -> unit a -> rT n a 1 = a.
Proof.
  intros He Hn Ha. destruct n; unfold NormFacts.rT in *; unfold unit in *.
  - ring.
  - (minmax).
  - replace (Rmax a 1) with 1 by (minmax). replace (Rmin a 1) with a by (minmax). rdec; lra.
  - field. lra.
  - rdec; try (rabs; lra). field. lra.
  - (minmax).
  - contradiction.
Qed.
Lemma rT_identity_nilpotent a : unit a -> a = 0 \/ eps <= a -> rT NilpotentMinimum a 1 = a.
Proof. unfold NormFacts.rT, unit. intros Ha H. replace (Rmin a 1) with a by (minmax). rdec; lra. Qed.
Lemma rT_zero n a : unit a -> rT n a 0 = 0.
Proof.
  intros Ha. assert (unit 0) by (unfold unit; lra). pose proof (rT_le_min n a 0 Ha H).
  pose proof (Rmin_r a 0). lra.
Qed.
Lemma rS_identity n a : eps <= 1 -> n <> NilpotentMaximum -> unit a -> rS n a 0 = a.
Proof.
  intros He Hn Ha. destruct n; unfold NormFacts.rS in *; unfold unit in *.
  - ring.
  - (minmax).
  - replace (Rmin a 0) with 0 by (minmax). replace (Rmax a 0) with a by (minmax). rdec; lra.
  - field; try lra.
  - rdec; try (rabs; nra). field; try nra.
  - (minmax).
  - contradiction.
  - rewrite Rplus_0_r. replace (Rmax 1 a) with 1 by (minmax). field.
  - ring.
Qed.
Lemma rS_identity_nilpotent a : unit a -> a = 1 \/ a + eps <= 1 -> rS NilpotentMaximum a 0 = a.
Proof. unfold NormFacts.rS, unit. intros Ha H. replace (Rmax a 0) with a by (minmax). rdec; lra. Qed.
Lemma rS_one n a : n <> UnboundedSum -> unit a -> rS n a 1 = 1.
Proof.
  intros Hn Ha. assert (unit 1) by (unfold unit; lra). pose proof (rS_ge_max n a 1 Ha H).
  pose proof (rS_le_1 n a 1 Hn Ha H). pose proof (Rmax_r a 1). lra.
Qed.

(** De Morgan duality *)
Definition dual (n : tnorm) : snorm :=
  match n with
  | AlgebraicProduct => AlgebraicSum | BoundedDifference => BoundedSum | DrasticProduct => DrasticSum
  | EinsteinProduct => EinsteinSum | HamacherProduct => HamacherSum | Minimum => Maximum
  | NilpotentMinimum => NilpotentMaximum
  end.
Lemma r_duality n a b : (n = HamacherProduct -> eps = 0) -> unit a -> unit b ->
  rS (dual n) a b = 1 - rT n (1 - a) (1 - b).
Proof.
  intros Hn Ha Hb. unfold unit in *. destruct n; unfold dual, NormFacts.rS, NormFacts.rT.
  - ring.
  - minmax.
  - replace (Rmax (1 - a) (1 - b)) with (1 - Rmin a b) by (minmax).
    replace (Rmin (1 - a) (1 - b)) with (1 - Rmax a b) by (minmax).
    rdec; try lra; rabs; lra.
  - field. nra.
  - rewrite Hn by auto. rdec; try (rabs; nra). field; repeat split; nra.
  - minmax.
  - replace (Rmin (1 - a) (1 - b)) with (1 - Rmax a b) by (minmax).
    rdec; try lra.
Qed.
Lemma normalized_is_bounded a b : unit a -> unit b -> rS NormalizedSum a b = rS BoundedSum a b.
Proof.
  unfold unit; intros. unfold NormFacts.rS. unfold Rmax, Rmin. destruct Rle_dec.
  - field. lra.
  - field.
Qed.

(** associativity *)
Lemma hamacher_assoc a b c : 0 < a + b - a * b -> 0 < b + c - b * c ->
  let ab := a * b / (a + b - a * b) in let bc := b * c / (b + c - b * c) in
  0 < ab + c - ab * c -> 0 < a + bc - a * bc ->
  ab * c / (ab + c - ab * c) = a * bc / (a + bc - a * bc).
Proof.
  intros H1 H2 ab bc H3 H4. unfold ab, bc in *.
  assert (E1 : a * b / (a + b - a * b) + c - a * b / (a + b - a * b) * c
          = (a * b + b * c + a * c - 2 * a * b * c) / (a + b - a * b)) by (field; lra).
  assert (E2 : a + b * c / (b + c - b * c) - a * (b * c / (b + c - b * c))
          = (a * b + b * c + a * c - 2 * a * b * c) / (b + c - b * c)) by (field; lra).
  rewrite E1 in *. rewrite E2 in *.
  assert (a * b + b * c + a * c - 2 * a * b * c <> 0).
  { intro E. rewrite E in H3. unfold Rdiv in H3. rewrite Rmult_0_l in H3. lra. }
  field. repeat split; lra.
Qed.
Lemma einstein_assoc a b c : unit a -> unit b -> unit c ->
  rT EinsteinProduct (rT EinsteinProduct a b) c = rT EinsteinProduct a (rT EinsteinProduct b c).
Proof.
  intros Ha Hb Hc. unfold NormFacts.rT.
  pose proof (einstein_pos a b Ha Hb) as Q1. pose proof (einstein_pos b c Hb Hc) as Q2.
  set (q1 := 2 - (a + b - a * b)) in *. set (q2 := 2 - (b + c - b * c)) in *.
  assert (E1 : 2 - (a * b / q1 + c - a * b / q1 * c) = (4 - 2*a - 2*b - 2*c + a*b + a*c + b*c) / q1).
  { unfold q1; field; unfold q1 in *; lra. }
  assert (E2 : 2 - (a + b * c / q2 - a * (b * c / q2)) = (4 - 2*a - 2*b - 2*c + a*b + a*c + b*c) / q2).
  { unfold q2; field; unfold q2 in *; lra. }
  rewrite E1, E2.
  assert (4 - 2*a - 2*b - 2*c + a*b + a*c + b*c > 0).
  { unfold unit in *. replace (4 - 2*a - 2*b - 2*c + a*b + a*c + b*c)
      with ((1-a)*(1-b) + (1-a)*(1-c) + (1-b)*(1-c) + 1) by ring.
    assert (0 <= (1-a)*(1-b)) by pos. assert (0 <= (1-a)*(1-c)) by pos. assert (0 <= (1-b)*(1-c)) by pos. lra. }
  field. repeat split; lra.
Qed.

Definition near1 (x : R) : Prop := x = 1 \/ 1 - eps < x.
Lemma drastic_near a b : unit a -> unit b -> near1 (Rmax a b) -> rT DrasticProduct a b = Rmin a b.
Proof. unfold near1, unit; intros. unfold NormFacts.rT. assert (Rmax a b <= 1) by minmax. rdec; auto. rabs; lra. Qed.
Lemma drastic_far a b : unit a -> unit b -> ~ near1 (Rmax a b) -> rT DrasticProduct a b = 0.
Proof. unfold near1, unit; intros. unfold NormFacts.rT. assert (Rmax a b <= 1) by minmax. rdec; auto; rabs; lra. Qed.
Lemma near1_dec x : near1 x \/ ~ near1 x.
Proof. unfold near1. destruct (Req_EM_T x 1), (Rlt_dec (1 - eps) x); tauto. Qed.
Lemma near1_mono x y : near1 x -> x <= y <= 1 -> near1 y.
Proof. unfold near1; intros [->|H] ?; [left; lra|right; lra]. Qed.

Lemma drastic_assoc a b c : unit a -> unit b -> unit c ->
  rT DrasticProduct (rT DrasticProduct a b) c = rT DrasticProduct a (rT DrasticProduct b c).
Proof.
  assert (K : forall a b, unit a -> unit b -> unit (Rmin a b)) by (unfold unit; intros; minmax).
  assert (Z : unit 0) by (unfold unit; lra).
  intros Ha Hb Hc. unfold unit in Ha, Hb, Hc.
  destruct (near1_dec (Rmax a b)) as [N1|N1]; [rewrite (drastic_near a b)|rewrite (drastic_far a b)]; auto;
  (destruct (near1_dec (Rmax b c)) as [N2|N2]; [rewrite (drastic_near b c)|rewrite (drastic_far b c)]; auto).
  - destruct (near1_dec (Rmax (Rmin a b) c)) as [N3|N3]; [rewrite (drastic_near (Rmin a b) c)|rewrite (drastic_far (Rmin a b) c)]; auto;
    (destruct (near1_dec (Rmax a (Rmin b c))) as [N4|N4]; [rewrite (drastic_near a (Rmin b c))|rewrite (drastic_far a (Rmin b c))]; auto).
    + minmax.
    + exfalso. unfold near1 in *. minmax.
    + exfalso. unfold near1 in *. minmax.
  - rewrite (rT_zero DrasticProduct a) by auto.
    destruct (near1_dec (Rmax (Rmin a b) c)) as [N3|N3]; [|apply drastic_far; auto].
    exfalso. unfold near1 in *. minmax.
  - rewrite (rT_comm DrasticProduct 0 c), (rT_zero DrasticProduct c) by auto. symmetry.
    destruct (near1_dec (Rmax a (Rmin b c))) as [N3|N3]; [|apply drastic_far; auto].
    exfalso. unfold near1 in *. minmax.
  - rewrite (rT_comm DrasticProduct 0 c), !rT_zero by auto. reflexivity.
Qed.

Lemma rT_assoc n a b c : 0 <= eps -> (n = HamacherProduct -> eps = 0) -> unit a -> unit b -> unit c ->
  rT n (rT n a b) c = rT n a (rT n b c).
Proof.
  intros He Hn Ha Hb Hc.
  pose proof (rT_range n a b Ha Hb) as R1. pose proof (rT_range n b c Hb Hc) as R2.
  destruct n.
  - unfold NormFacts.rT; ring.
  - unfold NormFacts.rT, unit in *. minmax.
  - apply drastic_assoc; auto.
  - apply einstein_assoc; auto.
  - specialize (Hn eq_refl). unfold unit in *.
    assert (D : forall x y, 0 <= x -> 0 <= y -> (x + y = 0 \/ ~ x + y = 0)) by (intros; lra).
    assert (F0 : forall x y, 0 <= x <= 1 -> 0 <= y <= 1 -> x = 0 \/ y = 0 -> rT HamacherProduct x y = 0).
    { intros x y Hx Hy [->| ->]; [rewrite rT_comm|]; apply rT_zero; auto. }
    assert (F1 : forall x y, 0 < x <= 1 -> 0 < y <= 1 -> rT HamacherProduct x y = x * y / (x + y - x * y) /\ 0 < rT HamacherProduct x y).
    { intros x y Hx Hy.
      assert (E : rT HamacherProduct x y = x * y / (x + y - x * y)).
      { unfold NormFacts.rT. rewrite Hn. rdec; auto; rabs; lra. }
      split; auto. rewrite E. apply Rdiv_lt_0_compat; nra. }
    destruct (Req_EM_T a 0) as [Ea|Ea].
    { rewrite (F0 a b), (F0 0 c), (F0 a) by (auto; lra). reflexivity. }
    destruct (Req_EM_T b 0) as [Eb|Eb].
    { rewrite (F0 a b), (F0 0 c), (F0 b c), (F0 a 0) by (auto; lra). reflexivity. }
    destruct (Req_EM_T c 0) as [Ec|Ec].
    { rewrite (F0 _ c), (F0 b c), (F0 a 0) by (auto; lra). reflexivity. }
    destruct (F1 a b) as [E1 P1]; try lra. destruct (F1 b c) as [E2 P2]; try lra.
    destruct (F1 (rT HamacherProduct a b) c) as [E3 P3]; try lra.
    destruct (F1 a (rT HamacherProduct b c)) as [E4 P4]; try lra.
    rewrite E3, E4, E1, E2. apply hamacher_assoc; try nra; rewrite <- ?E1, <- ?E2; nra.
  - unfold NormFacts.rT. minmax.
  - unfold NormFacts.rT in *. unfold unit in *. revert R1 R2. rdec; intros; minmax.
Qed.

Lemma unit_compl a : unit a -> unit (1 - a).
Proof. unfold unit; lra. Qed.
Definition predual (n : snorm) : option tnorm :=
  match n with
  | AlgebraicSum => Some AlgebraicProduct | BoundedSum => Some BoundedDifference
  | DrasticSum => Some DrasticProduct | EinsteinSum => Some EinsteinProduct
  | HamacherSum => Some HamacherProduct | Maximum => Some Minimum
  | NilpotentMaximum => Some NilpotentMinimum | NormalizedSum => Some BoundedDifference
  | UnboundedSum => None
  end.
Lemma rS_assoc n a b c : 0 <= eps -> (n = HamacherSum -> eps = 0) -> unit a -> unit b -> unit c ->
  rS n (rS n a b) c = rS n a (rS n b c).
Proof.
  intros He Hn Ha Hb Hc.
  assert (K : forall t, (t = HamacherProduct -> eps = 0) -> rS (dual t) (rS (dual t) a b) c = rS (dual t) a (rS (dual t) b c)).
  { intros t Ht. assert (dual t <> UnboundedSum) by (destruct t; discriminate).
    rewrite (r_duality t a b), (r_duality t b c) by auto.
    rewrite !r_duality; auto.
    - replace (1 - (1 - rT t (1 - a) (1 - b))) with (rT t (1 - a) (1 - b)) by ring.
      replace (1 - (1 - rT t (1 - b) (1 - c))) with (rT t (1 - b) (1 - c)) by ring.
      rewrite rT_assoc; auto using unit_compl.
    - apply unit_compl, rT_range; auto using unit_compl.
    - apply unit_compl, rT_range; auto using unit_compl. }
  destruct n.
  - apply (K AlgebraicProduct); discriminate.
  - apply (K BoundedDifference); discriminate.
  - apply (K DrasticProduct); discriminate.
  - apply (K EinsteinProduct); discriminate.
  - apply (K HamacherProduct); auto.
  - apply (K Minimum); discriminate.
  - apply (K NilpotentMinimum); discriminate.
  - rewrite !normalized_is_bounded; auto; try (apply rS_range; auto; discriminate).
    + apply (K BoundedDifference); discriminate.
  - unfold NormFacts.rS; ring.
Qed.

(** ordering against the drastic norms *)
Lemma drastic_le n a b : 0 <= eps <= 1 -> (n = NilpotentMinimum -> eps = 0) -> unit a -> unit b ->
  (eps = 0 \/ n = Minimum \/ n = DrasticProduct) ->
  rT DrasticProduct a b <= rT n a b.
Proof.
  intros He Hn Ha Hb H.
  destruct H as [E|[->| ->]]; [|apply rT_le_min; auto|lra].
  destruct (near1_dec (Rmax a b)) as [N|N].
  - assert (a = 1 \/ b = 1). { unfold near1, unit in *. minmax. }
    destruct H as [->| ->].
    + rewrite (rT_comm DrasticProduct), (rT_comm n), rT_identity by (auto; try lra; try discriminate).
      destruct n; try (rewrite rT_identity; auto; try lra; try discriminate; fail).
      rewrite rT_identity_nilpotent; auto; unfold unit in *; lra.
    + rewrite rT_identity by (auto; try lra; try discriminate).
      destruct n; try (rewrite rT_identity; auto; try lra; try discriminate; fail).
      rewrite rT_identity_nilpotent; auto; unfold unit in *; lra.
  - rewrite drastic_far by auto. apply rT_le_min; auto.
Qed.
Lemma drastic_ge n a b : 0 <= eps <= 1 -> n <> UnboundedSum -> unit a -> unit b ->
  (eps = 0 \/ n = Maximum \/ n = DrasticSum) ->
  rS n a b <= rS DrasticSum a b.
Proof.
  intros He Hn Ha Hb H.
  assert (M : Rmax a b <= rS DrasticSum a b) by (apply rS_ge_max; auto).
  destruct H as [E|[->| ->]]; [|exact M|lra].
  pose proof (rS_le_1 n a b Hn Ha Hb) as L.
  destruct (Req_EM_T (Rmin a b) 0) as [Z|Z].
  - assert (a = 0 \/ b = 0) by (unfold unit in *; minmax).
    destruct H as [->| ->].
    + rewrite (rS_comm DrasticSum), (rS_comm n), (rS_identity DrasticSum) by (auto; try lra; try discriminate).
      destruct n; try (rewrite rS_identity; auto; try lra; try discriminate; fail).
      rewrite rS_identity_nilpotent; auto; unfold unit in *; lra.
    + rewrite (rS_identity DrasticSum) by (auto; try lra; try discriminate).
      destruct n; try (rewrite rS_identity; auto; try lra; try discriminate; fail).
      rewrite rS_identity_nilpotent; auto; unfold unit in *; lra.
  - unfold NormFacts.rS at 2. rdec; try lra. rabs; unfold unit in *; minmax.
Qed.
End TN.
