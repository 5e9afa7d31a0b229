(** Sums over the midpoints of equal parts approach the integral. *)
From Coq Require Import ZArith Reals Bool List Lia Lra.
From Coquelicot Require Import Coquelicot.
From Verif Require Import SpecDefuzz SpecLimit.
Import ListNotations.
Local Open Scope R_scope.

Lemma mids_S a b n : (1 <= n)%nat -> mids a b (S n) = mid a b (S n) 0 :: mids (a + (b - a) / INR (S n)) b n.
Proof.
  intro H. unfold mids. cbn [seq map]. f_equal. rewrite <- seq_shift, map_map. apply map_ext. intro i. unfold mid. rewrite !S_INR.
  assert (INR n <> 0) by (apply not_0_INR; lia). assert (P := pos_INR n). field. split; lra.
Qed.
Definition half2 (x y : R) : R := (x + y) / 2.
Lemma step_S a b n : (a * INR (S n) + b) / INR (S (S n)) = a + (b - a) / INR (S (S n)).
Proof. rewrite !S_INR. assert (P := pos_INR n). field. lra. Qed.
Lemma riemann_mids (f : R -> R) b : forall n a, Riemann_sum f (SF_seq_f2 half2 (unif_part a b n)) = (b - a) / INR (S n) * rsum (map f (mids a b (S n))).
Proof.
  induction n as [|n IH]; intro a.
  - unfold unif_part, SF_seq_f2, Riemann_sum, mids, mid, half2. cbn. unfold plus, scal, zero, mult. cbn. unfold mult. cbn.
    replace ((a + 0 * (b - a) / (0 + 1) + (a + 1 * (b - a) / (0 + 1))) / 2) with (a + (0 + 1 / 2) * ((b - a) / 1)) by field. field.
  - rewrite unif_part_S, SF_cons_f2; [|unfold unif_part; rewrite seq.size_mkseq; apply Nat.lt_0_succ]. rewrite Riemann_sum_cons, IH. rewrite (mids_S a b (S n)) by lia. cbn [map]. unfold rsum at 2. cbn [fold_right]. fold (rsum (map f (mids (a + (b - a) / INR (S (S n))) b (S n)))).
    rewrite step_S. cbn [SF_seq_f2 SF_h fst snd]. rewrite !head_unif_part. match goal with |- plus (scal ?c ?u) ?v = _ => change (c * u + v = (b - a) / INR (S (S n)) * (f (mid a b (S (S n)) 0) + rsum (map f (mids (a + (b - a) / INR (S (S n))) b (S n))))) end.
    set (w := rsum _). assert (P := pos_INR n).
    replace (mid a b (S (S n)) 0) with (half2 a (a + (b - a) / INR (S (S n)))) by (unfold mid, half2; rewrite !S_INR; change (INR 0) with 0; field; lra). set (u := f _).
    rewrite !S_INR. field. lra.
Qed.
(** for every integrable function *)
Lemma riemann_limit (f : R -> R) a b A : a < b -> is_RInt f a b A -> forall eps, 0 < eps -> exists N, forall n, (N <= n)%nat -> (1 <= n)%nat -> Rabs ((b - a) / INR n * rsum (map f (mids a b n)) - A) < eps.
Proof.
  intros L H eps E. unfold is_RInt in H. assert (Q := proj1 (filterlim_locally _ _) H (mkposreal eps E)). destruct Q as (delta & Q).
  destruct (archimed ((b - a) / delta)) as [K _]. exists (Z.to_nat (up ((b - a) / delta))). intros n N1 N2. destruct n as [|n]; [lia|].
  destruct (Riemann_fine_unif_part half2 a b n) as (F1 & F2 & F3 & F4); [unfold half2; intros; lra|lra|].
  specialize (Q (SF_seq_f2 half2 (unif_part a b n))). rewrite riemann_mids in Q. rewrite (sign_eq_1 (b - a)) in Q by lra.
  set (X := (b - a) / INR (S n) * rsum (map f (mids a b (S n)))) in *. assert (G : ball A eps (scal 1 X)); [|change (Rabs (1 * X - A) < eps) in G; now rewrite Rmult_1_l in G]. apply Q.
  - apply Rle_lt_trans with (1 := F1). assert (D := cond_pos delta). assert (PN := pos_INR n). assert (M : (b - a) / delta < INR (S n)).
    { apply Rlt_le_trans with (1 := K). destruct (Z_le_dec 0 (up ((b - a) / delta))) as [Z|Z]; [|apply Rle_trans with 0; [apply IZR_le; lia|apply pos_INR]]. rewrite <- (Z2Nat.id _ Z), <- INR_IZR_INZ. now apply le_INR. }
    rewrite S_INR in M. apply (Rmult_lt_reg_r (INR n + 1)); [lra|]. unfold Rdiv. rewrite Rmult_assoc, Rinv_l, Rmult_1_r by lra. apply (Rmult_lt_reg_r (/ delta)); [now apply Rinv_0_lt_compat|]. replace (delta * (INR n + 1) * / delta) with (INR n + 1) by (field; lra). exact M.
  - split; [exact F2|]. rewrite Rmin_left, Rmax_right by lra. split; [exact F3|exact F4].
Qed.

(** ** with a bound on the slope *)
Lemma lipschitz_sub f a b L c d : a <= c -> d <= b -> lipschitz f a b L -> lipschitz f c d L.
Proof. intros A B H x y X Y. apply H; lra. Qed.
(** outside of the interval, the value at the end *)
Definition clamp (a b x : R) : R := Rmax a (Rmin b x).
Lemma clamp_in a b x : a <= x <= b -> clamp a b x = x.
Proof. intro H. unfold clamp. rewrite Rmin_right by lra. now rewrite Rmax_right. Qed.
Lemma clamp_range a b x : a <= b -> a <= clamp a b x <= b.
Proof. intro H. unfold clamp, Rmax, Rmin. repeat destruct Rle_dec; lra. Qed.
Lemma clamp_close a b x y : a <= b -> Rabs (clamp a b x - clamp a b y) <= Rabs (x - y).
Proof. intro H. unfold clamp, Rmax, Rmin. repeat destruct Rle_dec; unfold Rabs; repeat destruct Rcase_abs; lra. Qed.
Lemma lipschitz_continuous f a b L : a <= b -> 0 <= L -> lipschitz f a b L -> forall x, continuous (fun x => f (clamp a b x)) x.
Proof.
  intros AB PL H x. apply filterlim_locally. intro eps. assert (E := cond_pos eps). exists (mkposreal (eps / (L + 1)) ltac:(apply Rdiv_lt_0_compat; lra)). intros y Y. change (Rabs (y - x) < eps / (L + 1)) in Y. change (Rabs (f (clamp a b y) - f (clamp a b x)) < eps).
  apply Rle_lt_trans with (L * Rabs (y - x)).
  - apply Rle_trans with (L * Rabs (clamp a b y - clamp a b x)); [apply H; now apply clamp_range|]. apply Rmult_le_compat_l; [exact PL|now apply clamp_close].
  - apply Rle_lt_trans with (L * (eps / (L + 1))); [apply Rmult_le_compat_l; lra|]. apply (Rmult_lt_reg_r (L + 1)); [lra|]. replace (L * (eps / (L + 1)) * (L + 1)) with (L * eps) by (field; lra). nra.
Qed.
Lemma lipschitz_integrable f a b L : a <= b -> 0 <= L -> lipschitz f a b L -> ex_RInt f a b.
Proof.
  intros AB PL H. apply (ex_RInt_ext (fun x => f (clamp a b x))).
  - intros x X. rewrite Rmin_left, Rmax_right in X by lra. rewrite clamp_in; [reflexivity|lra].
  - apply (ex_RInt_continuous (V := R_CompleteNormedModule)). intros z _. now apply (lipschitz_continuous f a b L).
Qed.
(** one part *)
Lemma cell f c h L : 0 <= h -> 0 <= L -> lipschitz f c (c + h) L -> Rabs (h * f (c + h / 2) - RInt f c (c + h)) <= L * (h * h) / 2.
Proof.
  intros HH PL H. assert (I1 := lipschitz_integrable f c (c + h) L ltac:(lra) PL H).
  assert (E : RInt (fun x => f x - f (c + h / 2)) c (c + h) = RInt f c (c + h) - h * f (c + h / 2)).
  { assert (Q := RInt_minus (V := R_CompleteNormedModule) f (fun _ => f (c + h / 2)) c (c + h) I1 (ex_RInt_const _ _ _)). change (RInt (fun x => f x - f (c + h / 2)) c (c + h) = minus (RInt f c (c + h)) (RInt (fun _ => f (c + h / 2)) c (c + h))) in Q. rewrite Q. rewrite RInt_const. change (RInt f c (c + h) - (c + h - c) * f (c + h / 2) = RInt f c (c + h) - h * f (c + h / 2)). ring. }
  rewrite Rabs_minus_sym, <- E. apply Rle_trans with ((c + h - c) * (L * (h / 2))); [|right; field].
  apply abs_RInt_le_const; [lra| |].
  - apply (ex_RInt_minus (V := R_NormedModule) f (fun _ => f (c + h / 2))); [exact I1|apply ex_RInt_const].
  - intros t T. apply Rle_trans with (L * Rabs (t - (c + h / 2))); [apply H; lra|]. apply Rmult_le_compat_l; [exact PL|]. unfold Rabs. destruct Rcase_abs; lra.
Qed.
(** the first [k] parts *)
Definition part (a b : R) (n k : nat) : R := a + INR k * ((b - a) / INR n).
Lemma part_range a b n k : a <= b -> (1 <= n)%nat -> (k <= n)%nat -> a <= part a b n k <= b.
Proof.
  intros H N K. unfold part. assert (P := lt_0_INR n ltac:(lia)). assert (Q := le_INR k n K). assert (Z := pos_INR k).
  assert (D : 0 <= (b - a) / INR n) by (apply Rdiv_le_0_compat; lra). assert (E : INR n * ((b - a) / INR n) = b - a) by (field; lra). split; [nra|]. assert (INR k * ((b - a) / INR n) <= INR n * ((b - a) / INR n)) by (apply Rmult_le_compat_r; assumption). lra.
Qed.
Lemma rsum_app l m : rsum (l ++ m) = rsum l + rsum m.
Proof. induction l as [|x l IH]; cbn [rsum app fold_right]; [unfold rsum; cbn; lra|]. unfold rsum in *. cbn [fold_right app]. rewrite IH. lra. Qed.
Lemma mids_firstn (f : R -> R) a b n k : (k < n)%nat -> rsum (firstn (S k) (map f (mids a b n))) = rsum (firstn k (map f (mids a b n))) + f (mid a b n k).
Proof.
  intro H. assert (L : length (map f (mids a b n)) = n) by (unfold mids; now rewrite !map_length, seq_length).
  assert (E : nth_error (map f (mids a b n)) k = Some (f (mid a b n k))).
  { rewrite nth_error_map. unfold mids. rewrite nth_error_map. rewrite (nth_error_nth' (seq 0 n) 0%nat) by now rewrite seq_length. now rewrite seq_nth. }
  assert (G : forall (l : list R) k x, nth_error l k = Some x -> firstn (S k) l = firstn k l ++ [x]).
  { clear. induction l as [|y l IH]; intros k x E; destruct k; try discriminate; [injection E as <-; reflexivity|]. cbn [nth_error] in E. cbn [firstn app]. f_equal. exact (IH k x E). }
  rewrite (G _ _ _ E), rsum_app. f_equal. unfold rsum. cbn [fold_right]. lra.
Qed.
Lemma cells f a b n L : a <= b -> (1 <= n)%nat -> 0 <= L -> lipschitz f a b L -> forall k, (k <= n)%nat ->
  Rabs ((b - a) / INR n * rsum (firstn k (map f (mids a b n))) - RInt f a (part a b n k)) <= INR k * (L * ((b - a) / INR n * ((b - a) / INR n)) / 2).
Proof.
  intros AB N PL H. set (h := (b - a) / INR n). assert (PN := lt_0_INR n ltac:(lia)). assert (HP : 0 <= h) by (apply Rdiv_le_0_compat; lra).
  induction k as [|k IH]; intro K.
  - unfold part. rewrite Rmult_0_l, Rplus_0_r, RInt_point. cbn [firstn]. unfold rsum, zero. cbn. rewrite !Rmult_0_r, Rmult_0_l, Rminus_0_r, Rabs_R0. lra.
  - specialize (IH ltac:(lia)). rewrite mids_firstn by lia. assert (Q1 := part_range a b n k AB N ltac:(lia)). assert (Q2 := part_range a b n (S k) AB N K).
    assert (E : part a b n (S k) = part a b n k + h) by (unfold part; rewrite S_INR; fold h; ring). assert (M : mid a b n k = part a b n k + h / 2) by (unfold mid, part; fold h; field).
    assert (I0 := lipschitz_integrable f a b L AB PL H).
    rewrite <- (RInt_Chasles (V := R_CompleteNormedModule) f a (part a b n k) (part a b n (S k))); [|apply (ex_RInt_Chasles_1 (V := R_CompleteNormedModule)) with b; [lra|exact I0]|].
    2:{ apply (ex_RInt_Chasles_2 (V := R_CompleteNormedModule)) with a; [lra|]. apply (ex_RInt_Chasles_1 (V := R_CompleteNormedModule)) with b; [lra|exact I0]. }
    match goal with |- Rabs (?x - plus ?y ?z) <= _ => change (Rabs (x - (y + z)) <= INR (S k) * (L * (h * h) / 2)) end. assert (C := cell f (part a b n k) h L HP PL (lipschitz_sub f a b L (part a b n k) (part a b n k + h) ltac:(lra) ltac:(lra) H)). rewrite <- M, <- E in C. fold h in IH. rewrite S_INR.
    set (s := rsum _) in *. set (u := f (mid a b n k)) in *. set (p := RInt f a _) in *. set (q := RInt f (part a b n k) _) in *.
    replace (h * (s + u) - (p + q)) with ((h * s - p) + (h * u - q)) by ring. apply Rle_trans with (1 := Rabs_triang _ _). lra.
Qed.
Lemma midpoint_rule f a b n L : a <= b -> (1 <= n)%nat -> 0 <= L -> lipschitz f a b L -> Rabs ((b - a) / INR n * rsum (map f (mids a b n)) - RInt f a b) <= L * (b - a) ^ 2 / (2 * INR n).
Proof.
  intros AB N PL H. assert (C := cells f a b n L AB N PL H n ltac:(lia)). assert (PN := lt_0_INR n ltac:(lia)).
  rewrite firstn_all2 in C by (unfold mids; now rewrite !map_length, seq_length). replace (part a b n n) with b in C by (unfold part; field; lra).
  apply Rle_trans with (1 := C). right. field. lra.
Qed.
