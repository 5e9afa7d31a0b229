(** Errors of the integral defuzzifiers: the three of maximum, and the bisector. *)
From Coq Require Import ZArith Reals Bool List Lia Lra Sorting.Sorted.
From Coquelicot Require Import Coquelicot.
From Verif Require Import Base Op XR XRFacts Defuzz SpecDefuzz SpecLimit DefuzzReal DefuzzSelect DefuzzBisector DefuzzBundle LimitRiemann LimitProofs.
Import ListNotations.
Local Open Scope R_scope.

Definition max_at (f : R -> R) (a b : R) (n j : nat) : Prop := (j < n)%nat /\ forall m, (m < n)%nat -> f (mid a b n m) <= f (mid a b n j).
Lemma nth_mids (g : R -> xr) a b n j : nth_error (map g (mids a b n)) j = if Nat.ltb j n then Some (g (mid a b n j)) else None.
Proof.
  rewrite nth_error_map. unfold mids. rewrite nth_error_map. destruct (Nat.ltb_spec j n) as [H|H].
  - rewrite (nth_error_nth' (seq 0 n) 0%nat) by now rewrite seq_length. now rewrite seq_nth.
  - rewrite (proj2 (nth_error_None (seq 0 n) j)) by now rewrite seq_length. reflexivity.
Qed.
Lemma max_at_iff f a b n j : is_max_at (map (fun x => XFin (f x)) (mids a b n)) j <-> max_at f a b n j.
Proof.
  unfold is_max_at, max_at. split.
  - intros (y & E & _ & H). rewrite nth_mids in E. destruct (Nat.ltb_spec j n) as [J|J]; [|discriminate]. injection E as <-. split; [exact J|]. intros m M. specialize (H m (XFin (f (mid a b n m)))). rewrite nth_mids, (proj2 (Nat.ltb_lt m n) M) in H. specialize (H eq_refl ltac:(discriminate)). cbn in H. now destruct (Rleb_spec (f (mid a b n m)) (f (mid a b n j))).
  - intros (J & H). exists (XFin (f (mid a b n j))). rewrite nth_mids, (proj2 (Nat.ltb_lt j n) J). split; [reflexivity|]. split; [discriminate|]. intros m y E _. rewrite nth_mids in E. destruct (Nat.ltb_spec m n) as [M|M]; [|discriminate]. injection E as <-. cbn. apply Rleb_true. now apply H.
Qed.
Lemma mid_step a b n i : mid a b n (S i) = mid a b n i + (b - a) / INR n.
Proof. unfold mid. rewrite S_INR. ring. Qed.
Lemma mid_le a b n i j : a <= b -> (1 <= n)%nat -> (i <= j)%nat -> mid a b n i <= mid a b n j.
Proof. intros A N H. unfold mid. assert (PN := lt_0_INR n ltac:(lia)). assert (D : 0 <= (b - a) / INR n) by (apply Rdiv_le_0_compat; lra). assert (Q := le_INR i j H). nra. Qed.
Lemma nearest a b n x : a < b -> (1 <= n)%nat -> a <= x <= b -> exists j, (j < n)%nat /\ Rabs (mid a b n j - x) <= (b - a) / INR n / 2.
Proof.
  intros A N X. assert (PN := lt_0_INR n ltac:(lia)). set (h := (b - a) / INR n). assert (HP : 0 < h) by (apply Rdiv_lt_0_compat; lra). assert (HN : INR n * h = b - a) by (unfold h; field; lra).
  assert (G : forall k, (k <= n)%nat -> a <= x -> x <= part a b n k -> (1 <= k)%nat -> exists j, (j < k)%nat /\ part a b n j <= x <= part a b n (S j)).
  { induction k as [|k IH]; intros K X1 X2 K1; [lia|]. destruct (Rle_dec (part a b n k) x) as [Q|Q]; [exists k; split; [lia|lra]|]. destruct k as [|k]; [exfalso; unfold part in Q; cbn [INR] in Q; lra|]. destruct (IH ltac:(lia) X1 ltac:(lra) ltac:(lia)) as (j & J & R0). exists j. split; [lia|exact R0]. }
  destruct (G n ltac:(lia) ltac:(lra)) as (j & J & Q); [unfold part; fold h; lra|lia|]. exists j. split; [exact J|]. unfold part in Q. rewrite S_INR in Q. fold h in Q. unfold mid. fold h. unfold Rabs. destruct Rcase_abs; lra.
Qed.

Section Maxima.
Variables (P : xparam) (mu : xr -> res xr) (f : R -> R) (a b : R).
Hypothesis ab : a < b.
Hypothesis mu_f : forall x, a <= x <= b -> mu (XFin x) = Ok (XFin (f x)).
Local Notation at_resolution d n := (d xr (XRScalar P) mu (XFin a) (XFin b) (Z.of_nat n)).

Lemma maxima n : (1 <= n)%nat -> exists i k l, max_at f a b n i /\ max_at f a b n k /\ (forall j, (j < i)%nat -> ~ max_at f a b n j) /\ (forall j, (k < j)%nat -> ~ max_at f a b n j) /\
  StronglySorted lt l /\ (forall j, In j l <-> max_at f a b n j) /\ l <> [] /\
  at_resolution (@som) n = Ok (XFin (mid a b n i)) /\ at_resolution (@lom) n = Ok (XFin (mid a b n k)) /\ at_resolution (@mom) n = Ok (XFin (rmean (map (mid a b n) l))).
Proof.
  intro N. destruct (maxima_real P mu a b (Z.of_nat n) (map (fun x => XFin (f x)) (mids a b n))) as (i & k & l & H); [lia|lra| |exists (XFin (f (mid a b n 0))); split; [|split; discriminate]|].
  - rewrite Nat2Z.id. assert (G : forall l, (forall x, In x l -> a <= x <= b) -> rmapM mu (map XFin l) = Ok (map (fun x => XFin (f x)) l)).
    { induction l as [|x l IH]; intro H; [reflexivity|]. cbn [map rmapM]. rewrite mu_f by (apply H; now left). cbn [rbind]. rewrite IH by (intros; apply H; now right). reflexivity. }
    apply G. intros x X. apply (mids_in a b n); [lra|exact X].
  - apply (in_map (fun x => XFin (f x)) _ (mid a b n 0)). unfold mids. apply in_map. apply in_seq. lia.
  - rewrite Nat2Z.id in H. destruct H as (H1 & H2 & [H3 H3'] & [H4 H4'] & H5 & H6 & H7 & H8 & _). exists i, k, l. setoid_rewrite max_at_iff in H2. apply max_at_iff in H3, H4. repeat (split; [try assumption|]); try assumption.
    + intros j J. rewrite <- max_at_iff. now apply H3'.
    + intros j J. rewrite <- max_at_iff. now apply H4'.
Qed.
(** how far the chosen point is from the greatest membership *)
Lemma max_error L n i : lipschitz f a b L -> (1 <= n)%nat -> max_at f a b n i -> forall x, a <= x <= b -> f x <= f (mid a b n i) + L * (b - a) / (2 * INR n).
Proof.
  intros S N [I H] x X. destruct (nearest a b n x ab N X) as (j & J & Q). assert (PN := lt_0_INR n ltac:(lia)). assert (S0 := slope_pos f a b ab L S). assert (D := S x (mid a b n j) X (mid_in a b n j J ltac:(lra))). rewrite (Rabs_minus_sym x) in D.
  assert (E := Rle_abs (f x - f (mid a b n j))). specialize (H j J). assert (L * Rabs (mid a b n j - x) <= L * ((b - a) / INR n / 2)) by (apply Rmult_le_compat_l; assumption). replace (L * (b - a) / (2 * INR n)) with (L * ((b - a) / INR n / 2)) by (field; lra). lra.
Qed.
Lemma highest_error L n : lipschitz f a b L -> (1 <= n)%nat -> exists r s, at_resolution (@som) n = Ok (XFin r) /\ at_resolution (@lom) n = Ok (XFin s) /\
  forall x, a <= x <= b -> f x <= f r + L * (b - a) / (2 * INR n) /\ f x <= f s + L * (b - a) / (2 * INR n).
Proof.
  intros S N. destruct (maxima n N) as (i & k & l & H1 & H2 & _ & _ & _ & _ & _ & E1 & E2 & _). exists (mid a b n i), (mid a b n k). split; [exact E1|]. split; [exact E2|]. intros x X. split; now apply max_error.
Qed.

(** ** a plateau *)
Lemma sorted_same (l m : list nat) : StronglySorted lt l -> StronglySorted lt m -> (forall j, In j l <-> In j m) -> l = m.
Proof.
  intro H. revert m. induction H as [|x l H IH F]; intros m K E.
  - destruct m as [|y m]; [reflexivity|]. destruct (proj2 (E y) (or_introl eq_refl)).
  - destruct K as [|y m K F2]; [destruct (proj1 (E x) (or_introl eq_refl))|]. rewrite Forall_forall in F, F2. assert (x = y).
    { destruct (proj1 (E x) (or_introl eq_refl)) as [->|X]; [reflexivity|]. destruct (proj2 (E y) (or_introl eq_refl)) as [->|Y]; [reflexivity|]. specialize (F y Y). specialize (F2 x X). lia. }
    subst y. f_equal. apply IH; [exact K|]. intro j. split; intro J.
    + destruct (proj1 (E j) (or_intror J)) as [<-|Q]; [|exact Q]. specialize (F x J). lia.
    + destruct (proj2 (E j) (or_intror J)) as [<-|Q]; [|exact Q]. specialize (F2 x J). lia.
Qed.
Lemma seq_strong i d : StronglySorted lt (seq i d).
Proof. revert i. induction d as [|d IH]; intro i; [constructor|]. cbn [seq]. constructor; [apply IH|]. apply Forall_forall. intros x X. apply in_seq in X. lia. Qed.
Lemma progression n i d : rsum (map (mid a b n) (seq i (S d))) = INR (S d) * ((mid a b n i + mid a b n (i + d)) / 2).
Proof.
  induction d as [|d IH].
  - cbn [seq map]. unfold rsum. cbn [fold_right]. rewrite Nat.add_0_r. cbn [INR]. field.
  - rewrite seq_S, map_app, rsum_app, IH. cbn [map]. unfold rsum. cbn [fold_right]. unfold mid. rewrite !plus_INR, !S_INR. set (h := (b - a) / INR n). generalize h, (INR i), (INR d). intros. field.
Qed.
Lemma plateau_error p q n : greatest_on f a b p q -> p < q -> (1 <= n)%nat -> (b - a) / INR n <= q - p ->
  exists r s t, at_resolution (@som) n = Ok (XFin r) /\ at_resolution (@lom) n = Ok (XFin s) /\ at_resolution (@mom) n = Ok (XFin t) /\
    p <= r <= p + (b - a) / INR n /\ q - (b - a) / INR n <= s <= q /\ t = (r + s) / 2.
Proof.
  intros (A1 & A2 & A3 & A4) PQ N HQ. destruct (maxima n N) as (i & k & l & H1 & H2 & F1 & F2 & SS & HL & NL & E1 & E2 & E3). set (h := (b - a) / INR n) in *. assert (PN := lt_0_INR n ltac:(lia)). assert (HP : 0 < h) by (apply Rdiv_lt_0_compat; lra).
  destruct (nearest a b n ((p + q) / 2) ab N ltac:(lra)) as (c & C1 & C2). fold h in C2. assert (CM : p <= mid a b n c <= q) by (unfold Rabs in C2; destruct Rcase_abs in C2; lra).
  assert (K : forall j, max_at f a b n j <-> (j < n)%nat /\ p <= mid a b n j <= q).
  { intro j. split.
    - intros [J M]. split; [exact J|]. specialize (M c C1). rewrite (A3 _ CM) in M. destruct (Rle_dec p (mid a b n j)) as [X|X]; [destruct (Rle_dec (mid a b n j) q) as [Y|Y]; [lra|]|]; (assert (Z := A4 (mid a b n j) (mid_in a b n j J ltac:(lra)) ltac:(lra)); lra).
    - intros [J M]. split; [exact J|]. intros m M'. rewrite (A3 _ M). assert (MI := mid_in a b n m M' ltac:(lra)). destruct (Rle_dec p (mid a b n m)) as [X|X]; [destruct (Rle_dec (mid a b n m) q) as [Y|Y]|]; [rewrite A3; lra| |]; left; apply A4; lra. }
  destruct (proj1 (K i) H1) as [I1 I2]. destruct (proj1 (K k) H2) as [K1 K2]. exists (mid a b n i), (mid a b n k), (rmean (map (mid a b n) l)). split; [exact E1|]. split; [exact E2|]. split; [exact E3|].
  split; [split; [lra|]|split; [split; [|lra]|]].
  - destruct (Rle_dec (mid a b n i) (p + h)) as [X|X]; [exact X|]. exfalso. destruct i as [|i]; [unfold mid in X; fold h in X; cbn [INR] in X; lra|]. rewrite mid_step in I2, X. fold h in I2, X. apply (F1 i); [lia|]. apply K. split; [lia|lra].
  - destruct (Rle_dec (q - h) (mid a b n k)) as [X|X]; [exact X|]. exfalso. apply (F2 (S k)); [lia|]. apply K. rewrite mid_step. fold h. split; [|lra]. destruct (Nat.eq_dec (S k) n) as [Z|Z]; [|lia]. exfalso.
    assert (B : mid a b n k = b - h / 2) by (assert (Q : INR n * h = b - a) by (unfold h; field; lra); assert (NK : INR n = INR k + 1) by (rewrite <- Z; apply S_INR); unfold mid; fold h; rewrite NK in Q; lra). lra.
  - assert (IK : (i <= k)%nat) by (destruct (le_lt_dec i k) as [X|X]; [exact X|]; destruct (F1 k X H2)).
    assert (L : l = seq i (S (k - i))).
    { apply sorted_same; [exact SS|apply seq_strong|]. intro j. rewrite HL, in_seq, K. split.
      - intros (J1 & J2). split.
        + destruct (le_lt_dec i j) as [X|X]; [exact X|]. exfalso. apply (F1 j X). now apply K.
        + destruct (le_lt_dec j k) as [X|X]; [lia|]. exfalso. apply (F2 j X). now apply K.
      - intros [J1 J2]. split; [lia|]. assert (M1 := mid_le a b n i j ltac:(lra) N J1). assert (M2 := mid_le a b n j k ltac:(lra) N ltac:(lia)). lra. }
    rewrite L. unfold rmean. rewrite map_length, seq_length, progression. replace (i + (k - i))%nat with k by lia. field. apply not_0_INR. lia.
Qed.

(** ** a peak *)
Lemma within_continuous : continuous_within f a b -> forall x, continuity_pt (fun x => f (clamp a b x)) x.
Proof.
  intros C x. apply continuity_pt_filterlim. apply filterlim_locally. intro eps. destruct (C (clamp a b x) (clamp_range a b x ltac:(lra)) eps (cond_pos eps)) as (delta & D & H). exists (mkposreal delta D). intros y Y. change (Rabs (y - x) < delta) in Y. change (Rabs (f (clamp a b y) - f (clamp a b x)) < eps).
  apply H; [apply clamp_range; lra|]. apply Rle_lt_trans with (2 := Y). apply clamp_close. lra.
Qed.
Lemma away p eps : continuous_within f a b -> greatest_on f a b p p -> 0 < eps -> exists m, m < f p /\ forall x, a <= x <= b -> m < f x -> p - eps <= x <= p + eps.
Proof.
  intros C (A1 & A2 & A3 & A4) E.
  assert (G : forall c d, a <= c -> d <= b -> (forall x, c <= x <= d -> x <> p) -> exists m, m < f p /\ forall x, c <= x <= d -> f x <= m).
  { intros c d C1 D1 H. destruct (Rle_dec c d) as [Q|Q]; [|exists (f p - 1); split; [lra|intros; lra]]. destruct (continuity_ab_maj (fun x => f (clamp a b x)) c d Q) as (M & M1 & M2); [intros z _; now apply within_continuous|].
    exists (f M). rewrite clamp_in in M1 by lra. split; [apply A4; [lra|]; intro X; apply (H M M2); lra|]. intros x X. specialize (M1 x X). now rewrite clamp_in in M1 by lra. }
  destruct (G a (p - eps) ltac:(lra) ltac:(lra)) as (m1 & B1 & B2); [intros; lra|]. destruct (G (p + eps) b ltac:(lra) ltac:(lra)) as (m2 & D1 & D2); [intros; lra|]. exists (Rmax m1 m2). split; [now apply Rmax_lub_lt|].
  intros x X M. assert (Q1 := Rmax_l m1 m2). assert (Q2 := Rmax_r m1 m2). split; apply Rnot_lt_le; intro Y.
  - specialize (B2 x ltac:(lra)). lra.
  - specialize (D2 x ltac:(lra)). lra.
Qed.
Lemma peak_limit p : continuous_within f a b -> greatest_on f a b p p -> forall eps, 0 < eps -> exists N, forall n, (N <= n)%nat ->
  exists r s t, at_resolution (@som) n = Ok (XFin r) /\ at_resolution (@lom) n = Ok (XFin s) /\ at_resolution (@mom) n = Ok (XFin t) /\ Rabs (r - p) <= eps /\ Rabs (s - p) <= eps /\ Rabs (t - p) <= eps.
Proof.
  intros C G eps E. destruct (away p eps C G E) as (m & M1 & M2). assert (PB : a <= p <= b) by (destruct G as (? & ? & _); lra). destruct (C p PB (f p - m) ltac:(lra)) as (delta & D & H).
  destruct (archimed ((b - a) / delta)) as [K _]. exists (Nat.max 1 (Z.to_nat (up ((b - a) / delta)))). intros n L. assert (N : (1 <= n)%nat) by lia. assert (PN := lt_0_INR n ltac:(lia)).
  destruct (maxima n N) as (i & k & l & H1 & H2 & F1 & F2 & SS & HL & NL & E1 & E2 & E3). destruct (nearest a b n p ab N PB) as (c & C1 & C2).
  assert (HD : (b - a) / INR n < delta).
  { assert (M : (b - a) / delta < INR n).
    { apply Rlt_le_trans with (1 := K). destruct (Z_le_dec 0 (up ((b - a) / delta))) as [Z|Z]; [|apply Rle_trans with 0; [apply IZR_le; lia|apply pos_INR]]. rewrite <- (Z2Nat.id _ Z), <- INR_IZR_INZ. apply le_INR. lia. }
    apply (Rmult_lt_reg_r (INR n)); [lra|]. replace ((b - a) / INR n * INR n) with (b - a) by (field; lra). apply (Rmult_lt_reg_r (/ delta)); [now apply Rinv_0_lt_compat|]. replace (delta * INR n * / delta) with (INR n) by (field; lra). exact M. }
  assert (HP : 0 < (b - a) / INR n) by (apply Rdiv_lt_0_compat; lra). assert (CM := mid_in a b n c C1 ltac:(lra)). assert (V := H (mid a b n c) CM ltac:(lra)).
  assert (W : forall j, max_at f a b n j -> p - eps <= mid a b n j <= p + eps).
  { intros j [J1 J2]. apply M2; [apply mid_in; [exact J1|lra]|]. specialize (J2 c C1). assert (Z := Rle_abs (- (f (mid a b n c) - f p))). rewrite Rabs_Ropp in Z. lra. }
  exists (mid a b n i), (mid a b n k), (rmean (map (mid a b n) l)). split; [exact E1|]. split; [exact E2|]. split; [exact E3|].
  assert (AB : forall z, p - eps <= z <= p + eps -> Rabs (z - p) <= eps) by (intros z Z; unfold Rabs; destruct Rcase_abs; lra). split; [now apply AB, W|]. split; [now apply AB, W|]. apply AB, rmean_bounds.
  - destruct l; [congruence|discriminate].
  - apply Forall_forall. intros z Z. apply in_map_iff in Z. destruct Z as (j & <- & Z). apply W. now apply HL.
Qed.

(** ** bisector *)
Lemma between_mean (l : list R) : l <> [] -> exists x y, In x l /\ In y l /\ x <= rmean l <= y.
Proof.
  intro N. assert (lo : exists x, In x l /\ List.Forall (fun z => x <= z) l).
  { destruct l as [|z l]; [congruence|]. clear N. revert z. induction l as [|w l IH]; intro z; [exists z; split; [now left|]; constructor; [lra|constructor]|]. destruct (IH w) as (x & X1 & X2). destruct (Rle_dec z x) as [Q|Q].
    - exists z. split; [now left|]. constructor; [lra|]. eapply Forall_impl; [|exact X2]. cbn. intros; lra.
    - exists x. split; [now right|]. constructor; [lra|exact X2]. }
  assert (hi : exists x, In x l /\ List.Forall (fun z => z <= x) l).
  { destruct l as [|z l]; [congruence|]. clear N lo. revert z. induction l as [|w l IH]; intro z; [exists z; split; [now left|]; constructor; [lra|constructor]|]. destruct (IH w) as (x & X1 & X2). destruct (Rle_dec x z) as [Q|Q].
    - exists z. split; [now left|]. constructor; [lra|]. eapply Forall_impl; [|exact X2]. cbn. intros; lra.
    - exists x. split; [now right|]. constructor; [lra|exact X2]. }
  destruct lo as (x & X1 & X2). destruct hi as (y & Y1 & Y2). exists x, y. split; [exact X1|]. split; [exact Y1|]. apply rmean_bounds; [exact N|]. rewrite Forall_forall in *. auto.
Qed.
Variables (L B : R).
Hypothesis slope : lipschitz f a b L.
Hypothesis bounds : forall x, a <= x <= b -> 0 <= f x <= B.
Let S0 : 0 <= L := slope_pos f a b ab L slope.
Lemma integrable c d : a <= c -> c <= d -> d <= b -> ex_RInt f c d.
Proof. intros C D E. apply (lipschitz_integrable f c d L D S0). now apply (lipschitz_sub f a b). Qed.
Lemma area_between c d : a <= c -> c <= d -> d <= b -> 0 <= RInt f a d - RInt f a c <= B * (d - c).
Proof.
  intros C D E. assert (Q := RInt_Chasles (V := R_CompleteNormedModule) f a c d (integrable a c ltac:(lra) C ltac:(lra)) (integrable c d C D E)). change (RInt f a c + RInt f c d = RInt f a d) in Q. rewrite <- Q.
  assert (Q1 : 0 <= RInt f c d) by (apply RInt_ge_0; [exact D|now apply integrable|intros x X; apply bounds; lra]).
  assert (Q2 := abs_RInt_le_const f c d B D (integrable c d C D E) ltac:(intros t T; destruct (bounds t ltac:(lra)); rewrite Rabs_pos_eq; lra)). assert (Q3 := Rle_abs (RInt f c d)). lra.
Qed.
Lemma bisector_error n : (1 <= n)%nat -> L * (b - a) ^ 2 < 2 * INR n * area f a b ->
  exists r, at_resolution (@bisector) n = Ok (XFin r) /\ a <= r <= b /\ Rabs (area f a r - area f a b / 2) <= B * (b - a) / INR n + 3 * L * (b - a) ^ 2 / (4 * INR n).
Proof.
  intros N G. assert (PN := lt_0_INR n ltac:(lia)). set (h := (b - a) / INR n). assert (HP : 0 < h) by (apply Rdiv_lt_0_compat; lra). set (K := L * (b - a) ^ 2 / (2 * INR n)).
  assert (E1 := area_error f a b ab L slope n N). fold h in E1. fold K in E1. set (ys := map f (mids a b n)) in *. set (A := area f a b) in *.
  assert (DP : 0 < A - K) by (unfold K; apply (Rmult_lt_reg_r (2 * INR n)); [lra|]; replace ((A - L * (b - a) ^ 2 / (2 * INR n)) * (2 * INR n)) with (2 * INR n * A - L * (b - a) ^ 2) by (field; lra); lra).
  assert (NZ : rsum ys <> 0). { intro Z. rewrite Z in E1. assert (Q := Rle_abs (- (h * 0 - A))). rewrite Rabs_Ropp in Q. lra. }
  destruct (bisector_spec P mu f a b (Z.of_nat n) ltac:(lia) ltac:(lra) mu_f ltac:(intros x X; now destruct (bounds x X))) as [_ Q]. rewrite Nat2Z.id in Q. fold ys in Q. destruct (Q NZ) as (l & NL & _ & HL & E & Q2). clear Q.
  exists (rmean (map (mid a b n) l)). split; [exact E|].
  assert (LY : length ys = n) by (unfold ys, mids; now rewrite !map_length, seq_length).
  assert (W : forall i, In i l -> (i < n)%nat /\ Rabs (area f a (mid a b n i) - A / 2) <= B * h + K + K / 2).
  { intros i I. destruct (proj1 (HL i) I) as [I1 _]. rewrite LY in I1. split; [exact I1|]. assert (M := mid_in a b n i I1 ltac:(lra)). assert (PR := part_range a b n (S i) ltac:(lra) N ltac:(lia)).
    assert (ME : part a b n (S i) = mid a b n i + h / 2) by (unfold part, mid; fold h; rewrite S_INR; lra). assert (T1 := area_between (mid a b n i) (part a b n (S i)) ltac:(lra) ltac:(lra) ltac:(lra)).
    assert (T2 := cells f a b n L ltac:(lra) N S0 slope (S i) ltac:(lia)). fold ys h in T2. change (rsum (firstn (S i) ys)) with (cumulative ys i) in T2.
    assert (T3 := Q2 i B I ltac:(apply Forall_forall; intros y Y; unfold ys in Y; apply in_map_iff in Y; destruct Y as (x & <- & Y); apply bounds; apply (mids_in a b n); [lra|exact Y])).
    assert (KN : INR (S i) * (L * (h * h) / 2) <= K). { unfold K. replace (L * (b - a) ^ 2 / (2 * INR n)) with (INR n * (L * (h * h) / 2)) by (unfold h; field; lra). apply Rmult_le_compat_r; [assert (0 <= L * (h * h)) by (apply Rmult_le_pos; [exact S0|nra]); lra|apply le_INR; lia]. }
    assert (T4 : Rabs (h * cumulative ys i - h * (rsum ys / 2)) <= h * (B / 2)) by (rewrite <- Rmult_minus_distr_l, Rabs_mult, (Rabs_pos_eq h) by lra; apply Rmult_le_compat_l; [lra|exact T3]).
    replace (part a b n (S i) - mid a b n i) with (h / 2) in T1 by lra. unfold area at 1. set (u := RInt f a (mid a b n i)) in *. set (v := RInt f a (part a b n (S i))) in *. set (c := cumulative ys i) in *. set (s := rsum ys) in *.
    apply Rabs_le. assert (T2a := Rle_trans _ _ _ T2 KN). apply Rabs_le_between in T2a, T4, E1.
    lra. }
  split.
  - apply rmean_bounds; [destruct l; [congruence|discriminate]|]. apply Forall_forall. intros z Z. apply in_map_iff in Z. destruct Z as (i & <- & Z). apply mid_in; [now apply W|lra].
  - destruct (between_mean (map (mid a b n) l)) as (x & y & X & Y & Z); [destruct l; [congruence|discriminate]|]. apply in_map_iff in X, Y. destruct X as (i & <- & X), Y as (j & <- & Y). destruct (W i X) as [I1 I2], (W j Y) as [J1 J2].
    assert (MI := mid_in a b n i I1 ltac:(lra)). assert (MJ := mid_in a b n j J1 ltac:(lra)). set (r := rmean (map (mid a b n) l)) in *. assert (T1 := area_between (mid a b n i) r ltac:(lra) ltac:(lra) ltac:(lra)). assert (T2 := area_between r (mid a b n j) ltac:(lra) ltac:(lra) ltac:(lra)).
    replace (B * (b - a) / INR n + 3 * L * (b - a) ^ 2 / (4 * INR n)) with (B * h + K + K / 2) by (unfold h, K; field; lra). unfold area in *. apply Rabs_le_between in I2, J2. apply Rabs_le. lra.
Qed.
End Maxima.
