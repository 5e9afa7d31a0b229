(** Maximum defuzzifiers over the reals, and the statements of C17-C20 assembled. *)
From Coq Require Import ZArith Reals Bool List Lra Lia Sorted.
From Verif Require Import Base Op XR XRFacts OrdVal Defuzz SpecDefuzz DefuzzSelect DefuzzReal DefuzzBisector.
Import ListNotations.
Local Open Scope R_scope.
Arguments rsum : simpl never.

Lemma filter_nth {A B} (f : nat -> A) (g : B -> bool) (ys : list B) : forall k,
  map fst (filter (fun p => g (snd p)) (combine (map f (seq k (length ys))) ys)) =
  map f (filter (fun i => match nth_error ys (i - k) with Some y => g y | None => false end) (seq k (length ys))).
Proof.
  induction ys as [|y ys IH]; intro k; simpl; auto. rewrite Nat.sub_diag. simpl.
  assert (E : filter (fun i => match nth_error (y :: ys) (i - k) with Some y => g y | None => false end) (seq (S k) (length ys)) =
              filter (fun i => match nth_error ys (i - S k) with Some y => g y | None => false end) (seq (S k) (length ys))).
  { apply filter_ext_in. intros i I. apply in_seq in I. replace (i - k)%nat with (S (i - S k)) by lia. reflexivity. }
  rewrite E. destruct (g y); simpl; rewrite IH; reflexivity.
Qed.
Lemma seq_sorted n : forall k, StronglySorted lt (seq k n).
Proof.
  induction n; intro k; simpl; constructor; auto. apply Forall_forall. intros x I. apply in_seq in I. lia.
Qed.
Lemma filter_sorted (f : nat -> bool) l : StronglySorted lt l -> StronglySorted lt (filter f l).
Proof.
  induction 1; simpl; [constructor|]. destruct (f a); auto. constructor; auto. apply Forall_forall. intros x I.
  apply filter_In in I. rewrite Forall_forall in H0. now apply H0.
Qed.
Lemma max_same ys i j y y' : nth_error ys i = Some y -> is_max_at ys i -> nth_error ys j = Some y' ->
  (is_max_at ys j <-> xeqb y' y = true).
Proof.
  intros N (z & Z & U & M) N'. rewrite N in Z. injection Z as <-. split.
  - intros (z & Z & U' & M'). rewrite N' in Z. injection Z as <-.
    specialize (M j y' N' U'). specialize (M' i y N U). clear -M M' U U'.
    destruct y, y'; simpl in *; try congruence. destruct (Rleb_spec r0 r), (Rleb_spec r r0); try congruence.
    destruct (Reqb_spec r0 r); auto; lra.
  - intro E. apply xeqb_eq in E. destruct E as [-> E]. exists y. repeat split; auto.
Qed.
Lemma mid_mono a b n i j : (i <= j)%nat -> (j < n)%nat -> a <= b -> mid a b n i <= mid a b n j.
Proof.
  intros IJ J L. unfold mid. assert (N : 0 < INR n) by (apply lt_0_INR; lia).
  assert (Q : 0 <= (b - a) / INR n) by (apply Rmult_le_pos; [lra|left; now apply Rinv_0_lt_compat]).
  assert (INR i <= INR j) by now apply le_INR. nra.
Qed.

Section B.
Context (P : xparam).
#[local] Hint Extern 0 (Scalar xr) => exact (XRScalar P) : typeclass_instances.

Lemma maxima_real mu a b n ys : (1 <= n)%Z -> a <= b -> rmapM mu (map XFin (mids a b (Z.to_nat n))) = Ok ys ->
  (exists y, In y ys /\ y <> XNaN /\ y <> XNInf) ->
  exists i k l, let N := Z.to_nat n in
    StronglySorted lt l /\ (forall j, In j l <-> is_max_at ys j) /\
    is_first_max ys i /\ is_last_max ys k /\ l <> [] /\
    som mu (XFin a) (XFin b) n = Ok (XFin (mid a b N i)) /\
    lom mu (XFin a) (XFin b) n = Ok (XFin (mid a b N k)) /\
    mom mu (XFin a) (XFin b) n = Ok (XFin (rmean (map (mid a b N) l))) /\
    mid a b N i <= rmean (map (mid a b N) l) <= mid a b N k.
Proof.
  intros N L RM (y0 & I0 & U0 & F0).
  assert (LEN : length ys = Z.to_nat n). { rewrite (rmapM_length _ _ _ RM), map_length. unfold mids. now rewrite map_length, seq_length. }
  assert (RM' : rmapM mu (@xs xr (XRScalar P) (XFin a) (XFin b) n) = Ok ys) by (rewrite xs_mids; auto).
  apply In_nth_error in I0. destruct I0 as [j0 J0].
  assert (XN : forall i x, nth_error (@xs xr (XRScalar P) (XFin a) (XFin b) n) i = Some x -> (i < Z.to_nat n)%nat /\ x = XFin (mid a b (Z.to_nat n) i)).
  { intros i x E. rewrite xs_mids in E by auto. unfold mids in E. rewrite map_map in E.
    assert (Q : (i < Z.to_nat n)%nat). { assert (Z : nth_error (map (fun x0 => XFin (mid a b (Z.to_nat n) x0)) (seq 0 (Z.to_nat n))) i <> None) by congruence.
      apply nth_error_Some in Z. now rewrite map_length, seq_length in Z. }
    split; auto. rewrite nth_error_map in E. rewrite (nth_error_nth' _ 0%nat) in E by now rewrite seq_length.
    rewrite seq_nth in E by auto. simpl in E. congruence. }
  destruct (som_main (ord_val_XR P) mu (XFin a) (XFin b) n ys (fin_range P a b) RM') as [[Z _]|(i & xi & NI & SI & FI & _)].
  { rewrite map_id in Z. destruct (Z _ _ J0); congruence. }
  destruct (lom_main (ord_val_XR P) mu (XFin a) (XFin b) n ys (fin_range P a b) RM') as [[Z _]|(k & xk & NK & SK & FK)].
  { rewrite map_id in Z. assert (Q := Z _ _ J0). congruence. }
  destruct (mom_main (ord_val_XR P) mu (XFin a) (XFin b) n ys (fin_range P a b) RM') as [[Z _]|(m & y & NM & MM & SM)].
  { rewrite map_id in Z. assert (Q := Z _ _ J0). congruence. }
  rewrite !map_id in *. apply XN in NI, NK. destruct NI as [LI ->], NK as [LK ->].
  set (l := filter (fun i => match nth_error ys i with Some y' => xeqb y' y | None => false end) (seq 0 (Z.to_nat n))).
  assert (IL : forall j, In j l <-> is_max_at ys j).
  { intro j. unfold l. rewrite filter_In, in_seq. split.
    - intros [_ H]. destruct (nth_error ys j) as [y'|] eqn:E; [|discriminate]. now apply (max_same ys m j y y').
    - intro H. assert (H' := H). destruct H' as (y' & E & _). assert (j < length ys)%nat by (apply nth_error_Some; congruence).
      split; [lia|]. rewrite E. now apply (max_same ys m j y y'). }
  assert (NE : l <> []). { intro E. assert (Q : In m l) by now apply IL. rewrite E in Q. destruct Q. }
  exists i, k, l. cbv zeta. split; [apply filter_sorted, seq_sorted|]. split; auto. split; auto. split; auto. split; auto.
  split; auto. split; auto. split.
  - rewrite SM. f_equal. rewrite xs_mids by auto. unfold mids.
    rewrite map_map. replace (Z.to_nat n) with (length ys) by lia.
    assert (FN := filter_nth (fun x => XFin (mid a b (length ys) x)) (fun y' => xeqb y' y) ys 0).
    etransitivity; [apply (f_equal op_mean FN)|]. rewrite <- map_map.
    assert (El : filter (fun i => match nth_error ys (i - 0) with Some y' => xeqb y' y | None => false end) (seq 0 (length ys)) = l).
    { unfold l. rewrite LEN. apply filter_ext. intro. now rewrite Nat.sub_0_r. }
    rewrite El. apply (mean_real P). intro E. apply map_eq_nil in E. auto.
  - apply rmean_bounds. { intro E. apply map_eq_nil in E. auto. }
    apply Forall_forall. intros x X. apply in_map_iff in X. destruct X as (j & <- & J).
    assert (JL : (j < Z.to_nat n)%nat) by (unfold l in J; apply filter_In in J; destruct J as [J _]; apply in_seq in J; lia).
    apply IL in J. split; apply mid_mono; auto.
    + destruct (Nat.le_gt_cases i j); auto. destruct FI as [_ FI]. destruct (FI j); auto.
    + destruct (Nat.le_gt_cases j k); auto. destruct FK as [_ FK]. destruct (FK j); auto.
Qed.

Lemma ranges mu a b n r : (1 <= n)%Z -> a <= b ->
  (som mu (XFin a) (XFin b) n = Ok r \/ lom mu (XFin a) (XFin b) n = Ok r \/ mom mu (XFin a) (XFin b) n = Ok r \/
   bisector mu (XFin a) (XFin b) n = Ok r \/
   (centroid mu (XFin a) (XFin b) n = Ok r /\ forall x y, a <= x <= b -> mu (XFin x) = Ok y -> nonneg y)) ->
  r = XNaN \/ exists z, r = XFin z /\ a <= z <= b.
Proof.
  intros N L [H|[H|[H|[H|[H NN]]]]].
  - eapply som_range; eauto. - eapply lom_range; eauto. - eapply mom_range; eauto. - eapply bisector_range; eauto. - eapply centroid_range; eauto.
Qed.

Lemma bisector_spec mu f a b n : (1 <= n)%Z -> a <= b -> on a b mu f -> (forall x, a <= x <= b -> 0 <= f x) ->
  let ys := map f (mids a b (Z.to_nat n)) in
  (rsum ys = 0 -> bisector mu (XFin a) (XFin b) n = Ok XNaN) /\
  (rsum ys <> 0 -> exists l, l <> [] /\ NoDup l /\ (forall i, In i l <-> least_imbalance ys i) /\
     bisector mu (XFin a) (XFin b) n = Ok (XFin (rmean (map (mid a b (Z.to_nat n)) l))) /\
     forall i M, In i l -> Forall (fun y => y <= M) ys -> Rabs (cumulative ys i - rsum ys / 2) <= M / 2).
Proof.
  intros N L ON NN ys.
  assert (RM : rmapM mu (map XFin (mids a b (Z.to_nat n))) = Ok (map XFin ys)).
  { apply rmapM_real. intros x X. apply ON. eapply mids_in; eauto. }
  assert (G : map fin0 (map XFin ys) = ys) by (rewrite map_map; apply map_id).
  assert (FN : Forall (fun y => 0 <= y) ys).
  { apply Forall_forall. intros y Y. apply in_map_iff in Y. destruct Y as (x & <- & X). apply NN. eapply mids_in; eauto. }
  split; intro Z.
  - eapply bisector_no_area; eauto. rewrite G. now apply rsum_zero.
  - exists (minima ys). assert (NEY : ys <> []) by (intro E; apply Z; rewrite E; reflexivity).
    split; [now apply minima_nonempty|]. split; [apply minima_nodup|]. split; [intro; apply minima_spec|].
    split. { assert (B := bisector_main P mu a b n _ N RM). cbv zeta in B. rewrite G in B. auto. }
    intros i M I F. apply least_balanced; [|assert (Q := rsum_nonneg ys FN); lra|now apply minima_spec].
    rewrite Forall_forall in *. intros y Y. split; auto.
Qed.
End B.
