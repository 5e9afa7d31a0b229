(** Integral defuzzifiers over exact extended reals. *)
From Coq Require Import ZArith Reals Bool List Lra Lia.
From Verif Require Import Base Op XR XRFacts NormAlg ShapeFacts Defuzz OrdVal SpecDefuzz DefuzzSelect.
Import ListNotations.
Local Open Scope R_scope.

Section DR.
Context (P : xparam).
#[local] Hint Extern 0 (Scalar xr) => exact (XRScalar P) : typeclass_instances.

Lemma mid_sample a b n i : (1 <= n)%Z -> sample (XFin a) (XFin b) n i = XFin (mid a b (Z.to_nat n) i).
Proof.
  intro N. unfold sample, midpoint, mid. rewrite (x_int P), (x_int P), (x_half P).
  assert (E : IZR n <> 0) by (apply not_0_IZR; lia).
  rewrite (xe_sub P), (xe_div P), !(xe_add P), (xe_mul P), (xe_add P) by auto. f_equal. rewrite !INR_IZR_INZ, Z2Nat.id by lia. reflexivity.
Qed.
Lemma xs_mids a b n : (1 <= n)%Z -> @xs xr (XRScalar P) (XFin a) (XFin b) n = map XFin (mids a b (Z.to_nat n)).
Proof.
  intro N. unfold xs, steps, mids. rewrite map_map. apply map_ext. intro i. exact (mid_sample a b n i N).
Qed.
Lemma mid_in a b n i : (i < n)%nat -> a <= b -> a <= mid a b n i <= b.
Proof.
  intros I L. unfold mid. assert (N : 0 < INR n) by (apply lt_0_INR; lia).
  assert (J : 0 <= INR i) by apply pos_INR. assert (K : INR i + 1 <= INR n) by (rewrite <- S_INR; apply le_INR; lia).
  assert (Q : 0 <= (b - a) / INR n) by (apply Rmult_le_pos; [lra|left; now apply Rinv_0_lt_compat]).
  assert (E : INR n * ((b - a) / INR n) = b - a) by (field; lra).
  split; [assert (0 <= (INR i + 1/2) * ((b-a)/INR n)) by (apply Rmult_le_pos; lra); lra|].
  assert ((INR i + 1/2) * ((b-a)/INR n) <= INR n * ((b - a)/INR n)) by (apply Rmult_le_compat_r; lra). lra.
Qed.
Lemma mids_in a b n x : a <= b -> In x (mids a b n) -> a <= x <= b.
Proof.
  intros L I. unfold mids in I. apply in_map_iff in I. destruct I as (i & <- & I). apply in_seq in I. apply mid_in; auto; lia.
Qed.
Lemma fin_range a b : isFinite (s_add (XFin a) (XFin b)) = true.
Proof. unfold isFinite. rewrite (x_isNaN P). reflexivity. Qed.

Lemma zero_div : s_div (XFin 0) (XFin 0) = XNaN.
Proof. simpl. destruct (Req_EM_T 0 0); [|lra]. unfold xinf_div, xinf_mul. rewrite !Rltb_false by lra. reflexivity. Qed.
(** sums *)
Arguments rsum : simpl never.
Lemma rsum_app l m : rsum (l ++ m) = rsum l + rsum m.
Proof. unfold rsum. induction l; simpl; [lra|]. rewrite IHl. lra. Qed.
Lemma rsum_cons x l : rsum (x :: l) = x + rsum l.
Proof. reflexivity. Qed.
Lemma sum_fold l acc : fold_left s_add (map XFin l) (XFin acc) = XFin (acc + rsum l).
Proof.
  revert acc; induction l; intro acc; simpl. { unfold rsum; simpl. f_equal; lra. }
  rewrite IHl, rsum_cons. f_equal; lra.
Qed.
Lemma mean_real l : l <> [] -> op_mean (map XFin l) = XFin (rmean l).
Proof.
  intro N. unfold op_mean, op_sum. rewrite (x_0 P), sum_fold, (x_int P), map_length.
  rewrite (xe_div P). { unfold rmean. rewrite INR_IZR_INZ, Rplus_0_l. reflexivity. }
  destruct l; [congruence|]. simpl length. apply not_0_IZR. lia.
Qed.
Lemma mean_nil : op_mean (@nil xr) = XNaN.
Proof. unfold op_mean, op_sum. cbn [fold_left length]. rewrite (x_0 P), (x_int P). exact zero_div. Qed.
Lemma rsum_bounds l lo hi : Forall (fun x => lo <= x <= hi) l -> lo * INR (length l) <= rsum l <= hi * INR (length l).
Proof.
  induction 1; [unfold rsum; simpl; lra|]. rewrite rsum_cons. change (length (x :: l)) with (S (length l)). rewrite S_INR. lra.
Qed.
Lemma rmean_bounds l lo hi : l <> [] -> Forall (fun x => lo <= x <= hi) l -> lo <= rmean l <= hi.
Proof.
  intros N F. assert (B := rsum_bounds l lo hi F). unfold rmean.
  assert (0 < INR (length l)) by (apply lt_0_INR; destruct l; simpl; [congruence|lia]).
  split; [apply NormAlg.div_ge_iff|apply NormAlg.div_le_iff]; lra.
Qed.

(** a mean of samples, or of no sample *)
Lemma map_fin_inv l : (exists k, l = map XFin k) \/ exists x, In x l /\ forall r, x <> XFin r.
Proof.
  induction l as [|x l [(k & ->)|(y & I & H)]]; [left; exists []; auto| |right; exists y; simpl; auto].
  destruct x; try (right; eexists; split; [simpl; left; reflexivity|congruence]). left; exists (r :: k); auto.
Qed.
Lemma mean_samples a b n l : a <= b -> (forall x, In x l -> In x (map XFin (mids a b n))) ->
  op_mean l = XNaN \/ exists r, op_mean l = XFin r /\ a <= r <= b.
Proof.
  intros L I. destruct (map_fin_inv l) as [(k & ->)|(x & X & H)].
  - destruct k as [|x k]. { left. apply mean_nil. } right. exists (rmean (x :: k)).
    split; [now apply (mean_real (x :: k))|]. apply rmean_bounds; [congruence|].
    apply Forall_forall. intros z Z. assert (Q : In (XFin z) (map XFin (mids a b n))) by (apply I; now apply in_map).
    apply in_map_iff in Q. destruct Q as (z' & E & Z'). inversion E; subst. eapply mids_in; eauto.
  - apply I in X. apply in_map_iff in X. destruct X as (z & <- & _). now destruct (H z).
Qed.

(** C17: selection defuzzifiers, any membership function *)
Definition nan_or_in (a b : R) (r : xr) := r = XNaN \/ exists z, r = XFin z /\ a <= z <= b.
Lemma in_mids a b n i x : (1 <= n)%Z -> a <= b -> nth_error (@xs xr (XRScalar P) (XFin a) (XFin b) n) i = Some x ->
  exists z, x = XFin z /\ a <= z <= b.
Proof.
  intros N L E. rewrite xs_mids in E by auto. apply nth_error_In in E. apply in_map_iff in E.
  destruct E as (z & <- & I). exists z; split; auto. eapply mids_in; eauto.
Qed.
Lemma som_range mu a b n r : (1 <= n)%Z -> a <= b -> som mu (XFin a) (XFin b) n = Ok r -> nan_or_in a b r.
Proof.
  intros N L E. assert (E2 := E). rewrite som_eq in E2 by apply fin_range.
  destruct (rmapM mu _) as [ys| | |] eqn:R; try discriminate.
  destruct (som_main (ord_val_XR P) mu (XFin a) (XFin b) n ys (fin_range a b) R) as [[_ H]|(i & x & X & H & _)]; rewrite H in E; inversion E; subst.
  - now left. - right. eapply in_mids; eauto.
Qed.
Lemma lom_range mu a b n r : (1 <= n)%Z -> a <= b -> lom mu (XFin a) (XFin b) n = Ok r -> nan_or_in a b r.
Proof.
  intros N L E. assert (E2 := E). rewrite lom_eq in E2 by apply fin_range.
  destruct (rmapM mu _) as [ys| | |] eqn:R; try discriminate.
  destruct (lom_main (ord_val_XR P) mu (XFin a) (XFin b) n ys (fin_range a b) R) as [[_ H]|(i & x & X & H & _)]; rewrite H in E; inversion E; subst.
  - now left. - right. eapply in_mids; eauto.
Qed.
Lemma in_combine_fst {A B} (f : A * B -> bool) l (m : list B) x : In x (map fst (filter f (combine l m))) -> In x l.
Proof.
  intro I. apply in_map_iff in I. destruct I as ((u & w) & <- & I). apply filter_In in I. destruct I as [I _]. simpl.
  eapply in_combine_l; eauto.
Qed.
Lemma mom_range mu a b n r : (1 <= n)%Z -> a <= b -> mom mu (XFin a) (XFin b) n = Ok r -> nan_or_in a b r.
Proof.
  intros N L E. assert (E2 := E). rewrite mom_eq in E2 by apply fin_range.
  destruct (rmapM mu _) as [ys| | |] eqn:R; try discriminate.
  destruct (mom_main (ord_val_XR P) mu (XFin a) (XFin b) n ys (fin_range a b) R) as [[_ H]|(i & y & _ & _ & H)]; rewrite H in E; inversion E; subst.
  - left. exact mean_nil.
  - eapply mean_samples; eauto. intros x X. apply in_combine_fst in X. rewrite xs_mids in X by auto. exact X.
Qed.
Lemma midpoints_mids a b n : (1 <= n)%Z -> midpoints (XFin a) (XFin b) (Z.to_nat n) = map XFin (mids a b (Z.to_nat n)).
Proof.
  intro N. unfold midpoints, mids. rewrite map_map. apply map_ext. intro i.
  rewrite Z2Nat.id by lia. exact (mid_sample a b n i N).
Qed.
Lemma bisector_range mu a b n r : (1 <= n)%Z -> a <= b -> bisector mu (XFin a) (XFin b) n = Ok r -> nan_or_in a b r.
Proof.
  intros N L E. unfold bisector in E. rewrite fin_range in E. simpl negb in E. cbv iota in E.
  replace (Z.ltb n 0) with false in E by (symmetry; apply Z.ltb_ge; lia). cbv zeta in E.
  destruct (rfold _ _ _) as [acc| | |] eqn:R; try discriminate. cbn [rbind] in E.
  apply (f_equal (fun m => match m with Ok v => v | _ => XNaN end)) in E. rewrite <- E. clear E.
  apply (mean_samples a b (Z.to_nat n)); auto. intros x X. apply in_combine_fst in X. rewrite midpoints_mids in X by auto. exact X.
Qed.

(** Centroid with numbers that are nonnegative, infinite or missing *)
Definition nonneg (y : xr) : Prop := match y with XNaN | XPInf => True | XNInf => False | XFin r => 0 <= r end.
Definition cpure (acc : xr * xr) (p : xr * xr) : xr * xr := (s_add (fst acc) (snd p), s_add (snd acc) (s_mul (snd p) (fst p))).
Lemma centroid_eq mu a b n : isFinite (s_add a b) = true ->
  centroid mu a b n = (do ys <- rmapM mu (@xs xr (XRScalar P) a b n);
     let acc := fold_left cpure (combine (@xs xr (XRScalar P) a b n) ys) (s_0, s_0) in Ok (s_div (snd acc) (fst acc))).
Proof.
  intro F. unfold centroid, xs. rewrite F. simpl negb. cbv iota.
  assert (E := rfold_map (fun i => mu (sample a b n i))
     (fun (acc : xr * xr) i y => (s_add (fst acc) y, s_add (snd acc) (s_mul y (sample a b n i)))) (steps n) (s_0, s_0)).
  unfold centroid_step. cbv zeta. etransitivity; [apply (f_equal (fun m => rbind m _) E)|].
  rewrite rmapM_map. destruct (rmapM mu _) as [ys| | |]; cbn [rbind]; auto.
  rewrite combine_map_l, fold_left_map. reflexivity.
Qed.
Definition cinv (a b : R) (acc : xr * xr) : Prop :=
  fst acc = XNaN \/ snd acc = XNaN \/ (fst acc = XPInf /\ (snd acc = XPInf \/ snd acc = XNInf)) \/
  (exists w c, acc = (XFin w, XFin c) /\ 0 <= w /\ a * w <= c <= b * w).
Lemma cinv_step a b acc x y : nonneg y -> a <= x <= b -> cinv a b acc -> cinv a b (cpure acc (XFin x, y)).
Proof.
  intros NY X I. unfold cpure, cinv in *. simpl. destruct acc as [w c]; simpl in *.
  destruct I as [-> |[-> |[[-> I]|(w' & c' & E & W & C)]]]; [left; reflexivity|right; left; reflexivity| |].
  - destruct y as [| | |y]; [left; reflexivity| |destruct NY|].
    + simpl. unfold xinf_mul. destruct (Rltb_spec 0 x); [|destruct (Rltb_spec x 0)]; destruct I as [-> | ->]; simpl; auto 6.
    + destruct I as [-> | ->]; simpl; auto 6.
  - inversion E; subst. destruct y as [| | |y]; [left; reflexivity| |destruct NY|].
    + simpl. unfold xinf_mul. destruct (Rltb_spec 0 x); [|destruct (Rltb_spec x 0)]; simpl; auto 6.
    + simpl in *. right. right. right. exists (w' + y), (c' + y * x). split; auto. split; [lra|]. nra.
Qed.
Lemma cinv_fold a b : forall L acc, Forall (fun p => (exists x, fst p = XFin x /\ a <= x <= b) /\ nonneg (snd p)) L ->
  cinv a b acc -> cinv a b (fold_left cpure L acc).
Proof.
  induction L as [|[x y] L IH]; intros acc F I; simpl; auto. inversion F as [|? ? [(r & E & B) NY] F']; subst.
  apply IH; auto. simpl in E, NY. subst x. now apply cinv_step.
Qed.
Lemma cinv_div a b w c : cinv a b (w, c) -> nan_or_in a b (s_div c w).
Proof.
  unfold cinv; simpl. intros [-> |[-> |[[-> I]|(w' & c' & E & W & C)]]].
  - left. destruct c; reflexivity. - left. reflexivity.
  - left. destruct I as [-> | ->]; reflexivity.
  - inversion E; subst. destruct (Req_EM_T w' 0) as [Z|Z].
    + subst. assert (c' = 0) by lra. subst. left. exact zero_div.
    + right. exists (c' / w'). rewrite (xe_div P) by auto. split; auto.
      split; [apply NormAlg.div_ge_iff|apply NormAlg.div_le_iff]; lra.
Qed.
Lemma rmapM_Forall {A B} (g : A -> res B) (Q : B -> Prop) l ys : rmapM g l = Ok ys ->
  (forall x y, In x l -> g x = Ok y -> Q y) -> Forall Q ys.
Proof.
  revert ys; induction l; simpl; intros ys E H. { inversion E; constructor. }
  destruct (g a) eqn:G; try discriminate. cbn [rbind] in E. destruct (rmapM g l) eqn:R; try discriminate.
  cbn [rbind] in E. inversion E; subst. constructor; eauto.
Qed.
Lemma centroid_range mu a b n r : (1 <= n)%Z -> a <= b ->
  (forall x y, a <= x <= b -> mu (XFin x) = Ok y -> nonneg y) ->
  centroid mu (XFin a) (XFin b) n = Ok r -> nan_or_in a b r.
Proof.
  intros N L NN E. rewrite centroid_eq in E by apply fin_range. rewrite xs_mids in E by auto.
  destruct (rmapM mu _) as [ys| | |] eqn:R; try discriminate. cbn [rbind] in E.
  apply (f_equal (fun m => match m with Ok v => v | _ => XNaN end)) in E. cbv zeta iota beta in E. rewrite <- E.
  set (acc := fold_left _ _ _). destruct acc as [w c] eqn:A. simpl. apply cinv_div. rewrite <- A. unfold acc. apply cinv_fold.
  - assert (FY : Forall nonneg ys).
    { eapply rmapM_Forall; eauto. intros x y I. apply in_map_iff in I. destruct I as (z & <- & I). apply NN. eapply mids_in; eauto. }
    apply Forall_forall. intros [x y] I. simpl. split.
    + apply in_combine_l in I. apply in_map_iff in I. destruct I as (z & <- & I). exists z; split; auto. eapply mids_in; eauto.
    + apply in_combine_r in I. now apply (proj1 (Forall_forall _ _) FY).
  - right. right. right. exists 0, 0. rewrite (x_0 P). split; auto. lra.
Qed.

(** C19 *)
Lemma rmapM_real mu f l : (forall x, In x l -> mu (XFin x) = Ok (XFin (f x))) -> rmapM mu (map XFin l) = Ok (map XFin (map f l)).
Proof.
  induction l; simpl; intro H; auto. rewrite H by auto. cbn [rbind]. rewrite IHl by auto. reflexivity.
Qed.
Lemma cpure_real f l w c : fold_left cpure (combine (map XFin l) (map XFin (map f l))) (XFin w, XFin c) =
  (XFin (w + rsum (map f l)), XFin (c + rsum (map (fun x => x * f x) l))).
Proof.
  revert w c; induction l; intros w c; simpl. { unfold rsum; simpl. f_equal; f_equal; lra. }
  unfold cpure at 2. simpl. rewrite IHl, !rsum_cons. f_equal; f_equal; lra.
Qed.
Definition on (a b : R) (mu : xr -> res xr) (f : R -> R) := forall x, a <= x <= b -> mu (XFin x) = Ok (XFin (f x)).
Lemma centroid_real mu f a b n : (1 <= n)%Z -> a <= b -> on a b mu f ->
  centroid mu (XFin a) (XFin b) n =
  Ok (s_div (XFin (rsum (map (fun x => x * f x) (mids a b (Z.to_nat n))))) (XFin (rsum (map f (mids a b (Z.to_nat n)))))).
Proof.
  intros N L M. rewrite centroid_eq by apply fin_range. rewrite xs_mids by auto.
  rewrite (rmapM_real mu f) by (intros x I; apply M; eapply mids_in; eauto). cbn [rbind]. cbv zeta.
  rewrite (x_0 P), cpure_real. simpl fst. simpl snd. now rewrite !Rplus_0_l.
Qed.
Lemma centroid_mass mu f a b n : (1 <= n)%Z -> a <= b -> on a b mu f -> rsum (map f (mids a b (Z.to_nat n))) <> 0 ->
  centroid mu (XFin a) (XFin b) n = Ok (XFin (center_of_mass f (mids a b (Z.to_nat n)))).
Proof. intros N L M Z. rewrite (centroid_real mu f) by auto. rewrite (xe_div P) by auto. reflexivity. Qed.
Lemma rsum_nonneg l : Forall (fun y => 0 <= y) l -> 0 <= rsum l.
Proof. induction 1; [unfold rsum; simpl; lra|rewrite rsum_cons; lra]. Qed.
Lemma rsum_zero l : Forall (fun y => 0 <= y) l -> rsum l = 0 -> Forall (fun y => y = 0) l.
Proof.
  induction 1; auto. rewrite rsum_cons. intro E. assert (Q := rsum_nonneg l H0). constructor; [lra|]. apply IHForall. lra.
Qed.
Lemma centroid_no_area mu f a b n : (1 <= n)%Z -> a <= b -> on a b mu f -> (forall x, a <= x <= b -> 0 <= f x) ->
  rsum (map f (mids a b (Z.to_nat n))) = 0 -> centroid mu (XFin a) (XFin b) n = Ok XNaN.
Proof.
  intros N L M NN Z. rewrite (centroid_real mu f) by auto. rewrite Z.
  assert (F : Forall (fun y => y = 0) (map f (mids a b (Z.to_nat n)))).
  { apply rsum_zero; auto. apply Forall_forall. intros y I. apply in_map_iff in I. destruct I as (x & <- & I). apply NN. eapply mids_in; eauto. }
  assert (E : rsum (map (fun x => x * f x) (mids a b (Z.to_nat n))) = 0).
  { clear Z. induction (mids a b (Z.to_nat n)); simpl; [reflexivity|]. inversion F; subst. rewrite rsum_cons, H1, IHl by auto. lra. }
  rewrite E. f_equal. exact zero_div.
Qed.
Lemma rsum_ext {A} (f g : A -> R) l : (forall x, In x l -> f x = g x) -> rsum (map f l) = rsum (map g l).
Proof. intro H. induction l; simpl; auto. rewrite !rsum_cons, H, IHl; simpl; auto. intros; apply H; simpl; auto. Qed.
Lemma rsum_scale {A} k (f : A -> R) l : rsum (map (fun x => k * f x) l) = k * rsum (map f l).
Proof. induction l; simpl. { unfold rsum; simpl; lra. } rewrite !rsum_cons, IHl. lra. Qed.
Lemma rsum_plus {A} (f g : A -> R) l : rsum (map (fun x => f x + g x) l) = rsum (map f l) + rsum (map g l).
Proof. induction l; simpl. { unfold rsum; simpl; lra. } rewrite !rsum_cons, IHl. lra. Qed.
Lemma rsum_rev l : rsum (rev l) = rsum l.
Proof. induction l; simpl; auto. rewrite rsum_app, IHl, !rsum_cons. unfold rsum at 2; simpl. lra. Qed.
Lemma mids_rev a b n : map (fun x => a + b - x) (mids a b n) = rev (mids a b n).
Proof.
  unfold mids. rewrite <- map_rev, map_map.
  apply nth_ext with (d := (fun x => a + b - mid a b n x) 0%nat) (d' := mid a b n 0). { rewrite !map_length, rev_length. auto. }
  intros k K. rewrite map_length, seq_length in K. rewrite (map_nth (fun x => a + b - mid a b n x)), (map_nth (mid a b n)).
  rewrite rev_nth, seq_length by now rewrite seq_length. rewrite !seq_nth by lia. simpl.
  unfold mid. assert (INR n <> 0) by (apply not_0_INR; lia). replace (n - S k)%nat with (n - 1 - k)%nat by lia.
  rewrite !minus_INR by lia. simpl. field. auto.
Qed.
Lemma centroid_symmetric mu f a b n : (1 <= n)%Z -> a <= b -> on a b mu f ->
  (forall x, a <= x <= b -> f (a + b - x) = f x) -> rsum (map f (mids a b (Z.to_nat n))) <> 0 ->
  centroid mu (XFin a) (XFin b) n = Ok (XFin ((a + b) / 2)).
Proof.
  intros N L M SY Z. rewrite (centroid_mass mu f) by auto. do 2 f_equal. unfold center_of_mass. set (m := mids a b (Z.to_nat n)) in *.
  assert (E : rsum (map (fun x => x * f x) m) = (a + b) * rsum (map f m) - rsum (map (fun x => x * f x) m)).
  { rewrite <- (rsum_rev (map (fun x => x * f x) m)) at 1. rewrite <- map_rev. unfold m at 1. rewrite <- mids_rev. fold m. rewrite map_map.
    rewrite (rsum_ext _ (fun x => (a + b) * f x + (-1) * (x * f x))).
    - rewrite rsum_plus, !rsum_scale. lra.
    - intros x I. rewrite SY by (eapply mids_in; eauto). ring. }
  apply Rmult_eq_reg_r with (rsum (map f m)); auto. field_simplify; auto. lra.
Qed.
Lemma centroid_scale mu mu' f k a b n : (1 <= n)%Z -> a <= b -> k <> 0 -> on a b mu f -> on a b mu' (fun x => k * f x) ->
  rsum (map f (mids a b (Z.to_nat n))) <> 0 ->
  centroid mu' (XFin a) (XFin b) n = centroid mu (XFin a) (XFin b) n.
Proof.
  intros N L K M M' Z. rewrite (centroid_mass mu f), (centroid_mass mu' _ a b n N L M') by (auto; rewrite rsum_scale; apply Rmult_integral_contrapositive_currified; auto).
  do 2 f_equal. unfold center_of_mass. rewrite rsum_scale.
  rewrite (rsum_ext _ (fun x => k * (x * f x))) by (intros; ring). rewrite rsum_scale. field. auto.
Qed.
Lemma mids_shift a b c n : mids (a + c) (b + c) n = map (fun x => x + c) (mids a b n).
Proof. unfold mids. rewrite map_map. apply map_ext. intro i. unfold mid. replace (b + c - (a + c)) with (b - a) by ring. ring. Qed.
Lemma centroid_shift mu mu' f c a b n : (1 <= n)%Z -> a <= b -> on a b mu f -> on (a + c) (b + c) mu' (fun x => f (x - c)) ->
  rsum (map f (mids a b (Z.to_nat n))) <> 0 ->
  exists r, centroid mu (XFin a) (XFin b) n = Ok (XFin r) /\ centroid mu' (XFin (a + c)) (XFin (b + c)) n = Ok (XFin (r + c)).
Proof.
  intros N L M M' Z. exists (center_of_mass f (mids a b (Z.to_nat n))). split; [now apply centroid_mass|].
  assert (E : forall g, rsum (map g (mids (a + c) (b + c) (Z.to_nat n))) = rsum (map (fun x => g (x + c)) (mids a b (Z.to_nat n)))).
  { intro g. now rewrite mids_shift, map_map. }
  assert (E1 : rsum (map (fun x => f (x - c)) (mids (a + c) (b + c) (Z.to_nat n))) = rsum (map f (mids a b (Z.to_nat n)))).
  { rewrite E. apply rsum_ext. intros. f_equal. ring. }
  rewrite (centroid_mass mu' (fun x => f (x - c))) by (auto; try lra; congruence).
  do 2 f_equal. unfold center_of_mass. rewrite E1, E.
  rewrite (rsum_ext _ (fun x => x * f x + c * f x)). { rewrite rsum_plus, rsum_scale. field. auto. }
  intros x _. replace (x + c - c) with x by ring. ring.
Qed.
End DR.
