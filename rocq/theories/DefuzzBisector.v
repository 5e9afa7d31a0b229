(** Bisector over exact extended reals. *)
From Coq Require Import ZArith Reals Bool List Lra Lia.
From Verif Require Import Base Op XR XRFacts NormAlg ShapeFacts Defuzz OrdVal SpecDefuzz DefuzzSelect DefuzzReal.
Import ListNotations.
Local Open Scope R_scope.

(** the code skips samples that are not finite *)
Definition fin0 (y : xr) : R := match y with XFin r => r | _ => 0 end.

Lemma cum_app gs g i : (i < length gs)%nat -> cumulative (gs ++ [g]) i = cumulative gs i.
Proof. intro I. unfold cumulative. rewrite firstn_app. replace (S i - length gs)%nat with 0%nat by lia. now rewrite app_nil_r. Qed.
Lemma cum_last gs i : (S i = length gs)%nat -> cumulative gs i = rsum gs.
Proof. intro I. unfold cumulative. rewrite I, firstn_all. reflexivity. Qed.
Definition cums (gs : list R) : list R := map (cumulative gs) (seq 0 (length gs)).
Lemma cums_app gs g : cums (gs ++ [g]) = cums gs ++ [rsum gs + g].
Proof.
  unfold cums. rewrite app_length. simpl. rewrite Nat.add_1_r, seq_S, map_app. simpl. f_equal.
  - apply map_ext_in. intros i I. apply in_seq in I. apply cum_app. lia.
  - f_equal. rewrite cum_last by (rewrite app_length; simpl; lia). rewrite rsum_app. unfold rsum at 2; simpl. lra.
Qed.
Lemma cum_S gs i g : nth_error gs (S i) = Some g -> cumulative gs (S i) = cumulative gs i + g.
Proof.
  unfold cumulative. revert i. induction gs as [|x gs IH]; intros i N; [discriminate|].
  simpl in N. change (firstn (S (S i)) (x :: gs)) with (x :: firstn (S i) gs). change (firstn (S i) (x :: gs)) with (x :: firstn i gs).
  rewrite !rsum_cons. destruct i.
  - destruct gs; inversion N; subst. simpl. unfold rsum; simpl. lra.
  - rewrite (IH i N). lra.
Qed.
Lemma cum_0 gs g : nth_error gs 0 = Some g -> cumulative gs 0 = g.
Proof. destruct gs; intro N; inversion N; subst. unfold cumulative; simpl. unfold rsum; simpl; lra. Qed.

(** a sample at which the area is halved up to half a sample *)
Lemma halving_point gs c h : c < h -> h <= c + rsum gs ->
  exists j g, nth_error gs j = Some g /\ h <= c + cumulative gs j /\ c + cumulative gs j - g < h.
Proof.
  revert c. induction gs as [|x gs IH]; intros c L U. { unfold rsum in U; simpl in U. lra. }
  rewrite rsum_cons in U. destruct (Rle_dec h (c + x)) as [D|D].
  - exists 0%nat, x. split; auto. rewrite (cum_0 (x :: gs) x) by auto. lra.
  - destruct (IH (c + x)) as (j & g & N & A & B); [lra|lra|]. exists (S j), g. split; auto.
    assert (E : cumulative (x :: gs) (S j) = x + cumulative gs j) by reflexivity. lra.
Qed.
Lemma cum_nonneg gs i : Forall (fun y => 0 <= y) gs -> 0 <= cumulative gs i.
Proof. intro F. apply rsum_nonneg. apply Forall_forall. intros y I. apply (proj1 (Forall_forall _ _) F). rewrite <- (firstn_skipn (S i) gs). apply in_or_app; now left. Qed.
Lemma nth_le_sum gs j g : Forall (fun y => 0 <= y) gs -> nth_error gs j = Some g -> 0 <= g <= rsum gs.
Proof.
  intros F. revert j. induction F; intros j N; [destruct j; discriminate|]. rewrite rsum_cons. assert (Q := rsum_nonneg l F).
  destruct j; simpl in N; [inversion N; subst; lra|]. apply IHF in N. lra.
Qed.
Lemma balanced gs M : Forall (fun y => 0 <= y <= M) gs -> 0 < rsum gs ->
  exists j, (j < length gs)%nat /\ Rabs (cumulative gs j - rsum gs / 2) <= M / 2.
Proof.
  intros F Z. assert (F0 : Forall (fun y => 0 <= y) gs) by (eapply Forall_impl; [|exact F]; simpl; intros; lra).
  destruct (halving_point gs 0 (rsum gs / 2)) as (j & g & N & A & B); [lra|lra|].
  assert (J : (j < length gs)%nat) by (apply nth_error_Some; congruence).
  assert (G : 0 <= g <= M) by (apply (proj1 (Forall_forall _ _) F); eapply nth_error_In; eauto).
  assert (GS := nth_le_sum gs j g F0 N).
  destruct j as [|j].
  - exists 0%nat. split; auto. rewrite (cum_0 gs g N) in *. apply Rabs_le. lra.
  - rewrite (cum_S gs j g N) in A, B. destruct (Rle_dec (cumulative gs j + g - rsum gs / 2) (g / 2)) as [D|D].
    + exists (S j). split; auto. rewrite (cum_S gs j g N). apply Rabs_le. lra.
    + exists j. split; [lia|]. apply Rabs_le. lra.
Qed.
Lemma least_balanced gs M i : Forall (fun y => 0 <= y <= M) gs -> 0 < rsum gs -> least_imbalance gs i ->
  Rabs (cumulative gs i - rsum gs / 2) <= M / 2.
Proof.
  intros F Z [I L]. destruct (balanced gs M F Z) as (j & J & B). assert (Q := L j J). unfold imbalance in Q.
  assert (E : forall k, Rabs (cumulative gs k - rsum gs / 2) = rsum gs * Rabs (cumulative gs k / rsum gs - 1/2)).
  { intro k. rewrite <- (Rabs_pos_eq (rsum gs)) at 2 by lra. rewrite <- Rabs_mult. f_equal. field. lra. }
  rewrite E in *. assert (rsum gs * Rabs (cumulative gs i / rsum gs - 1/2) <= rsum gs * Rabs (cumulative gs j / rsum gs - 1/2))
    by (apply Rmult_le_compat_l; lra). lra.
Qed.

Section Bi.
Context (P : xparam).
#[local] Hint Extern 0 (Scalar xr) => exact (XRScalar P) : typeclass_instances.

Definition bpure (acc : xr * list xr) (p : xr * xr) : xr * list xr :=
  let sum := if isFinite (snd p) then s_add (fst acc) (snd p) else fst acc in (sum, snd acc ++ [sum]).
Lemma isFinite_spec y : isFinite y = match y with XFin _ => true | _ => false end.
Proof. unfold isFinite. rewrite (x_isNaN P). destruct y; reflexivity. Qed.
Lemma bpure_real ys : forall l : list xr, length l = length ys ->
  fold_left bpure (combine l ys) (XFin 0, []) = (XFin (rsum (map fin0 ys)), map XFin (cums (map fin0 ys))).
Proof.
  induction ys as [|y ys IH] using rev_ind; intros l L.
  { destruct l; [|discriminate]. reflexivity. }
  destruct l as [|x l _] using rev_ind. { rewrite app_length in L; simpl in L; lia. }
  rewrite !app_length in L; simpl in L. assert (L' : length l = length ys) by lia.
  assert (C : combine (l ++ [x]) (ys ++ [y]) = combine l ys ++ [(x, y)]).
  { clear -L'. revert ys L'; induction l; intros [|? ys] L'; simpl in *; try discriminate; auto. f_equal. apply IHl. lia. }
  rewrite C, fold_left_app, IH by auto. simpl fold_left. unfold bpure. simpl snd. simpl fst. rewrite isFinite_spec.
  rewrite !map_app. change (map fin0 [y]) with [fin0 y]. rewrite rsum_app.
  assert (RS : rsum [fin0 y] = fin0 y) by (unfold rsum; simpl; lra). rewrite RS.
  rewrite cums_app, map_app.
  destruct y; simpl; rewrite ?Rplus_0_r; reflexivity.
Qed.
Lemma bisector_eq mu a b n : (1 <= n)%Z ->
  bisector mu (XFin a) (XFin b) n = (do ys <- rmapM mu (map XFin (mids a b (Z.to_nat n)));
   let gs := map fin0 ys in
   let dist := map (fun c => s_abs (s_sub (s_div (XFin c) (XFin (rsum gs))) s_half)) (cums gs) in
   let least := fold_left (fun m d => if s_ltb d m then d else m) dist s_inf in
   Ok (op_mean (map fst (filter (fun p => s_eqb least (snd p)) (combine (map XFin (mids a b (Z.to_nat n))) dist))))).
Proof.
  intro N. unfold bisector. rewrite (fin_range P). simpl negb. cbv iota.
  replace (Z.ltb n 0) with false by (symmetry; apply Z.ltb_ge; lia). rewrite (midpoints_mids P) by auto.
  set (l := map XFin (mids a b (Z.to_nat n))).
  assert (E := rfold_map mu (fun (acc : xr * list xr) (x : xr) y =>
      let sum := if isFinite y then s_add (fst acc) y else fst acc in (sum, snd acc ++ [sum])) l (s_0, [])).
  unfold bisector_step. cbv zeta. etransitivity; [apply (f_equal (fun m => rbind m _) E)|].
  destruct (rmapM mu l) as [ys| | |] eqn:R; cbn [rbind]; auto.
  assert (L := rmapM_length _ _ _ R). f_equal.
  change (fold_left _ (combine l ys) (s_0, [])) with (fold_left bpure (combine l ys) (s_0, [])).
  rewrite (x_0 P). rewrite bpure_real by auto. simpl fst. simpl snd. rewrite map_map. reflexivity.
Qed.

Lemma bisector_no_area mu a b n ys : (1 <= n)%Z -> rmapM mu (map XFin (mids a b (Z.to_nat n))) = Ok ys ->
  Forall (fun y => y = 0) (map fin0 ys) -> bisector mu (XFin a) (XFin b) n = Ok XNaN.
Proof.
  intros N RM F. rewrite bisector_eq by auto. rewrite RM. cbn [rbind]. cbv zeta. set (gs := map fin0 ys) in *.
  assert (FZ : Forall (fun y => 0 <= y) gs) by (eapply Forall_impl; [|exact F]; simpl; intros; lra).
  assert (Z : forall l, Forall (fun y : R => y = 0) l -> rsum l = 0).
  { induction 1; [reflexivity|]. rewrite rsum_cons. lra. }
  assert (D : map (fun c => s_abs (s_sub (s_div (XFin c) (XFin (rsum gs))) s_half)) (cums gs) = map (fun _ => XNaN) (cums gs)).
  { apply map_ext_in. intros c I. unfold cums in I. apply in_map_iff in I. destruct I as (i & <- & I).
    replace (cumulative gs i) with 0. 2:{ symmetry. apply Z. apply Forall_forall. intros y Y. apply (proj1 (Forall_forall _ _) F).
      rewrite <- (firstn_skipn (S i) gs). apply in_or_app; now left. }
    rewrite (Z gs F). rewrite (zero_div P). reflexivity. }
  rewrite D. f_equal.
  assert (LST : forall k (c : list R), fold_left (fun m d : xr => if s_ltb d m then d else m) (map (fun _ => XNaN) c) k = k).
  { intros k c; revert k; induction c; intro k; simpl; auto. }
  rewrite LST. rewrite filter_none. { apply (mean_nil P). }
  intros [u w] I. apply in_combine_r in I. apply in_map_iff in I. destruct I as (c & <- & _). reflexivity.
Qed.

(** minimum of a list of reals by the code's loop *)
Lemma least_real ds k : fold_left (fun m d : xr => if s_ltb d m then d else m) (map XFin ds) (XFin k) =
  XFin (fold_left Rmin ds k).
Proof.
  revert k; induction ds; intro k; simpl; auto. destruct (Rltb_spec a k); rewrite IHds; do 2 f_equal; unfold Rmin; destruct Rle_dec; lra.
Qed.
Lemma fold_min_le ds k : fold_left Rmin ds k <= k /\ forall d, In d ds -> fold_left Rmin ds k <= d.
Proof.
  revert k; induction ds; intro k; simpl. { split; [lra|tauto]. }
  destruct (IHds (Rmin k a)) as [A B]. assert (Rmin k a <= k) by apply Rmin_l. assert (Rmin k a <= a) by apply Rmin_r.
  split; [lra|]. intros d [<- |I]; [lra|auto].
Qed.
Lemma fold_min_in ds k : fold_left Rmin ds k = k \/ In (fold_left Rmin ds k) ds.
Proof.
  revert k; induction ds; intro k; simpl; auto. destruct (IHds (Rmin k a)) as [E|I]; auto.
  rewrite E. unfold Rmin. destruct Rle_dec; auto.
Qed.
Definition minima (gs : list R) : list nat :=
  match map (imbalance gs) (seq 0 (length gs)) with
  | [] => [] | d :: ds => filter (fun i => Reqb (fold_left Rmin ds d) (imbalance gs i)) (seq 0 (length gs)) end.
Lemma minima_spec gs i : In i (minima gs) <-> least_imbalance gs i.
Proof.
  unfold minima, least_imbalance. destruct (map (imbalance gs) (seq 0 (length gs))) as [|d ds] eqn:E.
  { destruct gs; [|discriminate]. simpl. split; [tauto|]. intros [? _]; lia. }
  rewrite filter_In, in_seq.
  assert (IN : forall j, (j < length gs)%nat -> In (imbalance gs j) (d :: ds)).
  { intros j J. rewrite <- E. apply in_map. apply in_seq. lia. }
  assert (LE : forall z, In z (d :: ds) -> fold_left Rmin ds d <= z).
  { intros z [<- |I]; [apply (proj1 (fold_min_le ds d))|now apply (proj2 (fold_min_le ds d))]. }
  assert (AT : In (fold_left Rmin ds d) (d :: ds)) by (destruct (fold_min_in ds d) as [->|I]; simpl; auto).
  rewrite <- E in AT. apply in_map_iff in AT. destruct AT as (m & AT & M). apply in_seq in M.
  destruct (Reqb_spec (fold_left Rmin ds d) (imbalance gs i)) as [Q|Q]; split.
  - intros [I _]. split; [lia|]. intros j J. rewrite <- Q. apply LE. auto.
  - intros [I _]. split; [lia|auto].
  - intros [_ H]; discriminate.
  - intros [I L]. exfalso. apply Q. apply Rle_antisym; [apply LE; apply IN; lia|]. rewrite <- AT. apply L. lia.
Qed.
Lemma minima_nonempty gs : gs <> [] -> minima gs <> [].
Proof.
  intros G. unfold minima. destruct (map (imbalance gs) (seq 0 (length gs))) as [|d ds] eqn:E.
  { destruct gs; [congruence|discriminate]. }
  assert (AT : In (fold_left Rmin ds d) (d :: ds)) by (destruct (fold_min_in ds d) as [->|I]; simpl; auto).
  rewrite <- E in AT. apply in_map_iff in AT. destruct AT as (m & AT & M). intro Z.
  assert (Q : In m []). { rewrite <- Z. apply filter_In. split; auto. rewrite AT. apply Reqb_refl. } destruct Q.
Qed.
Lemma minima_nodup gs : NoDup (minima gs).
Proof. unfold minima. destruct (map _ _); [constructor|]. apply NoDup_filter, seq_NoDup. Qed.

Lemma filter_combine {A} (f : nat -> A) (h : nat -> R) (c : R) l :
  map fst (filter (fun p => s_eqb (XFin c) (snd p)) (combine (map (fun i => f i) l) (map (fun i => XFin (h i)) l))) =
  map f (filter (fun i => Reqb c (h i)) l).
Proof. induction l; [reflexivity|]. cbn [map combine filter snd]. change (s_eqb (XFin c) (XFin (h a))) with (Reqb c (h a)). destruct (Reqb c (h a)); cbn [map fst]; now rewrite IHl. Qed.

Lemma bisector_main mu a b n ys : (1 <= n)%Z -> rmapM mu (map XFin (mids a b (Z.to_nat n))) = Ok ys ->
  let gs := map fin0 ys in rsum gs <> 0 ->
  bisector mu (XFin a) (XFin b) n = Ok (XFin (rmean (map (mid a b (Z.to_nat n)) (minima gs)))).
Proof.
  intros N RM gs Z. rewrite bisector_eq by auto. rewrite RM. cbn [rbind]. cbv zeta. fold gs.
  assert (LEN : length gs = Z.to_nat n). { unfold gs. rewrite map_length, (rmapM_length _ _ _ RM), map_length. unfold mids. now rewrite map_length, seq_length. }
  assert (D : map (fun c => s_abs (s_sub (s_div (XFin c) (XFin (rsum gs))) s_half)) (cums gs) = map (fun i => XFin (imbalance gs i)) (seq 0 (length gs))).
  { unfold cums. rewrite map_map. apply map_ext. intro i. rewrite (xe_div P) by auto. rewrite (x_half P). reflexivity. }
  rewrite D. f_equal. rewrite <- mean_real with (P := P).
  2:{ intro E. apply map_eq_nil in E. revert E. apply minima_nonempty. intro E. rewrite E in LEN. simpl in LEN. lia. }
  unfold minima. rewrite <- (map_map (imbalance gs) XFin).
  destruct (map (imbalance gs) (seq 0 (length gs))) as [|d ds] eqn:E.
  { destruct gs; [simpl in LEN; lia|discriminate]. }
  assert (LST : fold_left (fun m d0 : xr => if s_ltb d0 m then d0 else m) (map XFin (d :: ds)) s_inf = XFin (fold_left Rmin ds d)).
  { simpl map. simpl fold_left. exact (least_real ds d). }
  rewrite LST. rewrite <- E, map_map. unfold mids. rewrite map_map, <- LEN.
  rewrite (filter_combine (fun i => XFin (mid a b (length gs) i))). now rewrite map_map.
Qed.
End Bi.
