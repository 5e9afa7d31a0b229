(** Statements assembled for PropDiscrete.v. *)
From Coq Require Import ZArith Reals Bool List Lra Lia Permutation Sorted.
From Verif Require Import Base Op XR XRFacts Discrete SpecTerm SpecDiscrete DiscreteProofs DiscreteProofs2.
Import ListNotations.
Local Open Scope R_scope.

Lemma bd_conv : forall (T : Type),
  (forall l : list (T * T), to_pairs (to_vector l) = Ok l) /\
  (forall v : list T, Nat.odd (length v) = true <-> to_pairs v = Throw EDiscrete) /\
  (forall v : list T, Nat.even (length v) = true <-> exists l, to_pairs v = Ok l /\ to_vector l = v) /\
  (forall (v : list T) m, exists l, to_pairs_missing v m = Ok l /\
     to_vector l = if Nat.even (length v) then v else v ++ [m]).
Proof.
  intro T. split; [intros; apply pairs_vec|]. split; [intros; apply pairs_odd|]. split; [|intros; apply pairs_missing].
  intro v. rewrite vec_pairs. reflexivity.
Qed.
Lemma bd_sort : forall (P : xparam) l, NoDup (map fst l) ->
  exists k, Permutation l k /\ strictly_increasing k /\
    forall l' m, Permutation l l' -> @std_sort xr (XRScalar P) (xpts l') m -> m = xpts k.
Proof.
  intros P l ND. destruct (sort_exists P l) as [m0 H0]. destruct (sort_main P l m0 m0 ND H0) as [(k & -> & PK & SK) _].
  exists k. split; auto. split; auto. intros l' m PL HM. apply (proj2 (sort_main P l (xpts k) m ND H0) l' PL HM).
Qed.
Lemma bd_sort_any : forall (P : xparam) l m, @std_sort xr (XRScalar P) (xpts l) m ->
  exists k, m = xpts k /\ Permutation l k /\ nondecreasing k.
Proof.
  intros P l m [PM NI]. destruct (perm_xpts l m PM) as (k & -> & PK). exists k. repeat split; auto. now apply (inv_sorted P).
Qed.
Lemma bd_discretize : forall (P : xparam) (mu : xr -> res xr) f a b n bd, (1 <= n)%Z -> a < b ->
  (forall r, a <= r <= b -> mu (XFin r) = Ok (XFin (f r))) ->
  exists pts, @discretize xr (XRScalar P) mu (XFin a) (XFin b) n bd = Ok (xpts pts) /\
    Z.of_nat (length pts) = (n + 1)%Z /\ strictly_increasing pts /\
    (exists y, hd_error pts = Some (a, y)) /\ (exists y, nth_error pts (Z.to_nat n) = Some (b, y)) /\
    (forall i, (Z.of_nat i <= n)%Z -> exists x, x = a + IZR (Z.of_nat i) * (b - a) / IZR n /\
       nth_error pts i = Some (x, if bd then Rmin 1 (Rmax 0 (f x)) else f x) /\
       (0 <= xp_eps P -> xp_eps P * IZR n <= b - a ->
          @disc_membership xr (XRScalar P) (xpts pts) (XFin 1) (XFin x) = Ok (XFin (if bd then Rmin 1 (Rmax 0 (f x)) else f x)))).
Proof.
  intros P mu f a b n bd N L M. exists (points f a b n bd). split; [|split; [|split; [|split; [|split]]]].
  - apply discretize_real; auto. intros r [H|H]; apply M; lra.
  - rewrite points_length. lia.
  - now apply points_sorted.
  - eexists. change (hd_error (points f a b n bd)) with (nth_error (points f a b n bd) 0).
    assert (E := points_nth f a b n bd 0 ltac:(lia)). rewrite node_0 in E.
    destruct (points f a b n bd); simpl in *; eauto.
  - eexists. rewrite points_nth by lia. rewrite node_n by auto. reflexivity.
  - intros i I. exists (node a b n i). split; [|split].
    + unfold node. rewrite INR_IZR_INZ. field. apply not_0_IZR. lia.
    + now apply points_nth.
    + intros E0 G. now apply (discretize_agrees P).
Qed.
Lemma bd_nodes : forall (P : xparam) l h i p, 0 <= xp_eps P -> strictly_increasing l ->
  (forall q, In q l -> off (xp_eps P) (fst q) (fst p)) -> nth_error l i = Some p ->
  @disc_membership xr (XRScalar P) (xpts l) (XFin h) (XFin (fst p)) = Ok (XFin (h * snd p)).
Proof.
  intros P l h i p E0 S O N. assert (D := disc_polyline P l h (fst p) E0). unfold dm in D. rewrite D; auto.
  - apply nth_error_split in N. destruct N as (l1 & l2 & -> & _). now rewrite poly_node.
  - intros ->. destruct i; discriminate.
  - now apply Forall_forall.
Qed.
Lemma bd_outside : forall (P : xparam) l h x f r, l = f :: r -> nondecreasing l ->
  (x <= fst f -> @disc_membership xr (XRScalar P) (xpts l) (XFin h) (XFin x) = Ok (XFin (h * snd f))) /\
  (fst f < x -> fst f + xp_eps P <= x -> fst (last l f) <= x -> @disc_membership xr (XRScalar P) (xpts l) (XFin h) (XFin x) = Ok (XFin (h * snd (last l f)))) /\
  @disc_membership xr (XRScalar P) (xpts l) (XFin h) XNInf = Ok (XFin (h * snd f)) /\
  @disc_membership xr (XRScalar P) (xpts l) (XFin h) XPInf = Ok (XFin (h * snd (last l f))).
Proof.
  intros P l h x f r E S. split; [|split; [|now apply disc_inf with r]].
  - intro L. subst l. unfold disc_membership. rewrite (x_isNaN P). simpl xpts. cbv iota. simpl fst. simpl snd.
    destruct (isLE_spec P x (fst f)); [reflexivity|lra].
  - intros F F2 G. subst l. unfold disc_membership. rewrite (x_isNaN P).
    assert (LL : last (xpts (f :: r)) (xpt f) = xpt (last (f :: r) f)) by apply last_map.
    change (xpts (f :: r)) with (xpt f :: xpts r) in *. cbv iota zeta. rewrite LL, !fst_xpt, !snd_xpt.
    destruct (isLE_spec P x (fst f)); [lra|]. destruct (isGE_spec P x (fst (last (f :: r) f))); [reflexivity|lra].
Qed.
Lemma bd_empty : forall (P : xparam) h x, x <> XNaN -> @disc_membership xr (XRScalar P) [] h x = Throw EDiscrete.
Proof. intros P h x N. unfold disc_membership. rewrite (x_isNaN P). destruct x; auto; congruence. Qed.
Lemma bd_constant : forall (T : Type) (v x y : T), const_membership v x = v /\ const_membership v x = const_membership v y.
Proof. split; reflexivity. Qed.
Lemma bd_dot_sum : forall (P : xparam) cs vs,
  @linear_membership xr (XRScalar P) (map XFin cs) (Some (map XFin vs)) =
  Ok (XFin (fold_right Rplus 0 (map (fun i => nth i cs 0 * nth i vs 0) (seq 0 (Nat.min (length cs) (length vs))))
            + intercept cs vs)).
Proof. intros. rewrite <- dot_sum. exact (linear_main P cs vs). Qed.
(** the coefficients strictly between the inputs and the last one play no role *)
Lemma bd_ignored : forall (P : xparam) cs extra c vs, length cs = length vs ->
  @linear_membership xr (XRScalar P) (map XFin (cs ++ extra ++ [c])) (Some (map XFin vs)) =
  Ok (XFin (dot cs vs + c)).
Proof.
  intros P cs extra c vs L. etransitivity; [exact (linear_main P (cs ++ extra ++ [c]) vs)|]. do 2 f_equal. f_equal.
  - revert vs L. induction cs as [|a cs IH]; intros [|v vs] L; simpl in *; try discriminate; auto.
    + destruct (extra ++ [c]); reflexivity.
    + now rewrite IH by congruence.
  - unfold intercept. rewrite !app_length. simpl.
    replace (Nat.ltb (length vs) (length cs + (length extra + 1))) with true by (symmetry; apply Nat.ltb_lt; lia).
    rewrite app_assoc. now rewrite last_last.
Qed.
