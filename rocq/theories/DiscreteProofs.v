(** Proofs about Discrete and Linear terms over exact reals. *)
From Coq Require Import ZArith Reals Bool List Lra Lia Psatz Permutation Sorted.
From Verif Require Import Base Op XR XRFacts Discrete SpecTerm SpecDiscrete NormAlg Shape ShapeFacts ShapeRange.
Import ListNotations.
Local Open Scope R_scope.

Definition xpt (p : R * R) : xr * xr := (XFin (fst p), XFin (snd p)).
Lemma fst_xpt p : fst (xpt p) = XFin (fst p). Proof. reflexivity. Qed.
Lemma snd_xpt p : snd (xpt p) = XFin (snd p). Proof. reflexivity. Qed.
Definition xpts (l : list (R * R)) : list (xr * xr) := map xpt l.

(** generic facts about partition points *)
Lemma none_of_spec {A} (p : A -> bool) l : none_of p l = true <-> Forall (fun a => p a = false) l.
Proof.
  induction l; simpl; [split; auto|]. rewrite andb_true_iff, negb_true_iff, IHl. split.
  - intros []; auto.
  - intro H; inversion H; auto.
Qed.
Lemma partition_app {A} (p : A -> bool) l1 l2 : Forall (fun a => p a = true) l1 -> Forall (fun a => p a = false) l2 ->
  partition_point p (l1 ++ l2) = Ok (length l1).
Proof.
  intros H1 H2. induction H1; simpl.
  - destruct l2; auto. simpl. inversion H2; subst. rewrite H1, (proj2 (none_of_spec p l2)); auto.
  - rewrite H, IHForall. reflexivity.
Qed.
(** a list sorted for [p] splits at the partition point *)
Lemma split_sorted {A} (p : A -> bool) l : StronglySorted (fun a b => p b = true -> p a = true) l ->
  exists l1 l2, l = l1 ++ l2 /\ Forall (fun a => p a = true) l1 /\ Forall (fun a => p a = false) l2.
Proof.
  induction 1 as [|a l S IH F].
  - exists [], []; auto.
  - destruct IH as (l1 & l2 & -> & F1 & F2). destruct (p a) eqn:E.
    + exists (a :: l1), l2. auto.
    + exists [], (a :: l1 ++ l2). repeat split; auto. constructor; auto.
      eapply Forall_impl; [|exact F]. simpl. intros b Hb. destruct (p b); auto. discriminate (Hb eq_refl).
Qed.
Lemma sorted_impl {A} (R1 R2 : A -> A -> Prop) l : (forall a b, R1 a b -> R2 a b) -> StronglySorted R1 l -> StronglySorted R2 l.
Proof. intros H. induction 1; constructor; auto. eapply Forall_impl; [|eassumption]. auto. Qed.
Lemma strict_nondec l : strictly_increasing l -> nondecreasing l.
Proof. apply sorted_impl. intros; lra. Qed.
Lemma last_map {A B} (f : A -> B) l d : last (map f l) (f d) = f (last l d).
Proof. induction l as [|a [|b l] IH]; auto. Qed.
Lemma last_in {A} (l : list A) d : l <> [] -> In (last l d) l.
Proof. induction l as [|a [|b l] IH]; [congruence| |]; intros _; [left; reflexivity|]. right. apply IH. congruence. Qed.
Lemma last_app_cons {A} (l1 : list A) a l2 d : last (l1 ++ a :: l2) d = last (a :: l2) d.
Proof. induction l1 as [|b [|c l1] IH]; auto. Qed.
Lemma nondec_last l d : nondecreasing l -> Forall (fun a => fst a <= fst (last l d)) l.
Proof.
  induction 1 as [|a l S IH F]; constructor.
  - destruct l; [simpl; lra|]. rewrite Forall_forall in F. change (last (a :: p :: l) d) with (last (p :: l) d). apply F, last_in. congruence.
  - destruct l; [constructor|]. exact IH.
Qed.

Section D.
Context (P : xparam).
#[local] Hint Extern 0 (Scalar xr) => exact (XRScalar P) : typeclass_instances.
Notation eps := (xp_eps P).
Definition dm (l : list (R * R)) (h x : R) : res xr := disc_membership (xpts l) (XFin h) (XFin x).
Notation dm' := dm.

Lemma nth_xpts l n : nth_error (xpts l) n = option_map xpt (nth_error l n).
Proof. unfold xpts. revert n; induction l; destruct n; simpl; auto. Qed.

(** the possible results *)
Inductive disc_case (l : list (R * R)) (h x : R) : xr -> Prop :=
| dc_front f r : l = f :: r -> x <= fst f \/ x < fst f + eps -> disc_case l h x (XFin (h * snd f))
| dc_back f r b : l = f :: r -> b = last l f -> fst b <= x \/ fst b < x + eps -> disc_case l h x (XFin (h * snd b))
| dc_node pre a b post : l = pre ++ a :: b :: post -> fst a < x <= fst b -> x = fst b \/ Rabs (x - fst b) < eps ->
    disc_case l h x (XFin (h * snd b))
| dc_between pre a b post : l = pre ++ a :: b :: post -> fst a < x < fst b -> x + eps <= fst b ->
    disc_case l h x (XFin (h * ((snd b - snd a) / (fst b - fst a) * (x - fst a) + snd a))).

Lemma disc_cases l h x : l <> [] -> nondecreasing l -> exists v, dm l h x = Ok v /\ disc_case l h x v.
Proof.
  intros NE S. destruct l as [|f r]; [congruence|]. set (l := f :: r) in *.
  assert (B := nondec_last l f S). assert (HD : exists r0, l = f :: r0) by (exists r; reflexivity).
  unfold dm, disc_membership. rewrite xe_isNaN.
  remember (xpts l) as X eqn:HX. destruct X as [|f' r']; [discriminate|].
  assert (EF : f' = xpt f) by (unfold l in HX; injection HX as <- _; reflexivity).
  rewrite HX, EF. clear r' f' HX EF.
  assert (LL : last (xpts l) (xpt f) = xpt (last l f)) by apply last_map. cbv zeta. rewrite LL.
  rewrite !fst_xpt, !snd_xpt.
  destruct (isLE_spec P x (fst f)) as [L|L].
  { eexists; split; [reflexivity|]. econstructor; [reflexivity|auto]. }
  destruct (isGE_spec P x (fst (last l f))) as [G|G].
  { eexists; split; [reflexivity|]. eapply dc_back; [reflexivity|reflexivity|auto]. }
  assert (S1 : StronglySorted (fun a b => Rltb (fst b) x = true -> Rltb (fst a) x = true) l).
  { revert S. apply sorted_impl. intros a b O. destruct (Rltb_spec (fst a) x), (Rltb_spec (fst b) x); auto; lra. }
  destruct (split_sorted (fun a => Rltb (fst a) x) l S1) as (l1 & l2 & E & F1 & F2).
  (* l1 is not empty since the front is below x, l2 is not empty since the last is above *)
  destruct l2 as [|b post].
  { exfalso. rewrite app_nil_r in E. assert (I := last_in l f ltac:(discriminate)). rewrite E, Forall_forall in *.
    specialize (F1 _ I). apply G. destruct (Rltb_spec (fst (last l1 f)) x); [lra|discriminate]. }
  destruct (@exists_last _ l1) as (pre & a & E1).
  { intro N. rewrite N in E. simpl in E. inversion F2; subst. unfold l in E. injection E as -> ->.
    destruct (Rltb_spec (fst b) x); [discriminate|]. lra. }
  rewrite E1 in *. rewrite <- app_assoc in E. simpl in E.
  assert (PP : forall (p : xr * xr -> bool) q, (forall c, p (xpt c) = q c) ->
     Forall (fun c => q c = true) (pre ++ [a]) -> Forall (fun c => q c = false) (b :: post) ->
     partition_point p (xpts l) = Ok (Datatypes.S (length pre))).
  { intros p q Q K1 K2. replace (xpts l) with (xpts (pre ++ [a]) ++ xpts (b :: post)).
    2:{ unfold xpts. rewrite <- map_app, <- app_assoc. exact (f_equal (map xpt) (eq_sym E)). }
    rewrite partition_app.
    - unfold xpts. rewrite map_length, app_length. simpl. f_equal. lia.
    - unfold xpts. rewrite Forall_map. eapply Forall_impl; [|exact K1]. simpl. intros c Hc. now rewrite Q.
    - unfold xpts. rewrite Forall_map. eapply Forall_impl; [|exact K2]. simpl. intros c Hc. now rewrite Q. }
  rewrite (PP _ (fun c => Rltb (fst c) x)); auto. cbn [rbind]. 
  assert (N0 : nth_error l (length pre) = Some a) by (rewrite E, nth_error_app2, Nat.sub_diag; auto).
  assert (N1 : nth_error l (Datatypes.S (length pre)) = Some b).
  { rewrite E, nth_error_app2 by lia. replace (Datatypes.S (length pre) - length pre)%nat with 1%nat by lia. reflexivity. }
  unfold deref at 1. rewrite nth_xpts, N1. cbn [option_map rbind]. rewrite ?fst_xpt, ?snd_xpt.
  assert (A1 : fst a < x).
  { apply Forall_app in F1. destruct F1 as [_ F1]. inversion F1; subst. destruct (Rltb_spec (fst a) x); [auto|discriminate]. }
  assert (B1 : x <= fst b).
  { inversion F2; subst. destruct (Rltb_spec (fst b) x); [discriminate|lra]. }
  destruct (isEq_spec P x (fst b)) as [Q|Q].
  { eexists; split; [reflexivity|]. eapply dc_node; eauto. }
  assert (B2 : x < fst b) by (assert (x <> fst b) by tauto; lra).
  rewrite (PP _ (fun c => negb (Rltb x (fst c)))); auto.
  2:{ eapply Forall_impl; [|exact F1]. simpl. intros c Hc. destruct (Rltb_spec (fst c) x); [|discriminate].
      rewrite Rltb_false by lra. auto. }
  2:{ assert (SB : Forall (fun c => fst b <= fst c) (b :: post)).
      { constructor; [lra|]. assert (SS : nondecreasing (b :: post)).
        { replace l with ((pre ++ [a]) ++ b :: post) in S by (rewrite <- app_assoc; auto).
          clear - S. induction (pre ++ [a]) as [|q l0 IHl0]; auto. apply IHl0. simpl in S. inversion S; auto. }
        inversion SS; auto. }
      eapply Forall_impl; [|exact SB]. simpl. intros c Hc. rewrite Rltb_true by lra. auto. }
  cbn [rbind]. unfold deref. rewrite !nth_xpts, N0, N1. cbn [option_map rbind]. unfold scale. rewrite ?fst_xpt, ?snd_xpt. xe P.
  eexists; split; [reflexivity|]. eapply dc_between; eauto.
  assert (NQ : ~ Rabs (x - fst b) < eps) by tauto. unfold Rabs in NQ. destruct Rcase_abs in NQ; lra.
Qed.

(** no exception and no undefined behaviour *)
Lemma disc_safe l h x : l <> [] -> nondecreasing l -> exists v, dm l h x = Ok (XFin v).
Proof. intros N S. destruct (disc_cases l h x N S) as (v & E & C). destruct C; rewrite E; eauto. Qed.

Lemma poly_left l f r x : l = f :: r -> x <= fst f -> polyline l x = snd f.
Proof. intros -> L. destruct f as [a ya], r as [|[b yb] r]; simpl in *; auto. destruct Rle_dec; [auto|lra]. Qed.
Lemma poly_skip p l x : l <> [] -> (forall a, hd_error l = Some a -> fst p < x /\ fst a <= x) -> polyline (p :: l) x = polyline l x.
Proof.
  intros N H. destruct l as [|[b yb] l]; [congruence|]. destruct p as [a ya]. specialize (H _ eq_refl). simpl in H.
  simpl. destruct Rle_dec, (Rlt_dec x b); lra.
Qed.
Lemma poly_right l f x : strictly_increasing l -> l <> [] -> fst (last l f) <= x -> polyline l x = snd (last l f).
Proof.
  intros S N L. induction S as [|a l S IH F]; [congruence|]. destruct l as [|b l].
  - destruct a; reflexivity.
  - rewrite poly_skip.
    + apply IH; [congruence|exact L].
    + congruence.
    + intros c [= <-]. assert (SB := nondec_last (b :: l) f (strict_nondec _ S)). inversion SB; subst.
      change (last (a :: b :: l) f) with (last (b :: l) f) in L. inversion F; subst. lra.
Qed.
Lemma poly_middle pre a b post x : strictly_increasing (pre ++ a :: b :: post) -> fst a < x < fst b ->
  polyline (pre ++ a :: b :: post) x = (snd a * (fst b - x) + snd b * (x - fst a)) / (fst b - fst a).
Proof.
  intros S I. induction pre as [|c pre IH].
  - destruct a, b; simpl in *. repeat destruct Rle_dec; repeat destruct Rlt_dec; lra.
  - simpl app in *. inversion S; subst. rewrite poly_skip.
    + apply IH; auto.
    + destruct pre; discriminate.
    + intros d Hd. assert (In a (pre ++ a :: b :: post)) by (apply in_or_app; right; left; auto).
      rewrite Forall_forall in H2. pose proof (H2 _ H). split; [lra|].
      destruct pre as [|e pre]; simpl in Hd; injection Hd as <-; [lra|]. simpl in H1. apply StronglySorted_inv in H1. destruct H1 as [_ H6].
      rewrite Forall_forall in H6. assert (fst e < fst a) by (apply H6; apply in_or_app; right; left; auto). lra.
Qed.
Lemma poly_node pre b post x : strictly_increasing (pre ++ b :: post) -> x = fst b -> polyline (pre ++ b :: post) x = snd b.
Proof.
  intros S ->. induction pre as [|c pre IH].
  - simpl app. eapply poly_left; [reflexivity|lra].
  - simpl app in *. inversion S; subst. rewrite poly_skip.
    + apply IH; auto.
    + destruct pre; discriminate.
    + intros d Hd. assert (In b (pre ++ b :: post)) by (apply in_or_app; right; left; auto).
      rewrite Forall_forall in H2. pose proof (H2 _ H). split; [lra|].
      destruct pre as [|e pre]; simpl in Hd; injection Hd as <-; [lra|]. simpl in H1. apply StronglySorted_inv in H1. destruct H1 as [_ H5].
      rewrite Forall_forall in H5. assert (fst e < fst b) by (apply H5; apply in_or_app; right; left; auto). lra.
Qed.

(** away from the tolerance bands the membership is the polyline *)
Lemma disc_polyline l h x : 0 <= eps -> l <> [] -> strictly_increasing l -> Forall (fun p => off eps (fst p) x) l ->
  dm l h x = Ok (XFin (h * polyline l x)).
Proof.
  intros E0 N S O. destruct (disc_cases l h x N (strict_nondec _ S)) as (v & -> & C). f_equal.
  assert (OO : forall p, In p l -> off eps (fst p) x) by (now rewrite Forall_forall in O). clear O.
  destruct C as [f r -> L|f r b El Eb G|pre a b post El I Q|pre a b post El I Q]; do 2 f_equal.
  - symmetry. eapply poly_left; [reflexivity|]. specialize (OO f (or_introl eq_refl)). unfold off, Rabs in OO. destruct Rcase_abs in OO; lra.
  - subst b. symmetry. rewrite poly_right with (f := f); auto.
    assert (In (last l f) l) by (apply last_in; auto). specialize (OO _ H). unfold off, Rabs in OO. destruct Rcase_abs in OO; lra.
  - subst l. assert (x = fst b).
    { destruct Q; auto. specialize (OO b ltac:(apply in_or_app; right; right; left; auto)). unfold off in OO. lra. }
    replace (pre ++ a :: b :: post) with ((pre ++ [a]) ++ b :: post) in * by (now rewrite <- app_assoc).
    symmetry. now apply poly_node.
  - subst l. rewrite poly_middle by auto. field. lra.
Qed.

(** range: the value lies between the least and the greatest y, at every tolerance *)
Lemma disc_range l h x lo hi : l <> [] -> nondecreasing l -> 0 <= h -> Forall (fun p => lo <= snd p <= hi) l ->
  exists v, dm l h x = Ok (XFin v) /\ h * lo <= v <= h * hi.
Proof.
  intros N S H F. destruct (disc_cases l h x N S) as (v & -> & C). rewrite Forall_forall in F.
  destruct C as [f r -> L|f r b El Eb G|pre a b post El I Q|pre a b post El I Q]; eexists; (split; [reflexivity|]).
  - specialize (F f (or_introl eq_refl)). nra.
  - subst b. specialize (F _ (last_in l f N)). nra.
  - subst l. specialize (F b ltac:(apply in_or_app; right; right; left; auto)). nra.
  - subst l. pose proof (F a ltac:(apply in_or_app; right; left; auto)). pose proof (F b ltac:(apply in_or_app; right; right; left; auto)).
    assert (K : lo <= (snd b - snd a) / (fst b - fst a) * (x - fst a) + snd a <= hi); [|nra].
    replace ((snd b - snd a) / (fst b - fst a) * (x - fst a) + snd a) with
      ((snd a * (fst b - x) + snd b * (x - fst a)) / (fst b - fst a)) by (field; lra).
    split; [apply div_ge_iff; try lra; nra|apply div_le_iff; try lra; nra].
Qed.
(** between two neighbours the value lies between their y's, at every tolerance *)
Lemma disc_between pre a b post h x : 0 <= eps -> strictly_increasing (pre ++ a :: b :: post) -> 0 <= h ->
  fst a + eps <= x <= fst b - eps -> fst a < x < fst b ->
  exists v, dm (pre ++ a :: b :: post) h x = Ok (XFin v) /\ h * Rmin (snd a) (snd b) <= v <= h * Rmax (snd a) (snd b).
Proof.
  intros E0 S H G I. rewrite disc_polyline; auto; [|destruct pre; discriminate|].
  - rewrite poly_middle by auto. eexists; split; [reflexivity|].
    assert (K : Rmin (snd a) (snd b) <= (snd a * (fst b - x) + snd b * (x - fst a)) / (fst b - fst a) <= Rmax (snd a) (snd b)); [|nra].
    pose proof (Rmin_l (snd a) (snd b)). pose proof (Rmin_r (snd a) (snd b)).
    pose proof (Rmax_l (snd a) (snd b)). pose proof (Rmax_r (snd a) (snd b)).
    split; [apply div_ge_iff; try lra; nra|apply div_le_iff; try lra; nra].
  - apply Forall_forall. intros p Hp. right. unfold Rabs.
    apply in_app_or in Hp.
    assert (PB : forall q, In q pre -> fst q < fst a).
    { intros q Hq. clear - S Hq. induction pre; [contradiction|]. simpl in S. inversion S; subst. destruct Hq as [->|Hq]; auto.
      rewrite Forall_forall in H2. apply H2. apply in_or_app; right; left; auto. }
    assert (PA : forall q, In q post -> fst b < fst q).
    { intros q Hq. clear - S Hq. induction pre; simpl in S.
      - inversion S; subst. inversion H1; subst. rewrite Forall_forall in H4. auto.
      - inversion S; subst. auto. }
    destruct Rcase_abs; destruct Hp as [Hp|[->|[->|Hp]]]; try lra; try (specialize (PB _ Hp); lra); specialize (PA _ Hp); lra.
Qed.

(** infinite arguments give the end points *)
Lemma disc_inf l h f r : l = f :: r -> 
  disc_membership (xpts l) (XFin h) XNInf = Ok (XFin (h * snd f)) /\
  disc_membership (xpts l) (XFin h) XPInf = Ok (XFin (h * snd (last l f))).
Proof.
  intros ->. unfold disc_membership. rewrite !(x_isNaN P). cbv zeta.
  assert (LL : last (xpts (f :: r)) (xpt f) = xpt (last (f :: r) f)) by apply last_map. 
  change (xpts (f :: r)) with (xpt f :: xpts r) in *. cbv iota. rewrite LL. rewrite ?fst_xpt, ?snd_xpt.
  rewrite (proj1 (proj2 (x_isLE_inf P (fst f)))), (proj1 (proj2 (proj2 (x_isLE_inf P (fst f))))).
  rewrite (proj1 (proj2 (proj2 (x_isGE_inf P (fst (last (f :: r) f)))))). auto.
Qed.
End D.

(** ** conversions (any scalar type) *)
Section Conv.
Context {T : Type} `{S : Scalar T}.
Lemma vec_length (l : list (T * T)) : length (to_vector l) = (2 * length l)%nat.
Proof. induction l; simpl; auto. rewrite IHl. lia. Qed.
Lemma pairs_vec (l : list (T * T)) : to_pairs (to_vector l) = Ok l.
Proof.
  unfold to_pairs. rewrite vec_length. rewrite Nat.odd_mul. simpl. f_equal.
  induction l as [|[a b] l IH]; simpl; auto. now rewrite IH.
Qed.
Lemma loop_even (v : list T) : Nat.even (length v) = true -> to_vector (to_pairs_loop v) = v.
Proof.
  revert v. fix IH 1. intros [|a [|b v]]; simpl; auto.
  - discriminate.
  - intro E. rewrite IH; auto.
Qed.
Lemma vec_pairs (v : list T) : (exists l, to_pairs v = Ok l /\ to_vector l = v) <-> Nat.even (length v) = true.
Proof.
  unfold to_pairs. rewrite <- Nat.negb_even. destruct (Nat.even (length v)) eqn:E; simpl.
  - split; auto. intros _. eexists; split; [reflexivity|]. now apply loop_even.
  - split; [intros (l & H & _)|]; discriminate.
Qed.
Lemma pairs_odd (v : list T) : Nat.odd (length v) = true <-> to_pairs v = Throw EDiscrete.
Proof. unfold to_pairs. destruct (Nat.odd (length v)); split; congruence. Qed.
Lemma pairs_missing (v : list T) m : exists l, to_pairs_missing v m = Ok l /\
   to_vector l = (if Nat.even (length v) then v else v ++ [m]).
Proof.
  unfold to_pairs_missing. destruct (Nat.even (length v)) eqn:E.
  - now apply vec_pairs.
  - apply vec_pairs. rewrite app_length, Nat.even_add, E. reflexivity.
Qed.
End Conv.

(** ** sorting *)
Section Sort.
Context (P : xparam).
#[local] Hint Extern 0 (Scalar xr) => exact (XRScalar P) : typeclass_instances.

Lemma perm_xpts l l' : Permutation (xpts l) l' -> exists k, l' = xpts k /\ Permutation l k.
Proof. intro H. apply Permutation_sym, Permutation_map_inv in H. destruct H as (k & -> & H). exists k. split; auto using Permutation_sym. Qed.
Lemma inv_sorted l : no_inversion (xpts l) <-> nondecreasing l.
Proof.
  split.
  - intro H. induction l as [|a l IH]; constructor.
    + apply IH. intros i j x y L Hi Hj. apply (H (Datatypes.S i) (Datatypes.S j)); auto. lia.
    + apply Forall_forall. intros b Hb. apply In_nth_error in Hb. destruct Hb as [n Hn].
      specialize (H 0%nat (Datatypes.S n) (xpt a) (xpt b)). simpl in H.
      assert (nth_error (xpts l) n = Some (xpt b)) by (rewrite nth_xpts, Hn; auto).
      specialize (H ltac:(lia) eq_refl H0). destruct (Rltb_spec (fst b) (fst a)); [discriminate|lra].
  - intro S. induction S as [|a l S IH F]; intros i j x y L Hi Hj.
    + destruct i; discriminate.
    + destruct j; [lia|]. destruct i.
      * simpl in *. injection Hi as <-. rewrite nth_xpts in Hj. destruct (nth_error l j) eqn:E; [|discriminate].
        simpl in Hj. injection Hj as <-. apply nth_error_In in E. rewrite Forall_forall in F. specialize (F _ E).
        simpl. now apply Rltb_false.
      * simpl in *. apply (IH i j); auto; lia.
Qed.
Lemma sorted_unique l k : NoDup (map fst l) -> Permutation l k -> nondecreasing l -> nondecreasing k -> l = k.
Proof.
  revert k. induction l as [|a l IH]; intros k ND PM S1 S2.
  - apply Permutation_nil in PM. auto.
  - destruct k as [|b k]; [apply Permutation_sym, Permutation_nil in PM; discriminate|].
    inversion S1; subst. inversion S2; subst. inversion ND; subst.
    assert (a = b).
    { assert (In a (b :: k)) by (eapply Permutation_in; [exact PM|left; auto]).
      assert (In b (a :: l)) by (eapply Permutation_in; [apply Permutation_sym; exact PM|left; auto]).
      destruct H as [?|H]; [auto|]. destruct H0 as [?|H0]; [auto|]. exfalso.
      rewrite Forall_forall in H2, H4. specialize (H2 _ H0). specialize (H4 _ H).
      apply H5. replace (fst a) with (fst b) by lra. now apply in_map. }
    subst b. f_equal. apply IH; auto. now apply Permutation_cons_inv in PM.
Qed.
Lemma nondec_strict l : NoDup (map fst l) -> nondecreasing l -> strictly_increasing l.
Proof.
  induction 2 as [|a l S IH F]; constructor; inversion H; subst; auto.
  - now apply IH.
  - apply Forall_forall. intros b Hb. rewrite Forall_forall in F. specialize (F _ Hb).
    assert (fst a <> fst b) by (intro E; apply H2; rewrite E; now apply in_map). lra.
Qed.

Lemma sort_main l m m' : NoDup (map fst l) -> std_sort (xpts l) m -> 
  (exists k, m = xpts k /\ Permutation l k /\ strictly_increasing k) /\
  (forall l', Permutation l l' -> std_sort (xpts l') m' -> m' = m).
Proof.
  intros ND [PM NI]. destruct (perm_xpts l m PM) as (k & -> & PK).
  apply inv_sorted in NI.
  assert (NK : NoDup (map fst k)) by (eapply Permutation_NoDup; [apply Permutation_map, PK|auto]).
  split.
  - exists k. repeat split; auto. now apply nondec_strict.
  - intros l' PL [PM' NI']. destruct (perm_xpts l' m' PM') as (k' & -> & PK'). apply inv_sorted in NI'.
    f_equal. apply sorted_unique; auto.
    + eapply Permutation_NoDup; [|exact NK]. apply Permutation_map.
      transitivity l; [now symmetry|]. transitivity l'; auto.
    + transitivity l'; [now symmetry|]. transitivity l; [now symmetry|auto].
Qed.
(** a sorted permutation exists for every list of points *)
Lemma sort_exists l : exists m, std_sort (xpts l) m.
Proof.
  assert (H : exists k, Permutation l k /\ nondecreasing k).
  { induction l as [|a l (k & PK & SK)]; [exists []; split; constructor|].
    assert (I : exists k', Permutation (a :: k) k' /\ nondecreasing k').
    { clear PK. induction SK as [|b k S IH F]; [exists [a]; split; repeat constructor|].
      destruct (Rle_dec (fst a) (fst b)).
      - exists (a :: b :: k). split; auto. constructor; [constructor; auto|]. constructor; auto.
        eapply Forall_impl; [|exact F]. simpl; intros; lra.
      - destruct IH as (k' & PK & SK). exists (b :: k'). split.
        + rewrite perm_swap. now constructor.
        + constructor; auto. eapply Permutation_Forall; [exact PK|]. constructor; auto. lra. }
    destruct I as (k' & PK' & SK'). exists k'. split; auto. rewrite <- PK'. now constructor. }
  destruct H as (k & PK & SK). exists (xpts k). split; [now apply Permutation_map|now apply inv_sorted].
Qed.
End Sort.
