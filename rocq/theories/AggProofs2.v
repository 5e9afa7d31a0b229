(** C22: the aggregated membership. *)
From Coq Require Import ZArith Reals Bool List Lra Lia Permutation String.
From Verif Require Import Base Op XR XRFacts Norm NormFacts NormAlg SpecNorm NormProofs NormBundle Defuzz SpecDefuzz DefuzzReal Aggregated SpecAgg AggProofs.
Import ListNotations.
Local Open Scope R_scope.
Arguments rsum : simpl never.

Section Agg.
Context (P : xparam) {A : Type}.
#[local] Hint Extern 0 (Scalar xr) => exact (XRScalar P) : typeclass_instances.
Notation activated := (activated xr A).
Notation Sn := (@snorm_compute xr (XRScalar P)).
Notation Tn := (@tnorm_compute xr (XRScalar P)).

Definition contributes (memb : A -> xr -> res xr) (x : xr) (a : activated) (d : xr) : Prop :=
  exists n m, ac_implication a = Some n /\ memb (ac_term a) x = Ok m /\ degree m /\ degree (ac_degree a) /\ d = Tn n m (ac_degree a).

Lemma contributes_degree memb x a d : contributes memb x a d -> degree d.
Proof. intros (n & m & _ & _ & M & D & ->). now apply T_closed. Qed.
Lemma contributes_value memb x a d : x <> XNaN -> contributes memb x a d -> ac_membership memb a x = Ok d.
Proof.
  intros X (n & m & I & M & _ & _ & ->). unfold ac_membership. rewrite (x_isNaN P). destruct x; try congruence; rewrite I, M; reflexivity.
Qed.
Lemma agg_value memb s l x ds : x <> XNaN -> Forall2 (contributes memb x) l ds ->
  agg_membership memb (Some s) l x = Ok (fold_left (Sn s) ds (XFin 0)).
Proof.
  intros X F. assert (E : forall z, rfold (fun mu a => do m <- ac_membership memb a x; Ok (Sn s mu m)) z l = Ok (fold_left (Sn s) ds z)).
  { induction F as [|a d l ds H F IH]; intro z; [reflexivity|]. simpl rfold. rewrite (contributes_value _ _ _ _ X H). cbn [rbind]. apply IH. }
  unfold agg_membership. rewrite (x_isNaN P). rewrite (x_0 P). destruct x; try congruence; (destruct l; [inversion F; reflexivity|apply E]).
Qed.

Lemma fold_degree s ds z : s <> UnboundedSum -> degree z -> Forall degree ds -> degree (fold_left (Sn s) ds z).
Proof. intros U Z F. revert z Z. induction F; intros z Z; simpl; auto. apply IHF. now apply S_closed. Qed.
Lemma zero_degree : degree (XFin 0). Proof. exists 0; split; auto; lra. Qed.

(** nonnegative reals, for UnboundedSum *)
Definition nonnegative (x : xr) : Prop := exists r, x = XFin r /\ 0 <= r.
Lemma degree_nonneg d : degree d -> nonnegative d. Proof. intros (r & -> & H). exists r; split; auto; lra. Qed.
Lemma unbounded_value ds z : nonnegative z -> Forall nonnegative ds -> exists r, fold_left (Sn UnboundedSum) ds z = XFin r /\ 0 <= r.
Proof.
  intros Z F. revert z Z. induction F; intros z Z; simpl; auto. apply IHF. destruct H as (r & -> & H), Z as (q & -> & Z).
  simpl. exists (q + r); split; auto; lra.
Qed.

Lemma fold_perm (f : xr -> xr -> xr) (D : xr -> Prop) :
  (forall a b, D a -> D b -> D (f a b)) -> (forall z a b, D z -> D a -> D b -> f (f z a) b = f (f z b) a) ->
  forall l l', Permutation l l' -> Forall D l -> forall z, D z -> fold_left f l z = fold_left f l' z.
Proof.
  intros CL SW l l' PE. induction PE; intros F z Z; auto.
  - inversion F; subst. simpl. apply IHPE; auto.
  - inversion F as [|? ? Y F']; subst. inversion F'; subst. simpl. now rewrite SW.
  - rewrite IHPE1, IHPE2; auto. eapply Permutation_Forall; eauto.
Qed.
Lemma s_swap s : 0 <= xp_eps P -> (s = HamacherSum -> xp_eps P = 0) -> s <> UnboundedSum ->
  forall z a b, degree z -> degree a -> degree b -> Sn s (Sn s z a) b = Sn s (Sn s z b) a.
Proof.
  intros E H U z a b Z DA DB. rewrite !S_assoc by auto. f_equal. now apply S_comm.
Qed.
Lemma Forall2_perm {X Y} (R : X -> Y -> Prop) l l' ds : Permutation l l' -> Forall2 R l ds -> exists ds', Permutation ds ds' /\ Forall2 R l' ds'.
Proof.
  intros PE. revert ds. induction PE; intros ds F.
  - inversion F; subst. exists []; auto.
  - inversion F as [|? d ? ds0 H F']; subst. destruct (IHPE _ F') as (ds' & P1 & F1). exists (d :: ds'); split; auto.
  - inversion F as [|? d ? ds0 H F']; subst. inversion F' as [|? d2 ? ds1 H2 F2]; subst. exists (d2 :: d :: ds1). split; [apply perm_swap|auto].
  - destruct (IHPE1 _ F) as (d1 & P1 & F1). destruct (IHPE2 _ F1) as (d2 & P2 & F2). exists d2. split; auto. eapply perm_trans; eauto.
Qed.
Lemma degrees memb x l ds : Forall2 (contributes memb x) l ds -> Forall degree ds.
Proof. induction 1; constructor; auto. eapply contributes_degree; eauto. Qed.

Lemma order_independent memb s l l' x ds : x <> XNaN -> 0 <= xp_eps P -> (s = HamacherSum -> xp_eps P = 0) ->
  Forall2 (contributes memb x) l ds -> Permutation l l' ->
  agg_membership memb (Some s) l' x = agg_membership memb (Some s) l x.
Proof.
  intros X E H F PE. destruct (Forall2_perm _ _ _ _ PE F) as (ds' & PD & F').
  rewrite (agg_value _ _ _ _ _ X F), (agg_value _ _ _ _ _ X F'). f_equal. symmetry.
  assert (D := degrees _ _ _ _ F).
  assert (UD : s = UnboundedSum \/ s <> UnboundedSum) by (destruct s; auto; right; discriminate).
  destruct UD as [-> | U].
  - apply fold_perm with (D := nonnegative); auto.
    + intros a b (r & -> & A0) (q & -> & B0). exists (r + q). simpl. split; auto; lra.
    + intros z a b (r & -> & _) (q & -> & _) (t & -> & _). simpl. f_equal; lra.
    + eapply Forall_impl; [|exact D]. apply degree_nonneg.
    + exists 0; split; auto; lra.
  - apply fold_perm with (D := degree); auto. + intros; now apply S_closed. + now apply s_swap. + apply zero_degree.
Qed.

Lemma fle_trans a b c : fle a b -> fle b c -> fle a c.
Proof. intros (r & s & -> & -> & H) (r' & s' & E & -> & H'). injection E as <-. exists r, s'. repeat split; auto; lra. Qed.
Lemma fle_refl a : nonnegative a -> fle a a.
Proof. intros (r & -> & _). exists r, r. repeat split; auto; lra. Qed.
Lemma s_upper s a b : degree a -> degree b -> fle a (Sn s a b) /\ fle b (Sn s a b).
Proof.
  intros DA DB. assert (M := snorm_above_maximum P s a b DA DB). destruct DA as (p & -> & DA), DB as (q & -> & DB).
  destruct M as (u & w & E1 & E2 & L). rewrite E2. revert E1. rewrite (scompute_fin P) by assumption. simpl. intro E1. injection E1 as <-.
  split; eexists; eexists; (split; [reflexivity|split; [reflexivity|]]); revert L; minmax; lra.
Qed.
Lemma u_upper a b : nonnegative a -> nonnegative b -> fle a (Sn UnboundedSum a b) /\ fle b (Sn UnboundedSum a b).
Proof.
  intros (p & -> & DA) (q & -> & DB). simpl. split; eexists; eexists; (split; [reflexivity|split; [reflexivity|lra]]).
Qed.
Lemma fold_upper s ds : Forall degree ds -> forall z, (if match s with UnboundedSum => true | _ => false end then nonnegative z else degree z) ->
  fle z (fold_left (Sn s) ds z) /\ forall d, In d ds -> fle d (fold_left (Sn s) ds z).
Proof.
  induction 1 as [|d ds D F IH]; intros z Z; simpl.
  - split; [|tauto]. apply fle_refl. destruct s; auto; now apply degree_nonneg.
  - assert (Q : if match s with UnboundedSum => true | _ => false end then nonnegative (Sn s z d) else degree (Sn s z d)).
    { destruct s; try (apply S_closed; [discriminate| |]; assumption). destruct Z as (p & -> & Z), D as (q & -> & D). exists (p + q); simpl; split; auto; lra. }
    assert (B : fle z (Sn s z d) /\ fle d (Sn s z d)) by (destruct s; try (apply s_upper; assumption); apply u_upper; auto; now apply degree_nonneg).
    destruct (IH _ Q) as [I1 I2]. destruct B as [B1 B2]. split; [eapply fle_trans; eauto|].
    intros d' [<- |I]; auto. eapply fle_trans; eauto.
Qed.
Lemma agg_bounds memb s l x ds : x <> XNaN -> Forall2 (contributes memb x) l ds ->
  exists r, agg_membership memb (Some s) l x = Ok (XFin r) /\ 0 <= r /\ (s <> UnboundedSum -> r <= 1) /\
    forall d, In d ds -> fle d (XFin r).
Proof.
  intros X F. rewrite (agg_value _ _ _ _ _ X F). assert (D := degrees _ _ _ _ F).
  assert (Z : if match s with UnboundedSum => true | _ => false end then nonnegative (XFin 0) else degree (XFin 0)).
  { destruct s; try apply zero_degree. exists 0; split; auto; lra. }
  destruct (fold_upper s ds D _ Z) as [(z & r & E0 & E & L) U]. injection E0 as <-. exists r. rewrite E in *.
  repeat split; auto. intro N. destruct (fold_degree s ds (XFin 0) N zero_degree D) as (q & Q & B). rewrite E in Q. injection Q as <-. lra.
Qed.

(** raising activation degrees never lowers the result *)
Lemma fold_mono s ds ds' : 0 <= xp_eps P -> Forall degree ds -> Forall degree ds' -> Forall2 fle ds ds' -> s <> UnboundedSum ->
  forall z z', degree z -> degree z' -> fle z z' -> fle (fold_left (Sn s) ds z) (fold_left (Sn s) ds' z').
Proof.
  intros E F F' L N. induction L; intros z z' Z Z' LZ; simpl; auto. inversion F; inversion F'; subst. apply IHL; auto; try now apply S_closed.
  now apply S_mono.
Qed.
Lemma agg_monotone memb s l l' x ds ds' : x <> XNaN -> 0 <= xp_eps P -> s <> UnboundedSum ->
  Forall2 (contributes memb x) l ds -> Forall2 (contributes memb x) l' ds' ->
  Forall2 (fun a a' => ac_term a = ac_term a' /\ ac_implication a = ac_implication a' /\ fle (ac_degree a) (ac_degree a')) l l' ->
  exists r r', agg_membership memb (Some s) l x = Ok (XFin r) /\ agg_membership memb (Some s) l' x = Ok (XFin r') /\ r <= r'.
Proof.
  intros X E N F F' L. rewrite (agg_value _ _ _ _ _ X F), (agg_value _ _ _ _ _ X F').
  assert (LD : Forall2 fle ds ds').
  { revert ds ds' F F'. induction L as [|a a' l l' (ET & EI & LD) L IH]; intros ds ds' F F'; inversion F; inversion F'; subst; constructor; auto.
    destruct H1 as (n & m & I & M & DM & DD & ->), H6 as (n' & m' & I' & M' & DM' & DD' & ->).
    rewrite EI in I. rewrite I in I'. injection I' as <-. rewrite ET in M. rewrite M in M'. injection M' as <-.
    apply T_mono; auto. apply fle_refl. now apply degree_nonneg. }
  destruct (fold_mono s ds ds' E (degrees _ _ _ _ F) (degrees _ _ _ _ F') LD N (XFin 0) (XFin 0) zero_degree zero_degree) as (r & r' & -> & -> & Q).
  { apply fle_refl, degree_nonneg, zero_degree. }
  eauto.
Qed.
(** NaN and the empty set *)
Lemma agg_nan memb s (l : list activated) : agg_membership memb s l XNaN = Ok XNaN.
Proof. reflexivity. Qed.
End Agg.

(** HamacherSum at the default tolerance depends on the order: degrees a, a, c with a = 1 - 1.2e-6 and c = 1 - 1e-7 *)
Notation Sd := (@snorm_compute xr (XRScalar xp_default)).
Lemma hs_val a b : unit a -> unit b -> 1 - a * b >= / 1000000 -> rS xp_default HamacherSum a b = (a + b - 2 * a * b) / (1 - a * b).
Proof.
  intros Ha Hb H. unfold rS. simpl. destruct Req_EM_T; [lra|]. destruct Rlt_dec as [Q|_]; [revert Q; rabs; lra|]. reflexivity.
Qed.
Lemma hs_cut a b : unit a -> unit b -> 1 - a * b < / 1000000 -> rS xp_default HamacherSum a b = 1.
Proof.
  intros Ha Hb H. unfold rS. simpl. destruct Req_EM_T; auto. destruct Rlt_dec as [Q|Q]; auto. exfalso. apply Q. unfold unit in *. 
  assert (a * b <= 1) by nra. rabs; lra.
Qed.
Definition h_a : R := 1 - 12/10000000.
Definition h_c : R := 1 - 1/10000000.
Lemma hamacher_order_fails :
  fold_left (Sd HamacherSum) [XFin h_a; XFin h_a; XFin h_c] (XFin 0) <> fold_left (Sd HamacherSum) [XFin h_a; XFin h_c; XFin h_a] (XFin 0).
Proof.
  cbn [fold_left].
  assert (UA : unit h_a) by (unfold unit, h_a; lra). assert (UC : unit h_c) by (unfold unit, h_c; lra). assert (U0 : unit 0) by (unfold unit; lra).
  rewrite (scompute_fin _ _ 0 h_a) by auto. rewrite hs_val by (auto; lra).
  replace ((0 + h_a - 2 * 0 * h_a) / (1 - 0 * h_a)) with h_a by (field; lra).
  rewrite (scompute_fin _ _ h_a h_a), (scompute_fin _ _ h_a h_c) by auto.
  rewrite !hs_val by (auto; unfold h_a, h_c; lra).
  set (x := (h_a + h_a - 2 * h_a * h_a) / (1 - h_a * h_a)). set (y := (h_a + h_c - 2 * h_a * h_c) / (1 - h_a * h_c)).
  assert (X : 1 - 61/100000000 <= x <= 1) by (unfold x; split; [apply div_ge_iff|apply div_le_iff]; unfold h_a; lra).
  assert (Y : 0 <= y <= 1 - 9/100000000) by (unfold y; split; [apply div_ge_iff|apply div_le_iff]; unfold h_a, h_c; lra).
  rewrite !(scompute_fin xp_default) by (auto; unfold unit; lra).
  rewrite (hs_cut x h_c) by (auto; unfold unit, h_c in *; lra).
  rewrite (hs_val y h_a) by (auto; unfold unit, h_a in *; lra).
  intro E. injection E as E.
  assert (D : 0 < 1 - y * h_a) by (unfold h_a; lra).
  assert (Q : y + h_a - 2 * y * h_a = 1 - y * h_a). { apply (Rmult_eq_reg_r (/ (1 - y * h_a))); [|apply Rinv_neq_0_compat; lra]. rewrite Rinv_r by lra. exact (eq_sym E). }
  unfold h_a in Q. lra.
Qed.
Lemma hamacher_order_refuted : exists (memb : Datatypes.unit -> xr -> res xr) (l l' : list (activated xr Datatypes.unit)) x r r',
  Permutation l l' /\ agg_membership (S := XRScalar xp_default) memb (Some HamacherSum) l x = Ok r /\
  agg_membership (S := XRScalar xp_default) memb (Some HamacherSum) l' x = Ok r' /\ r <> r' /\
  (exists ds, Forall2 (contributes xp_default memb x) l ds).
Proof.
  set (act := fun d => @mkActivated xr Datatypes.unit tt (XFin d) (Some Minimum)).
  set (memb := fun (_ : Datatypes.unit) (_ : xr) => Ok (XFin 1)).
  assert (C : forall d, 0 <= d <= 1 -> contributes xp_default memb (XFin 0) (act d) (XFin d)).
  { intros d D. exists Minimum, (XFin 1). repeat split; auto. - exists 1; split; auto; lra. - exists d; split; auto.
    - symmetry. etransitivity; [exact (tcompute_fin xp_default Minimum 1 d ltac:(unfold unit; lra) D)|]. simpl. f_equal. minmax. }
  assert (BA : 0 <= h_a <= 1) by (unfold h_a; lra). assert (BC : 0 <= h_c <= 1) by (unfold h_c; lra).
  assert (F1 : Forall2 (contributes xp_default memb (XFin 0)) [act h_a; act h_a; act h_c] [XFin h_a; XFin h_a; XFin h_c]) by (repeat constructor; auto).
  assert (F2 : Forall2 (contributes xp_default memb (XFin 0)) [act h_a; act h_c; act h_a] [XFin h_a; XFin h_c; XFin h_a]) by (repeat constructor; auto).
  exists memb, [act h_a; act h_a; act h_c], [act h_a; act h_c; act h_a], (XFin 0). do 2 eexists.
  split; [constructor; apply perm_swap|].
  assert (X : XFin 0 <> XNaN) by discriminate.
  split; [exact (agg_value _ _ _ _ _ _ X F1)|]. split; [exact (agg_value _ _ _ _ _ _ X F2)|].
  split; [exact hamacher_order_fails|]. eauto.
Qed.
