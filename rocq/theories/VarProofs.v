(** Proofs about variables. *)
From Coq Require Import ZArith String List Bool Permutation Lia Reals Lra.
From Flocq Require Import IEEE754.BinarySingleNaN.
From Verif Require Import Base Op XR XRFacts F64 F64Facts OpProofs OpProofs2 Norm Discrete Defuzz Aggregated Function Rule Var SpecVar Activation SpecActivation ActivationProofs2 ActivationProofs3.
Import ListNotations.

(** ** bound, for numbers with a sane order *)
Section Sane.
Context {T : Type} `{S : Scalar T}.
(** what is used of the order of numbers *)
Definition sane_order : Prop :=
  (forall x lo hi : T, (lo <=? hi)%S = true ->
    isNaN (bound x lo hi) = true \/ (lo <=? bound x lo hi)%S = true /\ (bound x lo hi <=? hi)%S = true) /\
  (forall x lo hi : T, isNaN x = true -> (lo <=? hi)%S = true -> isNaN (bound x lo hi) = true).
Hypothesis B : sane_order.
Lemma set_value_in x (v : variable T) : in_range (set_value x v).
Proof. intros L M. cbn in *. rewrite L. apply (proj1 B). exact M. Qed.
Lemma settle_in y (o : output T) : in_range (o_var (settle y o)).
Proof. apply set_value_in. Qed.
Lemma clear_in (o : output T) : in_range (o_var (clear_output o)).
Proof. apply set_value_in. Qed.
Lemma defuzzify_in vw (o o' : output T) r : defuzzify vw o = (o', r) -> in_range (o_var o) -> in_range (o_var o').
Proof.
  unfold defuzzify. intros H I. destruct (negb _); [inversion H; subst; exact I|].
  destruct (o_defuzzifier o); [|inversion H; subst; exact I].
  destruct (defuzzified vw d o); inversion H; subst; auto. apply settle_in.
Qed.
End Sane.
Lemma sane_f64 (P : fparam) : @sane_order f64 (F64Scalar P).
Proof.
  split.
  - intros x lo hi H. destruct (OpProofs2.C02_bound_main P x lo hi H) as (h1 & h2 & _). destruct (is_nan x) eqn:N.
    + left. rewrite (f_isNaN P). auto.
    + right. auto.
  - intros x lo hi N H. destruct (OpProofs2.C02_bound_main P x lo hi H) as (h1 & _). rewrite (f_isNaN P) in *. auto.
Qed.
Lemma sane_xr (P : xparam) : @sane_order xr (XRScalar P).
Proof.
  assert (forall a b, xleb a b = true <->
    match a, b with XNaN, _ | _, XNaN => False | XNInf, _ => True | _, XPInf => True | XFin a, XFin b => (a <= b)%R | _, _ => False end) as LE.
  { intros a b. unfold xleb, Rleb. destruct a, b; split; intros H; try tauto; try discriminate; try reflexivity; try (destruct (Rle_dec _ _); auto; discriminate). }
  split.
  - intros x lo hi H. change (xleb lo hi = true) in H. apply LE in H. unfold bound.
    change (@s_ltb xr (XRScalar P)) with xltb. change (@s_leb xr (XRScalar P)) with xleb. rewrite (x_isNaN P).
    destruct (xltb hi x) eqn:E1; [apply xlt_iff in E1|].
    + right. split; apply LE; destruct lo, hi; auto; try tauto; lra.
    + assert (~ xltb hi x = true) as N1 by congruence. rewrite xlt_iff in N1.
      destruct (xltb x lo) eqn:E2; [apply xlt_iff in E2|].
      * right. split; apply LE; destruct lo, hi; auto; try tauto; lra.
      * assert (~ xltb x lo = true) as N2 by congruence. rewrite xlt_iff in N2.
        destruct x; [left; reflexivity| | |]; right; split; apply LE; destruct lo, hi; auto; try tauto; lra.
  - intros x lo hi N H. rewrite (x_isNaN P) in N. destruct x; try discriminate. unfold bound.
    change (@s_ltb xr (XRScalar P)) with xltb. destruct hi, lo; reflexivity.
Qed.

(** ** lock previous *)
Section Previous.
Context {T : Type} `{S : Scalar T}.
Lemma same_output_refl (o : output T) : same_output o o.
Proof. repeat split. Qed.
Lemma same_output_trans (a b c : output T) : same_output a b -> same_output b c -> same_output a c.
Proof. unfold same_output. intuition congruence. Qed.
Lemma same_output_sym (a b : output T) : same_output a b -> same_output b a.
Proof. unfold same_output. intuition congruence. Qed.
Lemma settle_same y (o : output T) : same_output o (settle y o).
Proof. repeat split. Qed.
Lemma set_fuzzy_same l (o : output T) : same_output o (set_fuzzy l o).
Proof. repeat split. Qed.
Lemma defuzzify_same vw (o o' : output T) r : defuzzify vw o = (o', r) -> same_output o o'.
Proof.
  unfold defuzzify. intros H. destruct (negb _); [inversion H; subst; apply same_output_refl|].
  destruct (o_defuzzifier o); [|inversion H; subst; apply same_output_refl].
  destruct (defuzzified vw d o); inversion H; subst; auto using same_output_refl, settle_same.
Qed.
Lemma held_same (o o' : output T) : same_output o o' -> forall raws y2 y1, held o' y2 y1 raws = held o y2 y1 raws.
Proof.
  intros H. induction raws as [|r raws IH]; intros y2 y1; cbn [held]; [reflexivity|]. rewrite IH.
  unfold kept. destruct H as (_ & _ & -> & -> & _ & -> & _ & _ & _ & -> & ->). reflexivity.
Qed.
Lemma steps_held (o o' : output T) raws values : v_enabled (o_var o) = true -> Steps o raws values o' ->
  values = held o (o_previous o) (v_value (o_var o)) raws /\ same_output o (set_fuzzy (o_fuzzy o') o').
Proof.
  intros E H. induction H as [o|o fuzzy vw d raw o1 raws values o2 D R Z H IH]; [split; [reflexivity|apply set_fuzzy_same]|].
  pose proof (defuzzify_same _ _ _ _ Z) as SA. pose proof (same_output_trans _ _ _ (set_fuzzy_same fuzzy o) SA) as SB.
  assert (v_enabled (o_var o1) = true) as E1 by (destruct SB as (_ & _ & _ & _ & e & _); congruence).
  destruct (IH E1) as [IH1 IH2]. split; [|eapply same_output_trans; eassumption].
  cbn [held]. rewrite IH1, (held_same _ _ SB).
  unfold defuzzify in Z. cbn [o_var set_fuzzy] in Z. rewrite E in Z. cbn [negb] in Z. cbn [o_defuzzifier set_fuzzy] in Z. rewrite D, R in Z.
  inversion Z; subst o1. 
  assert (v_value (o_var (settle raw (set_fuzzy fuzzy o))) =
    kept o (if isNaN raw then if o_lock_previous o then if isNaN (o_previous o) then o_default o else o_previous o else o_default o else raw)) as V.
  { cbn. unfold kept. destruct (isNaN raw) eqn:N; [|rewrite andb_false_r, N; reflexivity].
    destruct (o_lock_previous o); cbn [andb]; [reflexivity|]. rewrite N. reflexivity. }
  rewrite V. f_equal.
Qed.
End Previous.

(** ** lookups *)
Section Lookup.
Context {A : Type} (name_of : A -> string).
Lemma first_cons name y (l : list A) i x : name_of y <> name ->
  first_of_name name_of name (y :: l) (Datatypes.S i) x <-> first_of_name name_of name l i x.
Proof.
  intros N. split; intros (H1 & H2 & H3); (split; [exact H1|]; split; [exact H2|]).
  - intros j z Hj Hz. apply (H3 (Datatypes.S j) z); [lia|exact Hz].
  - intros [|j] z Hj Hz; cbn in Hz; [congruence|]. apply (H3 j); [lia|exact Hz].
Qed.
Lemma find_first name : forall (l : list A) i, find_name name (map name_of l) = Some i <-> exists x, first_of_name name_of name l i x.
Proof.
  induction l as [|y l IH]; intros i; cbn [map find_name].
  - split; [discriminate|]. intros (x & H & _). destruct i; discriminate.
  - destruct (String.eqb_spec (name_of y) name) as [E|N].
    + split.
      * intros H. inversion H; subst i. exists y. split; [reflexivity|]. split; [exact E|]. intros j z Hj. lia.
      * intros (x & H1 & H2 & H3). destruct i as [|i]; [reflexivity|]. exfalso. apply (H3 0%nat y); [lia|reflexivity|exact E].
    + destruct i as [|i].
      * split; [destruct (find_name name (map name_of l)); discriminate|]. intros (x & H1 & H2 & _). cbn in H1. congruence.
      * transitivity (exists x, first_of_name name_of name l i x).
        -- rewrite <- IH. destruct (find_name name (map name_of l)); cbn; split; congruence.
        -- split; intros (x & H); exists x; apply (first_cons name y l i x N); exact H.
Qed.
Lemma first_unique name (l : list A) i j x y : first_of_name name_of name l i x -> first_of_name name_of name l j y -> i = j /\ x = y.
Proof.
  intros (H1 & H2 & H3) (K1 & K2 & K3). assert (i = j) as ->; [|split; congruence].
  destruct (Nat.lt_trichotomy i j) as [L | [L | L]]; [|exact L|]; exfalso; [eapply K3|eapply H3]; eassumption.
Qed.
Lemma get_iff e name l i : get_named name_of e name l = Ok i <-> exists x, first_of_name name_of name l i x.
Proof.
  unfold get_named. rewrite <- find_first. destruct (find_name name (map name_of l)); split; intros H; inversion H; reflexivity.
Qed.
Lemma get_fails e name l : (exists i, get_named name_of e name l = Ok i) \/ get_named name_of e name l = Throw e.
Proof. unfold get_named. destruct (find_name name (map name_of l)); eauto. Qed.
Lemma first_exists name (l : list A) : (exists x, In x l /\ name_of x = name) -> exists i x, first_of_name name_of name l i x.
Proof.
  induction l as [|y l IH]; intros (x & Hx & E); [contradiction|].
  destruct (string_dec (name_of y) name) as [Q|N].
  - exists 0%nat, y. split; [reflexivity|]. split; [exact Q|]. intros; lia.
  - destruct Hx as [<- | Hx]; [contradiction|]. destruct IH as (i & z & Hz); [eauto|]. exists (Datatypes.S i), z. now apply first_cons.
Qed.
Lemma has_spec name l : has_named name_of name l = true <-> exists x, In x l /\ name_of x = name.
Proof.
  unfold has_named. rewrite existsb_exists. split; intros (x & H & E); exists x; (split; [exact H|]); now apply String.eqb_eq.
Qed.
Lemma has_iff e name l : has_named name_of name l = true <-> exists i, get_named name_of e name l = Ok i.
Proof.
  rewrite has_spec. split.
  - intros H. apply first_exists in H. destruct H as (i & x & H). exists i. apply get_iff. eauto.
  - intros (i & H). apply get_iff in H. destruct H as (x & H1 & H2 & _). exists x. split; [eapply nth_error_In; exact H1|exact H2].
Qed.
Lemma remove_named_iff e name (l : list A) x rest : remove_named name_of e name l = Ok (x, rest) <->
  exists i, first_of_name name_of name l i x /\ rest = firstn i l ++ skipn (Datatypes.S i) l.
Proof.
  unfold remove_named. destruct (get_fails e name l) as [[i G] | G]; rewrite G; cbn [rbind].
  - apply get_iff in G. destruct G as (y & Hy). unfold vector_remove, vector_at. rewrite (proj1 Hy). cbn [rbind]. split.
    + intros H. inversion H; subst. exists i. now split.
    + intros (k & H & ->). destruct (first_unique _ _ _ _ _ _ H Hy) as [-> ->]. reflexivity.
  - split; [discriminate|]. intros (i & H & _). assert (get_named name_of e name l = Ok i) as Q by (apply get_iff; eauto). congruence.
Qed.
Lemma remove_named_throw e name (l : list A) : ~ (exists x, In x l /\ name_of x = name) -> remove_named name_of e name l = Throw e.
Proof.
  intros H. unfold remove_named. destruct (get_fails e name l) as [[i G] | G]; rewrite G; [|reflexivity].
  exfalso. apply H. apply (has_spec name l). apply (has_iff e). eauto.
Qed.
Lemma insert_at (x : A) i l l' : vector_insert x i l = Ok l' <-> (i <= length l)%nat /\ l' = firstn i l ++ x :: skipn i l.
Proof. unfold vector_insert. destruct (Nat.ltb_spec (length l) i); split; intros Q; try discriminate; try (inversion Q; subst; split; [lia|reflexivity]); destruct Q as [Q ->]; [lia|reflexivity]. Qed.
Lemma insert_nth (x : A) i l l' : vector_insert x i l = Ok l' -> forall k,
  nth_error l' k = if Nat.ltb k i then nth_error l k else if Nat.eqb k i then Some x else nth_error l (k - 1).
Proof.
  intros H k. apply insert_at in H. destruct H as [L ->].
  assert (length (firstn i l) = i) as F by (rewrite firstn_length; lia).
  destruct (Nat.ltb_spec k i) as [K|K].
  - rewrite nth_error_app1 by lia. rewrite <- (firstn_skipn i l) at 2. rewrite nth_error_app1 by lia. reflexivity.
  - rewrite nth_error_app2 by lia. rewrite F. destruct (Nat.eqb_spec k i) as [->|N]; [rewrite Nat.sub_diag; reflexivity|].
    replace (k - i)%nat with (Datatypes.S (k - 1 - i)) by lia. cbn [nth_error].
    rewrite <- (firstn_skipn i l) at 2. rewrite nth_error_app2 by lia. rewrite F. reflexivity.
Qed.
Lemma remove_insert (x : A) i l l' : vector_insert x i l = Ok l' -> vector_remove i l' = Ok (x, l).
Proof.
  intros H. pose proof (insert_nth _ _ _ _ H i) as N. rewrite Nat.ltb_irrefl, Nat.eqb_refl in N.
  unfold vector_remove, vector_at. rewrite N. cbn [rbind]. apply insert_at in H. destruct H as [L ->].
  assert (length (firstn i l) = i) as F by (rewrite firstn_length; lia). do 2 f_equal.
  rewrite firstn_app, F, Nat.sub_diag, firstn_all2 by lia. cbn [firstn]. rewrite app_nil_r.
  rewrite skipn_app, F. rewrite skipn_all2 by lia. replace (Datatypes.S i - i)%nat with 1%nat by lia. cbn [skipn app]. apply firstn_skipn.
Qed.
Lemma remove_nth (x : A) i l l' : vector_remove i l = Ok (x, l') -> nth_error l i = Some x /\ length l = Datatypes.S (length l') /\ forall k,
  nth_error l' k = if Nat.ltb k i then nth_error l k else nth_error l (Datatypes.S k).
Proof.
  unfold vector_remove, vector_at. destruct (nth_error l i) as [y|] eqn:E; [|discriminate]. cbn [rbind]. intros H.
  assert (y = x) as -> by congruence. assert (l' = firstn i l ++ skipn (Datatypes.S i) l) as -> by congruence.
  assert (i < length l)%nat as L by (apply nth_error_Some; congruence).
  assert (length (firstn i l) = i) as F by (rewrite firstn_length; lia).
  split; [reflexivity|]. split; [rewrite app_length, F, skipn_length; lia|]. intros k. destruct (Nat.ltb_spec k i) as [K|K].
  - rewrite nth_error_app1 by lia. rewrite <- (firstn_skipn i l) at 2. rewrite nth_error_app1 by lia. reflexivity.
  - rewrite nth_error_app2 by lia. rewrite F. rewrite <- (firstn_skipn (Datatypes.S i) l) at 2.
    assert (length (firstn (Datatypes.S i) l) = Datatypes.S i) as F2 by (rewrite firstn_length; lia).
    rewrite nth_error_app2 by lia. rewrite F2. f_equal. 
Qed.
Lemma insert_remove (x : A) i l l' : vector_remove i l = Ok (x, l') -> vector_insert x i l' = Ok l.
Proof.
  unfold vector_remove, vector_at. destruct (nth_error l i) as [y|] eqn:E; [|discriminate]. cbn [rbind]. intros H.
  assert (y = x) as -> by congruence. assert (l' = firstn i l ++ skipn (Datatypes.S i) l) as -> by congruence.
  assert (i < length l)%nat as L by (apply nth_error_Some; congruence).
  assert (length (firstn i l) = i) as F by (rewrite firstn_length; lia).
  apply insert_at. rewrite app_length, F. split; [lia|].
  rewrite firstn_app, F, Nat.sub_diag. cbn [firstn]. rewrite firstn_all2, app_nil_r by lia.
  rewrite skipn_app, F, Nat.sub_diag. cbn [skipn]. rewrite skipn_all2 by lia. cbn [app].
  rewrite <- (firstn_skipn i l) at 1. f_equal. clear - E. revert l E. induction i as [|i IH]; intros [|z l] E; try discriminate; cbn in *; [congruence|]. apply IH; exact E.
Qed.
End Lookup.

(** ** sorting *)
Section Sort.
Context {T : Type} `{S : Scalar T}.
Lemma rmapM_nth {A B} (f : A -> res B) : forall l ys, rmapM f l = Ok ys -> length ys = length l /\ forall i x, nth_error l i = Some x -> exists y, nth_error ys i = Some y /\ f x = Ok y.
Proof.
  induction l as [|a l IH]; intros ys H; cbn [rmapM] in H.
  - inversion H; subst. split; [reflexivity|]. intros [|i] x Hx; discriminate.
  - destruct (f a) as [b|?| |] eqn:F; cbn [rbind] in H; try discriminate.
    destruct (rmapM f l) as [bs|?| |] eqn:G; cbn [rbind] in H; try discriminate. inversion H; subst ys.
    destruct (IH bs eq_refl) as [L N]. split; [cbn; lia|]. intros [|i] x Hx; cbn in *; [inversion Hx; subst; eauto|]. eauto.
Qed.
Lemma flat_map_nth {A} (l : list A) order : Forall (fun i => (i < length l)%nat) order ->
  length (flat_map (fun i => match nth_error l i with Some t => [t] | None => [] end) order) = length order /\
  forall k i, nth_error order k = Some i -> nth_error (flat_map (fun i => match nth_error l i with Some t => [t] | None => [] end) order) k = nth_error l i.
Proof.
  induction order as [|j order IH]; intros H; inversion H; subst; cbn [flat_map].
  - split; [reflexivity|]. intros [|k] i; discriminate.
  - destruct (nth_error l j) as [t|] eqn:E; [|apply nth_error_None in E; lia]. destruct (IH H3) as [L N]. cbn [app length]. split; [lia|].
    intros [|k] i Hk; cbn in *; [inversion Hk; subst; symmetry; exact E|]. apply N. exact Hk.
Qed.
Lemma flat_map_seq {A} (l : list A) : flat_map (fun i => match nth_error l i with Some t => [t] | None => [] end) (seq 0 (length l)) = l.
Proof.
  assert (forall pre, flat_map (fun i => match nth_error (pre ++ l) i with Some t => [t] | None => [] end) (seq (length pre) (length l)) = l) as G.
  { induction l as [|x l IH]; intros pre; [reflexivity|]. cbn [length seq flat_map]. rewrite nth_error_app2 by lia. rewrite Nat.sub_diag. cbn [nth_error app]. f_equal.
    specialize (IH (pre ++ [x])). rewrite app_length in IH. cbn in IH. rewrite <- app_assoc in IH. cbn [app] in IH. rewrite Nat.add_1_r in IH. exact IH. }
  exact (G []).
Qed.
Lemma sort_ok (drain : drainer T) vw resolution (v : variable T) keys v' : drain_spec drain ->
  rmapM (sort_key vw resolution v) (v_terms v) = Ok keys -> strict_weak (fun a b => (a >? b)%S) keys ->
  sort_terms drain vw resolution v = Ok v' ->
  Permutation (v_terms v') (v_terms v) /\ v' = set_terms (v_terms v') v /\
  (forall i j s t a b, (i < j)%nat -> nth_error (v_terms v') i = Some s -> nth_error (v_terms v') j = Some t ->
     sort_key vw resolution v s = Ok a -> sort_key vw resolution v t = Ok b -> (a >? b)%S = false).
Proof.
  intros D K W H. unfold sort_terms in H. rewrite K in H. cbn [rbind] in H. inversion H; subst v'. clear H. cbn [v_terms set_terms].
  destruct (D _ _ W) as [Pm O]. destruct (rmapM_nth _ _ _ K) as [L N].
  set (order := drain (fun a b : T => (a >? b)%S) keys) in *.
  assert (Forall (fun i => (i < length (v_terms v))%nat) order) as F.
  { apply Forall_forall. intros i Hi. apply (Permutation_in _ Pm) in Hi. apply in_seq in Hi. lia. }
  destruct (flat_map_nth (v_terms v) order F) as [FL FN].
  split; [|split; [reflexivity|]].
  - refine (eq_ind _ (Permutation _) _ _ (flat_map_seq (v_terms v))). apply Permutation_flat_map. rewrite <- L. exact Pm.
  - intros i j s t a b Hij Hs Ht Ka Kb.
    assert (exists p, nth_error order i = Some p) as [p Hp].
    { destruct (nth_error order i) eqn:E; [eauto|]. apply nth_error_None in E. assert (i < length order)%nat; [|lia]. rewrite <- FL. apply nth_error_Some. congruence. }
    assert (exists q, nth_error order j = Some q) as [q Hq].
    { destruct (nth_error order j) eqn:E; [eauto|]. apply nth_error_None in E. assert (j < length order)%nat; [|lia]. rewrite <- FL. apply nth_error_Some. congruence. }
    pose proof (eq_trans (eq_sym (FN _ _ Hp)) Hs) as Tp. pose proof (eq_trans (eq_sym (FN _ _ Hq)) Ht) as Tq.
    destruct (N _ _ Tp) as (x & Nx & Kx). destruct (N _ _ Tq) as (y & Ny & Ky).
    pose proof (O _ _ _ _ _ _ Hij Hp Hq Nx Ny) as Q. cbn beta in Q.
    rewrite Ka in Kx. rewrite Kb in Ky. inversion Kx; inversion Ky; subst. exact Q.
Qed.
Lemma sort_keys (drain : drainer T) vw resolution (v : variable T) v' : sort_terms drain vw resolution v = Ok v' ->
  exists keys, rmapM (sort_key vw resolution v) (v_terms v) = Ok keys.
Proof. unfold sort_terms. destruct (rmapM _ _); cbn [rbind]; try discriminate. eauto. Qed.
End Sort.
