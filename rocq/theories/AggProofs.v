(** Grouping, maximal activation and weighted defuzzification. *)
From Coq Require Import ZArith Reals Bool List String Lra Lia Permutation.
From Verif Require Import Base Op XR XRFacts Norm NormAlg ShapeFacts Defuzz Aggregated OrdVal SpecDefuzz SpecAgg DefuzzSelect DefuzzReal.
Import ListNotations.
Local Open Scope R_scope.

Arguments rsum : simpl never.
Section Names.
Lemma firsts_in l k : In k (firsts l) <-> In k l.
Proof.
  revert k; induction l as [|a l IH]; intro k; simpl; [tauto|]. rewrite filter_In, IH.
  destruct (String.eqb_spec a k); simpl; [subst; tauto|]. intuition congruence.
Qed.
Lemma firsts_nodup l : NoDup (firsts l).
Proof.
  induction l as [|a l IH]; simpl; constructor. - rewrite filter_In, String.eqb_refl. simpl. intuition discriminate.
  - now apply NoDup_filter.
Qed.
Lemma filter_filter {A} (f g : A -> bool) l : filter f (filter g l) = filter (fun x => g x && f x) l.
Proof. induction l; simpl; auto. destruct (g a); simpl; [destruct (f a)|]; now rewrite IHl. Qed.
Lemma firsts_snoc l k : firsts (l ++ [k]) = firsts l ++ (if existsb (String.eqb k) l then [] else [k]).
Proof.
  induction l as [|a l IH]; simpl; auto. rewrite IH, filter_app. f_equal.
  rewrite (String.eqb_sym k a). destruct (String.eqb_spec a k) as [->|N]; simpl.
  - destruct (existsb (String.eqb k) l); simpl; auto. now rewrite String.eqb_refl.
  - destruct (existsb (String.eqb k) l); simpl; auto. destruct (String.eqb_spec a k); [congruence|]. reflexivity.
Qed.
Lemma existsb_named {A} (name : A -> string) k l : existsb (String.eqb k) (map name l) = negb (match named name k l with [] => true | _ => false end).
Proof. induction l; simpl; auto. destruct (String.eqb k (name a)); simpl; auto. Qed.
Lemma named_in {A} (name : A -> string) k l : In k (map name l) <-> named name k l <> [].
Proof.
  induction l; simpl; [tauto|]. unfold named in *; simpl. destruct (String.eqb_spec k (name a)).
  - split; [discriminate|auto]. - rewrite <- IHl. intuition congruence.
Qed.
End Names.

Section Group.
Context {T : Type} {S : Scalar T} {A : Type} (name : A -> string) (s : snorm).
Notation activated := (activated T A).
Definition aname (a : activated) : string := name (ac_term a).
(** a non-empty list of activations of one name merged *)
Definition merge (l : list activated) : option activated :=
  match l with
  | [] => None
  | a :: r => Some (mkActivated (ac_term a) (fold_left (snorm_compute s) (map ac_degree r) (ac_degree a)) (ac_implication a))
  end.
Lemma merge_snoc l a : merge (l ++ [a]) = Some (match merge l with None => a
   | Some g => mkActivated (ac_term g) (snorm_compute s (ac_degree g) (ac_degree a)) (ac_implication g) end).
Proof. destruct l as [|x r]; simpl. { destruct a; reflexivity. } now rewrite map_app, fold_left_app. Qed.
Lemma find_set k k' (a : activated) m : map_find k' (map_set k a m) = if String.eqb k' k then Some a else map_find k' m.
Proof.
  induction m as [|[k0 b] m IH]; simpl; auto. unfold name_eqb in *. destruct (String.eqb_spec k k0); simpl; unfold name_eqb;
    [|rewrite IH]; destruct (String.eqb_spec k' k0), (String.eqb_spec k' k); auto; congruence.
Qed.
Lemma find_erase k k' (m : list (string * activated)) : map_find k' (map_erase k m) = if String.eqb k' k then None else map_find k' m.
Proof.
  unfold map_erase. induction m as [|[k0 b] m IH]; simpl. { now destruct (String.eqb k' k). }
  unfold name_eqb in *. simpl. destruct (String.eqb_spec k k0); simpl; unfold name_eqb; rewrite IH;
    destruct (String.eqb_spec k' k0), (String.eqb_spec k' k); auto; congruence.
Qed.
Lemma named_snoc k (l : list activated) a : named aname k (l ++ [a]) = named aname k l ++ (if String.eqb k (aname a) then [a] else []).
Proof. unfold named. rewrite filter_app. simpl. reflexivity. Qed.
Lemma groups_find l k : map_find k (fold_left (group_step name s) l []) = merge (named aname k l).
Proof.
  revert k. induction l as [|a l IH] using rev_ind; intro k; [reflexivity|]. rewrite fold_left_app. simpl. unfold group_step.
  rewrite named_snoc. rewrite IH. fold (aname a).
  destruct (merge (named aname (aname a) l)) as [g|] eqn:G; rewrite find_set, IH;
    (destruct (String.eqb_spec k (aname a)) as [->|N]; [|now rewrite app_nil_r]); now rewrite merge_snoc, G.
Qed.
(** the entries of the result *)
Definition entry (l : list activated) (k : string) : list activated := match merge (named aname k l) with Some g => [g] | None => [] end.
Definition spec_grouped (l : list activated) : list activated := flat_map (entry l) (firsts (map aname l)).
Lemma pick_inv l pre rest : l = pre ++ rest ->
  let r := fold_left (pick_step name) pre ([], fold_left (group_step name s) l []) in
  fst r = flat_map (entry l) (firsts (map aname pre)) /\
  forall k, map_find k (snd r) = if existsb (String.eqb k) (map aname pre) then None else merge (named aname k l).
Proof.
  revert rest. induction pre as [|a pre IH] using rev_ind; intros rest E.
  - simpl. split; auto. intro k. apply groups_find.
  - destruct (IH ([a] ++ rest)) as [F G]. { now rewrite E, <- app_assoc. }
    cbv zeta. rewrite fold_left_app. simpl. set (r := fold_left _ pre _) in *.
    unfold pick_step. fold (aname a). rewrite G. rewrite map_app. change (map aname [a]) with [aname a]. rewrite firsts_snoc.
    assert (NE : exists g, merge (named aname (aname a) l) = Some g).
    { assert (Q : named aname (aname a) l <> []). { apply named_in. rewrite E, !map_app. apply in_or_app. left. apply in_or_app. right. simpl; auto. }
      destruct (named aname (aname a) l) as [|x y]; [congruence|]. simpl. eauto. }
    destruct NE as [g NE]. rewrite NE.
    destruct (existsb (String.eqb (aname a)) (map aname pre)) eqn:EX.
    + split; [now rewrite app_nil_r|]. intro k. rewrite existsb_app, G. simpl.
      destruct (String.eqb_spec k (aname a)) as [->|N]; [now rewrite EX|]. now rewrite orb_false_r, ?orb_false_r.
    + simpl. split. { rewrite F, flat_map_app. simpl. unfold entry at 3. now rewrite NE, app_nil_r. }
      intro k. rewrite find_erase, existsb_app. simpl. rewrite G.
      destruct (String.eqb_spec k (aname a)) as [->|N]; [now rewrite orb_true_r|]. now rewrite !orb_false_r.
Qed.
Lemma grouped_eq aggregation l : s = match aggregation with Some x => x | None => UnboundedSum end ->
  grouped_terms name aggregation l = spec_grouped l.
Proof.
  intro E. unfold grouped_terms. rewrite <- E. destruct (pick_inv l l [] (eq_sym (app_nil_r l))) as [F _]. exact F.
Qed.
Lemma merge_name l k g : merge (named aname k l) = Some g -> aname g = k /\ In (ac_term g) (map ac_term l).
Proof.
  unfold merge, named. destruct (filter _ l) as [|a r] eqn:E; [discriminate|]. intro H; inversion H; subst; simpl.
  assert (I : In a (filter (fun a => String.eqb k (aname a)) l)) by (rewrite E; simpl; auto).
  apply filter_In in I. destruct I as [I Q]. apply String.eqb_eq in Q. unfold aname in *; simpl. split; auto. now apply in_map.
Qed.
Lemma spec_names l : map aname (spec_grouped l) = firsts (map aname l).
Proof.
  unfold spec_grouped. assert (H : forall ks, (forall k, In k ks -> In k (map aname l)) -> map aname (flat_map (entry l) ks) = ks).
  { induction ks as [|k ks IH]; intro I; simpl; auto. rewrite map_app, IH by (intros; apply I; simpl; auto).
    assert (Q : named aname k l <> []) by (apply named_in, I; simpl; auto). unfold entry.
    destruct (merge (named aname k l)) as [g|] eqn:G. { simpl. f_equal. eapply merge_name; eauto. }
    destruct (named aname k l); [congruence|discriminate]. }
  apply H. intros k K. now apply firsts_in.
Qed.
Lemma firsts_id l : NoDup l -> firsts l = l.
Proof.
  induction 1; simpl; auto. f_equal. rewrite IHNoDup. clear IHNoDup H0. induction l; simpl; auto.
  destruct (String.eqb_spec x a). { subst. simpl in H. tauto. } simpl. f_equal. apply IHl. simpl in H; tauto.
Qed.
Lemma named_single (l : list activated) a : NoDup (map aname l) -> In a l -> named aname (aname a) l = [a].
Proof.
  induction l as [|b l IH]; simpl; [tauto|]. intros ND [->|I]; inversion ND as [|? ? NI ND']; subst.
  - unfold named; simpl. rewrite String.eqb_refl. f_equal. apply filter_none. intros c C.
    destruct (String.eqb_spec (aname a) (aname c)); auto. destruct NI. rewrite e. now apply in_map.
  - unfold named; simpl. destruct (String.eqb_spec (aname a) (aname b)); [|now apply IH]. destruct NI. rewrite <- e. now apply in_map.
Qed.
Lemma grouped_id l : NoDup (map aname l) -> spec_grouped l = l.
Proof.
  intro ND. unfold spec_grouped. rewrite firsts_id by auto.
  assert (H : forall m, (forall a, In a m -> In a l) -> flat_map (entry l) (map aname m) = m).
  { induction m as [|a m IH]; intro I; simpl; auto. rewrite IH by (intros; apply I; simpl; auto).
    unfold entry. rewrite named_single by (auto; apply I; simpl; auto). simpl. destruct a; reflexivity. }
  apply H; auto.
Qed.
End Group.

Section Max.
Context {T : Type} {S : Scalar T} {v : T -> xr} (O : ord_val S v) {A : Type}.
Notation activated := (activated T A).
Definition ds (l : list activated) : list xr := map (fun a => v (ac_degree a)) l.
Lemma max_inv (l : list activated) : let r := fold_left max_step l (s_0, []) in
  (r = (s_0, []) /\ forall d, In d (ds l) -> xltb (XFin 0) d = false) \/
  (xmax_of (ds l) (v (fst r)) /\ snd r = filter (fun a => xeqb (v (ac_degree a)) (v (fst r))) l).
Proof.
  induction l as [|a l IH] using rev_ind; [left; split; auto; intros d []|]. cbv zeta.
  rewrite fold_left_app. simpl. set (r := fold_left max_step l (s_0, [])) in *.
  unfold ds. rewrite map_app. simpl map at 2 4. unfold max_step. rewrite !(ov_lt _ _ O), (ov_eq _ _ O), (ov_0 _ _ O).
  set (d := v (ac_degree a)).
  destruct (xltb (v (fst r)) d) eqn:LT.
  - right. simpl. destruct (xltb_num _ _ LT) as [N1 N2].
    assert (ALL : forall e, In e (ds l) -> xnum e -> xltb e d = true).
    { intros e I U. destruct IH as [[E Z]|[(_ & _ & M) _]]; [|eapply xle_ltb_trans; eauto].
      rewrite E in LT. simpl in LT. rewrite (ov_0 _ _ O) in LT. apply Z in I. eapply xle_ltb_trans; [|exact LT].
      apply xltb_false; auto. discriminate. }
    assert (Z0 : xltb (XFin 0) d = true).
    { destruct IH as [[E Z]|[(I & Z & M) _]]. { rewrite E in LT. simpl in LT. now rewrite (ov_0 _ _ O) in LT. }
      eapply xle_ltb_trans; [|exact LT]. now apply xltb_le. }
    split. { split; [apply in_or_app; right; simpl; auto|]. split; auto. intros e I U. apply in_app_or in I.
      destruct I as [I|[<- |[]]]; [apply xltb_le; eauto|now apply xleb_refl]. }
    rewrite filter_app. simpl. fold d. rewrite (xeqb_refl _ N2). rewrite filter_none; auto.
    intros b B. destruct (xeqb (v (ac_degree b)) d) eqn:E; auto. apply xeqb_eq in E. destruct E as [E U].
    assert (C : xltb (v (ac_degree b)) d = true) by (apply ALL; auto; apply (in_map (fun a => v (ac_degree a))); auto).
    rewrite E, F64Facts.xltb_irrefl in C. discriminate.
  - destruct IH as [[E Z]|[(I & Z & M) SL]].
    + rewrite E in *. simpl in *. rewrite (ov_0 _ _ O) in *. simpl. rewrite Rltb_false by lra. simpl. left. split; auto.
      intros e J. apply in_app_or in J. destruct J as [J|[<- |[]]]; auto.
    + rewrite Z. simpl.
      assert (U : xnum (v (fst r))) by (apply xltb_num in Z; tauto).
      assert (MX : xmax_of (map (fun a => v (ac_degree a)) l ++ [d]) (v (fst r))).
      { split; [apply in_or_app; auto|]. split; auto. intros e J UE. apply in_app_or in J.
        destruct J as [J|[<- |[]]]; [now apply M|]. now apply xltb_false. }
      destruct (xeqb (v (fst r)) d) eqn:EQ; simpl; right; split; auto; rewrite filter_app; simpl; fold d.
      * rewrite F64Facts.xeqb_sym, EQ, SL. reflexivity.
      * rewrite F64Facts.xeqb_sym, EQ, SL, app_nil_r. reflexivity.
Qed.
Lemma max_main (l : list activated) :
  (maximally_activated l = [] /\ highest_activated l = None /\ forall a, In a l -> xltb (XFin 0) (v (ac_degree a)) = false) \/
  (exists m a r, xmax_of (map (fun a => v (ac_degree a)) l) m /\ maximally_activated l = a :: r /\
     a :: r = filter (fun a => xeqb (v (ac_degree a)) m) l /\ highest_activated l = Some a).
Proof.
  unfold highest_activated, maximally_activated. destruct (max_inv l) as [[-> Z]|[M ->]].
  - left. repeat split; auto. intros a I. apply Z. unfold ds. now apply (in_map (fun a => v (ac_degree a))).
  - right. set (m := v (fst _)) in *. destruct (filter (fun a => xeqb (v (ac_degree a)) m) l) as [|a r] eqn:F.
    + exfalso. destruct M as (I & Z & _). unfold ds in I. apply in_map_iff in I. destruct I as (a & E & I).
      assert (Q : In a []). { rewrite <- F. apply filter_In. split; auto. rewrite E. apply xeqb_refl. apply xltb_num in Z; tauto. }
      destruct Q.
    + exists m, a, r. auto.
Qed.
End Max.

Section Weighted.
Context (P : xparam) {A : Type}.
#[local] Hint Extern 0 (Scalar xr) => exact (XRScalar P) : typeclass_instances.
Notation activated := (activated xr A).
(** the degree and value of each activation are the reals listed *)
Definition valued (z : A -> xr -> res xr) (l : list activated) (ps : list (R * R)) : Prop :=
  Forall2 (fun a p => ac_degree a = XFin (fst p) /\ z (ac_term a) (XFin (fst p)) = Ok (XFin (snd p))) l ps.
Lemma wz_cons p l : wz (p :: l) = fst p * snd p + wz l. Proof. reflexivity. Qed.
Lemma ws_cons p l : ws (p :: l) = fst p + ws l. Proof. reflexivity. Qed.
Lemma weighted_fold z l ps a b : valued z l ps ->
  rfold (weighted_step z) (XFin a, XFin b) l = Ok (XFin (a + wz ps), XFin (b + ws ps)).
Proof.
  intro V. revert a b. induction V as [|x p l ps [D Z] V IH]; intros a b.
  { simpl. unfold wz, ws, rsum; simpl. do 2 f_equal; f_equal; lra. }
  simpl rfold. unfold weighted_step at 1. rewrite D, Z. cbn [rbind fst snd]. rewrite (xe_mul P), !(xe_add P), IH.
  rewrite wz_cons, ws_cons. do 2 f_equal; f_equal; lra.
Qed.
Lemma weighted_real k name z aggregation l ps : valued z (grouped_terms name aggregation l) ps ->
  weighted_with k name z aggregation l =
  Ok (match k with WeightedAverage => s_div (XFin (wz ps)) (XFin (ws ps)) | WeightedSum => XFin (wz ps) end).
Proof.
  intro V. unfold weighted_with. rewrite (x_0 P), (weighted_fold _ _ _ 0 0 V). cbn [rbind fst snd]. rewrite !Rplus_0_l.
  destruct k; reflexivity.
Qed.
Lemma wmean_bounds ps lo hi : Forall (fun p => 0 <= fst p /\ lo <= snd p <= hi) ps -> 0 < ws ps -> lo <= wz ps / ws ps <= hi.
Proof.
  intros F W. assert (B : lo * ws ps <= wz ps <= hi * ws ps).
  { clear W. induction F as [|p l [H1 H2] F IH]; [unfold wz, ws, rsum; simpl; lra|]. rewrite wz_cons, ws_cons. nra. }
  split; [apply div_ge_iff|apply div_le_iff]; lra.
Qed.
Lemma ws_zero ps : Forall (fun p => 0 <= fst p) ps -> ws ps = 0 -> wz ps = 0.
Proof.
  induction 1; [reflexivity|]. rewrite wz_cons, ws_cons. intro E.
  assert (Q : 0 <= ws l). { unfold ws. apply rsum_nonneg. apply Forall_map. exact H0. }
  rewrite IHForall by lra. assert (fst x = 0) by lra. rewrite H1. lra.
Qed.

(** without grouping: sums over all activations, when the value of a term does not depend on the degree *)
Lemma pick_one (ks : list string) n c : NoDup ks -> In n ks -> rsum (map (fun k => if String.eqb k n then c else 0) ks) = c.
Proof.
  induction 1 as [|k ks NI ND IH]; simpl; [tauto|]. intro I. rewrite rsum_cons. destruct (String.eqb_spec k n) as [->|N].
  - replace (rsum _) with 0; [lra|]. symmetry. clear -NI. induction ks as [|k ks IH]; simpl; [reflexivity|]. rewrite rsum_cons.
    destruct (String.eqb_spec k n); [subst; simpl in NI; tauto|]. rewrite IH by (simpl in NI; tauto). lra.
  - destruct I as [->|I]; [congruence|]. rewrite IH by auto. lra.
Qed.
Lemma group_sum (name : A -> string) (g : activated -> R) ks : NoDup ks -> forall l, (forall a, In a l -> In (aname name a) ks) ->
  rsum (map (fun k => rsum (map g (named (aname name) k l))) ks) = rsum (map g l).
Proof.
  intros ND. induction l as [|a l IH]; intro C.
  - unfold named; simpl. clear. induction ks; simpl; [reflexivity|]. rewrite rsum_cons, IHks. unfold rsum; simpl; lra.
  - simpl. rewrite rsum_cons, <- IH by (intros; apply C; simpl; auto).
    rewrite (rsum_ext _ (fun k => (if String.eqb k (aname name a) then g a else 0) + rsum (map g (named (aname name) k l)))).
    + rewrite rsum_plus. rewrite pick_one; auto. apply C; simpl; auto.
    + intros k _. unfold named; simpl. destruct (String.eqb k (aname name a)); simpl; rewrite ?rsum_cons; lra.
Qed.
Lemma unbounded_fold l d : fold_left (snorm_compute UnboundedSum) (map XFin l) (XFin d) = XFin (d + rsum l).
Proof.
  revert d; induction l; intro d; simpl. { unfold rsum; simpl; f_equal; lra. } rewrite IHl, rsum_cons. f_equal; lra.
Qed.
Definition plain (d : activated -> R) (zc : A -> R) (l : list activated) : list (R * R) := map (fun a => (d a, zc (ac_term a))) l.
Lemma wz_flat {B} (f : B -> list (R * R)) l : wz (flat_map f l) = rsum (map (fun b => wz (f b)) l) /\ ws (flat_map f l) = rsum (map (fun b => ws (f b)) l).
Proof.
  induction l; simpl; [split; reflexivity|]. destruct IHl as [E1 E2]. rewrite !rsum_cons, <- E1, <- E2.
  unfold wz, ws. now rewrite !map_app, !rsum_app.
Qed.
Lemma ungrouped name z (zc : A -> R) d aggregation (l : list activated) :
  aggregation = None \/ aggregation = Some UnboundedSum ->
  (forall a, In a l -> ac_degree a = XFin (d a)) ->
  (forall t w, z t (XFin w) = Ok (XFin (zc t))) ->
  (forall a b, In a l -> In b l -> aname name a = aname name b -> zc (ac_term a) = zc (ac_term b)) ->
  exists ps, valued z (grouped_terms name aggregation l) ps /\ wz ps = wz (plain d zc l) /\ ws ps = ws (plain d zc l).
Proof.
  intros AG D Z U. rewrite (grouped_eq name UnboundedSum) by (destruct AG; subst; reflexivity).
  set (item := fun k => match named (aname name) k l with [] => [] | a :: r => [(rsum (map d (a :: r)), zc (ac_term a))] end).
  exists (flat_map item (firsts (map (aname name) l))).
  assert (NI : forall k a, In a (named (aname name) k l) -> In a l /\ aname name a = k).
  { intros k a I. apply filter_In in I. destruct I as [I E]. apply String.eqb_eq in E. auto. }
  split; [|].
  - unfold spec_grouped, valued. induction (firsts (map (aname name) l)) as [|k ks IH]; [constructor|]. simpl. apply Forall2_app; auto.
    unfold entry, item. destruct (named (aname name) k l) as [|a r] eqn:E; [constructor|]. simpl. constructor; [|constructor]. simpl. split; [|apply Z].
    rewrite D by (apply (NI k); rewrite E; simpl; auto).
    replace (map ac_degree r) with (map XFin (map d r)). { rewrite unbounded_fold, rsum_cons. reflexivity. }
    rewrite map_map. apply map_ext_in. intros b B. symmetry. apply D. apply (NI k). rewrite E; simpl; auto.
  - destruct (wz_flat item (firsts (map (aname name) l))) as [-> ->]. unfold wz, ws, plain. rewrite !map_map. simpl.
    rewrite <- !(group_sum name) with (ks := firsts (map (aname name) l)) (l := l); try apply firsts_nodup;
      try (intros a I; apply firsts_in, in_map; auto).
    split; apply rsum_ext; intros k _; unfold item.
    + destruct (named (aname name) k l) as [|a r] eqn:E; [reflexivity|]. cbn [map fst snd]. rewrite rsum_cons. 
      assert (Q : rsum (map (fun x => d x * zc (ac_term x)) (a :: r)) = rsum (map (fun x => zc (ac_term a) * d x) (a :: r))).
      { apply rsum_ext. intros b B. rewrite (U b a). - ring. - apply (NI k); rewrite E; auto. - apply (NI k); rewrite E; simpl; auto.
        - destruct (NI k b) as [_ ->]; [rewrite E; auto|]. destruct (NI k a) as [_ ->]; [rewrite E; simpl; auto|]. reflexivity. }
      etransitivity; [|symmetry; exact Q]. rewrite rsum_scale. cbn [map]. change (rsum []) with 0. rewrite !rsum_cons. ring.
    + destruct (named (aname name) k l) as [|a r] eqn:E; [reflexivity|]. cbn [map fst snd]. rewrite !rsum_cons. change (rsum []) with 0. change (map (fun x => d x) r) with (map d r). ring.
Qed.
End Weighted.

(** * infer_type and the dispatch of weighted_defuzzify *)
Section Dispatch.
Context {T : Type} {S : Scalar T} {A : Type}.
Lemma wtype_eqb_spec a b : reflect (a = b) (wtype_eqb a b).
Proof. destruct a, b; constructor; congruence. Qed.
Lemma infer_spec types t : (infer_type types = Ok t <-> (types = [] /\ t = WAutomatic) \/ (types <> [] /\ forall u, In u types -> u = t)) /\
  (infer_type types = Throw EDefuzzifier <-> exists u w, In u types /\ In w types /\ u <> w).
Proof.
  unfold infer_type. destruct types as [|u r].
  - split; split; try discriminate. + intro H; inversion H; auto. + intros [[_ ->]|[H _]]; congruence. + intros (u & w & [] & _).
  - destruct (forallb (wtype_eqb u) r) eqn:F.
    + rewrite forallb_forall in F. assert (ALL : forall w, In w (u :: r) -> w = u).
      { intros w [->|I]; auto. apply F in I. destruct (wtype_eqb_spec u w); [auto|discriminate]. }
      split; split; try discriminate.
      * intro H; inversion H; subst. right. split; [discriminate|auto].
      * intros [[H _]|[_ H]]; [discriminate|]. f_equal. apply H; simpl; auto.
      * intros (x & y & X & Y & N). rewrite (ALL x X), (ALL y Y) in N. congruence.
    + assert (EX : exists w, In w r /\ u <> w).
      { clear -F. induction r as [|w r IH]; [discriminate|]. simpl in F. destruct (wtype_eqb_spec u w).
        - destruct IH as (x & X & N); auto. exists x; simpl; auto. - exists w; simpl; auto. }
      destruct EX as (w & I & N). split; split; try discriminate.
      * intros [[H _]|[_ H]]; [discriminate|]. exfalso. apply N. rewrite (H u), (H w); simpl; auto.
      * intros _. exists u, w. simpl; auto.
      * auto.
Qed.
Lemma dispatch k ty name memb tsuk (wt : A -> wtype) aggregation (l : list (activated T A)) : l <> [] ->
  (ty = WTakagiSugeno \/ (ty = WAutomatic /\ forall a, In a l -> wt (ac_term a) = WTakagiSugeno) ->
     weighted_defuzzify k ty name memb tsuk wt aggregation l = weighted_with k name memb aggregation l) /\
  (ty = WTsukamoto \/ (ty = WAutomatic /\ forall a, In a l -> wt (ac_term a) = WTsukamoto) ->
     weighted_defuzzify k ty name memb tsuk wt aggregation l = weighted_with k name tsuk aggregation l) /\
  (ty = WAutomatic -> (exists a, In a l /\ wt (ac_term a) = WAutomatic) \/
       (exists a b, In a l /\ In b l /\ wt (ac_term a) <> wt (ac_term b)) ->
     weighted_defuzzify k ty name memb tsuk wt aggregation l = Throw EDefuzzifier).
Proof.
  intro NE. unfold weighted_defuzzify. destruct l as [|x l]; [congruence|]. set (L := x :: l) in *.
  assert (INF : forall t, (forall a, In a L -> wt (ac_term a) = t) -> infer_type (map (fun a => wt (ac_term a)) L) = Ok t).
  { intros t H. apply infer_spec. right. split; [discriminate|]. intros u I. apply in_map_iff in I. destruct I as (a & <- & I). auto. }
  split; [|split].
  - intros [->|[-> H]]; simpl wtype_eqb; cbv iota; [reflexivity|]. rewrite (INF _ H). reflexivity.
  - intros [->|[-> H]]; simpl wtype_eqb; cbv iota; [reflexivity|]. rewrite (INF _ H). reflexivity.
  - intros -> H. simpl wtype_eqb. cbv iota.
    assert (D : infer_type (map (fun a => wt (ac_term a)) L) = Throw EDefuzzifier \/ infer_type (map (fun a => wt (ac_term a)) L) = Ok WAutomatic).
    { destruct H as [(a & I & W)|(a & b & IA & IB & W)].
      - destruct (infer_type (map (fun a => wt (ac_term a)) L)) as [t| | |] eqn:E.
        + right. f_equal. apply infer_spec in E. destruct E as [[_ ->]|[_ E]]; auto. rewrite <- W. symmetry. apply E. apply (in_map (fun a => wt (ac_term a))); auto.
        + left. unfold infer_type in E. destruct (map (fun a => wt (ac_term a)) L); [discriminate|]. destruct (forallb _ _); congruence.
        + unfold infer_type in E. destruct (map (fun a => wt (ac_term a)) L); [discriminate|]. destruct (forallb _ _); congruence.
        + unfold infer_type in E. destruct (map (fun a => wt (ac_term a)) L); [discriminate|]. destruct (forallb _ _); congruence.
      - left. apply (infer_spec _ WAutomatic). exists (wt (ac_term a)), (wt (ac_term b)). repeat split; auto; now apply (in_map (fun a => wt (ac_term a))). }
    destruct D as [-> | ->]; reflexivity.
Qed.
Lemma weighted_empty k ty name memb tsuk (wt : A -> wtype) aggregation :
  weighted_defuzzify k ty name memb tsuk wt aggregation (@nil (activated T A)) = Ok s_nan.
Proof. reflexivity. Qed.
End Dispatch.

(** ** what is missing is reported; the degree of a term *)
Section Missing.
Context {T : Type} `{S : Scalar T} {A : Type}.
Lemma no_implication (memb : A -> T -> res T) (a : activated T A) x : ac_implication a = None -> isNaN x = false -> ac_membership memb a x = Throw EImplication.
Proof. intros E N. unfold ac_membership. rewrite N, E. reflexivity. Qed.
Lemma nan_argument (memb : A -> T -> res T) (a : activated T A) g l x : isNaN x = true -> ac_membership memb a x = Ok s_nan /\ agg_membership memb g l x = Ok s_nan.
Proof. intros N. unfold ac_membership, agg_membership. rewrite N. auto. Qed.
Lemma no_aggregation (memb : A -> T -> res T) (l : list (activated T A)) x : l <> [] -> isNaN x = false -> agg_membership memb None l x = Throw EAggregation.
Proof. intros E N. unfold agg_membership. rewrite N. destruct l; [congruence|reflexivity]. Qed.
Lemma nothing_aggregated (memb : A -> T -> res T) g x : isNaN x = false -> agg_membership memb g ([] : list (activated T A)) x = Ok s_0.
Proof. intros N. unfold agg_membership. rewrite N. destruct g; reflexivity. Qed.
Lemma one_implication (memb : A -> T -> res T) (a : activated T A) n x m : ac_implication a = Some n -> isNaN x = false -> memb (ac_term a) x = Ok m ->
  ac_membership memb a x = Ok (tnorm_compute n m (ac_degree a)).
Proof. intros E N M. unfold ac_membership. rewrite N, E, M. reflexivity. Qed.
Lemma degree_of_term (same : A -> bool) g (l : list (activated T A)) :
  agg_degree same g l = fold_left (match g with Some s => snorm_compute s | None => s_add end) (map ac_degree (filter (fun a => same (ac_term a)) l)) s_0.
Proof.
  unfold agg_degree. generalize (s_0 : T). induction l as [|a l IH]; intros z; cbn [fold_left filter]; [reflexivity|].
  rewrite IH. destruct (same (ac_term a)); [|reflexivity]. cbn [map fold_left]. destruct g; reflexivity.
Qed.
End Missing.
