(** Takagi-Sugeno engines in binary64: grouped degrees and the value of the output. *)
From Coq Require Import ZArith Reals String Bool List Lra Lia.
From Flocq Require Import Core BinarySingleNaN.
From Verif Require Import Base Op XR XRFacts F64 F64Facts F64Arith F64Err F64Sum F64Quot Shape Norm Hedge Discrete Defuzz Aggregated Rule Var Activation Engine SpecRule SpecDegree SpecActivation SpecAgg SpecEngine SpecInfer SpecTerm SpecDefuzz SpecRound SpecMamdani SpecSugeno
  OpProofs AggProofs DefuzzReal ShapeF64 MamdaniF64 InferProofs InferBundle EngineF64 SugenoF64.
Import ListNotations.
Local Open Scope R_scope.

Lemma group_sum64 {A} (nm : A -> string) (g : A -> R) ks : NoDup ks -> forall l, (forall a, In a l -> In (nm a) ks) ->
  rsum (map (fun k => rsum (map g (named nm k l))) ks) = rsum (map g l).
Proof.
  intros ND. induction l as [|a l IH]; intro C.
  - unfold named; simpl. clear. induction ks; simpl; [reflexivity|]. rewrite rsum_cons, IHks. unfold rsum; simpl; lra.
  - simpl. rewrite rsum_cons, <- IH by (intros; apply C; simpl; auto).
    rewrite (rsum_ext _ (fun k => (if String.eqb k (nm a) then g a else 0) + rsum (map g (named nm k l)))).
    + rewrite rsum_plus. rewrite pick_one; auto. apply C; simpl; auto.
    + intros k _. unfold named; simpl. destruct (String.eqb k (nm a)); simpl; rewrite ?rsum_cons; lra.
Qed.
Lemma rsum_close {A} (f h b : A -> R) l : (forall x, In x l -> Rabs (f x - h x) <= b x) -> Rabs (rsum (map f l) - rsum (map h l)) <= rsum (map b l).
Proof.
  induction l as [|x l IH]; intro H; unfold rsum in *; cbn [map fold_right]; [rewrite Rminus_0_r, Rabs_R0; lra|]. specialize (IH (fun y I => H y (or_intror I))). specialize (H x (or_introl eq_refl)).
  match goal with |- Rabs (?a + ?b - (?c + ?d)) <= _ => replace (a + b - (c + d)) with ((a - c) + (b - d)) by ring end. apply Rle_trans with (1 := Rabs_triang _ _). lra.
Qed.
Lemma rsum_upto {A} (f : A -> R) l B : (forall x, In x l -> f x <= B) -> rsum (map f l) <= INR (length l) * B.
Proof. induction l as [|x l IH]; intro H; unfold rsum in *; cbn [map fold_right length]; [cbn; lra|]. rewrite S_INR. specialize (IH (fun y I => H y (or_intror I))). specialize (H x (or_introl eq_refl)). lra. Qed.
Lemma rsum_pos {A} (f : A -> R) l : (forall x, In x l -> 0 <= f x) -> 0 <= rsum (map f l).
Proof. induction l as [|x l IH]; intro H; unfold rsum in *; cbn [map fold_right]; [lra|]. specialize (IH (fun y I => H y (or_intror I))). specialize (H x (or_introl eq_refl)). lra. Qed.
Lemma rsum_scale {A} c (f : A -> R) l : rsum (map (fun x => c * f x) l) = c * rsum (map f l).
Proof. induction l as [|x l IH]; unfold rsum in *; cbn [map fold_right]; [lra|]. rewrite IH. lra. Qed.

Lemma filter_shorter {A} (f : A -> bool) l : (length (filter f l) <= length l)%nat.
Proof. induction l as [|x l IH]; cbn [filter length]; [lia|]. destruct (f x); cbn [length]; lia. Qed.
Section Group.
Variables (P : fparam) (name : nat -> string) (aggregation : option snorm) (cs : list (activated f64 nat)).
#[local] Instance S64g : Scalar f64 := F64Scalar P.
Hypothesis added : aggregation = None \/ aggregation = Some UnboundedSum.
Hypothesis degrees : forall c, In c cs -> is_finite (ac_degree c) = true /\ 0 <= B2R (ac_degree c) <= 8.
Hypothesis count : (Z.of_nat (length cs) < 2 ^ 46)%Z.
Hypothesis same : forall a b, In a cs -> In b cs -> aname name a = aname name b -> ac_term a = ac_term b.
Let gs := grouped_terms name aggregation cs.
Let N := INR (length cs).
Let d (c : activated f64 nat) : R := B2R (ac_degree c).
Lemma run_sum (r : list (activated f64 nat)) (a : f64) : is_finite a = true -> 0 <= B2R a <= 8 -> (forall c, In c r -> is_finite (ac_degree c) = true /\ 0 <= d c <= 8) -> (Z.of_nat (length r) < 2 ^ 46)%Z ->
  let s := fold_left (snorm_compute UnboundedSum) (map ac_degree r) a in let t := B2R a + rsum (map d r) in
  is_finite s = true /\ 0 <= t <= 8 * (INR (length r) + 1) /\ Rabs (B2R s - t) <= 65 / 64 * INR (length r) * u64 * t.
Proof.
  intros FA BA. induction r as [|c r IH] using rev_ind; intros F L s t.
  - unfold s, t, rsum. cbn [map fold_left fold_right length INR]. rewrite Rplus_0_r, Rminus_eq_0, Rabs_R0. split; [exact FA|]. lra.
  - assert (F0 : forall c, In c r -> is_finite (ac_degree c) = true /\ 0 <= d c <= 8) by (intros x I; apply F, in_or_app; auto). destruct (F c ltac:(apply in_or_app; right; now left)) as [F1 F2]. rewrite app_length in L. cbn [length] in L. destruct (IH F0 ltac:(lia)) as (I1 & I2 & I3). clear IH.
    set (s0 := fold_left (snorm_compute UnboundedSum) (map ac_degree r) a) in *. set (t0 := B2R a + rsum (map d r)) in *. set (n := INR (length r)) in *.
    assert (ES : s = Bplus mode_NE s0 (ac_degree c)) by (unfold s; rewrite map_app, fold_left_app; reflexivity). assert (ET : t = t0 + d c) by (unfold t, t0; rewrite map_app; cbn [map]; rewrite rsum_snoc; ring). rewrite ES, ET, app_length. cbn [length]. rewrite plus_INR. cbn [INR]. fold n.
    destruct u64_small as [U1 _]. assert (SC := small_count (length r) ltac:(lia)). rewrite S_INR in SC. fold n in SC. assert (N0 : 0 <= n) by apply pos_INR. assert (NU : 0 <= n * u64) by (apply Rmult_le_pos; lra).
    assert (NB : n + 1 <= 2 ^ 46). { unfold n. rewrite <- S_INR, INR_IZR_INZ. replace (2 ^ 46) with (IZR (2 ^ 46)) by (rewrite <- pow_IZR with (n := 46%nat); reflexivity). apply IZR_le. lia. }
    set (q := 65 / 64 * n * u64) in *. assert (Q1 : 0 <= q <= 1 / 64) by (unfold q; lra). assert (QT : q * t0 <= q * (t0 + d c)) by (apply Rmult_le_compat_l; lra). assert (QS : q * (t0 + d c) <= t0 + d c) by (apply scaled; lra).
    assert (A1 : Rabs (B2R s0 + d c - (t0 + d c)) <= q * (t0 + d c) + 0) by (replace (B2R s0 + d c - (t0 + d c)) with (B2R s0 - t0) by ring; lra).
    assert (A2 : Rabs (B2R s0 + d c) <= 2 * (t0 + d c)). { assert (Q := Rabs_triang (B2R s0 + d c - (t0 + d c)) (t0 + d c)). replace (B2R s0 + d c - (t0 + d c) + (t0 + d c)) with (B2R s0 + d c) in Q by ring. rewrite (Rabs_pos_eq (t0 + d c)) in Q by lra. lra. }
    assert (HB : 32 * 2 ^ 46 <= huge). { unfold huge. rewrite pow_bpow. change 32 with (bpow radix2 5). rewrite <- bpow_plus. apply bpow_le. lia. }
    destruct (plus_err s0 (ac_degree c) I1 F1) as [S1 S2]; [fold (d c); lra|]. fold (d c) in S2. split; [exact S1|]. split; [lra|].
    apply Rle_trans with (1 := one_more _ _ (t0 + d c) (t0 + d c) q u64 0 ltac:(lra) ltac:(lra) ltac:(rewrite Rabs_pos_eq; lra) A1 S2 ltac:(lra)). replace (65 / 64 * (n + 1) * u64) with (q + 65 / 64 * u64) by (unfold q; ring). lra.
Qed.
Lemma gs_eq : gs = flat_map (entry name UnboundedSum cs) (firsts (map (aname name) cs)).
Proof. unfold gs. rewrite (grouped_eq name UnboundedSum) by (destruct added as [->| ->]; reflexivity). reflexivity. Qed.
Lemma named_in n a : In a (named (aname name) n cs) -> In a cs /\ aname name a = n.
Proof. intro I. apply filter_In in I. destruct I as [I E]. apply String.eqb_eq in E. auto. Qed.
Lemma N_nonneg : 0 <= N. Proof. apply pos_INR. Qed.
Lemma entry_close n : match entry name UnboundedSum cs n with
  | [] => named (aname name) n cs = []
  | [x] => exists a r, named (aname name) n cs = a :: r /\ ac_term x = ac_term a /\ is_finite (ac_degree x) = true /\ 0 <= rsum (map d (a :: r)) <= 8 * N /\ Rabs (d x - rsum (map d (a :: r))) <= 65 / 64 * N * u64 * rsum (map d (a :: r))
  | _ => False end.
Proof.
  unfold entry. destruct (named (aname name) n cs) as [|a r] eqn:E; cbn [merge]; [reflexivity|]. exists a, r. split; [reflexivity|]. cbn [ac_term ac_degree]. split; [reflexivity|].
  assert (IA : forall c, In c (a :: r) -> In c cs) by (intros c I; rewrite <- E in I; now apply named_in in I). assert (LL : (length (a :: r) <= length cs)%nat) by (rewrite <- E; apply filter_shorter). cbn [length] in LL.
  destruct (degrees a (IA a (or_introl eq_refl))) as [D1 D2]. destruct (run_sum r (ac_degree a) D1 D2) as (R1 & R2 & R3); [intros c I; apply degrees, IA; now right|lia|].
  rewrite map_cons, rsum_cons. fold (d a) in R2, R3. split; [exact R1|]. apply le_INR in LL. rewrite S_INR in LL. fold N in LL. split; [lra|]. unfold d at 1. cbn [ac_degree]. apply Rle_trans with (1 := R3). apply Rmult_le_compat_r; [lra|]. apply Rmult_le_compat_r; [destruct u64_small; lra|]. lra.
Qed.
Lemma small_q : 0 <= 65 / 64 * N * u64 <= 1 / 64.
Proof. destruct u64_small as [U1 _]. assert (SC := small_count (length cs) count). rewrite S_INR in SC. fold N in SC. assert (N0 := N_nonneg). assert (0 <= N * u64) by (apply Rmult_le_pos; lra). lra. Qed.
Lemma gs_members x : In x gs -> is_finite (ac_degree x) = true /\ 0 <= d x <= 9 * N /\ In (ac_term x) (map ac_term cs).
Proof.
  rewrite gs_eq. intro I. apply in_flat_map in I. destruct I as (n & _ & I). assert (E := entry_close n). destruct (entry name UnboundedSum cs n) as [|y [|]]; [destruct I| |contradiction]. destruct I as [->|[]]. destruct E as (a & r & E1 & E2 & E3 & E4 & E5).
  assert (Q := small_q). assert (N0 := N_nonneg). set (t := rsum (map d (a :: r))) in *. assert (65 / 64 * N * u64 * t <= 1 / 64 * t) by (apply Rmult_le_compat_r; lra). split; [exact E3|]. split; [apply Rabs_le_inv in E5; lra|]. rewrite E2. apply in_map. apply (named_in n). rewrite E1. now left.
Qed.
Lemma gs_count : (length gs <= length cs)%nat.
Proof.
  rewrite gs_eq. apply Nat.le_trans with (length (firsts (map (aname name) cs))).
  - induction (firsts (map (aname name) cs)) as [|n l IH]; [cbn; lia|]. cbn [flat_map length]. rewrite app_length. assert (E := entry_close n). destruct (entry name UnboundedSum cs n) as [|y [|]]; cbn [length]; [apply le_S; exact IH|apply le_n_S; exact IH|contradiction].
  - rewrite <- (map_length (aname name) cs). apply NoDup_incl_length; [apply firsts_nodup|]. intros n I. apply firsts_in. exact I.
Qed.
Lemma by_degree_flat {B} g (f : B -> list (activated f64 nat)) l : by_degree g (flat_map f l) = rsum (map (fun b => by_degree g (f b)) l).
Proof. induction l as [|b l IH]; [reflexivity|]. cbn [flat_map map]. rewrite by_degree_app, IH, rsum_cons. reflexivity. Qed.
Lemma gs_close g G : (forall c, In c cs -> Rabs (g (ac_term c)) <= G) -> 0 <= G -> Rabs (by_degree g gs - by_degree g cs) <= 9 * N * u64 * (N * G).
Proof.
  intros H G0. rewrite gs_eq, by_degree_flat. unfold by_degree at 2. rewrite <- (group_sum64 (A := activated f64 nat) (aname name) (fun c => B2R (ac_degree c) * g (ac_term c))) with (ks := firsts (map (aname name) cs)) by (try apply firsts_nodup; intros a I; apply firsts_in, in_map; exact I).
  assert (Q := small_q). assert (N0 := N_nonneg). set (q := 65 / 64 * N * u64) in *.
  apply Rle_trans with (rsum (map (fun n => rsum (map (fun a => q * G * d a) (named (aname name) n cs))) (firsts (map (aname name) cs)))).
  - apply rsum_close. intros n _. assert (E := entry_close n). destruct (entry name UnboundedSum cs n) as [|x [|]]; [|destruct E as (a & r & E1 & E2 & E3 & E4 & E5)|contradiction].
    + rewrite E. unfold by_degree, rsum. cbn [map fold_right]. rewrite Rminus_eq_0, Rabs_R0. apply Rle_refl.
    + assert (IA : forall c, In c (a :: r) -> In c cs /\ aname name c = n) by (intros c I; rewrite <- E1 in I; now apply named_in in I). rewrite E1. set (t := rsum (map d (a :: r))) in *.
      rewrite (rsum_ext _ (fun c => g (ac_term a) * d c)); [|intros c I; destruct (IA c I) as [C1 C2]; destruct (IA a (or_introl eq_refl)) as [A1 A2]; rewrite (same c a C1 A1) by congruence; unfold d; ring]. rewrite !rsum_scale. fold t. change (Rabs (d x * g (ac_term x) + 0 - g (ac_term a) * t) <= q * G * t). rewrite E2.
      replace (d x * g (ac_term a) + 0 - g (ac_term a) * t) with ((d x - t) * g (ac_term a)) by ring. rewrite Rabs_mult. replace (q * G * t) with (q * t * G) by ring. apply Rmult_le_compat; try apply Rabs_pos; [exact E5|]. apply H, IA. now left.
  - rewrite group_sum64 by (try apply firsts_nodup; intros a I; apply firsts_in, in_map; exact I). rewrite rsum_scale. assert (T := rsum_upto d cs 8 (fun c I => proj2 (proj2 (degrees c I)))). fold N in T.
    apply Rle_trans with (q * G * (N * 8)); [apply Rmult_le_compat_l; [apply Rmult_le_pos; lra|exact T]|]. unfold q. replace (65 / 64 * N * u64 * G * (N * 8)) with (65 / 8 * (N * u64 * (N * G))) by field. replace (9 * N * u64 * (N * G)) with (9 * (N * u64 * (N * G))) by ring. apply Rmult_le_compat_r; [|lra]. destruct u64_small. repeat apply Rmult_le_pos; lra.
Qed.
End Group.
