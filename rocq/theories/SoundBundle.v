(** Degrees and values of engines: exact arithmetic and binary64. *)
From Coq Require Import ZArith String List Bool Lia Reals Lra.
From Flocq Require Import Core IEEE754.BinarySingleNaN.
From Verif Require Import Base Op XR XRFacts F64 F64Facts F64Arith F64Err Norm Hedge Shape Discrete Defuzz Aggregated Text Function Rule Var Activation Engine
  SpecNorm SpecTerm SpecDiscrete SpecAgg SpecDegree SpecActivation SpecSound NormBundle NormF64 NormProofs NormFacts HedgeProofs ShapeFacts ShapeRange ShapeBundle DiscreteProofs DiscreteBundle
  DefuzzBundle DefuzzReal DefuzzF64 OpProofs AggProofs AggProofs2 AggBundle ActivationProofs ActivationProofs2 ActivationProofs3 ActivationProofs4 DegreeProofs EngineProofs3 EngineBundle SoundProofs.
Import ListNotations.
Local Open Scope R_scope.

(** ** exact arithmetic *)
Section Exact.
Context (P : xparam).
#[local] Hint Extern 0 (Scalar _) => exact (XRScalar P) : typeclass_instances.
Hypothesis eps : 0 <= xp_eps P <= /10.
Definition fit_exact (n : snorm) : Prop := n <> UnboundedSum.

Lemma sum_exact : forall (ds : list xr) s, Forall degree ds -> 0 <= s -> exists t, fold_left s_add ds (XFin s) = XFin t /\ s <= t /\ forall d r, In d ds -> d = XFin r -> r <= t.
Proof.
  induction ds as [|d ds IH]; intros s F Hs; [exists s; split; [reflexivity|split; [lra|intros ? ? []]]|].
  inversion F as [|? ? (r & -> & Hr) F']; subst. cbn [fold_left]. change (s_add (XFin s) (XFin r)) with (XFin (s + r)).
  destruct (IH (s + r) F' ltac:(lra)) as (t & E & L & K). exists t. split; [exact E|]. split; [lra|]. intros d q [<-|I] Q; [inversion Q; subst; lra|eauto].
Qed.
Lemma degrees_exact : SpecSound.degrees degree fit_exact.
Proof.
  split.
  - exists 0. split; [apply (x_0 P)|lra].
  - exists 1. split; [apply (x_1 P)|lra].
  - intros hs x. exact (hedges_degree P hs x eps).
  - intros n a b Ha Hb. apply (T_closed P); auto; lra.
  - intros n a b Fn Ha Hb. apply (S_closed P); auto; lra.
  - intros w a (r & -> & Hr) (s & -> & Hs). exists (r * s). split; [reflexivity|nra].
  - intros ds d F I. cbv zeta. rewrite Forall_forall in F. assert (I' := I). apply F in I'. destruct I' as (r & -> & Hr). apply Forall_forall in F.
    destruct (sum_exact ds 0 F ltac:(lra)) as (t & E & L & K). rewrite (x_0 P : s_0 = XFin 0), E. specialize (K _ _ I eq_refl).
    change (s_div (XFin r) (XFin t)) with (xdiv (XFin r) (XFin t)). cbn [xdiv]. destruct (Req_EM_T t 0) as [Z|Z].
    + assert (r = 0) as -> by lra.
      assert (xinf_div 0 = XNaN) as Zn by (unfold xinf_div, xinf_mul, Rltb; destruct (Rlt_dec 0 0) as [O|O]; [exfalso; revert O; apply Rlt_irrefl|reflexivity]).
      rewrite Zn, (x_isNaN P). exists 0. split; [reflexivity|lra].
    + rewrite (x_isNaN P). exists (r / t). split; [reflexivity|]. assert (0 < t) by lra. split; [apply Rmult_le_pos; [lra|]; left; apply Rinv_0_lt_compat; lra|].
      apply Rmult_le_reg_r with t; [lra|]. unfold Rdiv. rewrite Rmult_assoc, Rinv_l by lra. lra.
Qed.

Lemma proper_degree vw t x : proper (xp_eps P) t x -> exists m, term_membership vw t x = Ok m /\ degree m.
Proof.
  intros [nm h s y Hh W O Wd B|nm h l y Hh N L F]; unfold term_membership; cbn [tm_body tm_height].
  - destruct (range_main P ltac:(lra) s h y ltac:(lra) W O Wd B) as (m & E & Hm). exists (XFin m). split; [f_equal; exact E|]. exists m. split; [reflexivity|lra].
  - destruct (disc_range P l h y 0 1 N L ltac:(lra) F) as (m & E & Hm). exists (XFin m). split; [exact E|]. exists m. split; [reflexivity|lra].
Qed.

Definition nonneg (x : xr) : Prop := exists r, x = XFin r /\ 0 <= r.
Lemma degree_nonneg x : degree x -> nonneg x.
Proof. intros (r & -> & Hr). exists r. split; [reflexivity|lra]. Qed.
(** what aggregation leads to *)
Definition Q (s : snorm) (x : xr) : Prop := nonneg x /\ (s <> UnboundedSum -> degree x).
Lemma Q_degree s x : degree x -> Q s x. Proof. intros D. split; [now apply degree_nonneg|auto]. Qed.
Lemma Q_snorm s a b : Q s a -> Q s b -> Q s (snorm_compute s a b).
Proof.
  intros [A1 A2] [B1 B2]. assert (s = UnboundedSum \/ s <> UnboundedSum) as [-> | N] by (destruct s; (left; reflexivity) || (right; discriminate)).
  - destruct A1 as (x & -> & Hx), B1 as (y & -> & Hy). split; [|congruence]. exists (x + y). split; [reflexivity|lra].
  - apply Q_degree, (S_closed P); auto; lra.
Qed.
Lemma Q_0 s : Q s (s_0 : xr).
Proof. apply Q_degree. exists 0. split; [apply (x_0 P)|lra]. Qed.

Lemma agg_Q {A} (memb : A -> xr -> res xr) s l x y : Forall (fun a => degree (ac_degree a)) l -> (forall a m, In a l -> memb (ac_term a) x = Ok m -> degree m) ->
  rfold (fun mu a => do m <- ac_membership memb a x; Ok (snorm_compute s mu m)) s_0 l = Ok y -> isNaN x = false -> Q s y.
Proof.
  generalize (Q_0 s). generalize (s_0 : xr). induction l as [|a l IH]; intros z Hz F M H N; cbn [rfold] in H; [inversion H; subst; exact Hz|].
  inversion F as [|? ? Fa Fl]; subst. unfold ac_membership in H at 1. rewrite N in H. destruct (ac_implication a) as [n|]; [|discriminate].
  destruct (memb (ac_term a) x) as [m| | |] eqn:E; try discriminate. cbn [rbind] in H. refine (IH _ _ Fl _ H N); [|intros b k Hb; apply M; now right].
  apply Q_snorm; [exact Hz|]. apply Q_degree, (T_closed P); [eapply M; [now left|exact E]|exact Fa].
Qed.
Lemma agg_nonneg {A} (memb : A -> xr -> res xr) ag l x y : Forall (fun a => degree (ac_degree a)) l -> (forall a m, In a l -> memb (ac_term a) x = Ok m -> degree m) ->
  agg_membership memb ag l x = Ok y -> y = XNaN \/ nonneg y.
Proof.
  intros F M H. unfold agg_membership in H. destruct (isNaN x) eqn:N; [inversion H; now left|]. right. destruct l as [|a l]; [inversion H; subst; apply (Q_0 Maximum)|].
  destruct ag as [s|]; [|discriminate]. eapply agg_Q in H; eauto. apply H.
Qed.

Lemma find_Q {A} (R : xr -> Prop) k : forall (m : list (string * activated xr A)) g, Forall (fun p => R (ac_degree (snd p))) m -> map_find k m = Some g -> R (ac_degree g).
Proof. induction m as [|[k' a] m IH]; intros g F H; [discriminate|]. inversion F; subst. cbn [map_find] in H. destruct (name_eqb k k'); [inversion H; subst; assumption|eauto]. Qed.
Lemma set_Q {A} (R : xr -> Prop) k (v : activated xr A) : forall m, Forall (fun p => R (ac_degree (snd p))) m -> R (ac_degree v) -> Forall (fun p => R (ac_degree (snd p))) (map_set k v m).
Proof.
  induction m as [|[k' a] m IH]; intros F H; cbn [map_set]; [constructor; [exact H|constructor]|]. inversion F; subst.
  destruct (name_eqb k k'); constructor; auto.
Qed.
Lemma grouped_Q {A} (name : A -> string) ag (l : list (activated xr A)) : Forall (fun a => degree (ac_degree a)) l ->
  Forall (fun a => Q (match ag with Some s => s | None => UnboundedSum end) (ac_degree a)) (grouped_terms name ag l).
Proof.
  intros F. unfold grouped_terms. set (s := match ag with Some s => s | None => UnboundedSum end).
  assert (Forall (fun p => Q s (ac_degree (snd p))) (fold_left (group_step name s) l [])) as G.
  { assert (Forall (fun p : string * activated xr A => Q s (ac_degree (snd p))) []) as G0 by constructor. revert G0. generalize (@nil (string * activated xr A)).
    induction F as [|a l Fa F IH]; intros m G0; cbn [fold_left]; [exact G0|]. apply IH. unfold group_step. destruct (map_find _ m) as [g|] eqn:E.
    - apply set_Q; [exact G0|]. cbn [ac_degree]. apply Q_snorm; [eapply find_Q; eauto|now apply Q_degree].
    - apply set_Q; [exact G0|now apply Q_degree]. }
  revert G. generalize (fold_left (group_step name s) l []). assert (Forall (fun a : activated xr A => Q s (ac_degree a)) []) as G0 by constructor.
  revert G0. generalize (@nil (activated xr A)). clear F. induction l as [|a l IH]; intros acc G0 m G; cbn [fold_left]; [exact G0|].
  unfold pick_step at 2. cbn [snd fst]. destruct (map_find _ m) as [g|] eqn:E; [|now apply IH]. apply IH.
  - apply Forall_app. split; [exact G0|]. constructor; [eapply find_Q; eauto|constructor].
  - unfold map_erase. apply Forall_forall. intros p I. apply filter_In in I. rewrite Forall_forall in G. now apply G.
Qed.

(** a weighted average is between the least and the greatest of the values *)
Lemma average_between {A} (z : A -> xr -> res xr) lo hi l acc num den : Forall (fun a => nonneg (ac_degree a)) l ->
  (forall a v, In a l -> z (ac_term a) (ac_degree a) = Ok v -> exists r, v = XFin r /\ lo <= r <= hi) ->
  0 <= den -> lo * den <= num <= hi * den -> rfold (weighted_step z) (XFin num, XFin den) l = Ok acc ->
  exists n d, acc = (XFin n, XFin d) /\ 0 <= d /\ lo * d <= n <= hi * d.
Proof.
  revert num den. induction l as [|a l IH]; intros num den F Z Hd Hn H; cbn [rfold] in H; [inversion H; subst; eauto 6|].
  inversion F as [|? ? (w & Ew & Hw) F']; subst. unfold weighted_step in H at 1. destruct (z (ac_term a) (ac_degree a)) as [v| | |] eqn:E; try discriminate.
  destruct (Z a v (or_introl eq_refl) E) as (r & -> & Hr). rewrite Ew in H. cbn [rbind fst snd] in H.
  change (s_add (XFin num) (s_mul (XFin w) (XFin r))) with (XFin (num + w * r)) in H. change (s_add (XFin den) (XFin w)) with (XFin (den + w)) in H.
  refine (IH _ _ F' _ _ _ H); [intros b u Hb; apply Z; now right|lra|nra].
Qed.
Lemma weighted_between {A} ty (name : A -> string) memb tsuk wt ag l lo hi v : Forall (fun a => degree (ac_degree a)) l ->
  (forall t y u, (nonneg y /\ forall n, ag = Some n -> n <> UnboundedSum -> degree y) -> memb t y = Ok u \/ tsuk t y = Ok u -> exists r, u = XFin r /\ lo <= r <= hi) ->
  weighted_defuzzify WeightedAverage ty name memb tsuk wt ag l = Ok v -> v = XNaN \/ exists z, v = XFin z /\ lo <= z <= hi.
Proof.
  intros F Z H. unfold weighted_defuzzify in H. destruct l as [|a0 l0]; [inversion H; now left|]. set (l := a0 :: l0) in *.
  assert (forall z, (forall t y u, z t y = Ok u -> memb t y = Ok u \/ tsuk t y = Ok u) -> weighted_with WeightedAverage name z ag l = Ok v ->
    v = XNaN \/ exists z, v = XFin z /\ lo <= z <= hi) as W.
  { intros z Hz Hw. unfold weighted_with in Hw. pose proof (grouped_Q name ag l F) as G. destruct (rfold _ _ _) as [acc| | |] eqn:E; try discriminate. cbn [rbind] in Hw.
    rewrite (x_0 P : s_0 = XFin 0) in E. apply average_between with (lo := lo) (hi := hi) in E; [|eapply Forall_impl; [|exact G]; cbv beta; intros a [Q1 _]; exact Q1| |lra|lra].
    - destruct E as (n & d & -> & Hd & Hn). cbn [fst snd] in Hw. inversion Hw as [Hv]. change (s_div (XFin n) (XFin d)) with (xdiv (XFin n) (XFin d)). cbn [xdiv].
      destruct (Req_EM_T d 0) as [-> | N].
      + left. assert (n = 0) as -> by nra. unfold xinf_div, xinf_mul, Rltb. destruct (Rlt_dec 0 0) as [O|O]; [exfalso; revert O; apply Rlt_irrefl|reflexivity].
      + right. exists (n / d). split; [reflexivity|]. assert (0 < d) by lra. split; [apply Rmult_le_reg_r with d|apply Rmult_le_reg_r with d]; try lra; unfold Rdiv; rewrite Rmult_assoc, Rinv_l; lra.
    - intros a u I E'. rewrite Forall_forall in G. specialize (G a I). destruct G as [G1 G2]. apply (Z (ac_term a) (ac_degree a)); [|now apply Hz].
      split; [exact G1|]. intros n -> Hn. auto. }
  destruct (if wtype_eqb ty WAutomatic then _ else _) as [ty'| | |]; try discriminate. cbn [rbind] in H. destruct ty'; [discriminate|eapply W; [|exact H]; auto|eapply W; [|exact H]; auto].
Qed.

(** ** values after processing *)
Lemma clamp_bound a b w : a <= b -> bound w (XFin a) (XFin b) = clamp a b w.
Proof.
  intros L. unfold bound, clamp. change (s_ltb (XFin b) w) with (xltb (XFin b) w). change (s_ltb w (XFin a)) with (xltb w (XFin a)).
  destruct w as [| | |r]; try reflexivity. cbn [xltb]. unfold Rltb, Rmax, Rmin. destruct (Rlt_dec b r), (Rle_dec b r), (Rlt_dec r a); try (exfalso; lra);
    match goal with |- context [Rle_dec ?x ?y] => destruct (Rle_dec x y) | _ => idtac end; try reflexivity; try (exfalso; lra); f_equal; lra.
Qed.
Lemma settle_kept (o p : output xr) v lo hi a b : v_minimum (o_var o) = XFin a -> v_maximum (o_var o) = XFin b -> a <= b ->
  (v_lock_range (o_var o) = true -> a <= lo /\ hi <= b) ->
  v = XNaN \/ (exists z, v = XFin z /\ lo <= z <= hi) -> p = settle v o -> kept_within a b lo hi o p.
Proof.
  intros Ea Eb L K V ->. unfold kept_within. cbv zeta.
  assert (forall w, v_value (o_var (set_output_value w (set_previous (v_value (o_var o)) o))) = if v_lock_range (o_var o) then clamp a b w else w) as W.
  { intros w. cbn. destruct (v_lock_range (o_var o)); [|reflexivity]. rewrite Ea, Eb. now apply clamp_bound. }
  unfold settle. destruct V as [-> | (z & -> & Hz)].
  - rewrite (x_isNaN P), andb_true_r. destruct (o_lock_previous o) eqn:Lp.
    + rewrite W. destruct (o_previous o); [right; left; reflexivity|right; right; split; reflexivity..].
    + rewrite W. right; left; reflexivity.
  - assert (isNaN (XFin z) = false) as Nz by apply (x_isNaN P). rewrite Nz, andb_false_r, Nz, W. left. destruct (v_lock_range (o_var o)); [|eauto].
    destruct (K eq_refl). exists z. split; [|exact Hz]. cbn [clamp]. f_equal. rewrite Rmin_right, Rmax_right; lra.
Qed.
Lemma final_value drain (e e' : engine xr) j o p d : SpecSound.sound degree fit_exact e -> process drain e = (e', Ok tt) -> nth_error (e_outputs e) j = Some o -> nth_error (e_outputs e') j = Some p ->
  v_enabled (o_var o) = true -> o_defuzzifier o = Some d ->
  exists vw f v, Forall (fun a => degree (ac_degree a)) f /\ defuzzified vw d (set_fuzzy f o) = Ok v /\ p = settle v (set_fuzzy f o).
Proof.
  intros So H Ho Hp En Ed. destruct (process_good _ _ degrees_exact _ _ _ _ So H) as (G & _).
  destruct (exceptions _ _ _ _ H) as (Ln & k & _ & [K _] & _ & X). destruct (K eq_refl) as (_ & ->).
  destruct (X j o p Ho Hp) as (X1 & _). destruct X1 as ((vw & V) & _); [apply nth_error_Some; congruence|].
  rewrite Forall_forall in G. pose proof (G p (nth_error_In _ _ Hp)) as Gp. exists vw, (o_fuzzy p).
  unfold defuzzify in V. cbn [set_fuzzy o_var o_defuzzifier] in V. rewrite En, Ed in V. cbn [negb] in V.
  destruct (defuzzified vw d _) as [v| | |] eqn:Dz; try discriminate. exists v. split; [exact Gp|]. split; [reflexivity|]. congruence.
Qed.
Lemma integral_kept drain (e e' : engine xr) j o p k n a b : SpecSound.sound degree fit_exact e -> process drain e = (e', Ok tt) -> nth_error (e_outputs e) j = Some o -> nth_error (e_outputs e') j = Some p ->
  v_enabled (o_var o) = true -> o_defuzzifier o = Some (DIntegral k n) -> (1 <= n)%Z -> v_minimum (o_var o) = XFin a -> v_maximum (o_var o) = XFin b -> a <= b ->
  (k = Centroid -> forall vw t x m, In t (v_terms (o_var o)) -> a <= x <= b -> term_membership vw t (XFin x) = Ok m -> degree m) -> kept_within a b a b o p.
Proof.
  intros So H Ho Hp En Ed Hn Ea Eb L M. destruct (final_value _ _ _ _ _ _ _ So H Ho Hp En Ed) as (vw & f & v & F & Dz & E).
  change (kept_within a b a b (set_fuzzy f o) p). eapply settle_kept; [exact Ea|exact Eb|exact L|lra| |exact E].
  unfold defuzzified in Dz. cbn [set_fuzzy o_var o_aggregation o_fuzzy] in Dz. rewrite Ea, Eb in Dz.
  refine (ranges P _ a b n v Hn L _). destruct k; cbn [integral_defuzzify] in Dz; [| | | |]; try (repeat ((left; exact Dz) || right); exact Dz).
  all: try (do 4 right; split; [exact Dz|]).
  all: intros x y Hx Hy; apply agg_nonneg in Hy; [destruct Hy as [-> | (r & -> & Hr)]; [exact I|exact Hr]|exact F|].
  all: intros act m _ Hm; destruct (nth_error (v_terms (o_var o)) (ac_term act)) as [t|] eqn:Et; [|discriminate]; eapply M; eauto using nth_error_In.
Qed.
Lemma average_kept drain (e e' : engine xr) j o p ty a b lo hi : SpecSound.sound degree fit_exact e -> process drain e = (e', Ok tt) -> nth_error (e_outputs e) j = Some o -> nth_error (e_outputs e') j = Some p ->
  v_enabled (o_var o) = true -> o_defuzzifier o = Some (DWeighted WeightedAverage ty) -> v_minimum (o_var o) = XFin a -> v_maximum (o_var o) = XFin b -> a <= b ->
  (v_lock_range (o_var o) = true -> a <= lo /\ hi <= b) ->
  (forall vw t y u, In t (v_terms (o_var o)) -> admissible o y -> term_membership vw t y = Ok u \/ term_tsukamoto t y = Ok u -> exists r, u = XFin r /\ lo <= r <= hi) ->
  kept_within a b lo hi o p.
Proof.
  intros So H Ho Hp En Ed Ea Eb L K M. destruct (final_value _ _ _ _ _ _ _ So H Ho Hp En Ed) as (vw & f & v & F & Dz & E).
  change (kept_within a b lo hi (set_fuzzy f o) p). eapply settle_kept; [exact Ea|exact Eb|exact L|exact K| |exact E].
  unfold defuzzified in Dz. cbn [set_fuzzy o_var o_aggregation o_fuzzy] in Dz. eapply weighted_between; [exact F| |exact Dz].
  cbv beta. intros t y u [(r & -> & Hr) Y2] HU. destruct (nth_error (v_terms (o_var o)) t) as [tm|] eqn:Et; [|destruct HU; discriminate].
  eapply M; [eapply nth_error_In; exact Et| |exact HU]. exists r. split; [reflexivity|]. split; [exact Hr|]. intros n En' Hn. destruct (Y2 n En' Hn) as (r' & Er & Hr'). inversion Er; subst. lra.
Qed.
End Exact.

(** ** binary64 *)
Section Binary64.
Context (P : fparam).
#[local] Hint Extern 0 (Scalar _) => exact (F64Scalar P) : typeclass_instances.
Hypotheses (Fe : is_finite (fp_eps P) = true) (He : B2R (fp_eps P) <= 1/8).
Definition fit_f64 (n : snorm) : Prop := n <> UnboundedSum /\ n <> HamacherSum.
Lemma degrees_f64 : SpecSound.degrees fdegree fit_f64.
Proof.
  split.
  - exact (fd_0 P).
  - exact (fd_1 P).
  - intros hs x. now apply (hedges_range_f64 P).
  - intros n a b Ha Hb. now apply (C07_t P n).
  - intros n a b [N1 N2] Ha Hb. now apply (C07_s P n).
  - intros w a Hw Ha. change (fdegree (@tnorm_compute f64 (F64Scalar P) AlgebraicProduct w a)). now apply (C07_t P AlgebraicProduct).
  - intros ds d F I. apply share_unit.
    + rewrite Forall_forall in F. destruct (F d I). split; [assumption|lra].
    + assert (Forall nonneg64 ds) as F' by (eapply Forall_impl; [|exact F]; intros x [A B]; split; [exact A|lra]).
      destruct (fold_above ds s_0 F') as (_ & _ & K); [right; destruct (fd_0 P) as [A B]; split; [exact A|lra]|]. exact (K d I).
Qed.
Lemma final_value64 drain (e e' : engine f64) j o p d : process drain e = (e', Ok tt) -> nth_error (e_outputs e) j = Some o -> nth_error (e_outputs e') j = Some p ->
  v_enabled (o_var o) = true -> o_defuzzifier o = Some d ->
  exists vw f v, defuzzified vw d (set_fuzzy f o) = Ok v /\ p = settle v (set_fuzzy f o).
Proof.
  intros H Ho Hp En Ed.
  destruct (exceptions _ _ _ _ H) as (Ln & k & _ & [K _] & _ & X). destruct (K eq_refl) as (_ & ->).
  destruct (X j o p Ho Hp) as (X1 & _). destruct X1 as ((vw & V) & _); [apply nth_error_Some; congruence|].
  exists vw, (o_fuzzy p).
  unfold defuzzify in V. cbn [set_fuzzy o_var o_defuzzifier] in V. rewrite En, Ed in V. cbn [negb] in V.
  destruct (defuzzified vw d _) as [v| | |] eqn:Dz; try discriminate. exists v. split; [reflexivity|]. congruence.
Qed.
Lemma selected_kept64 drain (e e' : engine f64) j o p k n (a b : f64) : process drain e = (e', Ok tt) -> nth_error (e_outputs e) j = Some o -> nth_error (e_outputs e') j = Some p ->
  v_enabled (o_var o) = true -> v_lock_range (o_var o) = false -> o_defuzzifier o = Some (DIntegral k n) -> k = SmallestOfMaximum \/ k = LargestOfMaximum -> (1 <= n < 2 ^ 31)%Z ->
  v_minimum (o_var o) = a -> v_maximum (o_var o) = b -> is_finite a = true -> is_finite b = true -> is_finite (Bminus mode_NE b a) = true -> bpow radix2 (-900) <= B2R b - B2R a ->
  let v := v_value (o_var p) in is_finite v = true /\ B2R a <= B2R v <= B2R b \/ v = o_default o \/ o_lock_previous o = true /\ v = o_previous o.
Proof.
  intros H Ho Hp En Lk Ed Hk Hn <- <- Fa Fb Fd G. destruct (final_value64 _ _ _ _ _ _ _ H Ho Hp En Ed) as (vw & f & v & Dz & ->). cbv zeta.
  assert (v = B754_nan \/ (is_finite v = true /\ B2R (v_minimum (o_var o)) <= B2R v <= B2R (v_maximum (o_var o)))) as V.
  { unfold defuzzified in Dz. cbn [set_fuzzy o_var o_aggregation o_fuzzy] in Dz. destruct Hk as [-> | ->]; cbn [integral_defuzzify] in Dz;
      [eapply (som_range64 P); eassumption|eapply (lom_range64 P); eassumption]. }
  unfold settle, set_output_value, set_value, set_var, set_previous, set_fuzzy. cbn [o_var o_lock_previous o_default o_previous v_lock_range v_value]. rewrite Lk.
  destruct V as [-> | V].
  - change (isNaN B754_nan) with true. rewrite andb_true_r. destruct (o_lock_previous o); [|now right; left]. destruct (isNaN (o_previous o)); auto.
  - assert (isNaN v = false) as Nv by (rewrite (f_isNaN P); destruct V as [Fv _]; destruct v; [reflexivity|discriminate Fv|discriminate Fv|reflexivity]).
    rewrite Nv, andb_false_r, Nv. now left.
Qed.
End Binary64.

(** ** an engine whose second block consults the output variable of the first *)
#[local] Hint Extern 9 (Scalar _) => exact (F64Scalar fp_default) : typeclass_instances.
Notation q := f64_lit.
Local Open Scope string_scope.
Definition mid_var (ag : option snorm) : output f64 :=
  mkOutput (o_var y_var) [] ag (Some (DWeighted WeightedAverage WTakagiSugeno)) s_nan s_nan false.
Definition end_var : output f64 :=
  mkOutput (mkVariable "z" "" s_nan (q 0 1) (q 1 1) true false y_terms) [] (Some Maximum) (Some (DIntegral LargestOfMaximum 4)) s_nan (q 2 1) false.
Definition relay_block (ag : option snorm) (texts : list string) : block f64 :=
  mkBlock true "" "" (fst (load_rules (engine_env [x_var] [mid_var ag; end_var]) (map (fun t => mkRule true t (q 1 1) (q 0 1) false "" None "" []) texts)))
    (Some Minimum) (Some Maximum) (Some Minimum) (Some General).
Definition relay (ag : option snorm) : engine f64 :=
  mkEngine "relay" "" [x_var] [mid_var ag; end_var]
    [relay_block ag ["if x is low then y is small"; "if x is not high then y is small"]; relay_block ag ["if y is small then z is big"]].

Definition fdegreeb (x : f64) : bool := (is_finite x && Bleb (q 0 1) x && Bleb x (q 1 1))%bool.
Lemma fdegreeb_ok x : fdegreeb x = true -> fdegree x.
Proof.
  unfold fdegreeb. intros H. apply andb_true_iff in H. destruct H as [H H2]. apply andb_true_iff in H. destruct H as [F H1]. split; [exact F|].
  rewrite Bleb_correct in H1 by (reflexivity || exact F). rewrite Bleb_correct in H2 by (reflexivity || exact F).
  rewrite (proj1 f64_0_correct) in H1. rewrite (proj1 f64_1_correct) in H2. destruct (Rle_bool_spec 0 (B2R x)); [|discriminate]. destruct (Rle_bool_spec (B2R x) 1); [lra|discriminate].
Qed.
Fixpoint outs_of (e : expression) : list nat :=
  match e with Prp p => match pr_var p with VOut j => [j] | _ => [] end | Opr _ l r => (outs_of l ++ outs_of r)%list end.
Lemma outs_uses j t e : Uses (VOut j) t e -> In j (outs_of e).
Proof. induction 1 as [p E _|n l r _ IH|n l r _ IH]; cbn [outs_of]; [rewrite E; now left|apply in_or_app; auto..]. Qed.
Definition fitb (n : snorm) : bool := match n with UnboundedSum | HamacherSum => false | _ => true end.
Lemma fitb_ok n : fitb n = true -> fit_f64 n. Proof. destruct n; intros H; try discriminate; split; discriminate. Qed.
(** a decision procedure for [sound], for examples *)
Definition soundb (e : engine f64) : bool :=
  forallb (fun b => forallb (fun r => fdegreeb (rl_weight r)) (b_rules b) && match b_disjunction b with Some n => fitb n | None => true end &&
    forallb (fun r => match rl_antecedent r with
      | Some ex => forallb (fun j => match nth_error (e_outputs e) j with Some o => match o_aggregation o with Some n => fitb n | None => false end | None => true end) (outs_of ex)
      | None => true end) (b_rules b))%bool (e_blocks e) &&
  forallb (fun v => forallb (fun t => match term_membership (engine_view (e_inputs e) (e_outputs e)) t (v_value v) with Ok m => fdegreeb m | _ => true end) (v_terms v)) (e_inputs e).
Lemma soundb_ok e : soundb e = true -> SpecSound.sound fdegree fit_f64 e.
Proof.
  unfold soundb. intros H. apply andb_true_iff in H. destruct H as [H1 H2]. rewrite forallb_forall in H1, H2.
  assert (forall b, In b (e_blocks e) -> forallb (fun r => fdegreeb (rl_weight r)) (b_rules b) = true /\ match b_disjunction b with Some n => fitb n | None => true end = true /\
    forallb (fun r => match rl_antecedent r with
      | Some ex => forallb (fun j => match nth_error (e_outputs e) j with Some o => match o_aggregation o with Some n => fitb n | None => false end | None => true end) (outs_of ex)
      | None => true end) (b_rules b) = true) as B.
  { intros b I. specialize (H1 b I). cbv beta in H1. apply andb_true_iff in H1. destruct H1 as [H1 B3]. apply andb_true_iff in H1. tauto. }
  split.
  - intros b r I _ Ir. destruct (B b I) as (B1 & _). rewrite forallb_forall in B1. apply fdegreeb_ok, B1, Ir.
  - intros b n I _ E. destruct (B b I) as (_ & B2 & _). rewrite E in B2. now apply fitb_ok.
  - intros v t m I _ It E. specialize (H2 v I). cbv beta in H2. rewrite forallb_forall in H2. specialize (H2 t It). cbv beta in H2. rewrite E in H2. now apply fdegreeb_ok.
  - intros b r ex j t o I _ Ir Ea U Eo. destruct (B b I) as (_ & _ & B3). rewrite forallb_forall in B3. specialize (B3 r Ir). cbv beta in B3. rewrite Ea in B3.
    rewrite forallb_forall in B3. specialize (B3 j (outs_uses _ _ _ U)). cbv beta in B3. rewrite Eo in B3. destruct (o_aggregation o) as [n|]; [|discriminate]. exists n. split; [reflexivity|now apply fitb_ok].
Qed.
Definition rule_degrees_of (e : engine f64) : list f64 := List.concat (map (fun b => map (@rl_degree f64) (b_rules b)) (e_blocks e)).
Lemma relay_sound : SpecSound.sound fdegree fit_f64 (relay (Some Maximum)).
Proof. apply soundb_ok. vm_compute. reflexivity. Qed.
Definition exceeds (e : engine f64) : bool :=
  is_ready e && match snd (process stable_drain e) with Ok tt => true | _ => false end &&
  forallb (fun v => forallb (fun t => match term_membership (engine_view (e_inputs e) (e_outputs e)) t (v_value v) with Ok m => fdegreeb m | _ => true end) (v_terms v)) (e_inputs e) &&
  forallb (fun b => forallb (fun r => fdegreeb (rl_weight r)) (b_rules b)) (e_blocks e) &&
  existsb (fun b => existsb (fun r => Bltb (f64_lit 1 1) (rl_degree r)) (b_rules b)) (e_blocks (processed e)).
Lemma exceeds_ok e : exceeds e = true -> is_ready e = true /\ snd (process stable_drain e) = Ok tt /\
  (forall v t m, In v (e_inputs e) -> In t (v_terms v) -> term_membership (engine_view (e_inputs e) (e_outputs e)) t (v_value v) = Ok m -> fdegree m) /\
  (forall b r, In b (e_blocks e) -> In r (b_rules b) -> fdegree (rl_weight r)) /\
  exists r b, In b (e_blocks (processed e)) /\ In r (b_rules b) /\ Bltb (f64_lit 1 1) (rl_degree r) = true.
Proof.
  unfold exceeds. rewrite !andb_true_iff. intros ((((H1 & H2) & H3) & H4) & H5). split; [exact H1|]. split; [destruct (snd (process stable_drain e)) as [[]| | |]; congruence|]. split.
  { intros v t m I It E. rewrite forallb_forall in H3. specialize (H3 v I). cbv beta in H3. rewrite forallb_forall in H3. specialize (H3 t It). cbv beta in H3. rewrite E in H3. now apply fdegreeb_ok. }
  split.
  { intros b r I Ir. rewrite forallb_forall in H4. specialize (H4 b I). cbv beta in H4. rewrite forallb_forall in H4. apply fdegreeb_ok, H4, Ir. }
  apply existsb_exists in H5. destruct H5 as (b & I & H). apply existsb_exists in H. destruct H as (r & Ir & H). exists r, b. auto.
Qed.
Lemma consulted_refuted : exists e : engine f64, is_ready e = true /\ snd (process stable_drain e) = Ok tt /\
  (forall v t m, In v (e_inputs e) -> In t (v_terms v) -> term_membership (engine_view (e_inputs e) (e_outputs e)) t (v_value v) = Ok m -> fdegree m) /\
  (forall b r, In b (e_blocks e) -> In r (b_rules b) -> fdegree (rl_weight r)) /\
  exists r b, In b (e_blocks (processed e)) /\ In r (b_rules b) /\ Bltb (f64_lit 1 1) (rl_degree r) = true.
Proof. exists (relay None). apply exceeds_ok. vm_compute. reflexivity. Qed.
