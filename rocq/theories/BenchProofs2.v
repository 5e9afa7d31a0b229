(** Mean squared errors, and conversions of times. *)
From Coq Require Import ZArith List Bool Lia Reals Lra Psatz.
From Flocq Require Import Core BinarySingleNaN Plus_error.
From Verif Require Import Base Op XR XRFacts F64 F64Facts F64Arith F64Err OrdVal Var Engine Grid Benchmark SpecFld BenchProofs ActivationProofs4.
Import ListNotations.

Section Generic.
Context {T : Type} `{S : Scalar T}.
(** the entries whose squared difference is summed *)
Definition summand (tol : T) (p : T * T) : bool := (finite_difference p && negb (isEq_tol tol (fst p - snd p)%S s_0))%bool.
Definition squared (p : T * T) : T := ((fst p - snd p) * (fst p - snd p))%S.
Definition add_squares (tol : T) (l : list (T * T)) (acc : T * Z) : T * Z :=
  (fold_left s_add (map squared (filter (summand tol) l)) (fst acc), (snd acc + count (summand tol) l)%Z).
Lemma add_cons tol p l acc : add_squares tol (p :: l) acc = add_squares tol l (if summand tol p then ((fst acc + squared p)%S, (snd acc + 1)%Z) else acc).
Proof.
  unfold add_squares. rewrite count_cons. cbn [filter]. destruct (summand tol p); cbn [fst snd map fold_left]; f_equal; lia.
Qed.
Lemma add_app tol l m acc : add_squares tol (l ++ m) acc = add_squares tol m (add_squares tol l acc).
Proof.
  unfold add_squares. rewrite filter_app, map_app, fold_left_app, count_app. cbn [fst snd]. f_equal. lia.
Qed.
Lemma square_row_ok tol output n (e o : list T) ys : Forall (fun y => (n + y < length e)%nat /\ (n + y < length o)%nat) ys -> forall acc,
  square_row tol output n e o acc ys = Ok (add_squares tol (map (fun y => (nth (n + y) e s_nan, nth (n + y) o s_nan)) (filter (looked_at output) ys)) acc).
Proof.
  induction 1 as [|y ys [H1 H2] F IH]; intros acc; cbn [square_row filter].
  - cbn. f_equal. destruct acc. unfold add_squares, count. cbn. f_equal. lia.
  - destruct (looked_at output y); [|apply IH]. rewrite !at_nth by assumption. cbn [rbind]. rewrite IH. cbn [map]. rewrite add_cons. f_equal.
Qed.
Lemma square_rows_ok tol output n m (expected : list (list T)) : forall obtained acc, length expected = length obtained ->
  rectangular (n + m) expected -> rectangular (n + m) obtained ->
  square_rows tol output n m expected obtained acc = Ok (add_squares tol (entries output n m expected obtained) acc).
Proof.
  induction expected as [|e expected IH]; intros [|o obtained] acc L R1 R2; try discriminate.
  - cbn. f_equal. destruct acc. unfold add_squares, count. cbn. f_equal. lia.
  - inversion R1; subst. inversion R2; subst. cbn [square_rows]. rewrite square_row_ok.
    + cbn [rbind]. rewrite IH by (assumption || (injection L; auto)). f_equal. rewrite filter_chosen.
      change (entries output n m (e :: expected) (o :: obtained)) with (row_entries output n m e o ++ entries output n m expected obtained)%list.
      rewrite add_app. reflexivity.
    + apply Forall_forall. intros y Hy. apply in_seq in Hy. lia.
Qed.
Lemma mse_sum tol output n m (expected obtained : list (list T)) : can_compute n m expected obtained = true ->
  rectangular (n + m) expected -> rectangular (n + m) obtained ->
  let l := filter (summand tol) (entries output n m expected obtained) in let total := fold_left s_add (map squared l) s_0 in
  mean_squared_error tol output n m expected obtained = Ok (match l with [] => total | _ => (total / s_int (Z.of_nat (length l)))%S end).
Proof.
  intros C R1 R2. cbn zeta. unfold mean_squared_error. rewrite C. apply can_compute_iff in C. destruct C as [L _].
  rewrite square_rows_ok by assumption. cbn [rbind]. unfold add_squares, count. cbn [fst snd]. rewrite Z.add_0_l.
  destruct (filter (summand tol) (entries output n m expected obtained)) as [|p l]; [reflexivity|]. cbn [length]. rewrite (proj2 (Z.ltb_lt _ _)) by lia. reflexivity.
Qed.
End Generic.

Local Open Scope R_scope.
(** squared difference of finite values *)
Section Real.
Context (P : xparam).
#[local] Hint Extern 0 (Scalar xr) => exact (XRScalar P) : typeclass_instances.
Lemma x_isFinite (x : xr) : isFinite x = match x with XFin _ => true | _ => false end.
Proof. unfold isFinite. rewrite x_isNaN. destruct x; reflexivity. Qed.
Lemma finite_pair (p : xr * xr) : finite_difference p = true -> exists a b, p = (XFin a, XFin b).
Proof.
  destruct p as [[| | |a] [| | |b]]; unfold finite_difference; cbn [fst snd]; intros H; try (rewrite x_isFinite in H; discriminate). eauto.
Qed.
Lemma summand_faulty (tol : xr) p : summand tol p = faulty Accuracy tol p.
Proof.
  unfold summand, faulty, differs. cbn [of_kind]. rewrite andb_comm. destruct (finite_difference p) eqn:F; [|rewrite !andb_false_r; reflexivity].
  rewrite !andb_true_r. f_equal. destruct (finite_pair p F) as (a & b & ->). cbn [fst snd]. unfold isEq_tol. rewrite !x_isNaN, x_0. cbn.
  f_equal. f_equal. { destruct (Reqb_spec (a - b) 0), (Reqb_spec a b); auto; lra. }
  destruct tol; cbn; auto. replace (a - b - 0) with (a - b) by lra. reflexivity.
Qed.
Lemma fold_real l : Forall (fun p => exists a b : R, p = (XFin a, XFin b)) l -> forall r,
  fold_left s_add (map squared l) (XFin r) = XFin (r + sum_of (map real_square l)).
Proof.
  induction 1 as [|p l (a & b & ->) F IH]; intros r; cbn [map fold_left].
  - cbn. rewrite Rplus_0_r. reflexivity.
  - etransitivity; [apply IH|]. cbn. rewrite Rplus_assoc. reflexivity.
Qed.
Theorem mse_real (tol : xr) output n m (expected obtained : list (list xr)) : can_compute n m expected obtained = true ->
  rectangular (n + m) expected -> rectangular (n + m) obtained -> exists errors,
  errors = filter (faulty Accuracy tol) (entries output n m expected obtained) /\
  number_of_errors Accuracy tol output n m expected obtained = Ok (Z.of_nat (length errors)) /\
  mean_squared_error tol output n m expected obtained = Ok (XFin (sum_of (map real_square errors) / INR (Nat.max 1 (length errors)))) /\
  0 <= sum_of (map real_square errors).
Proof.
  intros C R1 R2. eexists. split; [reflexivity|]. split; [rewrite errors_count by assumption; reflexivity|].
  set (l := filter (faulty Accuracy tol) (entries output n m expected obtained)).
  assert (filter (summand tol) (entries output n m expected obtained) = l) as El.
  { unfold l. induction (entries output n m expected obtained) as [|p q IH]; [reflexivity|]. cbn [filter]. rewrite summand_faulty, IH. reflexivity. }
  assert (Forall (fun p => exists a b : R, p = (XFin a, XFin b)) l) as F.
  { apply Forall_forall. intros p Ip. apply filter_In in Ip. destruct Ip as [_ Ip]. unfold faulty in Ip. apply andb_prop in Ip. apply finite_pair. apply Ip. }
  split.
  - rewrite mse_sum by assumption. rewrite El. f_equal.
    assert (fold_left s_add (map squared l) s_0 = XFin (0 + sum_of (map real_square l))) as E.
    { etransitivity; [|apply fold_real; exact F]. f_equal. apply x_0. }
    destruct l as [|p l'] eqn:Eq; [etransitivity; [exact E|]; cbn; f_equal; field|]. rewrite <- Eq in *.
    replace (Nat.max 1 (length l)) with (length l) by (rewrite Eq; cbn [length]; lia).
    transitivity (xdiv (XFin (0 + sum_of (map real_square l))) (XFin (IZR (Z.of_nat (length l))))).
    { rewrite <- E, <- (x_int P). rewrite Eq. reflexivity. }
    rewrite <- INR_IZR_INZ. rewrite x_div; [f_equal; f_equal; lra|]. apply not_0_INR. rewrite Eq. discriminate.
  - clear -F. induction F as [|p l (a & b & ->) F IH]; cbn; [lra|]. assert (0 <= (a - b) * (a - b)) by apply Rle_0_sqr. unfold sum_of in IH. lra.
Qed.
(** times *)
Lemma factor_pos u : exists f, factor_of u = XFin f /\ 0 < f.
Proof.
  destruct u; cbn [factor_of]; rewrite ?x_1, ?x_lit, ?x_int; try (eexists; split; [reflexivity|lra]);
    match goal with |- context [(XFin ?a / XFin ?b)%S] => change ((XFin a / XFin b)%S : xr) with (xdiv (XFin a) (XFin b)) end; rewrite x_div by lra; (eexists; split; [reflexivity|lra]).
Qed.
Lemma factor_real u : factor_of u = XFin (/ nanoseconds u).
Proof.
  destruct u; cbn [factor_of nanoseconds]; rewrite ?x_1, ?x_lit, ?x_int;
    try match goal with |- context [(XFin ?a / XFin ?b)%S] => change ((XFin a / XFin b)%S : xr) with (xdiv (XFin a) (XFin b)); rewrite x_div by lra end; f_equal; lra.
Qed.
(** the same time in the other unit *)
Theorem convert_units x u v : exists y, convert (XFin x) u v = XFin y /\ y * nanoseconds v = x * nanoseconds u.
Proof.
  assert (forall u, 0 < nanoseconds u) as Pn by (intros []; cbn; lra). pose proof (Pn u) as Pu. pose proof (Pn v) as Pv.
  exists (x * / nanoseconds v / (/ nanoseconds u)). split; [|field; lra]. unfold convert. rewrite !factor_real.
  change ((XFin x * XFin (/ nanoseconds v) / XFin (/ nanoseconds u))%S : xr) with (xdiv (XFin (x * / nanoseconds v)) (XFin (/ nanoseconds u))).
  apply x_div. apply Rinv_neq_0_compat. lra.
Qed.
Theorem convert_real x u v : exists y, convert (XFin x) u v = XFin y /\ convert (XFin y) v u = XFin x /\ (u = v -> y = x) /\ (0 <= x -> 0 <= y) /\
  forall w, convert (XFin y) v w = convert (XFin x) u w.
Proof.
  destruct (factor_pos u) as (f & Ef & Hf), (factor_pos v) as (g & Eg & Hg).
  assert (forall x a b fa fb, factor_of a = XFin fa -> 0 < fa -> factor_of b = XFin fb -> convert (XFin x) a b = XFin (x * fb / fa)) as Cv.
  { intros z a b fa fb Ha Hfa Hb. unfold convert. rewrite Ha, Hb.
    change ((XFin z * XFin fb / XFin fa)%S : xr) with (xdiv (XFin (z * fb)) (XFin fa)). apply x_div. lra. }
  exists (x * g / f). split; [apply Cv; assumption|]. split; [etransitivity; [apply Cv; eassumption|]; f_equal; field; lra|]. split; [|split].
  - intros ->. rewrite Eg in Ef. injection Ef as <-. field. lra.
  - intros Hx. apply Rmult_le_pos; [nra|left; apply Rinv_0_lt_compat; lra].
  - intros w. destruct (factor_pos w) as (h & Eh & Hh). etransitivity; [apply Cv; eassumption|]. symmetry. etransitivity; [apply Cv; eassumption|]. f_equal. field. lra.
Qed.
End Real.

Section Float.
Context (P : fparam).
#[local] Hint Extern 0 (Scalar f64) => exact (F64Scalar P) : typeclass_instances.
Lemma f_isFinite (x : f64) : isFinite x = is_finite x.
Proof. destruct x as [[]|[]| |[] ? ? ?]; try reflexivity; unfold isFinite, isNaN; cbn; rewrite ?Z.compare_refl, ?Pos.compare_refl; reflexivity. Qed.
Lemma minus_zero_iff (a b : f64) : is_finite a = true -> is_finite b = true -> is_finite (Bminus mode_NE a b) = true -> (B2R (Bminus mode_NE a b) = 0 <-> B2R a = B2R b).
Proof.
  intros Fa Fb Fd. rewrite (minus_fin _ _ Fa Fb Fd). split.
  - intros H. destruct (Req_dec (B2R a) (B2R b)) as [|N]; [assumption|exfalso].
    assert (Hp : Prec_gt_0 prec64) by reflexivity.
    pose proof (@round_plus_neq_0 radix2 (SpecFloat.fexp prec64 emax64) (fexp_correct prec64 emax64 Hp) (@monotone_exp_not_FTZ _ (fexp_correct prec64 emax64 Hp) (fexp_monotone prec64 emax64)) ZnearestE (valid_rnd_N _)
      (B2R a) (- B2R b) (fmt_B2R a) (fmt_opp _ (fmt_B2R b)) ltac:(lra)) as K. apply K. exact H.
  - intros ->. rewrite Rminus_diag_eq by reflexivity. apply rnd_0.
Qed.
Lemma diff_finite (a b : f64) : is_finite (Bminus mode_NE a b) = true -> is_finite a = true /\ is_finite b = true.
Proof. destruct a as [[]|[]| |[] ? ? ?], b as [[]|[]| |[] ? ? ?]; cbn [is_finite]; intros H; try discriminate; auto. Qed.
Lemma summand_f64 (tol : f64) p : summand tol p = faulty Accuracy tol p.
Proof.
  unfold summand, faulty, differs. cbn [of_kind]. rewrite andb_comm. destruct (finite_difference p) eqn:F; [|rewrite !andb_false_r; reflexivity].
  rewrite !andb_true_r. f_equal. destruct p as [a b]. cbn [fst snd]. unfold finite_difference in F. rewrite f_isFinite in F. cbn [fst snd] in F.
  change ((a - b)%S : f64) with (Bminus mode_NE a b) in *. destruct (diff_finite a b F) as [Fa Fb].
  pose proof (minus_zero_iff a b Fa Fb F) as Z. set (d := Bminus mode_NE a b : f64) in *.
  assert (isNaN (d : f64) = false /\ isNaN a = false) as [Nd Na].
  { unfold isNaN. split; rewrite negb_false_iff; [change (Beqb d d = true)|change (Beqb a a = true)]; rewrite f_eqb, f2x_finite by assumption; cbn; apply Reqb_refl. }
  unfold isEq_tol. rewrite Nd, Na. cbn [andb]. f_equal. f_equal.
  - change (Beqb d (s_0 : f64) = Beqb a b). rewrite !f_eqb, !f2x_finite by (assumption || reflexivity). cbn [xeqb].
    change (B2R (s_0 : f64)) with (B2R (f64_lit 0 1)). rewrite (proj1 f64_0_correct). destruct (Reqb_spec (B2R d) 0), (Reqb_spec (B2R a) (B2R b)); tauto.
  - change (Bltb (Babs (Bminus mode_NE d (s_0 : f64))) tol = Bltb (Babs d) tol). f_equal.
    assert (Fz : is_finite (s_0 : f64) = true) by reflexivity. assert (Vz : B2R (s_0 : f64) = 0) by exact (proj1 f64_0_correct).
    destruct (minus_gen d (s_0 : f64) F Fz) as [V Fm].
    { apply (finite_between d d); [assumption..|]. rewrite Vz. lra. }
    apply Babs_ext.
    + destruct (Bminus mode_NE d (s_0 : f64)), d; try discriminate; reflexivity.
    + congruence.
    + rewrite V, Vz, Rminus_0_r, rnd_id by apply fmt_B2R. reflexivity.
Qed.
(** not NaN and not negative *)
Lemma square_pos (d : f64) : is_finite d = true -> above64 (Bmult mode_NE d d) 0.
Proof.
  intros F. pose proof (Bmult_correct prec64 emax64 _ _ mode_NE d d) as K. simpl round_mode in K. destruct (Rlt_bool _ _) eqn:E.
  - destruct K as (K1 & K2 & _). right. rewrite K2, F. split; [reflexivity|]. rewrite K1. change (0 <= rnd (B2R d * B2R d)). rewrite <- rnd_0. apply rnd_mono. apply Rle_0_sqr.
  - left. apply B2SF_inj. rewrite K. rewrite xorb_nilpotent. reflexivity.
Qed.
Lemma plus_pos a b : above64 a 0 -> above64 b 0 -> above64 (Bplus mode_NE a b) 0.
Proof.
  intros A [-> | B]; [|apply (plus_above a b 0 A (Rle_refl 0) B)].
  destruct A as [-> | [F _]]; [left; reflexivity|]. left. destruct a as [?|?| |? ? ? ?]; try discriminate; reflexivity.
Qed.
Lemma above_leb a : above64 a 0 -> Bleb (f64_lit 0 1) a = true.
Proof.
  intros A. rewrite f_leb, (f2x_finite (f64_lit 0 1)), (proj1 f64_0_correct) by reflexivity. destruct A as [-> | [F H]]; [reflexivity|].
  rewrite f2x_finite by exact F. cbn. apply Rleb_true. exact H.
Qed.
Theorem mse_f64 (tol : f64) output n m (expected obtained : list (list f64)) : can_compute n m expected obtained = true ->
  rectangular (n + m) expected -> rectangular (n + m) obtained -> (Z.of_nat (length (entries output n m expected obtained)) < 2 ^ 53)%Z ->
  exists v, mean_squared_error tol output n m expected obtained = Ok v /\ (s_0 <=? v)%S = true /\
  (number_of_errors Accuracy tol output n m expected obtained = Ok 0%Z -> v = s_0).
Proof.
  intros C R1 R2 Sz. rewrite mse_sum by assumption. rewrite errors_count by assumption. eexists. split; [reflexivity|].
  set (l := filter (summand tol) (entries output n m expected obtained)).
  assert (count (faulty Accuracy tol) (entries output n m expected obtained) = Z.of_nat (length l)) as Ec.
  { unfold l. rewrite (count_ext _ (summand tol)) by (intros; symmetry; apply summand_f64). reflexivity. }
  assert (length l <= length (entries output n m expected obtained))%nat as Ll.
  { unfold l. clear. induction (entries output n m expected obtained) as [|p q IH]; cbn; [lia|]. destruct (summand tol p); cbn; lia. }
  assert (Forall (fun p : f64 * f64 => is_finite (Bminus mode_NE (fst p) (snd p)) = true) l) as F.
  { apply Forall_forall. intros p Ip. apply filter_In in Ip. destruct Ip as [_ Ip]. unfold summand in Ip. apply andb_prop in Ip. destruct Ip as [Ip _].
    unfold finite_difference in Ip. rewrite f_isFinite in Ip. exact Ip. }
  assert (forall a, above64 a 0 -> above64 (fold_left s_add (map squared l) a) 0) as A.
  { clear -F. induction F as [|p l Hp F IH]; intros a A; [exact A|]. cbn [map fold_left]. apply IH. apply plus_pos; [exact A|]. apply square_pos. exact Hp. }
  specialize (A s_0). assert (above64 (s_0 : f64) 0) as A0. { right. split; [reflexivity|]. change (B2R (s_0 : f64)) with (B2R (f64_lit 0 1)). rewrite (proj1 f64_0_correct). lra. }
  specialize (A A0). split.
  - destruct l as [|p l'] eqn:El; [apply above_leb; exact A|]. rewrite <- El in *.
    apply above_leb. set (t := fold_left s_add (map squared l) s_0) in *.
    change ((t / s_int (Z.of_nat (length l)))%S : f64) with (Bdiv mode_NE t (f64_lit (Z.of_nat (length l)) 1)).
    destruct (int_correct (Z.of_nat (length l)) ltac:(lia)) as [Vk Fk].
    assert (1 <= IZR (Z.of_nat (length l))) as K1 by (apply (IZR_le 1); rewrite El; cbn [length]; lia).
    set (k := f64_lit (Z.of_nat (length l)) 1) in *. destruct A as [-> | [Ft Ht]].
    + left. destruct k as [?|?| |[|] ? ? ?]; try discriminate; try reflexivity; cbn in Vk; try lra. exfalso.
      match type of Vk with F2R ?f = _ => pose proof (F2R_lt_0 radix2 f ltac:(reflexivity)) end. lra.
    + right. assert (0 <= B2R t / B2R k <= B2R t) as D.
      { rewrite Vk. set (q := IZR (Z.of_nat (length l))) in *. assert (0 < / q <= 1) as [U1 U2]. { split; [apply Rinv_0_lt_compat; lra|]. rewrite <- Rinv_1. apply Rinv_le_contravar; lra. }
        unfold Rdiv. split; nra. }
      destruct (div_gen t k Ft) as [V Fv]; [rewrite Vk; lra| |].
      * apply (finite_between (f64_lit 0 1) t); [reflexivity|exact Ft|]. rewrite (proj1 f64_0_correct). exact D.
      * split; [exact Fv|]. rewrite V. rewrite <- rnd_0. apply rnd_mono. apply D.
  - rewrite Ec. intros [= E]. destruct l; [reflexivity|discriminate].
Qed.
End Float.
