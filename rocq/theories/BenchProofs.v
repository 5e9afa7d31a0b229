(** Proofs about benchmarks. *)
From Coq Require Import ZArith String List Bool Lia Permutation.
From Verif Require Import Base Op Var Activation Engine SpecVar SpecActivation SpecEngine EngineProofs EngineProofs2 EngineProofs3 EngineProofs4
  Grid SpecGrid GridProofs Benchmark SpecFld FldProofs ActivationProofs2.
Import ListNotations.

Section Counting.
Context {A : Type}.
Implicit Types (p q : A -> bool) (l : list A).
Lemma count_app p l m : count p (l ++ m) = (count p l + count p m)%Z.
Proof. unfold count. rewrite filter_app, app_length. lia. Qed.
Lemma count_cons p x l : count p (x :: l) = ((if p x then 1 else 0) + count p l)%Z.
Proof. unfold count. cbn. destruct (p x); cbn [length]; lia. Qed.
Lemma count_0 p l : count p l = 0%Z <-> Forall (fun x => p x = false) l.
Proof.
  induction l as [|x l IH]; [split; [constructor|reflexivity]|]. rewrite count_cons. split.
  - intros H. assert (0 <= count p l)%Z by (unfold count; lia). destruct (p x) eqn:E; [exfalso; lia|]. constructor; [exact E|]. apply IH. exact H.
  - intros H. inversion H as [|? ? E F]; subst. rewrite E. apply IH in F. rewrite F. reflexivity.
Qed.
Lemma count_split p q l : count p l = (count (fun x => p x && q x)%bool l + count (fun x => p x && negb (q x))%bool l)%Z.
Proof. induction l as [|x l IH]; [reflexivity|]. rewrite !count_cons, IH. destruct (p x), (q x); cbn [andb negb]; lia. Qed.
Lemma count_ext p q l : (forall x, p x = q x) -> count p l = count q l.
Proof. intros H. unfold count. f_equal. f_equal. induction l as [|x l IH]; cbn; [reflexivity|]. rewrite H. destruct (q x); [f_equal|]; exact IH. Qed.
End Counting.

Section Bench.
Context {T : Type} `{S : Scalar T}.
Variable drain : drainer T.

Lemma counts_faulty ty tol (e o : T) : counts ty tol e o = faulty ty tol (e, o).
Proof. destruct ty; reflexivity. Qed.

(** the positions looked at *)
Lemma filter_chosen output m : filter (looked_at output) (seq 0 m) = chosen output m.
Proof.
  destruct output as [j|]; cbn [looked_at chosen].
  - assert (forall a, filter (fun y => Nat.eqb j y) (seq a m) = if (a <=? j) && (j <? a + m) then [j] else []) as H.
    { induction m as [|m IH]; intros a; cbn [seq filter].
      - destruct (Nat.leb_spec a j), (Nat.ltb_spec j (a + 0)); cbn; auto; lia.
      - rewrite IH. destruct (Nat.eqb_spec j a) as [->|E].
        + destruct (Nat.leb_spec (Datatypes.S a) a); [lia|]. cbn [andb]. destruct (Nat.leb_spec a a), (Nat.ltb_spec a (a + Datatypes.S m)); cbn; auto; lia.
        + destruct (Nat.leb_spec (Datatypes.S a) j), (Nat.ltb_spec j (Datatypes.S a + m)), (Nat.leb_spec a j), (Nat.ltb_spec j (a + Datatypes.S m)); cbn; auto; lia. }
    rewrite H. cbn. reflexivity.
  - induction (seq 0 m) as [|a l IH]; cbn; [reflexivity|f_equal; exact IH].
Qed.
Lemma at_nth (r : list T) i : (i < length r)%nat -> vector_at i r = Ok (nth i r s_nan).
Proof. intros H. unfold vector_at. rewrite (nth_error_nth' r s_nan H). reflexivity. Qed.
Lemma at_out (r : list T) i : (length r <= i)%nat -> vector_at i r = Throw EOutOfRange.
Proof. intros H. unfold vector_at. rewrite (proj2 (nth_error_None r i) H). reflexivity. Qed.

Lemma count_row_ok ty tol output n (e o : list T) ys : Forall (fun y => (n + y < length e)%nat /\ (n + y < length o)%nat) ys -> forall z,
  count_row ty tol output n e o z ys = Ok (z + count (faulty ty tol) (map (fun y => (nth (n + y) e s_nan, nth (n + y) o s_nan)) (filter (looked_at output) ys)))%Z.
Proof.
  induction 1 as [|y ys [H1 H2] F IH]; intros z; cbn [count_row filter]; [cbn; f_equal; unfold count; cbn; lia|].
  destruct (looked_at output y); [|apply IH]. rewrite (Nat.add_comm y n), !at_nth by assumption. cbn [rbind]. rewrite IH. f_equal. cbn [map]. rewrite count_cons, counts_faulty.
  destruct (faulty ty tol _); lia.
Qed.
Lemma below n m : forall k, (k <= m)%nat -> forall r : list T, (n + m <= length r)%nat -> Forall (fun y => (n + y < length r)%nat) (seq 0 k).
Proof. intros k Hk r Hr. apply Forall_forall. intros y Hy. apply in_seq in Hy. lia. Qed.
Lemma rows_ok ty tol output n m (expected : list (list T)) : forall obtained z, length expected = length obtained ->
  rectangular (n + m) expected -> rectangular (n + m) obtained ->
  count_rows ty tol output n m expected obtained z = Ok (z + count (faulty ty tol) (entries output n m expected obtained))%Z.
Proof.
  induction expected as [|e expected IH]; intros [|o obtained] z L R1 R2; try discriminate.
  - cbn. f_equal. unfold count; cbn; lia.
  - inversion R1; subst. inversion R2; subst. cbn [count_rows]. rewrite count_row_ok.
    + cbn [rbind]. rewrite IH by (assumption || (injection L; auto)). f_equal. rewrite filter_chosen.
      change (entries output n m (e :: expected) (o :: obtained)) with (row_entries output n m e o ++ entries output n m expected obtained)%list. rewrite count_app.
      unfold row_entries. lia.
    + apply Forall_forall. intros y Hy. apply in_seq in Hy. lia.
Qed.
Theorem errors_count ty tol output n m (expected obtained : list (list T)) : can_compute n m expected obtained = true ->
  rectangular (n + m) expected -> rectangular (n + m) obtained ->
  number_of_errors ty tol output n m expected obtained = Ok (count (faulty ty tol) (entries output n m expected obtained)).
Proof.
  intros C R1 R2. unfold number_of_errors. rewrite C. rewrite rows_ok; [f_equal|..]; try assumption.
  unfold can_compute in C. destruct expected, obtained; try discriminate. apply andb_prop in C. destruct C as [C _]. apply andb_prop in C. destruct C as [C _].
  apply Nat.eqb_eq in C. exact C.
Qed.
Theorem errors_none ty tol output n m (expected obtained : list (list T)) : can_compute n m expected obtained = false ->
  number_of_errors ty tol output n m expected obtained = Ok (-1)%Z /\ mean_squared_error tol output n m expected obtained = Ok s_nan.
Proof. intros C. unfold number_of_errors, mean_squared_error. rewrite C. auto. Qed.
(** when errors can be computed *)
Theorem can_compute_iff n m (expected obtained : list (list T)) : can_compute n m expected obtained = true <->
  length expected = length obtained /\ exists x xs y ys, expected = x :: xs /\ obtained = y :: ys /\ length x = (n + m)%nat /\ length y = (n + m)%nat.
Proof.
  unfold can_compute. split.
  - destruct expected as [|x xs], obtained as [|y ys]; try discriminate. intros C. apply andb_prop in C. destruct C as [C C3]. apply andb_prop in C. destruct C as [C1 C2].
    apply Nat.eqb_eq in C1, C2, C3. split; [exact C1|]. exists x, xs, y, ys. repeat split; congruence.
  - intros (L & x & xs & y & ys & -> & -> & H1 & H2). rewrite L, H1, H2, !Nat.eqb_refl. reflexivity.
Qed.
(** a row too short *)
Lemma count_row_out ty tol n (e o : list T) ys z y : In y ys -> (length e <= n + y)%nat \/ (length o <= n + y)%nat ->
  count_row ty tol None n e o z ys = Throw EOutOfRange.
Proof.
  revert z. induction ys as [|y' ys IH]; intros z I H; [destruct I|]. cbn [count_row looked_at].
  destruct (Nat.lt_ge_cases (n + y') (length e)) as [H1|H1]; [|rewrite (at_out e) by lia; reflexivity]. rewrite (at_nth e) by lia. cbn [rbind].
  destruct (Nat.lt_ge_cases (n + y') (length o)) as [H2|H2]; [|rewrite (at_out o) by lia; reflexivity]. rewrite (at_nth o) by lia. cbn [rbind].
  destruct I as [->|I]; [lia|]. apply IH; assumption.
Qed.
Theorem errors_ragged ty tol n m (expected obtained : list (list T)) : can_compute n m expected obtained = true -> (0 < m)%nat ->
  ~ (rectangular (n + m) expected /\ rectangular (n + m) obtained) -> number_of_errors ty tol None n m expected obtained = Throw EOutOfRange.
Proof.
  intros C M NR. unfold number_of_errors. rewrite C. apply can_compute_iff in C. destruct C as [L _]. revert L NR. generalize 0%Z. revert obtained.
  induction expected as [|e expected IH]; intros [|o obtained] z L NR; try discriminate; [exfalso; apply NR; split; constructor|].
  cbn [count_rows]. destruct (Nat.lt_ge_cases (length e) (n + m)) as [H1|H1]; [rewrite (count_row_out _ _ _ _ _ _ _ (m - 1)); [reflexivity|apply in_seq; lia|lia]|].
  destruct (Nat.lt_ge_cases (length o) (n + m)) as [H2|H2]; [rewrite (count_row_out _ _ _ _ _ _ _ (m - 1)); [reflexivity|apply in_seq; lia|lia]|].
  rewrite count_row_ok by (apply Forall_forall; intros y Hy; apply in_seq in Hy; lia). cbn [rbind]. apply IH; [cbn in L; lia|].
  intros [R1 R2]. apply NR. split; constructor; assumption.
Qed.

(** ** C65 *)
Theorem errors_by_kind tol output n m (expected obtained : list (list T)) : can_compute n m expected obtained = true ->
  rectangular (n + m) expected -> rectangular (n + m) obtained -> exists all accuracy non_finite,
  number_of_errors AllErrors tol output n m expected obtained = Ok all /\ number_of_errors Accuracy tol output n m expected obtained = Ok accuracy /\
  number_of_errors NonFinite tol output n m expected obtained = Ok non_finite /\ all = (accuracy + non_finite)%Z.
Proof.
  intros C R1 R2. do 3 eexists. repeat (split; [apply errors_count; assumption|]).
  rewrite (count_split _ finite_difference). f_equal; apply count_ext; intros x; unfold faulty; cbn [of_kind]; rewrite andb_true_r; reflexivity.
Qed.
Theorem errors_zero tol output n m (expected obtained : list (list T)) : can_compute n m expected obtained = true ->
  rectangular (n + m) expected -> rectangular (n + m) obtained ->
  (number_of_errors AllErrors tol output n m expected obtained = Ok 0%Z <->
   Forall (fun p => isEq_tol tol (fst p) (snd p) = true) (entries output n m expected obtained)).
Proof.
  intros C R1 R2. rewrite errors_count by assumption. assert (forall x y : Z, Ok x = Ok y <-> x = y) as OkI by (split; [now intros [= ->]|now intros ->]).
  rewrite OkI, count_0. unfold faulty, differs. cbn [of_kind].
  split; intros H; (eapply Forall_impl; [|exact H]); intros p; cbn beta; rewrite andb_true_r; destruct (isEq_tol tol (fst p) (snd p)); cbn; congruence.
Qed.
Lemma sum_upto_add f g m : sum_upto (fun j => f j + g j)%Z m = (sum_upto f m + sum_upto g m)%Z.
Proof. induction m; cbn; lia. Qed.
Lemma sum_upto_ext f g m : (forall j, (j < m)%nat -> f j = g j) -> sum_upto f m = sum_upto g m.
Proof. intros H. induction m; cbn; [reflexivity|]. rewrite IHm by (intros; apply H; lia). rewrite H by lia. reflexivity. Qed.
Lemma count_seq p (f : nat -> T * T) m : count p (map f (seq 0 m)) = sum_upto (fun j => count p (map f [j])) m.
Proof. induction m; [reflexivity|]. rewrite seq_S, map_app, count_app, IHm. reflexivity. Qed.
Lemma sum_entries p n m (expected : list (list T)) : forall obtained,
  count p (entries None n m expected obtained) = sum_upto (fun j => count p (entries (Some j) n m expected obtained)) m.
Proof.
  induction expected as [|e expected IH]; intros [|o obtained]; try (cbn; clear; induction m; cbn; [reflexivity|rewrite <- IHm; reflexivity]).
  assert (forall out, entries out n m (e :: expected) (o :: obtained) = (row_entries out n m e o ++ entries out n m expected obtained)%list) as Ec by reflexivity.
  rewrite Ec, count_app, IH. rewrite (sum_upto_ext (fun j => count p (entries (Some j) n m (e :: expected) (o :: obtained)))
    (fun j => count p (row_entries (Some j) n m e o) + count p (entries (Some j) n m expected obtained))%Z) by (intros j _; rewrite Ec; apply count_app).
  rewrite sum_upto_add. f_equal. unfold row_entries. cbn [chosen]. rewrite count_seq. apply sum_upto_ext. intros j Hj. rewrite (proj2 (Nat.ltb_lt _ _) Hj). reflexivity.
Qed.
Theorem errors_by_output ty tol n m (expected obtained : list (list T)) : can_compute n m expected obtained = true ->
  rectangular (n + m) expected -> rectangular (n + m) obtained -> exists each,
  (forall j, (j < m)%nat -> number_of_errors ty tol (Some j) n m expected obtained = Ok (each j)) /\
  number_of_errors ty tol None n m expected obtained = Ok (sum_upto each m).
Proof.
  intros C R1 R2. exists (fun j => count (faulty ty tol) (entries (Some j) n m expected obtained)). split.
  - intros j _. apply errors_count; assumption.
  - rewrite errors_count by assumption. rewrite sum_entries. reflexivity.
Qed.

(** ** runs *)
Lemma like_outputs inames onames (a b : engine T) xs : engine_like inames onames true a b ->
  let x := process drain (set_inputs xs a) in let y := process drain (set_inputs xs b) in
  snd x = snd y /\ output_values (fst x) = output_values (fst y) /\ engine_like inames onames true (fst x) (fst y).
Proof.
  intros L. cbn zeta. pose proof (strict_exec drain _ _ a b (CInputs xs) L) as L2. cbn [execute] in L2.
  pose proof (strict_observed drain _ _ _ _ L2) as O. unfold observed in O. injection O as O1 O2 _. split; [exact O1|]. split.
  - unfold output_values. assert (forall l l' : list (output T), map (fun o => (v_value (o_var o), o_previous o, o_fuzzy o)) l = map (fun o => (v_value (o_var o), o_previous o, o_fuzzy o)) l' ->
      map (fun o => v_value (o_var o)) l = map (fun o => v_value (o_var o)) l') as M; [|apply M; exact O2].
    clear. induction l as [|o l IH]; intros [|o' l'] H; try discriminate; [reflexivity|]. cbn in *. injection H as H1 H2 H3 H4. f_equal; auto.
  - exact (strict_exec drain _ _ _ _ CProcess L2).
Qed.
Lemma rows_like inames onames (expected : list (list T)) : forall a b, engine_like inames onames true a b ->
  snd (bench_rows drain expected a) = snd (bench_rows drain expected b) /\ engine_like inames onames true (fst (bench_rows drain expected a)) (fst (bench_rows drain expected b)).
Proof.
  induction expected as [|r expected IH]; intros a b L; [split; [reflexivity|exact L]|]. cbn [bench_rows]. unfold bench_row.
  assert (length (e_inputs b) = length (e_inputs a)) as -> by (destruct L as (HI & _); apply Forall2_len in HI; congruence).
  destruct (length r <? length (e_inputs a))%nat; [split; [reflexivity|exact L]|].
  pose proof (like_outputs _ _ a b (firstn (length (e_inputs a)) r) L) as Q. cbn zeta in Q.
  destruct (process drain (set_inputs (firstn (length (e_inputs a)) r) a)) as [x rx], (process drain (set_inputs (firstn (length (e_inputs a)) r) b)) as [y ry].
  cbn [fst snd] in Q. destruct Q as (-> & Qo & QL). unfold output_values in Qo.
  destruct ry as [[]|err| |]; try (split; [reflexivity|exact QL]).
  destruct (IH x y QL) as [I1 I2]. rewrite Qo.
  destruct (bench_rows drain expected x) as [x' rx'], (bench_rows drain expected y) as [y' ry']. cbn [fst snd] in *. subst rx'.
  destruct ry'; split; auto.
Qed.
Lemma restart_like (a b : engine T) : @nan_unordered T S -> same_engine a b -> engine_like (input_names (restart a)) (output_names (restart a)) true (restart a) (restart b).
Proof.
  intros N SE. assert (same_engine (restart a) (restart b)) as SR.
  { eapply same_engine_trans; [apply same_engine_sym, restart_same|]. eapply same_engine_trans; [exact SE|apply restart_same]. }
  destruct (restart_unused a N) as [A1 A2]. destruct (restart_unused b N) as [B1 B2]. apply same_like; [exact SR| | |].
  - destruct SR as (_ & _ & HI & _). unfold input_values. clear - HI A1 B1. induction HI; [reflexivity|]. inversion A1; inversion B1; subst. cbn. f_equal; [congruence|auto].
  - intros t f n v _ _ _ _. right. left. reflexivity.
  - intros _. destruct SR as (_ & _ & _ & HO & _). clear - HO A2 B2. induction HO; [constructor|]. inversion A2; inversion B2; subst. constructor; [|auto].
    intuition congruence.
Qed.
Lemma bench_rows_same (expected : list (list T)) : forall e, same_engine e (fst (bench_rows drain expected e)).
Proof.
  induction expected as [|r expected IH]; intros e; [apply same_engine_refl|]. cbn [bench_rows]. unfold bench_row.
  destruct (length r <? length (e_inputs e))%nat; [apply same_engine_refl|].
  assert (same_engine e (fst (process drain (set_inputs (firstn (length (e_inputs e)) r) e)))) as Sp.
  { eapply same_engine_trans; [apply set_inputs_same|apply process_same]. }
  destruct (process drain (set_inputs (firstn (length (e_inputs e)) r) e)) as [x [[]|err| |]]; try exact Sp. cbn [fst] in Sp.
  specialize (IH x). destruct (bench_rows drain expected x) as [x' [rows|err| |]]; eapply same_engine_trans; eassumption.
Qed.
(** the table depends neither on what the engine did before nor on how often the benchmark is repeated *)
Theorem run_repeatable times (expected : list (list T)) : forall obtained (a b : engine T), @nan_unordered T S -> same_engine a b ->
  snd (bench_run drain (Datatypes.S times) expected obtained b) = snd (bench_rows drain expected (restart a)).
Proof.
  induction times as [|times IH]; intros obtained a b N SE.
  - cbn [bench_run]. destruct (rows_like _ _ expected _ _ (restart_like a b N SE)) as [E _]. rewrite E.
    destruct (bench_rows drain expected (restart b)) as [x [rows|err| |]]; reflexivity.
  - change (bench_run drain (Datatypes.S (Datatypes.S times)) expected obtained b) with
      (match bench_rows drain expected (restart b) with (e, Ok o) => bench_run drain (Datatypes.S times) expected o e | r => r end).
    destruct (rows_like _ _ expected _ _ (restart_like a b N SE)) as [E _].
    pose proof (bench_rows_same expected (restart b)) as Sb.
    destruct (bench_rows drain expected (restart b)) as [x [rows|err| |]]; cbn [fst snd] in *; try (symmetry; exact E).
    apply IH; [exact N|]. eapply same_engine_trans; [exact SE|]. eapply same_engine_trans; [apply restart_same|exact Sb].
Qed.
(** the rows are independent evaluations *)
Theorem rows_evaluations (expected : list (list T)) (e : engine T) : memoryless e -> forall b rows, like e b -> 
  snd (bench_rows drain expected b) = Ok rows ->
  Forall2 (fun x y => (length (e_inputs e) <= length x)%nat /\ exists outs, evaluation drain e (firstn (length (e_inputs e)) x) = (Ok tt, outs) /\
    y = (firstn (length (e_inputs e)) x ++ outs)%list) expected rows.
Proof.
  intros M. induction expected as [|r expected IH]; intros b rows L; cbn [bench_rows]; [intros [= <-]; constructor|]. unfold bench_row.
  assert (length (e_inputs b) = length (e_inputs e)) as Lb. { destruct L as [(_ & _ & HI & _) _]. apply Forall2_len in HI. congruence. }
  rewrite Lb. destruct (Nat.ltb_spec (length r) (length (e_inputs e))) as [|Hr]; [discriminate|].
  set (xs := firstn (length (e_inputs e)) r).
  assert (length xs = length (e_inputs e)) as Lx by (unfold xs; rewrite firstn_length; lia).
  destruct (like_eval drain e b xs M L Lx) as [H1 H2]. pose proof (like_step drain e b xs L) as L2.
  destruct (process drain (set_inputs xs b)) as [x [[]|err| |]]; try discriminate. cbn [fst snd] in *.
  specialize (IH x). destruct (bench_rows drain expected x) as [x' [rows'|err| |]]; try discriminate. cbn [snd] in *.
  intros [= <-]. constructor; [|apply IH; [exact L2|reflexivity]]. split; [lia|]. exists (output_values x). split; [|reflexivity].
  fold xs. unfold evaluation. cbv zeta. rewrite <- H1, <- H2 by congruence. reflexivity.
Qed.
(** a table compared with itself *)
Lemma entries_self output n m (rows : list (list T)) : Forall (fun p => fst p = snd p) (entries output n m rows rows).
Proof.
  induction rows as [|r rows IH]; [constructor|]. unfold entries. cbn [combine flat_map]. apply Forall_app. split; [|exact IH].
  unfold row_entries. apply Forall_forall. intros p Hp. apply in_map_iff in Hp. destruct Hp as (y & <- & _). reflexivity.
Qed.
Theorem errors_self tol output n m (rows : list (list T)) : (forall x : T, isEq_tol tol x x = true) -> can_compute n m rows rows = true -> rectangular (n + m) rows ->
  number_of_errors AllErrors tol output n m rows rows = Ok 0%Z.
Proof.
  intros E C R1. apply errors_zero; [assumption..|]. eapply Forall_impl; [|apply entries_self]. intros [x y]. cbn. intros ->. apply E.
Qed.

(** ** the table to be filled *)
Theorem prepare_grid values sc (e : engine T) resolution : resolution_for values sc (length (e_inputs e)) = Ok resolution ->
  let n := length (e_inputs e) in exists ks, visits (repeat 0%Z n) (repeat resolution n) (repeat 0%Z n) ks (repeat 0%Z n) /\
  prepare values sc e = Ok (map (fun k => inputs_at resolution (repeat true n) k (e_inputs e)) ks).
Proof.
  intros Hr n. assert (L : length (repeat 0%Z n) = length (repeat resolution n)) by (rewrite !repeat_length; reflexivity).
  exists (grid (repeat 0%Z n) (repeat resolution n)). split; [rewrite <- grid_from_min by exact L; apply visits_from; [exact L|reflexivity]|].
  unfold prepare. fold n. fold n in Hr. rewrite Hr. cbn [rbind]. rewrite loop_grid by exact L.
  assert (forall ks rows, Forall (fun k => length k = n) ks -> each (prepare_step resolution e) ks rows =
    ((rows ++ map (fun k => inputs_at resolution (repeat true n) k (e_inputs e)) ks)%list, Ok tt)) as H.
  { induction ks as [|k ks IH]; intros rows F; cbn [each]; [rewrite app_nil_r; reflexivity|]. inversion F as [|? ? Hk F']; subst. unfold prepare_step at 1. rewrite IH by assumption.
    rewrite <- app_assoc. cbn [app map]. do 3 f_equal. f_equal. clear - Hk. unfold n in *. revert k Hk. induction (e_inputs e) as [|v l IHl]; intros [|i k] Hk; try discriminate; [reflexivity|].
    cbn [combine map repeat length inputs_at fst snd]. f_equal. apply IHl. cbn in Hk. lia. }
  rewrite H; [reflexivity|]. apply Forall_forall. intros k Hk. apply in_grid in Hk; [|exact L]. apply boxed_length in Hk. rewrite repeat_length in Hk. congruence.
Qed.
End Bench.
