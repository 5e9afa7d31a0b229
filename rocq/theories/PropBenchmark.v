(** C65: benchmarks. *)
From Coq Require Import ZArith String List Bool Reals Lia Lra.
From Flocq Require Import Core IEEE754.BinarySingleNaN.
From Verif Require Import Base Op XR F64 F64Facts F64Arith Text Var Activation Engine Grid Benchmark SpecEngine SpecGrid SpecFld ActivationProofs3 EngineBundle
  FldProofs BenchProofs BenchProofs2 FldBundle PropGrid.
Import ListNotations.
#[local] Hint Extern 9 (Scalar _) => exact (F64Scalar fp_default) : typeclass_instances.

(** * C65 *)
(** the number of errors is the number of entries which differ, of the kind asked for *)
Theorem C65_count : forall T (S : Scalar T) ty (tol : T) output n m (expected obtained : list (list T)), can_compute n m expected obtained = true ->
  rectangular (n + m) expected -> rectangular (n + m) obtained ->
  number_of_errors ty tol output n m expected obtained = Ok (count (faulty ty tol) (entries output n m expected obtained)).
Proof. exact @errors_count. Qed.
Print Assumptions C65_count.
(** when errors can be computed, and what is returned otherwise *)
Theorem C65_can : forall T n m (expected obtained : list (list T)), can_compute n m expected obtained = true <->
  length expected = length obtained /\ exists x xs y ys, expected = x :: xs /\ obtained = y :: ys /\ length x = (n + m)%nat /\ length y = (n + m)%nat.
Proof. exact @can_compute_iff. Qed.
Print Assumptions C65_can.
Theorem C65_cannot : forall T (S : Scalar T) ty (tol : T) output n m (expected obtained : list (list T)), can_compute n m expected obtained = false ->
  number_of_errors ty tol output n m expected obtained = Ok (-1)%Z /\ mean_squared_error tol output n m expected obtained = Ok s_nan.
Proof. exact @errors_none. Qed.
Print Assumptions C65_cannot.
(** rows other than the first may be too short: std::out_of_range *)
Theorem C65_ragged : forall T (S : Scalar T) ty (tol : T) n m (expected obtained : list (list T)), can_compute n m expected obtained = true -> (0 < m)%nat ->
  ~ (rectangular (n + m) expected /\ rectangular (n + m) obtained) -> number_of_errors ty tol None n m expected obtained = Throw EOutOfRange.
Proof. exact @errors_ragged. Qed.
Print Assumptions C65_ragged.
Theorem C65_by_kind : forall T (S : Scalar T) (tol : T) output n m (expected obtained : list (list T)), can_compute n m expected obtained = true ->
  rectangular (n + m) expected -> rectangular (n + m) obtained -> exists all accuracy non_finite,
  number_of_errors AllErrors tol output n m expected obtained = Ok all /\ number_of_errors Accuracy tol output n m expected obtained = Ok accuracy /\
  number_of_errors NonFinite tol output n m expected obtained = Ok non_finite /\ all = (accuracy + non_finite)%Z.
Proof. exact @errors_by_kind. Qed.
Print Assumptions C65_by_kind.
Theorem C65_by_output : forall T (S : Scalar T) ty (tol : T) n m (expected obtained : list (list T)), can_compute n m expected obtained = true ->
  rectangular (n + m) expected -> rectangular (n + m) obtained -> exists each,
  (forall j, (j < m)%nat -> number_of_errors ty tol (Some j) n m expected obtained = Ok (each j)) /\
  number_of_errors ty tol None n m expected obtained = Ok (sum_upto each m).
Proof. exact @errors_by_output. Qed.
Print Assumptions C65_by_output.
Theorem C65_zero : forall T (S : Scalar T) (tol : T) output n m (expected obtained : list (list T)), can_compute n m expected obtained = true ->
  rectangular (n + m) expected -> rectangular (n + m) obtained ->
  (number_of_errors AllErrors tol output n m expected obtained = Ok 0%Z <->
   Forall (fun p => isEq_tol tol (fst p) (snd p) = true) (entries output n m expected obtained)).
Proof. exact @errors_zero. Qed.
Print Assumptions C65_zero.
Theorem C65_self : forall T (S : Scalar T) (tol : T) output n m (rows : list (list T)), (forall x : T, isEq_tol tol x x = true) ->
  can_compute n m rows rows = true -> rectangular (n + m) rows -> number_of_errors AllErrors tol output n m rows rows = Ok 0%Z.
Proof. exact @errors_self. Qed.
Print Assumptions C65_self.

(** running: the table does not depend on how often it is run nor on earlier use of the engine *)
Theorem C65_repeatable : forall T (S : Scalar T) (drain : drainer T) times (expected obtained : list (list T)) (a b : engine T), @nan_unordered T S -> same_engine a b ->
  snd (bench_run drain (Datatypes.S times) expected obtained b) = snd (bench_rows drain expected (restart a)).
Proof. exact @run_repeatable. Qed.
Print Assumptions C65_repeatable.
(** each row is the evaluation of the engine at the inputs of the expected row *)
Theorem C65_rows : forall T (S : Scalar T) (drain : drainer T) (expected : list (list T)) (e : engine T) rows, memoryless e ->
  snd (bench_rows drain expected e) = Ok rows ->
  Forall2 (fun x y => (length (e_inputs e) <= length x)%nat /\ exists outs, evaluation drain e (firstn (length (e_inputs e)) x) = (Ok tt, outs) /\
    y = (firstn (length (e_inputs e)) x ++ outs)%list) expected rows.
Proof. intros T S drain expected e rows M. exact (rows_evaluations drain expected e M e rows (like_refl e)). Qed.
Print Assumptions C65_rows.

(** mean squared error over the reals: of the accuracy errors *)
Theorem C65_mse : forall (P : xparam) (tol : xr) output n m (expected obtained : list (list xr)), can_compute n m expected obtained = true ->
  rectangular (n + m) expected -> rectangular (n + m) obtained -> exists errors,
  errors = filter (@faulty xr (XRScalar P) Accuracy tol) (@entries xr (XRScalar P) output n m expected obtained) /\
  @number_of_errors xr (XRScalar P) Accuracy tol output n m expected obtained = Ok (Z.of_nat (length errors)) /\
  @mean_squared_error xr (XRScalar P) tol output n m expected obtained = Ok (XFin (sum_of (map real_square errors) / INR (Nat.max 1 (length errors)))) /\
  (0 <= sum_of (map real_square errors))%R.
Proof. exact mse_real. Qed.
Print Assumptions C65_mse.
Theorem C65_mse_f64 : forall (P : fparam) (tol : f64) output n m (expected obtained : list (list f64)), can_compute n m expected obtained = true ->
  rectangular (n + m) expected -> rectangular (n + m) obtained -> (Z.of_nat (length (@entries f64 (F64Scalar P) output n m expected obtained)) < 2 ^ 53)%Z ->
  exists v, @mean_squared_error f64 (F64Scalar P) tol output n m expected obtained = Ok v /\ Bleb (f64_lit 0 1) v = true /\
  (@number_of_errors f64 (F64Scalar P) Accuracy tol output n m expected obtained = Ok 0%Z -> v = f64_lit 0 1).
Proof. exact mse_f64. Qed.
Print Assumptions C65_mse_f64.
(** times in other units *)
Theorem C65_convert : forall (P : xparam) (x : R) u v, exists y, @convert xr (XRScalar P) (XFin x) u v = XFin y /\ (y * nanoseconds v = x * nanoseconds u)%R.
Proof. exact convert_units. Qed.
Print Assumptions C65_convert.

Definition expected : list (list f64) := [[q 0 1; q 1 4]; [q 1 2; q 1 8]; [q 1 1; s_nan]].
Definition obtained : list (list f64) := [[q 0 1; q 1 4]; [q 1 2; q 1 2]; [q 1 1; q 3 4]].
Example C65_case : can_compute 1 1 expected obtained = true /\ rectangular (1 + 1) expected /\ rectangular (1 + 1) obtained /\
  number_of_errors AllErrors (q 1 1000) None 1 1 expected obtained = Ok 2%Z /\ number_of_errors Accuracy (q 1 1000) (Some 0%nat) 1 1 expected obtained = Ok 1%Z /\
  match mean_squared_error (q 1 1000) None 1 1 expected obtained with Ok v => Beqb v (q 9 64) | _ => false end = true /\
  memoryless sample /\ match snd (bench_run stable_drain 2 expected [] sample) with Ok rows => rows_equal rows obtained | _ => false end = true.
Proof.
  split; [vm_compute; reflexivity|]. split; [repeat constructor|]. split; [repeat constructor|].
  split; [vm_compute; reflexivity|]. split; [vm_compute; reflexivity|]. split; [vm_compute; reflexivity|].
  split; [exact sample_memoryless|]. vm_compute. reflexivity.
Qed.
