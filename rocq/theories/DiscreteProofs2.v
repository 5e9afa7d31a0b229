(** Discretization and Linear terms. *)
From Coq Require Import ZArith Reals Bool List Lra Lia Psatz Permutation Sorted.
From Verif Require Import Base Op XR XRFacts Discrete SpecTerm SpecDiscrete NormAlg Shape ShapeFacts DiscreteProofs.
Import ListNotations.
Local Open Scope R_scope.

Lemma rmapM_spec {A B} (f : A -> res B) l k : rmapM f l = Ok k ->
  length k = length l /\ forall i b, nth_error k i = Some b -> exists a, nth_error l i = Some a /\ f a = Ok b.
Proof.
  revert k. induction l as [|a l IH]; simpl; intros k H.
  - injection H as <-. split; auto. intros [|i] b E; discriminate.
  - destruct (f a) eqn:E; simpl in H; try discriminate. destruct (rmapM f l) eqn:E2; simpl in H; try discriminate.
    injection H as <-. destruct (IH _ eq_refl) as [L N]. split; [simpl; auto|].
    intros [|i] b Hb; simpl in *; [injection Hb as <-; eauto|auto].
Qed.
Lemma rmapM_map {A B} (f : A -> res B) (g : A -> B) l : (forall a, In a l -> f a = Ok (g a)) -> rmapM f l = Ok (map g l).
Proof. induction l; simpl; intros H; auto. rewrite (H a) by auto. simpl. rewrite IHl by auto. reflexivity. Qed.
Lemma nth_seq0 n i : (i < n)%nat -> nth_error (seq 0 n) i = Some i.
Proof.
  intro H. rewrite (nth_error_nth' (seq 0 n) 0%nat) by (rewrite seq_length; auto). now rewrite seq_nth.
Qed.

Section Gen.
Context {T : Type} `{S : Scalar T}.
Lemma discretize_points (mu : T -> res T) a b n bd l : discretize mu a b n bd = Ok l ->
  length l = Z.to_nat (n + 1) /\
  forall i p, nth_error l i = Some p -> exists y,
    mu (a + s_int (Z.of_nat i) * ((b - a) / s_int n))%S = Ok y /\
    p = ((a + s_int (Z.of_nat i) * ((b - a) / s_int n))%S, if bd then bound y s_0 s_1 else y).
Proof.
  unfold discretize. intro H. apply rmapM_spec in H. rewrite seq_length in H. destruct H as [L N]. split; auto.
  intros i p Hp. destruct (N _ _ Hp) as (j & Hj & E).
  assert (i < Z.to_nat (n + 1))%nat by (rewrite <- L; apply nth_error_Some; congruence).
  rewrite nth_seq0 in Hj by auto. injection Hj as <-. unfold disc_point in E.
  destruct (mu _) as [y| | |] eqn:M; try discriminate. simpl in E. injection E as <-. eauto.
Qed.
End Gen.

Section D.
Context (P : xparam).
#[local] Hint Extern 0 (Scalar xr) => exact (XRScalar P) : typeclass_instances.
Notation eps := (xp_eps P).

Definition node (a b : R) (n : Z) (i : nat) : R := a + INR i * ((b - a) / IZR n).
Definition clip (y : R) : R := Rmin 1 (Rmax 0 y).
Definition points (f : R -> R) (a b : R) (n : Z) (bd : bool) : list (R * R) :=
  map (fun i => (node a b n i, if bd then clip (f (node a b n i)) else f (node a b n i))) (seq 0 (Z.to_nat (n + 1))).

Lemma x_bound01 y : bound (XFin y) s_0 s_1 = XFin (clip y).
Proof.
  unfold bound, clip. rewrite x_0, x_1. simpl.
  unfold Rmin, Rmax. destruct (Rltb_spec 1 y), (Rle_dec 0 y); try destruct Rle_dec; try lra; auto;
    destruct (Rltb_spec y 0); try lra; auto; f_equal; lra.
Qed.
Lemma discretize_real (mu : xr -> res xr) f a b n bd : (1 <= n)%Z -> (forall r, a <= r <= b \/ b <= r <= a -> mu (XFin r) = Ok (XFin (f r))) ->
  discretize mu (XFin a) (XFin b) n bd = Ok (xpts (points f a b n bd)).
Proof.
  intros N M. unfold discretize, points, xpts. rewrite map_map. apply rmapM_map. intros i Hi. apply in_seq in Hi.
  unfold disc_point. rewrite !x_int, <- INR_IZR_INZ.
  assert (0 < IZR n) by (apply IZR_lt; lia). xe P. fold (node a b n i).
  assert (IN : INR i <= IZR n) by (rewrite INR_IZR_INZ; apply IZR_le; lia).
  assert (P0 := pos_INR i).
  assert (Q : 0 <= INR i / IZR n <= 1) by (split; [apply div_nonneg; lra|apply div_le_1; lra]).
  assert (EN : node a b n i = a + (INR i / IZR n) * (b - a)) by (unfold node; field; lra).
  rewrite M by (rewrite EN; destruct (Rle_dec a b); [left|right]; nra).
  simpl. unfold xpt; simpl. do 2 f_equal. destruct bd; auto. rewrite <- x_bound01, x_0, x_1. reflexivity.
Qed.
Lemma points_length f a b n bd : length (points f a b n bd) = Z.to_nat (n + 1).
Proof. unfold points. rewrite map_length, seq_length. auto. Qed.
Lemma points_nth f a b n bd i : (Z.of_nat i <= n)%Z -> nth_error (points f a b n bd) i =
  Some (node a b n i, if bd then clip (f (node a b n i)) else f (node a b n i)).
Proof. intro H. unfold points. rewrite nth_error_map, nth_seq0 by lia. reflexivity. Qed.
Lemma node_0 a b n : node a b n 0 = a. Proof. unfold node; simpl; ring. Qed.
Lemma node_n a b n : (1 <= n)%Z -> node a b n (Z.to_nat n) = b.
Proof.
  intro H. unfold node. rewrite INR_IZR_INZ, Z2Nat.id by lia. field. apply not_0_IZR; lia.
Qed.
Lemma seq_map_sorted (g : nat -> R) (h : nat -> R) s n : (forall i, g i < g (Datatypes.S i)) ->
  strictly_increasing (map (fun i => (g i, h i)) (seq s n)).
Proof.
  intro G. revert s. induction n; intro s; simpl; constructor.
  - apply IHn.
  - apply Forall_forall. intros p Hp. apply in_map_iff in Hp. destruct Hp as (j & <- & Hj). apply in_seq in Hj. simpl.
    assert (K : forall d, g s < g (s + Datatypes.S d)%nat).
    { induction d; [rewrite Nat.add_1_r; auto|]. rewrite Nat.add_succ_r. eapply Rlt_trans; [exact IHd|apply G]. }
    replace j with (s + Datatypes.S (j - s - 1))%nat by lia. apply K.
Qed.
Lemma node_step a b n i : (1 <= n)%Z -> node a b n (Datatypes.S i) - node a b n i = (b - a) / IZR n.
Proof. intro. unfold node. rewrite S_INR. ring. Qed.
Lemma points_sorted f a b n bd : (1 <= n)%Z -> a < b -> strictly_increasing (points f a b n bd).
Proof.
  intros N L. apply seq_map_sorted. intro i. pose proof (node_step a b n i N).
  assert (0 < (b - a) / IZR n) by (apply Rdiv_lt_0_compat; [lra|apply IZR_lt; lia]). lra.
Qed.
(** the sampled term reproduces the original membership at every sample *)
Lemma discretize_agrees f a b n bd i : 0 <= eps -> (1 <= n)%Z -> a < b -> eps * IZR n <= b - a -> (Z.of_nat i <= n)%Z ->
  dm P (points f a b n bd) 1 (node a b n i) = Ok (XFin (if bd then clip (f (node a b n i)) else f (node a b n i))).
Proof.
  intros E0 N L G I. assert (NP : 0 < IZR n) by (apply IZR_lt; lia).
  assert (SS := points_sorted f a b n bd N L).
  rewrite disc_polyline; auto.
  - do 2 f_equal. rewrite Rmult_1_l. assert (NE := points_nth f a b n bd i I). apply nth_error_split in NE.
    destruct NE as (l1 & l2 & E & _). rewrite E in *. now rewrite poly_node.
  - intro E. assert (C := points_length f a b n bd). rewrite E in C. simpl in C. lia.
  - apply Forall_forall. intros p Hp. apply in_map_iff in Hp. destruct Hp as (j & <- & Hj). simpl.
    destruct (Nat.eq_dec i j) as [->|D]; [left; auto|right].
    unfold node. replace (a + INR i * ((b - a) / IZR n) - (a + INR j * ((b - a) / IZR n))) with ((INR i - INR j) * ((b - a) / IZR n)) by ring.
    rewrite Rabs_mult. assert (0 < (b - a) / IZR n) by (apply Rdiv_lt_0_compat; lra). rewrite (Rabs_pos_eq ((b-a)/IZR n)) by lra.
    assert (eps <= (b - a) / IZR n) by (apply div_ge_iff; lra).
    assert (1 <= Rabs (INR i - INR j)).
    { unfold Rabs. destruct (Nat.lt_ge_cases i j) as [O|O].
      - assert (INR (Datatypes.S i) <= INR j) by (apply le_INR; lia). rewrite S_INR in H1. destruct Rcase_abs; lra.
      - assert (INR (Datatypes.S j) <= INR i) by (apply le_INR; lia). rewrite S_INR in H1. destruct Rcase_abs; lra. }
    nra.
Qed.

(** ** Linear *)
Definition fins (l : list R) : list xr := map XFin l.
Lemma linear_loop_spec cs vs acc : linear_loop (XFin acc) (fins cs) (fins vs) = XFin (acc + dot cs vs).
Proof.
  revert cs acc. induction vs as [|v vs IH]; intros [|c cs] acc; simpl; try (f_equal; ring).
  unfold fins in *. rewrite IH. f_equal. ring.
Qed.
Lemma last_fins cs : last (fins cs) (XFin 0) = XFin (last cs 0).
Proof. apply (last_map XFin). Qed.
Lemma linear_main cs vs : linear_membership (fins cs) (Some (fins vs)) = Ok (XFin (dot cs vs + intercept cs vs)).
Proof.
  unfold linear_membership, intercept. rewrite x_0, linear_loop_spec, last_fins. unfold fins. rewrite !map_length.
  destruct (Nat.ltb (length vs) (length cs)); simpl; do 2 f_equal; ring.
Qed.
(** written with indices *)
Lemma dot_sum cs vs : dot cs vs = fold_right Rplus 0 (map (fun i => nth i cs 0 * nth i vs 0) (seq 0 (Nat.min (length cs) (length vs)))).
Proof.
  revert vs. induction cs as [|c cs IH]; intros [|v vs]; simpl; auto. rewrite IH. f_equal.
  rewrite <- seq_shift, map_map. reflexivity.
Qed.
End D.
(** without engine, and independence of x (any scalar type) *)
Lemma linear_no_engine {T} `{Scalar T} cs : linear_membership cs None = Throw ELinear.
Proof. reflexivity. Qed.
Lemma linear_nan (P : xparam) cs vs i : (i < length cs)%nat -> nth_error vs i = Some XNaN ->
  exists r, @linear_membership xr (XRScalar P) cs (Some vs) = Ok r /\ r = XNaN.
Proof.
  intros L N. eexists; split; [reflexivity|].
  assert (K : forall vs cs acc i, (i < length cs)%nat -> nth_error vs i = Some XNaN -> @linear_loop xr (XRScalar P) acc cs vs = XNaN).
  { clear. assert (A : forall vs cs, @linear_loop xr (XRScalar P) XNaN cs vs = XNaN).
    { induction vs; intros [|c cs]; simpl; auto. }
    induction vs as [|v vs IH]; intros cs acc i L N; [destruct i; discriminate|].
    destruct cs as [|c cs]; [simpl in L; lia|]. destruct i.
    - simpl in N. injection N as ->. simpl. replace (xadd acc (xmul c XNaN)) with XNaN by (destruct c, acc; auto). apply A.
    - simpl in N, L. simpl. apply IH with i; auto. lia. }
  rewrite (K vs cs _ i L N). destruct Nat.ltb; auto. 
Qed.
