(** What the integral defuzzifiers should compute, over lists of samples and over the reals. *)
From Coq Require Import ZArith Reals Bool List.
From Verif Require Import XR.
Import ListNotations.
Local Open Scope R_scope.

(** [ys] holds a largest number at position [i]; entries that are not numbers do not count *)
Definition is_max_at (ys : list xr) (i : nat) : Prop :=
  exists y, nth_error ys i = Some y /\ y <> XNaN /\
    forall j y', nth_error ys j = Some y' -> y' <> XNaN -> xleb y' y = true.
Definition is_first_max (ys : list xr) (i : nat) : Prop :=
  is_max_at ys i /\ forall j, (j < i)%nat -> ~ is_max_at ys j.
Definition is_last_max (ys : list xr) (i : nat) : Prop :=
  is_max_at ys i /\ forall j, (i < j)%nat -> ~ is_max_at ys j.

(** midpoints of the [n] equal parts of [a, b] *)
Definition mid (a b : R) (n : nat) (i : nat) : R := a + (INR i + 1/2) * ((b - a) / INR n).
Definition mids (a b : R) (n : nat) : list R := map (mid a b n) (seq 0 n).

Definition rsum (l : list R) : R := fold_right Rplus 0 l.
Definition rmean (l : list R) : R := rsum l / INR (length l).
(** weighted mean of [xs] with weights f(x) *)
Definition center_of_mass (f : R -> R) (xs : list R) : R := rsum (map (fun x => x * f x) xs) / rsum (map f xs).

(** running sums *)
Definition cumulative (ys : list R) (i : nat) : R := rsum (firstn (S i) ys).
(** distance of the fraction of area up to the i-th sample from one half *)
Definition imbalance (ys : list R) (i : nat) : R := Rabs (cumulative ys i / rsum ys - 1/2).
Definition least_imbalance (ys : list R) (i : nat) : Prop :=
  (i < length ys)%nat /\ forall j, (j < length ys)%nat -> imbalance ys i <= imbalance ys j.
