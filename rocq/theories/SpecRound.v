(** Bounds of the rounding errors of defuzzifiers in binary64, in terms of 2^-53 and 2^-1075. *)
From Coq Require Import ZArith Reals List.
From Flocq Require Import Core BinarySingleNaN.
From Verif Require Import Base F64 Shape Norm Aggregated Var SpecTerm.
Import ListNotations.
Local Open Scope R_scope.

(** half a unit in the last place of numbers in [1, 2), and half the smallest positive number *)
Definition u64 : R := bpow radix2 (-53).
Definition eta64 : R := bpow radix2 (-1075).
(** weighted mean of [n] numbers up to [M] with total weight [W] *)
Definition mean_error (n M W : R) : R := 5 / 2 * (n + 1) * u64 * M + 2 * n * eta64 / W + eta64.
(** weighted sum *)
Definition sum_error (n M W : R) : R := 65 / 64 * (n + 1) * u64 * (M * W) + 65 / 64 * n * eta64.
(** one of [n] sample points of a range within [-X, X] *)
Definition sample_error (n X : R) : R := 8 * u64 * X + 2 * (n + 1) * eta64.
(** weighted mean of sample points *)
Definition centroid_rounding (n X W : R) : R := mean_error n (X + sample_error n X) W + sample_error n X.

(** The shapes made of straight lines (Triangle, Trapezoid and Ramp), whose sides are at least [w] wide. *)
Definition sloped (s : shape R) (w : R) : Prop :=
  match s with
  | Triangle a b c => w <= b - a /\ w <= c - b
  | Trapezoid a b c d => w <= b - a /\ b <= c /\ w <= d - c
  | Ramp s e => w <= Rabs (e - s)
  | _ => False
  end.
(** their memberships with height [h], when numbers less than [eps] apart are taken for equal *)
Definition shape_error (h w eps : R) : R := 5 * u64 * h + 2 * eta64 / w + 2 * eta64 + h * eps / w.

(** a finite number of size at most [X] *)
Definition within (X : R) (x : f64) : Prop := is_finite x = true /\ Rabs (B2R x) <= X.
(** the term [t] is a Triangle, Trapezoid or Ramp of moderate size with height at most 1 *)
Definition line_term (w : R) (t : term f64) : Prop := within 1 (tm_height t) /\ 0 <= B2R (tm_height t) /\
  match tm_body t with
  | TShape s => sloped (shape_map B2R s) w /\
      match s with
      | Triangle a b c => List.Forall (within (bpow radix2 300)) [a; b; c]
      | Trapezoid a b c d => List.Forall (within (bpow radix2 300)) [a; b; c; d]
      | Ramp s e => List.Forall (within (bpow radix2 300)) [s; e]
      | _ => False
      end
  | _ => False
  end.
(** what the documentation says of the membership in the terms at positions of [ts] *)
Definition documented (ts : list (term f64)) (i : nat) (x : R) : R :=
  match nth_error ts i with
  | Some t => match tm_body t with TShape s => doc_membership (shape_map B2R s) (B2R (tm_height t)) x | _ => 0 end
  | None => 0
  end.
(** a conclusion to be cut off at its degree, up to [D] *)
Definition cut_off (D : R) (c : activated f64 nat) : Prop := ac_implication c = Some Minimum /\ is_finite (ac_degree c) = true /\ 0 <= B2R (ac_degree c) <= D.
(** the greatest of the functions [mu] cut off at the degrees of the conclusions *)
Definition mamdani_set (mu : nat -> R -> R) (cs : list (activated f64 nat)) (x : R) : R :=
  fold_left (fun m c => Rmax m (Rmin (mu (ac_term c) x) (B2R (ac_degree c)))) cs 0.
(** distance of a centroid at resolution [n] from the center of gravity of a function with greatest slope [L], values up to 1 and area [A]
    over a range of length [d] within [-X, X], for memberships within [delta]: error of the midpoint rule, of the memberships, and of rounding *)
Definition gravity_error (n d X A L delta : R) : R :=
  let omega := A / d - L * d / (2 * n) - delta in
  (L * d + 1) * d ^ 2 / (2 * n * A - L * d ^ 2) + delta * d / omega +
  (5 / 2 * (n + 1) * u64 * (X + sample_error n X) + 2 * eta64 / omega + eta64 + sample_error n X).
