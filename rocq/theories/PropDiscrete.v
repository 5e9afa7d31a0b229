(** C14-C16: Discrete, Constant and Linear terms.  [xpts] embeds real points into extended reals. *)
From Coq Require Import ZArith Reals Bool List Lra Lia Permutation Sorted.
From Verif Require Import Base Op XR Discrete SpecTerm SpecDiscrete DiscreteProofs DiscreteProofs2 DiscreteBundle.
Import ListNotations.
Local Open Scope R_scope.

(** * C14 *)
(** the code computes the polyline through the points, for x equal to or a tolerance away from every abscissa *)
Theorem C14_polyline : forall (P : xparam) l h x, 0 <= xp_eps P -> l <> [] -> strictly_increasing l ->
  Forall (fun p => off (xp_eps P) (fst p) x) l ->
  @disc_membership xr (XRScalar P) (xpts l) (XFin h) (XFin x) = Ok (XFin (h * polyline l x)).
Proof. exact disc_polyline. Qed.
Print Assumptions C14_polyline.

(** exact at the nodes *)
Theorem C14_nodes : forall (P : xparam) l h i p, 0 <= xp_eps P -> strictly_increasing l ->
  (forall q, In q l -> off (xp_eps P) (fst q) (fst p)) -> nth_error l i = Some p ->
  @disc_membership xr (XRScalar P) (xpts l) (XFin h) (XFin (fst p)) = Ok (XFin (h * snd p)).
Proof. exact bd_nodes. Qed.
Print Assumptions C14_nodes.

(** between the y's of the neighbours *)
Theorem C14_between : forall (P : xparam) pre a b post h x, 0 <= xp_eps P -> strictly_increasing (pre ++ a :: b :: post) ->
  0 <= h -> fst a + xp_eps P <= x <= fst b - xp_eps P -> fst a < x < fst b ->
  exists v, @disc_membership xr (XRScalar P) (xpts (pre ++ a :: b :: post)) (XFin h) (XFin x) = Ok (XFin v) /\
    h * Rmin (snd a) (snd b) <= v <= h * Rmax (snd a) (snd b).
Proof. exact disc_between. Qed.
Print Assumptions C14_between.

(** first and last y beyond the ends, infinities included *)
Theorem C14_outside : forall (P : xparam) l h x f r, l = f :: r -> nondecreasing l ->
  (x <= fst f -> @disc_membership xr (XRScalar P) (xpts l) (XFin h) (XFin x) = Ok (XFin (h * snd f))) /\
  (fst f < x -> fst f + xp_eps P <= x -> fst (last l f) <= x -> @disc_membership xr (XRScalar P) (xpts l) (XFin h) (XFin x) = Ok (XFin (h * snd (last l f)))) /\
  @disc_membership xr (XRScalar P) (xpts l) (XFin h) XNInf = Ok (XFin (h * snd f)) /\
  @disc_membership xr (XRScalar P) (xpts l) (XFin h) XPInf = Ok (XFin (h * snd (last l f))).
Proof. exact bd_outside. Qed.
Print Assumptions C14_outside.

(** never reads outside the points: no undefined behaviour for any sorted list, equal abscissas and any tolerance included *)
Theorem C14_safe : forall (P : xparam) l h x, l <> [] -> nondecreasing l ->
  exists v, @disc_membership xr (XRScalar P) (xpts l) (XFin h) (XFin x) = Ok (XFin v).
Proof. exact disc_safe. Qed.
Print Assumptions C14_safe.

(** bounds on the y's bound the membership, at every tolerance *)
Theorem C14_range : forall (P : xparam) l h x lo hi, l <> [] -> nondecreasing l -> 0 <= h ->
  Forall (fun p => lo <= snd p <= hi) l ->
  exists v, @disc_membership xr (XRScalar P) (xpts l) (XFin h) (XFin x) = Ok (XFin v) /\ h * lo <= v <= h * hi.
Proof. exact disc_range. Qed.
Print Assumptions C14_range.

Theorem C14_empty : forall (P : xparam) h x, x <> XNaN -> @disc_membership xr (XRScalar P) [] h x = Throw EDiscrete.
Proof. exact bd_empty. Qed.
Print Assumptions C14_empty.

Example C14_case : let l := [(0, 0); (1, 1); (3, 1/2)] in
  strictly_increasing l /\ nondecreasing l /\ Forall (fun p => off (xp_eps xp_default) (fst p) 2) l /\ polyline l 2 = 3/4.
Proof.
  assert (S : strictly_increasing [(0, 0); (1, 1); (3, 1/2)]) by (repeat constructor; simpl; lra).
  split; [exact S|]. split; [now apply strict_nondec|]. split.
  - repeat apply Forall_cons; try apply Forall_nil; right; simpl; unfold Rabs; destruct Rcase_abs; lra.
  - simpl. repeat destruct Rle_dec; repeat destruct Rlt_dec; lra.
Qed.

(** * C15 *)
Theorem C15_conversions : forall (T : Type),
  (forall l : list (T * T), to_pairs (to_vector l) = Ok l) /\
  (forall v : list T, Nat.odd (length v) = true <-> to_pairs v = Throw EDiscrete) /\
  (forall v : list T, Nat.even (length v) = true <-> exists l, to_pairs v = Ok l /\ to_vector l = v) /\
  (forall (v : list T) m, exists l, to_pairs_missing v m = Ok l /\
     to_vector l = if Nat.even (length v) then v else v ++ [m]).
Proof. exact bd_conv. Qed.
Print Assumptions C15_conversions.

(** every sort of distinct abscissas, from any order of the same points, has one result: the increasing one *)
Theorem C15_sort : forall (P : xparam) l, NoDup (map fst l) ->
  exists k, Permutation l k /\ strictly_increasing k /\
    forall l' m, Permutation l l' -> @std_sort xr (XRScalar P) (xpts l') m -> m = xpts k.
Proof. exact bd_sort. Qed.
Print Assumptions C15_sort.
Theorem C15_sort_any : forall (P : xparam) l m, @std_sort xr (XRScalar P) (xpts l) m ->
  exists k, m = xpts k /\ Permutation l k /\ nondecreasing k.
Proof. exact bd_sort_any. Qed.
Print Assumptions C15_sort_any.

Theorem C15_discretize : forall (P : xparam) (mu : xr -> res xr) f a b n bd, (1 <= n)%Z -> a < b ->
  (forall r, a <= r <= b -> mu (XFin r) = Ok (XFin (f r))) ->
  exists pts, @discretize xr (XRScalar P) mu (XFin a) (XFin b) n bd = Ok (xpts pts) /\
    Z.of_nat (length pts) = (n + 1)%Z /\ strictly_increasing pts /\
    (exists y, hd_error pts = Some (a, y)) /\ (exists y, nth_error pts (Z.to_nat n) = Some (b, y)) /\
    (forall i, (Z.of_nat i <= n)%Z -> exists x, x = a + IZR (Z.of_nat i) * (b - a) / IZR n /\
       nth_error pts i = Some (x, if bd then Rmin 1 (Rmax 0 (f x)) else f x) /\
       (0 <= xp_eps P -> xp_eps P * IZR n <= b - a ->
          @disc_membership xr (XRScalar P) (xpts pts) (XFin 1) (XFin x) = Ok (XFin (if bd then Rmin 1 (Rmax 0 (f x)) else f x)))).
Proof. exact bd_discretize. Qed.
Print Assumptions C15_discretize.

(** for any scalar type and any resolution, when no membership throws *)
Theorem C15_discretize_any : forall (T : Type) (S : Scalar T) (mu : T -> res T) a b n bd l,
  discretize mu a b n bd = Ok l ->
  length l = Z.to_nat (n + 1) /\
  forall i p, nth_error l i = Some p -> exists y,
    mu (a + s_int (Z.of_nat i) * ((b - a) / s_int n))%S = Ok y /\
    p = ((a + s_int (Z.of_nat i) * ((b - a) / s_int n))%S, if bd then bound y s_0 s_1 else y).
Proof. exact @discretize_points. Qed.
Print Assumptions C15_discretize_any.

Example C15_case : NoDup (map fst [(2, 1); (1, 0)]) /\ (forall r, 0 <= r <= 1 -> (fun x : xr => Ok x) (XFin r) = Ok (XFin ((fun r => r) r))).
Proof. split; auto. simpl. constructor; [simpl; intros [H|[]]; lra|]. constructor; [intros []|constructor]. Qed.

(** * C16 *)
Theorem C16_linear : forall (P : xparam) cs vs,
  @linear_membership xr (XRScalar P) (map XFin cs) (Some (map XFin vs)) =
  Ok (XFin (fold_right Rplus 0 (map (fun i => nth i cs 0 * nth i vs 0) (seq 0 (Nat.min (length cs) (length vs))))
            + intercept cs vs)).
Proof. exact bd_dot_sum. Qed.
Print Assumptions C16_linear.
Theorem C16_extra_coefficients : forall (P : xparam) cs extra c vs, length cs = length vs ->
  @linear_membership xr (XRScalar P) (map XFin (cs ++ extra ++ [c])) (Some (map XFin vs)) =
  Ok (XFin (dot cs vs + c)).
Proof. exact bd_ignored. Qed.
Print Assumptions C16_extra_coefficients.
(** an unset input with a coefficient makes the result NaN; without engine the term throws *)
Theorem C16_nan_input : forall (P : xparam) cs vs i, (i < length cs)%nat -> nth_error vs i = Some XNaN ->
  exists r, @linear_membership xr (XRScalar P) cs (Some vs) = Ok r /\ r = XNaN.
Proof. exact linear_nan. Qed.
Print Assumptions C16_nan_input.
Theorem C16_no_engine : forall (T : Type) (S : Scalar T) cs, linear_membership cs None = Throw ELinear.
Proof. exact @linear_no_engine. Qed.
Print Assumptions C16_no_engine.
Theorem C16_constant : forall (T : Type) (v x y : T), const_membership v x = v /\ const_membership v x = const_membership v y.
Proof. exact bd_constant. Qed.
Print Assumptions C16_constant.
Example C16_case : @linear_membership xr (XRScalar xp_default) (map XFin [2; 3; 5]) (Some (map XFin [10; 100])) = Ok (XFin 325).
Proof. etransitivity; [exact (linear_main xp_default [2;3;5] [10;100])|]. do 2 f_equal. unfold intercept; simpl. lra. Qed.
