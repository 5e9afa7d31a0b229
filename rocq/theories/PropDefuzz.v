(** C17-C20: integral defuzzifiers. *)
From Coq Require Import ZArith Reals Bool List Lra Lia Sorted.
From Flocq Require Import Core IEEE754.BinarySingleNaN.
From Verif Require Import Base Op XR XRFacts F64 F64Facts OrdVal Defuzz SpecDefuzz DefuzzSelect DefuzzReal DefuzzBisector DefuzzBundle DefuzzF64.
Import ListNotations.
Local Open Scope R_scope.

(** * C17: the result is NaN or in the range *)
Theorem C17_range : forall (P : xparam) (mu : xr -> res xr) a b n r, (1 <= n)%Z -> a <= b ->
  (@som xr (XRScalar P) mu (XFin a) (XFin b) n = Ok r \/
   @lom xr (XRScalar P) mu (XFin a) (XFin b) n = Ok r \/
   @mom xr (XRScalar P) mu (XFin a) (XFin b) n = Ok r \/
   @bisector xr (XRScalar P) mu (XFin a) (XFin b) n = Ok r \/
   (@centroid xr (XRScalar P) mu (XFin a) (XFin b) n = Ok r /\
    forall x y, a <= x <= b -> mu (XFin x) = Ok y -> match y with XNaN | XPInf => True | XNInf => False | XFin r => 0 <= r end)) ->
  r = XNaN \/ exists z, r = XFin z /\ a <= z <= b.
Proof. exact ranges. Qed.
Print Assumptions C17_range.

(** in binary64 arithmetic, for ranges whose width neither overflows nor is tiny *)
Theorem C17_selected_binary64 : forall (P : fparam) (mu : f64 -> res f64) (a b : f64) n r,
  is_finite a = true -> is_finite b = true -> is_finite (Bminus mode_NE b a) = true ->
  bpow radix2 (-900) <= B2R b - B2R a -> (1 <= n < 2 ^ 31)%Z ->
  @som f64 (F64Scalar P) mu a b n = Ok r \/ @lom f64 (F64Scalar P) mu a b n = Ok r ->
  r = B754_nan \/ (is_finite r = true /\ B2R a <= B2R r <= B2R b).
Proof.
  exact (fun P mu a b n r Fa Fb Fd G N H =>
    match H with or_introl E => som_range64 P mu a b n r Fa Fb Fd G N E | or_intror E => lom_range64 P mu a b n r Fa Fb Fd G N E end).
Qed.
Print Assumptions C17_selected_binary64.

(** ... and false when the width overflows: for the range [-max, max] of finite doubles the result is infinite *)
Theorem C17_overflow_refuted : exists (a b : f64), is_finite a = true /\ is_finite b = true /\
  @som f64 (F64Scalar fp_default) (fun _ => Ok (f64_lit 1 1)) a b 1 = Ok (B754_infinity false).
Proof. exact (ex_intro _ (Bopp big) (ex_intro _ big (conj eq_refl (conj eq_refl som_overflow)))). Qed.
Print Assumptions C17_overflow_refuted.

Example C17_case : exists r, @centroid xr (XRScalar xp_default) (fun x => Ok (XFin 1)) (XFin 0) (XFin 2) 2 = Ok (XFin r) /\ r = 1.
Proof.
  exists (center_of_mass (fun _ => 1) (mids 0 2 2)). split.
  - apply (centroid_mass xp_default (fun _ => Ok (XFin 1)) (fun _ => 1) 0 2 2); [lia|lra|intros ? ?; reflexivity|].
    unfold mids, mid, rsum; simpl. lra.
  - unfold center_of_mass, mids, mid, rsum; simpl. lra.
Qed.

(** * C18: maximum-based defuzzifiers *)

(** Any scalar ordered by the number it stands for (extended reals, doubles): SmallestOfMaximum and LargestOfMaximum
    return the first and the last sample point of maximal membership, samples that are not numbers being ignored;
    MeanOfMaximum returns the mean of all of them. *)
Theorem C18_smallest : forall (T : Type) (S : Scalar T) (v : T -> xr), ord_val S v ->
  forall mu a b n ys, isFinite (s_add a b) = true -> rmapM mu (map (sample a b n) (steps n)) = Ok ys ->
  ((forall j y, nth_error (map v ys) j = Some y -> y = XNaN \/ y = XNInf) /\ som mu a b n = Ok s_nan) \/
  (exists i x, nth_error (map (sample a b n) (steps n)) i = Some x /\ som mu a b n = Ok x /\
     is_first_max (map v ys) i /\ nth_error (map v ys) i <> Some XNInf).
Proof. exact (fun T S v O => som_main O). Qed.
Print Assumptions C18_smallest.
Theorem C18_largest : forall (T : Type) (S : Scalar T) (v : T -> xr), ord_val S v ->
  forall mu a b n ys, isFinite (s_add a b) = true -> rmapM mu (map (sample a b n) (steps n)) = Ok ys ->
  ((forall j y, nth_error (map v ys) j = Some y -> y = XNaN) /\ lom mu a b n = Ok s_nan) \/
  (exists i x, nth_error (map (sample a b n) (steps n)) i = Some x /\ lom mu a b n = Ok x /\ is_last_max (map v ys) i).
Proof. exact (fun T S v O => lom_main O). Qed.
Print Assumptions C18_largest.
Theorem C18_mean : forall (T : Type) (S : Scalar T) (v : T -> xr), ord_val S v ->
  forall mu a b n ys, isFinite (s_add a b) = true -> rmapM mu (map (sample a b n) (steps n)) = Ok ys ->
  ((forall j y, nth_error (map v ys) j = Some y -> y = XNaN) /\ mom mu a b n = Ok (op_mean [])) \/
  (exists i y, nth_error (map v ys) i = Some y /\ is_max_at (map v ys) i /\
     mom mu a b n = Ok (op_mean (map fst (filter (fun p => xeqb (v (snd p)) y) (combine (map (sample a b n) (steps n)) ys))))).
Proof. exact (fun T S v O => mom_main O). Qed.
Print Assumptions C18_mean.

(** Over the reals: with at least one sample that is a number above minus infinity, the three results are the first
    point, the last point and the mean of the points of maximal membership, and they are ordered. *)
Theorem C18_ordered : forall (P : xparam) mu a b n ys, (1 <= n)%Z -> a <= b ->
  rmapM mu (map XFin (mids a b (Z.to_nat n))) = Ok ys ->
  (exists y, In y ys /\ y <> XNaN /\ y <> XNInf) ->
  exists i k l, let N := Z.to_nat n in
    StronglySorted lt l /\ (forall j, In j l <-> is_max_at ys j) /\
    is_first_max ys i /\ is_last_max ys k /\ l <> [] /\
    @som xr (XRScalar P) mu (XFin a) (XFin b) n = Ok (XFin (mid a b N i)) /\
    @lom xr (XRScalar P) mu (XFin a) (XFin b) n = Ok (XFin (mid a b N k)) /\
    @mom xr (XRScalar P) mu (XFin a) (XFin b) n = Ok (XFin (rmean (map (mid a b N) l))) /\
    mid a b N i <= rmean (map (mid a b N) l) <= mid a b N k.
Proof. exact maxima_real. Qed.
Print Assumptions C18_ordered.

Example C18_case : (forall P, ord_val (XRScalar P) (fun x => x)) /\ (forall P, ord_val (F64Scalar P) f2x) /\
  rmapM (fun x => Ok x) (map XFin (mids 0 4 2)) = Ok (map XFin (mids 0 4 2)) /\ In (XFin 3) (map XFin (mids 0 4 2)).
Proof.
  repeat split; try apply ord_val_XR; try apply ord_val_F64.
  simpl. right. left. f_equal. unfold mid. simpl. lra.
Qed.

(** * C19: Centroid *)
Theorem C19_center_of_mass : forall (P : xparam) mu f a b n, (1 <= n)%Z -> a <= b ->
  (forall x, a <= x <= b -> mu (XFin x) = Ok (XFin (f x))) ->
  rsum (map f (mids a b (Z.to_nat n))) <> 0 ->
  @centroid xr (XRScalar P) mu (XFin a) (XFin b) n = Ok (XFin (center_of_mass f (mids a b (Z.to_nat n)))).
Proof. exact centroid_mass. Qed.
Print Assumptions C19_center_of_mass.
Theorem C19_no_area : forall (P : xparam) mu f a b n, (1 <= n)%Z -> a <= b ->
  (forall x, a <= x <= b -> mu (XFin x) = Ok (XFin (f x))) -> (forall x, a <= x <= b -> 0 <= f x) ->
  rsum (map f (mids a b (Z.to_nat n))) = 0 -> @centroid xr (XRScalar P) mu (XFin a) (XFin b) n = Ok XNaN.
Proof. exact centroid_no_area. Qed.
Print Assumptions C19_no_area.
Theorem C19_symmetric : forall (P : xparam) mu f a b n, (1 <= n)%Z -> a <= b ->
  (forall x, a <= x <= b -> mu (XFin x) = Ok (XFin (f x))) ->
  (forall x, a <= x <= b -> f (a + b - x) = f x) -> rsum (map f (mids a b (Z.to_nat n))) <> 0 ->
  @centroid xr (XRScalar P) mu (XFin a) (XFin b) n = Ok (XFin ((a + b) / 2)).
Proof. exact centroid_symmetric. Qed.
Print Assumptions C19_symmetric.
Theorem C19_scale : forall (P : xparam) mu mu' f k a b n, (1 <= n)%Z -> a <= b -> k <> 0 ->
  (forall x, a <= x <= b -> mu (XFin x) = Ok (XFin (f x))) ->
  (forall x, a <= x <= b -> mu' (XFin x) = Ok (XFin (k * f x))) ->
  rsum (map f (mids a b (Z.to_nat n))) <> 0 ->
  @centroid xr (XRScalar P) mu' (XFin a) (XFin b) n = @centroid xr (XRScalar P) mu (XFin a) (XFin b) n.
Proof. exact centroid_scale. Qed.
Print Assumptions C19_scale.
Theorem C19_translate : forall (P : xparam) mu mu' f c a b n, (1 <= n)%Z -> a <= b ->
  (forall x, a <= x <= b -> mu (XFin x) = Ok (XFin (f x))) ->
  (forall x, a + c <= x <= b + c -> mu' (XFin x) = Ok (XFin (f (x - c)))) ->
  rsum (map f (mids a b (Z.to_nat n))) <> 0 ->
  exists r, @centroid xr (XRScalar P) mu (XFin a) (XFin b) n = Ok (XFin r) /\
            @centroid xr (XRScalar P) mu' (XFin (a + c)) (XFin (b + c)) n = Ok (XFin (r + c)).
Proof. exact centroid_shift. Qed.
Print Assumptions C19_translate.
Example C19_case : (1 <= 2)%Z /\ 0 <= 4 /\ (forall x, 0 <= x <= 4 -> (fun x : R => x * (4 - x)) (0 + 4 - x) = x * (4 - x)) /\
  rsum (map (fun x => x * (4 - x)) (mids 0 4 2)) <> 0.
Proof. split; [lia|]. split; [lra|]. split; [intros; lra|]. unfold mids, mid, rsum; simpl. lra. Qed.

(** * C20: Bisector *)

(** The result is the mean of the sample points [l] at which the fraction of area is closest to one half, and these points
    halve the area up to half of the largest sample; it is NaN when the area is zero. *)
Theorem C20_bisector : forall (P : xparam) mu f a b n, (1 <= n)%Z -> a <= b ->
  (forall x, a <= x <= b -> mu (XFin x) = Ok (XFin (f x))) -> (forall x, a <= x <= b -> 0 <= f x) ->
  let ys := map f (mids a b (Z.to_nat n)) in
  (rsum ys = 0 -> @bisector xr (XRScalar P) mu (XFin a) (XFin b) n = Ok XNaN) /\
  (rsum ys <> 0 -> exists l, l <> [] /\ NoDup l /\ (forall i, In i l <-> least_imbalance ys i) /\
     @bisector xr (XRScalar P) mu (XFin a) (XFin b) n = Ok (XFin (rmean (map (mid a b (Z.to_nat n)) l))) /\
     forall i M, In i l -> Forall (fun y => y <= M) ys -> Rabs (cumulative ys i - rsum ys / 2) <= M / 2).
Proof. exact bisector_spec. Qed.
Print Assumptions C20_bisector.
Example C20_case : (forall x, 0 <= x <= 4 -> 0 <= (fun x => x) x) /\ rsum (map (fun x => x) (mids 0 4 2)) <> 0.
Proof. split; [intros; lra|]. unfold mids, mid, rsum; simpl. lra. Qed.
