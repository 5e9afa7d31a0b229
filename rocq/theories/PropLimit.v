(** C77: integral defuzzifiers approach integrals and maximizers. *)
From Coq Require Import ZArith Reals Bool List Lia Lra.
From Coquelicot Require Import Coquelicot.
From Verif Require Import Base Op XR Norm Defuzz Aggregated Rule Var Activation Engine SpecDefuzz SpecEngine SpecInfer SpecLimit ActivationProofs3 SoundBundle SoundCase InferBundle InferCase
  LimitRiemann LimitProofs LimitMax LimitMamdani.
Import ListNotations.
Local Open Scope R_scope.

(** * C77 *)
(** the centroid approaches the center of gravity of any integrable membership function *)
Theorem C77_centroid_limit : forall (P : xparam) mu f a b, a < b -> (forall x, a <= x <= b -> mu (XFin x) = Ok (XFin (f x))) ->
  forall A M, is_RInt f a b A -> is_RInt (fun x => x * f x) a b M -> A <> 0 -> forall eps, 0 < eps -> exists N, forall n, (N <= n)%Z ->
  exists r, @centroid xr (XRScalar P) mu (XFin a) (XFin b) n = Ok (XFin r) /\ Rabs (r - M / A) < eps.
Proof. exact centroid_limit. Qed.
Print Assumptions C77_centroid_limit.
(** how far from it at a given resolution, if slopes are at most L *)
Theorem C77_centroid_error : forall (P : xparam) mu f a b, a < b -> (forall x, a <= x <= b -> mu (XFin x) = Ok (XFin (f x))) ->
  forall L B, lipschitz f a b L -> (forall x, a <= x <= b -> 0 <= f x <= B) -> forall n, (1 <= n)%nat -> L * (b - a) ^ 2 < 2 * INR n * area f a b ->
  exists r, @centroid xr (XRScalar P) mu (XFin a) (XFin b) (Z.of_nat n) = Ok (XFin r) /\
    Rabs (r - gravity f a b) <= (B + L * (b - a)) * (b - a) ^ 2 / (2 * INR n * area f a b - L * (b - a) ^ 2).
Proof. exact centroid_error. Qed.
Print Assumptions C77_centroid_error.
(** the bisector parts the area in halves, but for an error which vanishes as the resolution grows *)
Theorem C77_bisector : forall (P : xparam) mu f a b, a < b -> (forall x, a <= x <= b -> mu (XFin x) = Ok (XFin (f x))) ->
  forall L B, lipschitz f a b L -> (forall x, a <= x <= b -> 0 <= f x <= B) -> forall n, (1 <= n)%nat -> L * (b - a) ^ 2 < 2 * INR n * area f a b ->
  exists r, @bisector xr (XRScalar P) mu (XFin a) (XFin b) (Z.of_nat n) = Ok (XFin r) /\ a <= r <= b /\
    Rabs (area f a r - area f a b / 2) <= B * (b - a) / INR n + 3 * L * (b - a) ^ 2 / (4 * INR n).
Proof. exact bisector_error. Qed.
Print Assumptions C77_bisector.
(** smallest and largest of maximum: nowhere is the membership higher than at them by more than half a step makes at the greatest slope *)
Theorem C77_highest : forall (P : xparam) mu f a b, a < b -> (forall x, a <= x <= b -> mu (XFin x) = Ok (XFin (f x))) ->
  forall L n, lipschitz f a b L -> (1 <= n)%nat ->
  exists r s, @som xr (XRScalar P) mu (XFin a) (XFin b) (Z.of_nat n) = Ok (XFin r) /\ @lom xr (XRScalar P) mu (XFin a) (XFin b) (Z.of_nat n) = Ok (XFin s) /\
    forall x, a <= x <= b -> f x <= f r + L * (b - a) / (2 * INR n) /\ f x <= f s + L * (b - a) / (2 * INR n).
Proof. exact highest_error. Qed.
Print Assumptions C77_highest.
(** if the membership is greatest on an interval: its ends within one step, and the mean of these *)
Theorem C77_plateau : forall (P : xparam) mu f a b, a < b -> (forall x, a <= x <= b -> mu (XFin x) = Ok (XFin (f x))) ->
  forall p q n, greatest_on f a b p q -> p < q -> (1 <= n)%nat -> (b - a) / INR n <= q - p ->
  exists r s t, @som xr (XRScalar P) mu (XFin a) (XFin b) (Z.of_nat n) = Ok (XFin r) /\ @lom xr (XRScalar P) mu (XFin a) (XFin b) (Z.of_nat n) = Ok (XFin s) /\
    @mom xr (XRScalar P) mu (XFin a) (XFin b) (Z.of_nat n) = Ok (XFin t) /\ p <= r <= p + (b - a) / INR n /\ q - (b - a) / INR n <= s <= q /\ t = (r + s) / 2.
Proof. exact plateau_error. Qed.
Print Assumptions C77_plateau.
(** if it is greatest at one point: all three approach that point *)
Theorem C77_peak : forall (P : xparam) mu f a b, a < b -> (forall x, a <= x <= b -> mu (XFin x) = Ok (XFin (f x))) ->
  forall p, continuous_within f a b -> greatest_on f a b p p -> forall eps, 0 < eps -> exists N, forall n, (N <= n)%nat ->
  exists r s t, @som xr (XRScalar P) mu (XFin a) (XFin b) (Z.of_nat n) = Ok (XFin r) /\ @lom xr (XRScalar P) mu (XFin a) (XFin b) (Z.of_nat n) = Ok (XFin s) /\
    @mom xr (XRScalar P) mu (XFin a) (XFin b) (Z.of_nat n) = Ok (XFin t) /\ Rabs (r - p) <= eps /\ Rabs (s - p) <= eps /\ Rabs (t - p) <= eps.
Proof. exact peak_limit. Qed.
Print Assumptions C77_peak.
(** with two peaks of the same height the smallest of maximum need not approach the smaller one, at any resolution *)
Theorem C77_two_peaks_refuted : forall P : xparam, exists mu f, lipschitz f 0 1 4 /\ (forall x, 0 <= x <= 1 -> mu (XFin x) = Ok (XFin (f x)) /\ f x <= f 0) /\
  forall N, exists n, (N <= n)%nat /\ @som xr (XRScalar P) mu (XFin 0) (XFin 1) (Z.of_nat n) = Ok (XFin (1 / 2)).
Proof. exact two_peaks_smallest. Qed.
Print Assumptions C77_two_peaks_refuted.
(** Mamdani and Larsen engines: the center of gravity of what the rules conclude *)
Theorem C77_mamdani : forall (P : xparam) drain (e e' : engine xr) known j o p n s r a b mu w L, 0 <= xp_eps P -> plain_implication n -> plain_aggregation s ->
  general_engine e -> @process xr (XRScalar P) drain e = (e', Ok tt) -> @Infers xr (XRScalar P) e known ->
  nth_error (e_outputs e) j = Some o -> nth_error (e_outputs e') j = Some p -> v_enabled (o_var o) = true ->
  o_defuzzifier o = Some (DIntegral Centroid r) -> o_aggregation o = Some s -> (1 <= r)%Z -> v_minimum (o_var o) = XFin a -> v_maximum (o_var o) = XFin b -> a < b ->
  (forall c, In c (about j known) -> ac_implication c = Some n /\ ac_degree c = XFin (w c) /\ 0 <= w c <= 1) ->
  (forall c x vw, In c (about j known) -> a <= x <= b -> 0 <= mu (ac_term c) x <= 1 /\
     exists t, nth_error (v_terms (o_var o)) (ac_term c) = Some t /\ @term_membership xr (XRScalar P) vw t (XFin x) = Ok (XFin (mu (ac_term c) x))) ->
  0 <= L -> (forall c, In c (about j known) -> lipschitz (mu (ac_term c)) a b L) ->
  let f := inferred_set n s mu w (about j known) in let K := joined_slope s L (length (about j known)) in
  K * (b - a) ^ 2 < 2 * IZR r * area f a b ->
  exists v, v_value (o_var p) = XFin v /\ Rabs (v - gravity f a b) <= (1 + K * (b - a)) * (b - a) ^ 2 / (2 * IZR r * area f a b - K * (b - a) ^ 2).
Proof. exact mamdani_error. Qed.
Print Assumptions C77_mamdani.

(** min(x / 10, 1/2) on [0, 10]: the center of gravity is 55/9, and the greatest membership is on [5, 10] *)
Definition cut_mu (x : xr) : res xr := match x with XFin r => Ok (XFin (cut r)) | _ => Ok XNaN end.
Example C77_case : forall P n, (2 <= n)%nat -> exists r, @centroid xr (XRScalar P) cut_mu (XFin 0) (XFin 10) (Z.of_nat n) = Ok (XFin r) /\ Rabs (r - 55 / 9) <= 60 / (3 * INR n - 4).
Proof.
  intros P n N. assert (PN : 2 <= INR n) by (change 2 with (INR 2); now apply le_INR).
  destruct (C77_centroid_error P cut_mu cut 0 10 ltac:(lra) (fun x _ => eq_refl) (1 / 10) (1 / 2) cut_slope cut_range n ltac:(lia)) as (r & E & D); rewrite ?cut_area, ?cut_gravity in *; [lra|].
  exists r. split; [exact E|]. apply Rle_trans with (1 := D). right. field. split; lra.
Qed.
Example C77_bisector_case : forall P n, (2 <= n)%nat -> exists r, @bisector xr (XRScalar P) cut_mu (XFin 0) (XFin 10) (Z.of_nat n) = Ok (XFin r) /\ Rabs (area cut 0 r - 15 / 8) <= 25 / (2 * INR n).
Proof.
  intros P n N. assert (PN : 2 <= INR n) by (change 2 with (INR 2); now apply le_INR).
  destruct (C77_bisector P cut_mu cut 0 10 ltac:(lra) (fun x _ => eq_refl) (1 / 10) (1 / 2) cut_slope cut_range n ltac:(lia)) as (r & E & _ & D); rewrite ?cut_area in *; [lra|].
  exists r. split; [exact E|]. replace (15 / 8) with (15 / 4 / 2) by lra. apply Rle_trans with (1 := D). right. field. lra.
Qed.
Example C77_plateau_case : forall P n, (2 <= n)%nat -> exists r s t, @som xr (XRScalar P) cut_mu (XFin 0) (XFin 10) (Z.of_nat n) = Ok (XFin r) /\ @lom xr (XRScalar P) cut_mu (XFin 0) (XFin 10) (Z.of_nat n) = Ok (XFin s) /\
  @mom xr (XRScalar P) cut_mu (XFin 0) (XFin 10) (Z.of_nat n) = Ok (XFin t) /\ 5 <= r <= 5 + 10 / INR n /\ 10 - 10 / INR n <= s <= 10 /\ t = (r + s) / 2.
Proof.
  intros P n N. assert (PN : 2 <= INR n) by (change 2 with (INR 2); now apply le_INR). replace (10 / INR n) with ((10 - 0) / INR n) by (field; lra).
  apply (C77_plateau P cut_mu cut 0 10 ltac:(lra) (fun x _ => eq_refl)); [exact cut_greatest|lra|lia|]. apply (Rmult_le_reg_r (INR n)); [lra|]. replace ((10 - 0) / INR n * INR n) with 10 by (field; lra). lra.
Qed.
Example C77_peak_case : forall P eps, 0 < eps -> exists N, forall n, (N <= n)%nat ->
  exists r s t, @som xr (XRScalar P) Ok (XFin 0) (XFin 1) (Z.of_nat n) = Ok (XFin r) /\ @lom xr (XRScalar P) Ok (XFin 0) (XFin 1) (Z.of_nat n) = Ok (XFin s) /\
    @mom xr (XRScalar P) Ok (XFin 0) (XFin 1) (Z.of_nat n) = Ok (XFin t) /\ Rabs (r - 1) <= eps /\ Rabs (s - 1) <= eps /\ Rabs (t - 1) <= eps.
Proof.
  intros P. apply (C77_peak P Ok (fun x => x) 0 1 ltac:(lra) (fun x _ => eq_refl)).
  - intros x X eps E. exists eps. split; [exact E|]. intros y _ D. exact D.
  - unfold greatest_on. repeat split; intros; lra.
Qed.
(** the engine of C74_case_mamdani, whose resolution is 2 *)
Example C77_mamdani_case : exists e' p v, @process xr (XRScalar xp_exact) (@stable_drain xr) mamdani_engine = (e', Ok tt) /\ e_outputs e' = [p] /\ v_value (o_var p) = XFin v /\ Rabs (v - 55 / 9) <= 40.
Proof.
  destruct mamdani_runs as (e' & E).
  assert (exists p, e_outputs e' = [p]) as [p O].
  { pose proof (EngineProofs3.exceptions (S := XRScalar xp_exact) _ _ _ _ E) as [Q _]. destruct (e_outputs e') as [|p [|]]; try discriminate Q. eauto. }
  exists e', p. assert (nth_error (e_outputs e') 0 = Some p) as Q by (rewrite O; reflexivity). assert (general_engine mamdani_engine) as general by repeat constructor.
  set (deg := fun c : activated xr nat => match ac_degree c with XFin r => r | _ => 0 end).
  destruct (C77_mamdani xp_exact (@stable_drain xr) mamdani_engine e' [fact 0 (1/2)] 0 ramp_output p Minimum Maximum 2 0 10 (fun _ x => x / 10) deg (1 / 10)
    ltac:(cbn; lra) (or_introl eq_refl) (or_introl eq_refl) general E mamdani_infers eq_refl Q eq_refl eq_refl eq_refl ltac:(discriminate) eq_refl eq_refl ltac:(lra)) as (v & V & D).
  - intros c [<- | []]. cbn. repeat split; lra.
  - intros c x vw [<- | []] Hx. split; [lra|]. exists ramp_term. split; [reflexivity|]. now apply ramp_value.
  - lra.
  - intros c _ x y _ _. replace (x / 10 - y / 10) with (1 / 10 * (x - y)) by field. rewrite Rabs_mult, (Rabs_pos_eq (1 / 10)) by lra. lra.
  - rewrite (area_same _ cut); [|intros x X; now apply cut_max|lra]. rewrite cut_area. cbn [joined_slope]. lra.
  - exists v. split; [exact E|]. split; [exact O|]. split; [exact V|]. rewrite (area_same _ cut), (gravity_same _ cut), cut_area, cut_gravity in D; [|intros x X; now apply cut_max|lra|intros x X; now apply cut_max|lra]. cbn [joined_slope] in D. lra.
Qed.
