(** The error of Mamdani and Larsen engines against the center of gravity of what their rules conclude; examples. *)
From Coq Require Import ZArith Reals Bool List Lia Lra Sorting.Sorted.
From Coquelicot Require Import Coquelicot.
From Verif Require Import Base Op XR XRFacts Norm Defuzz Aggregated Rule Var Activation Engine SpecNorm SpecDefuzz SpecEngine SpecInfer SpecLimit NormSpec DefuzzReal DefuzzSelect DefuzzBisector DefuzzBundle InferBundle
  LimitRiemann LimitProofs LimitMax.
Import ListNotations.
Local Open Scope R_scope.

Lemma mass_error f a b L B n : a < b -> lipschitz f a b L -> (forall x, a <= x <= b -> 0 <= f x <= B) -> (1 <= n)%nat -> L * (b - a) ^ 2 < 2 * INR n * area f a b ->
  rsum (map f (mids a b n)) <> 0 /\ Rabs (center_of_mass f (mids a b n) - gravity f a b) <= (B + L * (b - a)) * (b - a) ^ 2 / (2 * INR n * area f a b - L * (b - a) ^ 2).
Proof.
  intros ab S Bd N G. assert (PN := lt_0_INR n ltac:(lia)).
  assert (E1 := area_error f a b ab L S n N). set (A := area f a b) in *. set (K := L * (b - a) ^ 2 / (2 * INR n)) in *.
  assert (DP : 0 < A - K) by (unfold K; apply (Rmult_lt_reg_r (2 * INR n)); [lra|]; replace ((A - L * (b - a) ^ 2 / (2 * INR n)) * (2 * INR n)) with (2 * INR n * A - L * (b - a) ^ 2) by (field; lra); lra).
  assert (NZ : rsum (map f (mids a b n)) <> 0). { intro Z. rewrite Z in E1. assert (Q := Rle_abs (- ((b - a) / INR n * 0 - A))). rewrite Rabs_Ropp in Q. lra. }
  split; [exact NZ|]. set (mu := fun x : xr => match x with XFin r => Ok (XFin (f r)) | _ => Ok XNaN end).
  destruct (centroid_error xp_exact mu f a b ab (fun x _ => eq_refl) L B S Bd n N G) as (r & E & D). rewrite (centroid_mass xp_exact mu f a b (Z.of_nat n)) in E; [|lia|lra|intros x _; reflexivity|rewrite Nat2Z.id; exact NZ]. rewrite Nat2Z.id in E. injection E as E. rewrite E. exact D.
Qed.

(** ** slopes of inferred sets *)
Lemma implication_slope n x y w : plain_implication n -> 0 <= w <= 1 -> Rabs (t_formula (tname_of n) x w - t_formula (tname_of n) y w) <= Rabs (x - y).
Proof.
  intros [-> | [-> | ->]] W; cbn.
  - unfold Rmin. repeat destruct Rle_dec; unfold Rabs; repeat destruct Rcase_abs; lra.
  - replace (x * w - y * w) with ((x - y) * w) by ring. rewrite Rabs_mult, (Rabs_pos_eq w) by lra. assert (Q := Rabs_pos (x - y)). nra.
  - unfold Rmax. repeat destruct Rle_dec; unfold Rabs; repeat destruct Rcase_abs; lra.
Qed.
Lemma implication_range n x w : plain_implication n -> 0 <= x <= 1 -> 0 <= w <= 1 -> 0 <= t_formula (tname_of n) x w <= 1.
Proof.
  intros [-> | [-> | ->]] X W; cbn.
  - unfold Rmin. destruct Rle_dec; lra.
  - split; nra.
  - unfold Rmax. destruct Rle_dec; lra.
Qed.
Lemma join_range s u v : plain_aggregation s -> 0 <= u <= 1 -> 0 <= v <= 1 -> 0 <= s_formula (sname_of s) u v <= 1.
Proof.
  intros [-> | [-> | ->]] U V; cbn.
  - unfold Rmax. destruct Rle_dec; lra.
  - split; nra.
  - unfold Rmin. destruct Rle_dec; lra.
Qed.
Lemma max_slope u v u' v' E : Rabs (u - u') <= E -> Rabs (v - v') <= E -> Rabs (Rmax u v - Rmax u' v') <= E.
Proof. unfold Rmax. intros. repeat destruct Rle_dec; unfold Rabs in *; repeat destruct Rcase_abs in *; repeat destruct Rcase_abs; lra. Qed.
Lemma sum_slope s u v u' v' : s = AlgebraicSum \/ s = BoundedSum -> 0 <= u <= 1 -> 0 <= v <= 1 -> 0 <= u' <= 1 -> 0 <= v' <= 1 ->
  Rabs (s_formula (sname_of s) u v - s_formula (sname_of s) u' v') <= Rabs (u - u') + Rabs (v - v').
Proof.
  intros [-> | ->] U V U' V'; cbn.
  - replace (u + v - u * v - (u' + v' - u' * v')) with ((u - u') * (1 - v) + (v - v') * (1 - u')) by ring. apply Rle_trans with (1 := Rabs_triang _ _). rewrite !Rabs_mult, (Rabs_pos_eq (1 - v)), (Rabs_pos_eq (1 - u')) by lra. assert (Q := Rabs_pos (u - u')). assert (Q2 := Rabs_pos (v - v')). nra.
  - unfold Rmin. repeat destruct Rle_dec; unfold Rabs; repeat destruct Rcase_abs; lra.
Qed.
Section Join.
Variables (s : snorm).
Hypothesis plain : plain_aggregation s.
Let j := s_formula (sname_of s).
Lemma fold_range l u : 0 <= u <= 1 -> List.Forall (fun y => 0 <= y <= 1) l -> 0 <= fold_left j l u <= 1.
Proof. revert u. induction l as [|y l IH]; intros u U F; [exact U|]. cbn [fold_left]. inversion F; subst. apply IH; [now apply join_range|assumption]. Qed.
Lemma fold_slope l l' u u' E : 0 <= E -> 0 <= u <= 1 -> 0 <= u' <= 1 -> List.Forall2 (fun y y' => 0 <= y <= 1 /\ 0 <= y' <= 1 /\ Rabs (y - y') <= E) l l' ->
  (s = Maximum -> Rabs (u - u') <= E -> Rabs (fold_left j l u - fold_left j l' u') <= E) /\
  (s <> Maximum -> Rabs (fold_left j l u - fold_left j l' u') <= Rabs (u - u') + INR (length l) * E).
Proof.
  intros E0 U U' F. revert u u' U U'. induction F as [|y y' l l' (Y & Y' & D) F IH]; intros u u' U U'; cbn [fold_left length].
  - split; [auto|]. intros _. cbn [INR]. lra.
  - destruct (IH (j u y) (j u' y') (join_range s u y plain U Y) (join_range s u' y' plain U' Y')) as [I1 I2]. split.
    + intros M D2. apply I1; [exact M|]. unfold j. rewrite M. cbn. now apply max_slope.
    + intros M. apply Rle_trans with (1 := I2 M). assert (Q : Rabs (j u y - j u' y') <= Rabs (u - u') + Rabs (y - y')) by (apply sum_slope; try assumption; destruct plain as [-> | [-> | ->]]; auto; congruence). change (INR (S (length l))) with (INR (Datatypes.S (length l))). rewrite S_INR. lra.
Qed.
End Join.
Lemma inferred_slope n s mu w cs a b L : plain_implication n -> plain_aggregation s -> 0 <= L -> (forall c, In c cs -> 0 <= w c <= 1) ->
  (forall c x, In c cs -> a <= x <= b -> 0 <= mu (ac_term c) x <= 1) -> (forall c, In c cs -> lipschitz (mu (ac_term c)) a b L) ->
  lipschitz (inferred_set n s mu w cs) a b (joined_slope s L (length cs)) /\ forall x, a <= x <= b -> 0 <= inferred_set n s mu w cs x <= 1.
Proof.
  intros PI PA L0 W M S. split.
  - intros x y X Y. unfold inferred_set. assert (E0 : 0 <= L * Rabs (x - y)) by (apply Rmult_le_pos; [exact L0|apply Rabs_pos]).
    destruct (fold_slope s PA (map (fun c => t_formula (tname_of n) (mu (ac_term c) x) (w c)) cs) (map (fun c => t_formula (tname_of n) (mu (ac_term c) y) (w c)) cs) 0 0 (L * Rabs (x - y)) E0 ltac:(lra) ltac:(lra)) as [F1 F2].
    { clear - PI W M S X Y. induction cs as [|c cs IH]; cbn [map]; constructor; [|apply IH; intros; [apply W|apply M|apply S]; try assumption; now right].
      split; [apply implication_range; [exact PI|apply M; [now left|exact X]|apply W; now left]|]. split; [apply implication_range; [exact PI|apply M; [now left|exact Y]|apply W; now left]|]. apply Rle_trans with (1 := implication_slope n _ _ _ PI (W c (or_introl eq_refl))). apply S; [now left|exact X|exact Y]. }
    rewrite map_length in F2. rewrite Rminus_eq_0, Rabs_R0 in F1, F2. destruct PA as [-> | [-> | ->]]; cbn [joined_slope]; [now apply F1| |]; (apply Rle_trans with (1 := F2 ltac:(discriminate)); right; ring).
  - intros x X. unfold inferred_set. apply fold_range; [exact PA|lra|]. apply Forall_forall. intros y Y. apply in_map_iff in Y. destruct Y as (c & <- & Y). apply implication_range; auto.
Qed.
Lemma exact_plain eps n s : plain_implication n -> plain_aggregation s -> exact_t eps n /\ exact_s eps s.
Proof. intros PI PA. split; intros u v _ _; [destruct PI as [-> | [-> | ->]]|destruct PA as [-> | [-> | ->]]]; cbn; tauto. Qed.

Lemma mamdani_error (P : xparam) drain (e e' : engine xr) known j o p n s r a b mu w L : 0 <= xp_eps P -> plain_implication n -> plain_aggregation s ->
  general_engine e -> @process xr (XRScalar P) drain e = (e', Ok tt) -> @Infers xr (XRScalar P) e known ->
  nth_error (e_outputs e) j = Some o -> nth_error (e_outputs e') j = Some p -> v_enabled (o_var o) = true ->
  o_defuzzifier o = Some (DIntegral Centroid r) -> o_aggregation o = Some s -> (1 <= r)%Z -> v_minimum (o_var o) = XFin a -> v_maximum (o_var o) = XFin b -> a < b ->
  (forall c, In c (about j known) -> ac_implication c = Some n /\ ac_degree c = XFin (w c) /\ 0 <= w c <= 1) ->
  (forall c x vw, In c (about j known) -> a <= x <= b -> 0 <= mu (ac_term c) x <= 1 /\
     exists t, nth_error (v_terms (o_var o)) (ac_term c) = Some t /\ @term_membership xr (XRScalar P) vw t (XFin x) = Ok (XFin (mu (ac_term c) x))) ->
  0 <= L -> (forall c, In c (about j known) -> lipschitz (mu (ac_term c)) a b L) ->
  let f := inferred_set n s mu w (about j known) in let K := joined_slope s L (length (about j known)) in
  K * (b - a) ^ 2 < 2 * IZR r * area f a b ->
  exists v, v_value (o_var p) = XFin v /\ Rabs (v - gravity f a b) <= (1 + K * (b - a)) * (b - a) ^ 2 / (2 * IZR r * area f a b - K * (b - a) ^ 2).
Proof.
  intros EP PI PA GE PR HI NO NP EN DF AG R1 MI MA ab HC HM L0 HL f K G.
  destruct (inferred_slope n s mu w (about j known) a b L PI PA L0) as [S Bd]; [intros c C; now apply HC|intros c x C X; now apply (HM c x (engine_view [] []))|exact HL|].
  assert (RN : IZR r = INR (Z.to_nat r)) by (rewrite INR_IZR_INZ, Z2Nat.id by lia; reflexivity). rewrite RN in G |- *.
  destruct (mass_error f a b K 1 (Z.to_nat r) ab S Bd ltac:(lia) G) as [NZ D]. exists (center_of_mass f (mids a b (Z.to_nat r))). split; [|exact D].
  destruct (exact_plain (xp_eps P) n s PI PA) as [XT XS].
  apply (mamdani P drain e e' known j o p n s r a b mu w); try assumption; [destruct PA as [-> | [-> | ->]]; discriminate|lra].
Qed.

(** ** two peaks *)
Definition two_peaks (x : R) : R := Rmax 0 (Rmax (1 - 4 * x) (1 - 4 * Rabs (x - 1 / 2))).
Definition two_mu (x : xr) : res xr := match x with XFin r => Ok (XFin (two_peaks r)) | _ => Ok XNaN end.
Lemma two_slope : lipschitz two_peaks 0 1 4.
Proof. intros x y X Y. unfold two_peaks, Rmax, Rabs. repeat destruct Rcase_abs; repeat destruct Rle_dec; repeat destruct Rcase_abs; lra. Qed.
Lemma two_top x : 0 <= x <= 1 -> 0 <= two_peaks x <= 1 /\ (two_peaks x = 1 <-> x = 0 \/ x = 1 / 2).
Proof.
  intro X. unfold two_peaks, Rmax, Rabs. repeat destruct Rcase_abs; repeat destruct Rle_dec; split; try lra; (split; [intro|intros [H|H]]); lra.
Qed.
Lemma mid_half k : mid 0 1 (2 * k + 1) k = 1 / 2.
Proof. unfold mid. rewrite plus_INR, mult_INR. cbn [INR]. assert (Q := pos_INR k). field. lra. Qed.
Lemma two_som P k : @som xr (XRScalar P) two_mu (XFin 0) (XFin 1) (Z.of_nat (2 * k + 1)) = Ok (XFin (1 / 2)).
Proof.
  set (n := (2 * k + 1)%nat). destruct (maxima P two_mu two_peaks 0 1 ltac:(lra) (fun x _ => eq_refl) n ltac:(lia)) as (i & _ & _ & [I H] & _ & _ & _ & _ & _ & _ & E & _). rewrite E. do 2 f_equal.
  specialize (H k ltac:(lia)). unfold n in H at 1. rewrite mid_half in H. rewrite (proj2 (proj2 (two_top (1/2) ltac:(lra))) ltac:(now right)) in H.
  assert (M := mid_in 0 1 n i I ltac:(lra)). destruct (two_top _ M) as [T1 T2]. destruct (proj1 T2 ltac:(lra)) as [Z|Z]; [exfalso|exact Z].
  unfold mid in Z. assert (Q := pos_INR i). assert (PN := lt_0_INR n ltac:(lia)). assert (0 < (1 - 0) / INR n) by (apply Rdiv_lt_0_compat; lra). nra.
Qed.

(** ** integrals of lines *)
Lemma int_line c d u v : is_RInt (fun x => c * x + d) u v (c * (v ^ 2 - u ^ 2) / 2 + d * (v - u)).
Proof.
  replace (c * (v ^ 2 - u ^ 2) / 2 + d * (v - u)) with ((fun x => c * x ^ 2 / 2 + d * x) v - (fun x => c * x ^ 2 / 2 + d * x) u) by (cbn; field).
  apply (is_RInt_derive (V := R_CompleteNormedModule) (fun x => c * x ^ 2 / 2 + d * x) (fun x => c * x + d)).
  - intros x _. auto_derive; [exact I|field].
  - intros x _. apply continuity_pt_filterlim. apply derivable_continuous_pt. exists c. apply is_derive_Reals. auto_derive; [exact I|ring].
Qed.
Lemma int_moment c d u v : is_RInt (fun x => x * (c * x + d)) u v (c * (v ^ 3 - u ^ 3) / 3 + d * (v ^ 2 - u ^ 2) / 2).
Proof.
  replace (c * (v ^ 3 - u ^ 3) / 3 + d * (v ^ 2 - u ^ 2) / 2) with ((fun x => c * x ^ 3 / 3 + d * x ^ 2 / 2) v - (fun x => c * x ^ 3 / 3 + d * x ^ 2 / 2) u) by (cbn; field).
  apply (is_RInt_derive (V := R_CompleteNormedModule) (fun x => c * x ^ 3 / 3 + d * x ^ 2 / 2) (fun x => x * (c * x + d))).
  - intros x _. auto_derive; [exact I|field].
  - intros x _. apply continuity_pt_filterlim. apply derivable_continuous_pt. exists (2 * c * x + d). apply is_derive_Reals. auto_derive; [exact I|ring].
Qed.
(** a ramp cut off at 1/2 *)
Definition cut (x : R) : R := Rmin (x / 10) (1 / 2).
Lemma int_cut : is_RInt cut 0 10 (15 / 4) /\ is_RInt (fun x => x * cut x) 0 10 (275 / 12).
Proof.
  assert (C1 : forall x, 0 < x < 5 -> cut x = 1 / 10 * x + 0) by (intros; unfold cut, Rmin; destruct Rle_dec; lra).
  assert (C2 : forall x, 5 < x < 10 -> cut x = 0 * x + 1 / 2) by (intros; unfold cut, Rmin; destruct Rle_dec; lra).
  split.
  - replace (15 / 4) with (plus (1 / 10 * (5 ^ 2 - 0 ^ 2) / 2 + 0 * (5 - 0)) (0 * (10 ^ 2 - 5 ^ 2) / 2 + 1 / 2 * (10 - 5))) by (unfold plus; cbn; lra).
    apply (is_RInt_Chasles (V := R_NormedModule) cut 0 5 10); (eapply is_RInt_ext; [|apply int_line]); intros x X; rewrite Rmin_left, Rmax_right in X by lra; [rewrite C1|rewrite C2]; auto.
  - replace (275 / 12) with (plus (1 / 10 * (5 ^ 3 - 0 ^ 3) / 3 + 0 * (5 ^ 2 - 0 ^ 2) / 2) (0 * (10 ^ 3 - 5 ^ 3) / 3 + 1 / 2 * (10 ^ 2 - 5 ^ 2) / 2)) by (unfold plus; cbn; lra).
    apply (is_RInt_Chasles (V := R_NormedModule) (fun x => x * cut x) 0 5 10); (eapply is_RInt_ext; [|apply int_moment]); intros x X; rewrite Rmin_left, Rmax_right in X by lra; [rewrite C1|rewrite C2]; auto.
Qed.
Lemma cut_area : area cut 0 10 = 15 / 4.
Proof. apply is_RInt_unique. apply int_cut. Qed.
Lemma cut_gravity : gravity cut 0 10 = 55 / 9.
Proof. unfold gravity. rewrite (is_RInt_unique _ _ _ _ (proj1 int_cut)), (is_RInt_unique _ _ _ _ (proj2 int_cut)). lra. Qed.
Lemma cut_slope : lipschitz cut 0 10 (1 / 10).
Proof. intros x y _ _. unfold cut, Rmin, Rabs. repeat destruct Rle_dec; repeat destruct Rcase_abs; lra. Qed.
Lemma cut_range x : 0 <= x <= 10 -> 0 <= cut x <= 1 / 2.
Proof. intro X. unfold cut, Rmin. destruct Rle_dec; lra. Qed.
Lemma cut_greatest : greatest_on cut 0 10 5 10.
Proof. unfold greatest_on, cut, Rmin. repeat split; try lra; intros; repeat destruct Rle_dec; lra. Qed.
Lemma cut_max x : 0 <= x <= 10 -> Rmax 0 (Rmin (x / 10) (1 / 2)) = cut x.
Proof. intro X. apply Rmax_right. now apply cut_range. Qed.
Lemma area_same f g a b : (forall x, a <= x <= b -> f x = g x) -> a <= b -> area f a b = area g a b.
Proof. intros H Q. apply RInt_ext. intros x X. rewrite Rmin_left, Rmax_right in X by exact Q. apply H. lra. Qed.
Lemma gravity_same f g a b : (forall x, a <= x <= b -> f x = g x) -> a <= b -> gravity f a b = gravity g a b.
Proof.
  intros H Q. unfold gravity. change (RInt f a b) with (area f a b). rewrite (area_same f g a b H Q). apply (f_equal (fun z => z / area g a b)). apply (area_same (fun x => x * f x) (fun x => x * g x) a b); [|exact Q]. intros x X. now rewrite H.
Qed.
Lemma two_peaks_smallest (P : xparam) : exists mu f, lipschitz f 0 1 4 /\ (forall x, 0 <= x <= 1 -> mu (XFin x) = Ok (XFin (f x)) /\ f x <= f 0) /\
  forall N, exists n, (N <= n)%nat /\ @som xr (XRScalar P) mu (XFin 0) (XFin 1) (Z.of_nat n) = Ok (XFin (1 / 2)).
Proof.
  exists two_mu, two_peaks. split; [exact two_slope|]. split.
  - intros x X. split; [reflexivity|]. rewrite (proj2 (proj2 (two_top 0 ltac:(lra))) ltac:(now left)). now apply two_top.
  - intro N. exists (2 * N + 1)%nat. split; [lia|]. apply two_som.
Qed.
