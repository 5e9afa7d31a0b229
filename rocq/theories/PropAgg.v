(** C21-C24: activated and aggregated terms, weighted defuzzifiers. *)
From Coq Require Import ZArith Reals Bool List String Lra Permutation.
From Flocq Require Import IEEE754.BinarySingleNaN.
From Verif Require Import Base Op XR XRFacts F64 F64Facts Norm SpecNorm Defuzz Aggregated OrdVal SpecDefuzz SpecAgg DefuzzReal AggProofs AggProofs2 AggBundle.
Import ListNotations.
Local Open Scope R_scope.

(** * C21: weighted defuzzifiers *)

(** [z] is the function by which the activated terms are evaluated at their own degree: membership for Takagi-Sugeno,
    tsukamoto for Tsukamoto.  [ps] lists (w, z) of the terms grouped by name. *)
Theorem C21_weighted : forall (P : xparam) (A : Type) (name : A -> string) memb tsuk wt aggregation ty
    (l : list (activated xr A)) ps z,
  let defuzzify k := @weighted_defuzzify xr (XRScalar P) A k ty name memb tsuk wt aggregation l in
  l <> [] ->
  (z = memb /\ (ty = WTakagiSugeno \/ (ty = WAutomatic /\ forall a, In a l -> wt (ac_term a) = WTakagiSugeno))) \/
  (z = tsuk /\ (ty = WTsukamoto \/ (ty = WAutomatic /\ forall a, In a l -> wt (ac_term a) = WTsukamoto))) ->
  Forall2 (fun a p => ac_degree a = XFin (fst p) /\ z (ac_term a) (XFin (fst p)) = Ok (XFin (snd p)))
    (@grouped_terms xr (XRScalar P) A name aggregation l) ps ->
  defuzzify WeightedSum = Ok (XFin (wz ps)) /\
  (ws ps <> 0 -> defuzzify WeightedAverage = Ok (XFin (wz ps / ws ps))) /\
  (Forall (fun p => 0 <= fst p) ps -> ws ps = 0 -> defuzzify WeightedAverage = Ok XNaN) /\
  (forall lo hi, Forall (fun p => 0 <= fst p /\ lo <= snd p <= hi) ps -> 0 < ws ps -> lo <= wz ps / ws ps <= hi).
Proof. exact (fun P A => weighted_main P (A := A)). Qed.
Print Assumptions C21_weighted.

(** With no aggregation (or UnboundedSum) and terms whose value does not depend on the degree (Constant, Linear,
    Function of other variables), grouping does not matter: the sums run over all activations. *)
Theorem C21_ungrouped : forall (P : xparam) (A : Type) (name : A -> string) z (zc : A -> R) (d : activated xr A -> R)
    aggregation (l : list (activated xr A)),
  aggregation = None \/ aggregation = Some UnboundedSum ->
  (forall a, In a l -> ac_degree a = XFin (d a)) ->
  (forall t w, z t (XFin w) = Ok (XFin (zc t))) ->
  (forall a b, In a l -> In b l -> name (ac_term a) = name (ac_term b) -> zc (ac_term a) = zc (ac_term b)) ->
  exists ps,
    Forall2 (fun a p => ac_degree a = XFin (fst p) /\ z (ac_term a) (XFin (fst p)) = Ok (XFin (snd p)))
      (@grouped_terms xr (XRScalar P) A name aggregation l) ps /\
    wz ps = rsum (map (fun p => fst p * snd p) (map (fun a => (d a, zc (ac_term a))) l)) /\
    ws ps = rsum (map fst (map (fun a => (d a, zc (ac_term a))) l)).
Proof. exact (fun P A => ungrouped P (A := A)). Qed.
Print Assumptions C21_ungrouped.

Theorem C21_empty : forall (T : Type) (S : Scalar T) (A : Type) k ty name memb tsuk (wt : A -> wtype) aggregation,
  weighted_defuzzify k ty name memb tsuk wt aggregation (@nil (activated T A)) = Ok s_nan.
Proof. exact (fun T S A => weighted_empty). Qed.
Print Assumptions C21_empty.

(** automatic mode: a term of neither kind, or terms of different kinds, are rejected *)
Theorem C21_rejects : forall (T : Type) (S : Scalar T) (A : Type) k name memb tsuk (wt : A -> wtype) aggregation
    (l : list (activated T A)),
  (exists a, In a l /\ wt (ac_term a) = WAutomatic) \/
  (exists a b, In a l /\ In b l /\ wt (ac_term a) <> wt (ac_term b)) ->
  weighted_defuzzify k WAutomatic name memb tsuk wt aggregation l = Throw EDefuzzifier.
Proof. exact (fun T S A => weighted_rejects). Qed.
Print Assumptions C21_rejects.

(** two constants 10 and 20 (names a, b) activated at 1/4 and 3/4 *)
Example C21_case :
  @weighted_defuzzify xr (XRScalar xp_default) (string * R) WeightedAverage WAutomatic fst (fun t _ => Ok (XFin (snd t)))
    (fun _ _ => Throw EInternal) (fun _ => WTakagiSugeno) None
    [mkActivated ("a"%string, 10) (XFin (1/4)) None; mkActivated ("b"%string, 20) (XFin (3/4)) None] = Ok (XFin (35/2)).
Proof.
  destruct (C21_weighted xp_default (string * R) fst (fun t _ => Ok (XFin (snd t))) (fun _ _ => Throw EInternal)
    (fun _ => WTakagiSugeno) None WAutomatic
    [mkActivated ("a"%string, 10) (XFin (1/4)) None; mkActivated ("b"%string, 20) (XFin (3/4)) None]
    [(1/4, 10); (3/4, 20)] (fun t _ => Ok (XFin (snd t)))) as (_ & H & _).
  - discriminate.
  - left. split; auto.
  - vm_compute grouped_terms. repeat constructor; auto.
  - cbv zeta in H. rewrite H; unfold wz, ws, rsum; simpl; [f_equal; f_equal; lra|lra].
Qed.

(** * C22: aggregated membership *)

(** [contributes P memb x a d]: the activated term [a] has an implication operator, membership and activation degree
    in [0,1], and contributes the implication of the two. *)
Theorem C22_order_independent : forall (P : xparam) (A : Type) memb s (l l' : list (activated xr A)) x ds,
  x <> XNaN -> 0 <= xp_eps P -> (s = HamacherSum -> xp_eps P = 0) ->
  Forall2 (contributes P memb x) l ds -> Permutation l l' ->
  @agg_membership xr (XRScalar P) A memb (Some s) l' x = @agg_membership xr (XRScalar P) A memb (Some s) l x.
Proof. exact (fun P A => order_independent P (A := A)). Qed.
Print Assumptions C22_order_independent.

Theorem C22_bounds : forall (P : xparam) (A : Type) memb s (l : list (activated xr A)) x ds,
  x <> XNaN -> Forall2 (contributes P memb x) l ds ->
  exists r, @agg_membership xr (XRScalar P) A memb (Some s) l x = Ok (XFin r) /\ 0 <= r /\
    (s <> UnboundedSum -> r <= 1) /\ forall d, In d ds -> fle d (XFin r).
Proof. exact (fun P A => agg_bounds P (A := A)). Qed.
Print Assumptions C22_bounds.

(** raising activation degrees never lowers the aggregated membership *)
Theorem C22_monotone : forall (P : xparam) (A : Type) memb s (l l' : list (activated xr A)) x ds ds',
  x <> XNaN -> 0 <= xp_eps P -> s <> UnboundedSum ->
  Forall2 (contributes P memb x) l ds -> Forall2 (contributes P memb x) l' ds' ->
  Forall2 (fun a a' => ac_term a = ac_term a' /\ ac_implication a = ac_implication a' /\ fle (ac_degree a) (ac_degree a')) l l' ->
  exists r r', @agg_membership xr (XRScalar P) A memb (Some s) l x = Ok (XFin r) /\
    @agg_membership xr (XRScalar P) A memb (Some s) l' x = Ok (XFin r') /\ r <= r'.
Proof. exact (fun P A => agg_monotone P (A := A)). Qed.
Print Assumptions C22_monotone.

(** at the default tolerance HamacherSum does depend on the order *)
Theorem C22_hamacher_order_refuted : exists (memb : unit -> xr -> res xr) (l l' : list (activated xr unit)) x r r',
  Permutation l l' /\ agg_membership (S := XRScalar xp_default) memb (Some HamacherSum) l x = Ok r /\
  agg_membership (S := XRScalar xp_default) memb (Some HamacherSum) l' x = Ok r' /\ r <> r' /\
  (exists ds, Forall2 (contributes xp_default memb x) l ds).
Proof. exact hamacher_order_refuted. Qed.
Print Assumptions C22_hamacher_order_refuted.

(** single activated terms; missing operators are reported *)
Theorem C22_activated : forall (T : Type) (S : Scalar T) (A : Type) (memb : A -> T -> res T) (a : activated T A) n x m,
  ac_implication a = Some n -> isNaN x = false -> memb (ac_term a) x = Ok m -> ac_membership memb a x = Ok (tnorm_compute n m (ac_degree a)).
Proof. exact @one_implication. Qed.
Print Assumptions C22_activated.
Theorem C22_no_implication : forall (T : Type) (S : Scalar T) (A : Type) (memb : A -> T -> res T) (a : activated T A) x,
  ac_implication a = None -> isNaN x = false -> ac_membership memb a x = Throw EImplication.
Proof. exact @no_implication. Qed.
Print Assumptions C22_no_implication.
Theorem C22_no_aggregation : forall (T : Type) (S : Scalar T) (A : Type) (memb : A -> T -> res T) (l : list (activated T A)) x,
  l <> [] -> isNaN x = false -> agg_membership memb None l x = Throw EAggregation.
Proof. exact @no_aggregation. Qed.
Print Assumptions C22_no_aggregation.
Theorem C22_empty : forall (T : Type) (S : Scalar T) (A : Type) (memb : A -> T -> res T) g x,
  isNaN x = false -> agg_membership memb g ([] : list (activated T A)) x = Ok s_0.
Proof. exact @nothing_aggregated. Qed.
Print Assumptions C22_empty.
Theorem C22_nan : forall (T : Type) (S : Scalar T) (A : Type) (memb : A -> T -> res T) (a : activated T A) g l x,
  isNaN x = true -> ac_membership memb a x = Ok s_nan /\ agg_membership memb g l x = Ok s_nan.
Proof. exact @nan_argument. Qed.
Print Assumptions C22_nan.

Example C22_case : contributes xp_default (fun (_ : unit) _ => Ok (XFin (1/2))) (XFin 3) (mkActivated tt (XFin (1/3)) (Some AlgebraicProduct)) (XFin (1/6)).
Proof.
  exists AlgebraicProduct, (XFin (1/2)). repeat split; auto. - exists (1/2); split; auto; lra. - exists (1/3); split; auto; lra.
  - simpl. f_equal. lra.
Qed.

(** * C23: grouping *)
Theorem C23_grouped : forall (T : Type) (S : Scalar T) (A : Type) (name : A -> string) aggregation (l : list (activated T A)),
  let nm := fun a : activated T A => name (ac_term a) in
  let s := match aggregation with Some s => s | None => UnboundedSum end in
  let g := grouped_terms name aggregation l in
  map nm g = firsts (map nm l) /\
  (forall x, In x g -> exists a r, named nm (nm x) l = a :: r /\ ac_term x = ac_term a /\ ac_implication x = ac_implication a /\
     ac_degree x = fold_left (snorm_compute s) (map ac_degree r) (ac_degree a)) /\
  grouped_terms name aggregation g = g.
Proof. exact (fun T S A => grouped_main). Qed.
Print Assumptions C23_grouped.

Example C23_case : map (fun a => ac_term a) (@grouped_terms xr (XRScalar xp_default) string (fun t => t) None
   [mkActivated "b"%string (XFin 1) None; mkActivated "a"%string (XFin 1) None; mkActivated "b"%string (XFin 2) None]) = ["b"; "a"]%string.
Proof. vm_compute. reflexivity. Qed.

(** * C24: maximally activated terms *)

(** The statement holds for every scalar type ordered by the number it stands for; extended reals and doubles are such. *)
Theorem C24_maximal : forall (T : Type) (S : Scalar T) (v : T -> xr), ord_val S v -> forall (A : Type) (l : list (activated T A)),
  (maximally_activated l = [] /\ highest_activated l = None /\ forall a, In a l -> xltb (XFin 0) (v (ac_degree a)) = false) \/
  (exists m a r, xmax_of (map (fun a => v (ac_degree a)) l) m /\ maximally_activated l = a :: r /\
     a :: r = filter (fun a => xeqb (v (ac_degree a)) m) l /\ highest_activated l = Some a).
Proof. exact (fun T S v O A => max_main O (A := A)). Qed.
Print Assumptions C24_maximal.
Theorem C24_scalars : (forall P, ord_val (XRScalar P) (fun x => x)) /\ (forall P, ord_val (F64Scalar P) f2x).
Proof. exact (conj ord_val_XR ord_val_F64). Qed.
Print Assumptions C24_scalars.

(** the activation degree of one term: the degrees of its occurrences, joined by the aggregation or else added up *)
Theorem C24_degree : forall (T : Type) (S : Scalar T) (A : Type) (same : A -> bool) g (l : list (activated T A)),
  agg_degree same g l = fold_left (match g with Some s => snorm_compute s | None => s_add end) (map ac_degree (filter (fun a => same (ac_term a)) l)) s_0.
Proof. exact @degree_of_term. Qed.
Print Assumptions C24_degree.

Example C24_case : map ac_term (@maximally_activated f64 (F64Scalar fp_default) string
   [mkActivated "a"%string (B754_nan : f64) None; mkActivated "b"%string (f64_lit 1 2) None; mkActivated "c"%string (f64_lit 1 4) None;
    mkActivated "d"%string (f64_lit 1 2) None]) = ["b"; "d"]%string.
Proof. vm_compute. reflexivity. Qed.
