(** The statements of C21-C24 assembled. *)
From Coq Require Import ZArith Reals Bool List String Lra Lia Permutation.
From Verif Require Import Base Op XR XRFacts Norm NormAlg ShapeFacts Defuzz Aggregated OrdVal SpecDefuzz SpecAgg DefuzzSelect DefuzzReal AggProofs.
Import ListNotations.
Local Open Scope R_scope.
Arguments rsum : simpl never.

Section W.
Context (P : xparam) {A : Type}.
#[local] Hint Extern 0 (Scalar xr) => exact (XRScalar P) : typeclass_instances.
Notation activated := (activated xr A).
Lemma weighted_main (name : A -> string) memb tsuk wt aggregation ty (l : list activated) ps z :
  l <> [] ->
  (z = memb /\ (ty = WTakagiSugeno \/ (ty = WAutomatic /\ forall a, In a l -> wt (ac_term a) = WTakagiSugeno))) \/
  (z = tsuk /\ (ty = WTsukamoto \/ (ty = WAutomatic /\ forall a, In a l -> wt (ac_term a) = WTsukamoto))) ->
  Forall2 (fun a p => ac_degree a = XFin (fst p) /\ z (ac_term a) (XFin (fst p)) = Ok (XFin (snd p)))
    (grouped_terms name aggregation l) ps ->
  weighted_defuzzify WeightedSum ty name memb tsuk wt aggregation l = Ok (XFin (wz ps)) /\
  (ws ps <> 0 -> weighted_defuzzify WeightedAverage ty name memb tsuk wt aggregation l = Ok (XFin (wz ps / ws ps))) /\
  (Forall (fun p => 0 <= fst p) ps -> ws ps = 0 ->
     weighted_defuzzify WeightedAverage ty name memb tsuk wt aggregation l = Ok XNaN) /\
  (forall lo hi, Forall (fun p => 0 <= fst p /\ lo <= snd p <= hi) ps -> 0 < ws ps -> lo <= wz ps / ws ps <= hi).
Proof.
  intros NE K V.
  assert (E : forall k, weighted_defuzzify k ty name memb tsuk wt aggregation l = weighted_with k name z aggregation l).
  { intro k. destruct (dispatch k ty name memb tsuk wt aggregation l NE) as (D1 & D2 & _).
    destruct K as [[-> K]|[-> K]]; auto. }
  rewrite !E. split; [exact (weighted_real P WeightedSum name z aggregation l ps V)|].
  split; [|split]; [| |intros; now apply wmean_bounds].
  - intro W. etransitivity; [exact (weighted_real P WeightedAverage name z aggregation l ps V)|]. now rewrite (xe_div P).
  - intros F W. etransitivity; [exact (weighted_real P WeightedAverage name z aggregation l ps V)|].
    rewrite W, (ws_zero ps F W). f_equal. apply zero_div.
Qed.
End W.

Section G.
Context {T : Type} {S : Scalar T} {A : Type}.
Notation activated := (activated T A).
Lemma grouped_main (name : A -> string) aggregation (l : list activated) :
  let nm := fun a : activated => name (ac_term a) in
  let s := match aggregation with Some s => s | None => UnboundedSum end in
  let g := grouped_terms name aggregation l in
  map nm g = firsts (map nm l) /\
  (forall x, In x g -> exists a r, named nm (nm x) l = a :: r /\ ac_term x = ac_term a /\ ac_implication x = ac_implication a /\
     ac_degree x = fold_left (snorm_compute s) (map ac_degree r) (ac_degree a)) /\
  grouped_terms name aggregation g = g.
Proof.
  cbv zeta. set (s := match aggregation with Some s => s | None => UnboundedSum end).
  assert (E : forall l, grouped_terms name aggregation l = spec_grouped name s l) by (intro; apply grouped_eq; reflexivity).
  rewrite !E. assert (N := spec_names name s l). split; [exact N|]. split.
  - intros x I. unfold spec_grouped in I. apply in_flat_map in I. destruct I as (k & K & I). unfold entry in I.
    destruct (merge s (named (aname name) k l)) as [g|] eqn:M; [|destruct I]. destruct I as [<- |[]].
    destruct (merge_name name s l k g M) as [Q _]. unfold aname in *. rewrite Q.
    destruct (named (fun a => name (ac_term a)) k l) as [|a r] eqn:ND; [discriminate|]. exists a, r. simpl in M. injection M as <-. auto.
  - apply grouped_id. rewrite N. apply firsts_nodup.
Qed.
End G.
Lemma weighted_rejects {T} {S : Scalar T} {A} k name memb tsuk (wt : A -> wtype) aggregation (l : list (activated T A)) :
  (exists a, In a l /\ wt (ac_term a) = WAutomatic) \/
  (exists a b, In a l /\ In b l /\ wt (ac_term a) <> wt (ac_term b)) ->
  weighted_defuzzify k WAutomatic name memb tsuk wt aggregation l = Throw EDefuzzifier.
Proof.
  intro H. assert (NE : l <> []) by (intros ->; destruct H as [(a & [] & _)|(a & b & [] & _)]).
  now apply (dispatch k WAutomatic name memb tsuk wt aggregation l NE).
Qed.
