(** Facts about grids, datasets and benchmarks, in the form of the property theorems. *)
From Coq Require Import ZArith String List Bool Reals Lia Lra Sorted.
From Flocq Require Import Core IEEE754.BinarySingleNaN.
From Verif Require Import Base Op XR F64 Text Var Activation Engine Grid Benchmark SpecEngine SpecGrid SpecFld GridProofs FldProofs FldProofs2 FldReal.
Import ListNotations.

Lemma box_tops resolution active : box_count (repeat 0%Z (length active)) (tops resolution active) =
  ((1 + Z.max 0 resolution) ^ Z.of_nat (length (filter (fun a => a) active)))%Z.
Proof.
  induction active as [|a active IH]; [reflexivity|]. unfold box_count, tops in *. cbn [length repeat map combine fold_right fst snd filter].
  rewrite IH. destruct a; cbn [length].
  - rewrite Nat2Z.inj_succ, Z.pow_succ_r by lia. f_equal. lia.
  - change (1 + Z.max 0 (0 - 0))%Z with 1%Z. lia.
Qed.
Lemma length_tops resolution active : length (repeat 0%Z (length active)) = length (tops resolution active).
Proof. unfold tops. rewrite repeat_length, map_length. reflexivity. Qed.

Section Table.
Context {T : Type} `{S : Scalar T}.
Variable drain : drainer T.
Lemma table_length (e : engine T) at_ row ks rows r : table drain e at_ row ks rows r ->
  (length rows <= length ks)%nat /\ (r = Ok tt <-> length rows = length ks).
Proof.
  induction 1 as [|k ks outs rows r E H [L I]|k ks r E N]; cbn [length].
  - split; [lia|tauto].
  - split; [lia|]. rewrite I. lia.
  - split; [lia|]. split; [contradiction|]. intros Q; lia.
Qed.
Theorem fld_rows (x : fld) values sc active (e : engine T) resolution :
  memoryless e -> length active = length (e_inputs e) -> e_inputs e <> [] -> Forall2 stable active (e_inputs e) ->
  resolution_for values sc (length (e_inputs e)) = Ok resolution ->
  let origin := repeat 0%Z (length active) in
  exists ks e' rows r,
    (forall k, In k ks <-> boxed origin (tops resolution active) k) /\ StronglySorted lex ks /\ NoDup ks /\
    Z.of_nat (length ks) = ((1 + Z.max 0 resolution) ^ Z.of_nat (length (filter (fun a => a) active)))%Z /\
    fld_grid drain x values sc active e = ((e', rows), r) /\
    table drain e (fun k => inputs_at resolution active k (e_inputs e)) (row_of x) ks rows r /\
    (r = Ok tt <-> length rows = length ks).
Proof.
  intros M L N St Rv origin. destruct (fld_table drain x values sc active e resolution M L N St Rv) as (ks & e' & rows & r & V & G & Tb).
  destruct (enumerates origin (tops resolution active) (length_tops resolution active)) as (vs & V' & I & So & C).
  destruct (visits_fun _ _ _ _ _ V _ _ V') as [-> _].
  exists ks, e', rows, r. split; [exact I|]. split; [exact So|]. split; [exact (sorted_nodup _ So)|].
  split; [rewrite C; apply box_tops|]. split; [exact G|]. split; [exact Tb|]. exact (proj2 (table_length _ _ _ _ _ _ Tb)).
Qed.
Lemma answers_fun (e : engine T) row first lines rows r : answers drain e row first lines rows r ->
  forall rows' r', answers drain e row first lines rows' r' -> rows' = rows /\ r' = r.
Proof.
  induction 1; intros rows' r' W; inversion W; subst; try congruence;
    repeat match goal with
    | A : ?x = Throw _, B : ?x = Ok _ |- _ => rewrite A in B; discriminate
    | A : ?x = Ok ?u, B : ?x = Ok ?v |- _ => rewrite A in B; injection B as <-
    | A : ?x = Throw ?u, B : ?x = Throw ?v |- _ => rewrite A in B; injection B as <-
    end; try lia; auto;
    try match goal with IH : forall rows' r', answers _ _ _ _ _ rows' r' -> _, W : answers _ _ _ _ _ _ _ |- _ => apply IH in W; destruct W as [-> ->] end;
    try match goal with A : evaluation _ _ _ = (Ok tt, ?a), B : evaluation _ _ _ = (Ok tt, ?b) |- _ => rewrite A in B; injection B as <- end; auto;
    try match goal with A : evaluation _ _ _ = (Ok tt, _), B : fst (evaluation _ _ _) <> Ok tt |- _ => rewrite A in B; cbn in B; congruence end;
    try match goal with A : trim ?l = EmptyString, B : starts_hash (trim ?l) = true |- _ => rewrite A in B; discriminate end;
    try match goal with A : trim ?l = EmptyString, B : to_scalars (trim ?l) = Throw _ |- _ => rewrite A in B; vm_compute in B; discriminate end.
Qed.
End Table.
