(** Independent descriptions of grouping, maximal activation and weighted means. *)
From Coq Require Import ZArith Reals Bool List String.
From Verif Require Import XR SpecDefuzz.
Import ListNotations.
Local Open Scope R_scope.

(** distinct elements in order of first occurrence *)
Fixpoint firsts (l : list string) : list string :=
  match l with [] => [] | k :: r => k :: filter (fun k' => negb (String.eqb k k')) (firsts r) end.

(** the elements named [k] *)
Definition named {A} (name : A -> string) (k : string) (l : list A) : list A :=
  filter (fun a => String.eqb k (name a)) l.

Definition xmax_of (ds : list xr) (m : xr) : Prop :=
  In m ds /\ xltb (XFin 0) m = true /\ forall d, In d ds -> d <> XNaN -> xleb d m = true.

(** sum of w z, sum of w *)
Definition wz (l : list (R * R)) : R := rsum (map (fun p => fst p * snd p) l).
Definition ws (l : list (R * R)) : R := rsum (map fst l).
