(** What is expected of fuzzification. *)
From Coq Require Import ZArith List Bool String Ascii Reals.
From Verif Require Import Base Op Norm Aggregated Function Var XR SpecDefuzz SpecAgg.
Import ListNotations.
Local Open Scope string_scope.

(** a fuzzy value written as a sum, "0.250/LOW + 0.750/MEDIUM - 0.100/HIGH": sign, number and term of each addend *)
Definition addend : Type := bool * string * string.
Definition sign_text (negative : bool) : string := if negative then "-" else "+".
Definition addend_text (a : addend) : string := snd (fst a) ++ "/" ++ snd a.
Fixpoint addends_text (l : list addend) : string :=
  match l with [] => "" | a :: r => " " ++ sign_text (fst (fst a)) ++ " " ++ addend_text a ++ addends_text r end.
Definition sum_text (l : list addend) : string :=
  match l with [] => "" | a :: r => (if fst (fst a) then "-" else "") ++ addend_text a ++ addends_text r end.

Section Fuzzification.
Context {T : Type} `{S : Scalar T}.
(** a term takes part with its membership, with NaN if that cannot be computed *)
Definition takes_part (vw : view T) (t : term T) (x y : T) : Prop :=
  term_membership vw t x = Ok y \/ (exists e, term_membership vw t x = Throw e) /\ y = s_nan.
(** the degrees to which a term has been activated *)
Definition degrees_of (t : nat) (l : list (activated T nat)) : list T := map (@ac_degree T nat) (filter (fun a => Nat.eqb t (ac_term a)) l).
(** put together by the aggregation operator; added up if there is none *)
Definition together (g : option snorm) (ds : list T) : T :=
  match ds with [] => s_0 | d :: r => fold_left (match g with Some s => snorm_compute s | None => s_add end) r d end.
End Fuzzification.
