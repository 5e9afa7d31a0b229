(** Activated and Aggregated terms and the weighted defuzzifiers
    (/repo/src/term/Activated.cpp, Aggregated.cpp, /repo/src/defuzzifier/Weighted*.cpp).

    The type [A] of the underlying terms and their name, membership, tsukamoto and class are parameters,
    so that the statements hold for every kind of term.  Simplification: the underlying term is never null. *)
From Coq Require Import ZArith List Bool String.
From Verif Require Import Base Op Norm Defuzz.
Import ListNotations.
Local Open Scope scalar_scope.

Section Agg.
Context {T : Type} `{S : Scalar T} {A : Type}.

(** Activated.h:33-35; the degree is the height of the term (Activated.cpp:88-94) *)
Record activated := mkActivated { ac_term : A; ac_degree : T; ac_implication : option tnorm }.

(** Activated.cpp:43-56 (the null term test cannot fail here) *)
Definition ac_membership (memb : A -> T -> res T) (a : activated) (x : T) : res T :=
  if isNaN x then Ok s_nan else
  match ac_implication a with
  | None => Throw EImplication
  | Some n => do m <- memb (ac_term a) x; Ok (tnorm_compute n m (ac_degree a))
  end.

(** Aggregated.cpp:67-83 *)
Definition agg_membership (memb : A -> T -> res T) (aggregation : option snorm) (terms : list activated) (x : T) : res T :=
  if isNaN x then Ok s_nan else
  match terms, aggregation with
  | [], _ => Ok s_0
  | _, None => Throw EAggregation
  | _, Some s => rfold (fun mu a => do m <- ac_membership memb a x; Ok (snorm_compute s mu m)) s_0 terms
  end.

(** Aggregated.cpp:85-97; [same] is equality of term pointers *)
Definition agg_degree (same : A -> bool) (aggregation : option snorm) (terms : list activated) : T :=
  fold_left (fun r a => if same (ac_term a) then
                          match aggregation with Some s => snorm_compute s r (ac_degree a) | None => r + ac_degree a end
                        else r) terms s_0.

(** Aggregated.cpp:106-120; the accumulator is (maxDegree, maxActivatedTerms) *)
Definition max_step (acc : T * list activated) (a : activated) : T * list activated :=
  if ac_degree a >? fst acc then (ac_degree a, [a])
  else if (fst acc >? s_0) && (fst acc =? ac_degree a) then (fst acc, snd acc ++ [a])
  else acc.
Definition maximally_activated (terms : list activated) : list activated :=
  snd (fold_left max_step terms (s_0, [])).
(** Aggregated.cpp:99-104; None is Activated(null, 0.0) *)
Definition highest_activated (terms : list activated) : option activated :=
  match maximally_activated terms with [] => None | a :: _ => Some a end.

(** Aggregated.cpp:126-158.  std::map keyed by name as an association list without repeated keys. *)
Definition name_eqb := String.eqb.
Fixpoint map_find (k : string) (m : list (string * activated)) : option activated :=
  match m with [] => None | (k', a) :: r => if name_eqb k k' then Some a else map_find k r end.
Fixpoint map_set (k : string) (v : activated) (m : list (string * activated)) : list (string * activated) :=
  match m with
  | [] => [(k, v)]
  | (k', a) :: r => if name_eqb k k' then (k', v) :: r else (k', a) :: map_set k v r
  end.
Definition map_erase (k : string) (m : list (string * activated)) : list (string * activated) :=
  filter (fun p => negb (name_eqb k (fst p))) m.
Definition group_step (name : A -> string) (s : snorm) (m : list (string * activated)) (a : activated)
  : list (string * activated) :=
  let k := name (ac_term a) in
  match map_find k m with
  | None => map_set k a m
  | Some g => map_set k (mkActivated (ac_term g) (snorm_compute s (ac_degree g) (ac_degree a)) (ac_implication g)) m
  end.
Definition pick_step (name : A -> string) (acc : list activated * list (string * activated)) (a : activated)
  : list activated * list (string * activated) :=
  let k := name (ac_term a) in
  match map_find k (snd acc) with
  | None => acc
  | Some g => (fst acc ++ [g], map_erase k (snd acc))
  end.
(** the terms of grouped(); name, range and aggregation are copied unchanged *)
Definition grouped_terms (name : A -> string) (aggregation : option snorm) (terms : list activated) : list activated :=
  let s := match aggregation with Some s => s | None => UnboundedSum end in
  let groups := fold_left (group_step name s) terms [] in
  fst (fold_left (pick_step name) terms ([], groups)).

(** WeightedDefuzzifier.h:47-55 *)
Inductive wtype := WAutomatic | WTakagiSugeno | WTsukamoto.
Definition wtype_eqb (a b : wtype) : bool :=
  match a, b with
  | WAutomatic, WAutomatic | WTakagiSugeno, WTakagiSugeno | WTsukamoto, WTsukamoto => true | _, _ => false end.
Inductive weighted_kind := WeightedAverage | WeightedSum.

(** WeightedDefuzzifier.cpp:83-96 applied to the underlying terms (98-106); [wt] is inferType of a single term
    (lines 109-117).  std::set of types: all are equal, or more than one is present. *)
Definition infer_type (types : list wtype) : res wtype :=
  match types with
  | [] => Ok WAutomatic
  | t :: r => if forallb (wtype_eqb t) r then Ok t else Throw EDefuzzifier
  end.

(** WeightedAverage.cpp:36-62 and WeightedSum.cpp:36-58; [z] is membership or tsukamoto of the term at w *)
Definition weighted_step (z : A -> T -> res T) (acc : T * T) (a : activated) : res (T * T) :=
  let w := ac_degree a in
  do v <- z (ac_term a) w;
  Ok (fst acc + w * v, snd acc + w).
Definition weighted_with (k : weighted_kind) (name : A -> string) (z : A -> T -> res T)
  (aggregation : option snorm) (terms : list activated) : res T :=
  do acc <- rfold (weighted_step z) (s_0, s_0) (grouped_terms name aggregation terms);
  Ok (match k with WeightedAverage => fst acc / snd acc | WeightedSum => fst acc end).

(** WeightedDefuzzifier.cpp:119-146 on an Aggregated term *)
Definition weighted_defuzzify (k : weighted_kind) (ty : wtype) (name : A -> string) (memb tsuk : A -> T -> res T)
  (wt : A -> wtype) (aggregation : option snorm) (terms : list activated) : res T :=
  match terms with
  | [] => Ok s_nan
  | _ =>
    do ty' <- (if wtype_eqb ty WAutomatic then infer_type (map (fun a => wt (ac_term a)) terms) else Ok ty);
    match ty' with
    | WTakagiSugeno => weighted_with k name memb aggregation terms
    | WTsukamoto => weighted_with k name tsuk aggregation terms
    | WAutomatic => Throw EDefuzzifier
    end
  end.
End Agg.
Arguments activated : clear implicits.
