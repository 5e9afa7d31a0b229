(** Integral defuzzifiers (/repo/src/defuzzifier).  The fuzzy set is any membership function, which may throw.

    The loops `for (int i = 0; i < resolution; ++i)` are folds over 0 .. resolution-1; [resolution] is the int
    IntegralDefuzzifier::_resolution (IntegralDefuzzifier.cpp:33-43). *)
From Coq Require Import ZArith List Bool.
From Verif Require Import Base Op.
Import ListNotations.
Local Open Scope scalar_scope.

Inductive integral_kind := Bisector | Centroid | LargestOfMaximum | MeanOfMaximum | SmallestOfMaximum.

Section Defuzz.
Context {T : Type} `{S : Scalar T}.

(** C++ loop with early exit by exception *)
Fixpoint rfold {A B} (f : A -> B -> res A) (a : A) (l : list B) : res A :=
  match l with [] => Ok a | x :: r => do a' <- f a x; rfold f a' r end.

(** `minimum + (i + 0.5) * dx` with `dx = (maximum - minimum) / resolution` *)
Definition sample (minimum maximum : T) (resolution : Z) (i : nat) : T :=
  midpoint minimum ((maximum - minimum) / s_int resolution) i.
Definition steps (resolution : Z) : list nat := seq 0 (Z.to_nat resolution).

Section Integral.
Variables (mu : T -> res T) (minimum maximum : T) (resolution : Z).

(** Centroid.cpp:32-48; the accumulator is (area, centroid) *)
Definition centroid_step (acc : T * T) (i : nat) : res (T * T) :=
  let x := sample minimum maximum resolution i in
  do y <- mu x;
  Ok (fst acc + y, snd acc + y * x).
Definition centroid : res T :=
  if negb (isFinite (minimum + maximum)) then Ok s_nan else
  do acc <- rfold centroid_step (s_0, s_0) (steps resolution);
  Ok (snd acc / fst acc).

(** SmallestOfMaximum.cpp:33-49; the accumulator is (ymax, som) *)
Definition som_step (acc : T * T) (i : nat) : res (T * T) :=
  let x := sample minimum maximum resolution i in
  do y <- mu x;
  Ok (if y >? fst acc then (y, x) else acc).
Definition som : res T :=
  if negb (isFinite (minimum + maximum)) then Ok s_nan else
  do acc <- rfold som_step (- s_inf, s_nan) (steps resolution);
  Ok (snd acc).

(** LargestOfMaximum.cpp:33-49 *)
Definition lom_step (acc : T * T) (i : nat) : res (T * T) :=
  let x := sample minimum maximum resolution i in
  do y <- mu x;
  Ok (if y >=? fst acc then (y, x) else acc).
Definition lom : res T :=
  if negb (isFinite (minimum + maximum)) then Ok s_nan else
  do acc <- rfold lom_step (- s_inf, s_nan) (steps resolution);
  Ok (snd acc).

(** MeanOfMaximum.cpp:33-52; the accumulator is (ymax, maxima) *)
Definition mom_step (acc : T * list T) (i : nat) : res (T * list T) :=
  let x := sample minimum maximum resolution i in
  do y <- mu x;
  Ok (if y >? fst acc then (y, [x]) else if y =? fst acc then (fst acc, snd acc ++ [x]) else acc).
Definition mom : res T :=
  if negb (isFinite (minimum + maximum)) then Ok s_nan else
  do acc <- rfold mom_step (- s_inf, []) (steps resolution);
  Ok (op_mean (snd acc)).

(** Bisector.cpp:32-64.  Op::midpoints (Operation.h:678-685) reserves [resolution] elements; a negative value
    converts to a huge size and std::vector throws std::length_error, here [EInternal].
    First loop: accumulator (sum, ysum); second loop: the normalized distances and their minimum; third: selection. *)
Definition bisector_step (acc : T * list T) (x : T) : res (T * list T) :=
  do y <- mu x;
  let sum := if isFinite y then fst acc + y else fst acc in
  Ok (sum, snd acc ++ [sum]).
Definition bisector : res T :=
  if negb (isFinite (minimum + maximum)) then Ok s_nan else
  if Z.ltb resolution 0 then Throw EInternal else
  let xs := midpoints minimum maximum (Z.to_nat resolution) in
  do acc <- rfold bisector_step (s_0, []) xs;
  let dist := map (fun c => s_abs (c / fst acc - s_half)) (snd acc) in
  let least := fold_left (fun m d => if d <? m then d else m) dist s_inf in
  let bisectors := map fst (filter (fun p => least =? snd p) (combine xs dist)) in
  Ok (op_mean bisectors).
End Integral.

Definition integral_defuzzify (k : integral_kind) : (T -> res T) -> T -> T -> Z -> res T :=
  match k with
  | Bisector => bisector | Centroid => centroid | LargestOfMaximum => lom
  | MeanOfMaximum => mom | SmallestOfMaximum => som
  end.
End Defuzz.
