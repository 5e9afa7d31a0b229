(** Discrete, Constant and Linear terms (/repo/src/term/Discrete.cpp, Constant.cpp, Linear.cpp). *)
From Coq Require Import ZArith List Bool Permutation.
From Verif Require Import Base Op.
Import ListNotations.
Local Open Scope scalar_scope.

Section Disc.
Context {T : Type} `{S : Scalar T}.

(** Binary search by std::lower_bound / std::upper_bound (C++ [alg.binary.search]): the first position whose
    element does not satisfy [p].  The elements must be partitioned by [p]; otherwise the behaviour is undefined. *)
Fixpoint none_of {A} (p : A -> bool) (l : list A) : bool :=
  match l with [] => true | a :: r => negb (p a) && none_of p r end.
Fixpoint partition_point {A} (p : A -> bool) (l : list A) : res nat :=
  match l with
  | [] => Ok 0%nat
  | a :: r => if p a then do n <- partition_point p r; Ok (Datatypes.S n)
              else if none_of p r then Ok 0%nat else UB
  end.
(** dereferencing an iterator: undefined at end() *)
Definition deref {A} (l : list A) (n : nat) : res A :=
  match nth_error l n with Some a => Ok a | None => UB end.

(** Discrete.cpp:44-75.  std::lower_bound uses compare(element, value) = element.first < x (Discrete.cpp:32-34),
    std::upper_bound uses compare(value, element) = x < element.first. *)
Definition disc_membership (xy : list (T * T)) (h x : T) : res T :=
  if isNaN x then Ok s_nan else
  match xy with
  | [] => Throw EDiscrete
  | front :: _ =>
    let back := last xy front in
    if isLE x (fst front) then Ok (h * snd front)
    else if isGE x (fst back) then Ok (h * snd back)
    else
      do lb <- partition_point (fun e => fst e <? x) xy;
      do l <- deref xy lb;
      if isEq x (fst l) then Ok (h * snd l)
      else
        do ub <- partition_point (fun e => negb (x <? fst e)) xy;
        match lb with
        | O => UB                      (* decrementing begin() *)
        | Datatypes.S n =>
          do l' <- deref xy n;
          do u <- deref xy ub;
          Ok (h * scale x (fst l') (fst u) (snd l') (snd u))
        end
  end.

(** Discrete.cpp:154-167: the loop over even indices, by structural recursion on pairs of elements *)
Fixpoint to_pairs_loop (xy : list T) : list (T * T) :=
  match xy with a :: b :: r => (a, b) :: to_pairs_loop r | _ => [] end.
Definition to_pairs (xy : list T) : res (list (T * T)) :=
  if Nat.odd (length xy) then Throw EDiscrete else Ok (to_pairs_loop xy).
(** Discrete.cpp:169-175 *)
Definition to_pairs_missing (xy : list T) (missing : T) : res (list (T * T)) :=
  if Nat.even (length xy) then to_pairs xy else to_pairs (xy ++ [missing]).
(** Discrete.cpp:177-184 *)
Definition to_vector (xy : list (T * T)) : list T :=
  flat_map (fun p => [fst p; snd p]) xy.

(** Discrete.cpp:32-42: std::sort may return any permutation without an inversion (it is not stable). *)
Definition no_inversion (l : list (T * T)) : Prop :=
  forall i j a b, (i < j)%nat -> nth_error l i = Some a -> nth_error l j = Some b -> (fst b <? fst a) = false.
Definition std_sort (l l' : list (T * T)) : Prop := Permutation l l' /\ no_inversion l'.

(** Discrete.cpp:202-215.  The membership of the term is a function that may throw; [resolution] is an int. *)
Definition disc_point (mu : T -> res T) (start dx : T) (bounded : bool) (i : nat) : res (T * T) :=
  let x := start + s_int (Z.of_nat i) * dx in
  do y <- mu x;
  Ok (x, if bounded then bound y s_0 s_1 else y).
Definition discretize (mu : T -> res T) (start stop : T) (resolution : Z) (bounded : bool) : res (list (T * T)) :=
  let dx := (stop - start) / s_int resolution in
  rmapM (disc_point mu start dx bounded) (seq 0 (Z.to_nat (resolution + 1))).

(** Constant.cpp:30-33 *)
Definition const_membership (value x : T) : T := value.

(** Linear.cpp:35-54.  [inputs] are the values of the engine's input variables, None without engine. *)
Fixpoint linear_loop (acc : T) (coefficients inputs : list T) : T :=
  match inputs, coefficients with
  | v :: vs, c :: cs => linear_loop (acc + c * v) cs vs
  | _, _ => acc
  end.
Definition linear_membership (coefficients : list T) (inputs : option (list T)) : res T :=
  match inputs with
  | None => Throw ELinear
  | Some vs =>
    let result := linear_loop s_0 coefficients vs in
    Ok (if Nat.ltb (length vs) (length coefficients) then result + last coefficients s_0 else result)
  end.
End Disc.
