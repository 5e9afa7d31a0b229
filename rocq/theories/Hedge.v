(** Hedges registered in the library (/repo/src/factory/HedgeFactory.cpp:29-37). *)
From Coq Require Import ZArith Bool String.
From Verif Require Import Base Op.
Local Open Scope scalar_scope.

Inductive hedge := Any | Extremely | Not | Seldom | Somewhat | Very.

(** registration names: /repo/src/hedge/{Any,Extremely,Not,Seldom,Somewhat,Very}.cpp, method name() *)
Definition hedge_name (h : hedge) : string :=
  match h with
  | Any => "any" | Extremely => "extremely" | Not => "not" | Seldom => "seldom"
  | Somewhat => "somewhat" | Very => "very"
  end%string.

(** HedgeFactory::hasConstructor / constructObject restricted to non-empty keys
    (/repo/src/factory/HedgeFactory.cpp:29-37, /repo/fuzzylite/factory/ConstructionFactory.h:156-182).
    The key "" is registered with a null constructor; tokens are never empty. *)
Definition hedge_of_name (s : string) : option hedge :=
  if String.eqb s "any" then Some Any
  else if String.eqb s "extremely" then Some Extremely
  else if String.eqb s "not" then Some Not
  else if String.eqb s "seldom" then Some Seldom
  else if String.eqb s "somewhat" then Some Somewhat
  else if String.eqb s "very" then Some Very
  else None.

Section Hedge.
Context {T : Type} `{S : Scalar T}.

(** /repo/src/hedge/Any.cpp:30-33, Extremely.cpp:28-30, Not.cpp:26-28, Seldom.cpp:28-30,
    Somewhat.cpp:26-28, Very.cpp:26-28 (method hedge) *)
Definition hedge_apply (h : hedge) (x : T) : T :=
  match h with
  | Any => s_1
  | Extremely =>
      if isLE x s_half then s_2 * x * x
      else s_1 - s_2 * (s_1 - x) * (s_1 - x)
  | Not => s_1 - x
  | Seldom =>
      if isLE x s_half then s_sqrt (s_half * x)
      else s_1 - s_sqrt (s_half * (s_1 - x))
  | Somewhat => s_sqrt x
  | Very => x * x
  end.

(** hedges are applied from the last to the first
    (/repo/src/rule/Antecedent.cpp:94-100, /repo/src/rule/Consequent.cpp:61-67) *)
Definition hedges_apply (hs : list hedge) (x : T) : T :=
  List.fold_right hedge_apply x hs.
End Hedge.
