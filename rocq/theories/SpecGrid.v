(** What is expected of grids of values. *)
From Coq Require Import ZArith List Sorted.
From Verif Require Import Base Grid.
Import ListNotations.
Local Open Scope Z_scope.

(** [v] lies between the bounds; where the upper bound is below the lower one only the lower one counts *)
Inductive boxed : list Z -> list Z -> list Z -> Prop :=
| boxed_nil : boxed [] [] []
| boxed_cons lo hi x min max v : lo <= x <= Z.max lo hi -> boxed min max v -> boxed (lo :: min) (hi :: max) (x :: v).
(** lexicographic order *)
Inductive lex : list Z -> list Z -> Prop :=
| lex_head x y v w : x < y -> length v = length w -> lex (x :: v) (y :: w)
| lex_tail x v w : lex v w -> lex (x :: v) (x :: w).
(** number of vectors in the box *)
Definition box_count (min max : list Z) : Z := fold_right Z.mul 1 (map (fun p => 1 + Z.max 0 (snd p - fst p)) (combine min max)).
(** the vectors seen by `do ... while (increment(x, min, max))` from [x], and the vector left behind *)
Inductive visits (min max : list Z) : list Z -> list (list Z) -> list Z -> Prop :=
| visits_last x y : increment x min max = Ok (false, y) -> visits min max x [x] y
| visits_more x y vs z : increment x min max = Ok (true, y) -> visits min max y vs z -> visits min max x (x :: vs) z.
