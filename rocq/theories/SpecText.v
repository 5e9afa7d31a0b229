(** What the text helpers should do. *)
From Coq Require Import List Bool String Ascii Arith.
Import ListNotations.
Local Open Scope string_scope.

Definition occurs (pat s : string) : Prop := exists b a, s = b ++ pat ++ a.
(** [b] is the text before, [a] the text after the first occurrence of [pat] in [s] *)
Definition first_occurrence (pat s b a : string) : Prop :=
  s = b ++ pat ++ a /\ forall b' a', s = b' ++ pat ++ a' -> length b <= length b'.

(** pieces of a text between the leftmost non-overlapping occurrences of a delimiter *)
Inductive pieces (d : string) : string -> list string -> Prop :=
| pieces_last s : ~ occurs d s -> pieces d s [s]
| pieces_more s b a l : first_occurrence d s b a -> pieces d a l -> pieces d s (b :: l).

(** the text with all leftmost non-overlapping occurrences replaced *)
Inductive replaced (pat rep : string) : string -> string -> Prop :=
| replaced_none s : ~ occurs pat s -> replaced pat rep s s
| replaced_more s b a r : first_occurrence pat s b a -> replaced pat rep a r -> replaced pat rep s (b ++ rep ++ r).

(** pieces put together *)
Fixpoint glue (d : string) (l : list string) : string :=
  match l with [] => "" | [x] => x | x :: r => x ++ d ++ glue d r end.

Fixpoint all_chars (p : ascii -> Prop) (s : string) : Prop :=
  match s with "" => True | String c r => p c /\ all_chars p r end.
Definition first_char (s : string) : option ascii := match s with "" => None | String c _ => Some c end.
Fixpoint last_char (s : string) : option ascii :=
  match s with "" => None | String c "" => Some c | String _ r => last_char r end.
