(** Lines of FCL and FIS files which switch variables and rule blocks on and off, and what they do. *)
From Coq Require Import String List Bool Ascii.
From Verif Require Import Base Op Text Rule Var Activation Engine SpecFll.
Import ListNotations.
Local Open Scope string_scope.

(** [s] is [w] with blanks around *)
Definition padded (w s : string) : Prop := exists l r, s = l ++ w ++ r /\ blank l = true /\ blank r = true.
(** a line of FCL that begins with ENABLED, a blank, and up to a colon nothing but blanks *)
Definition switch_line (value line : string) : Prop := exists gap, line = "ENABLED " ++ gap ++ ":" ++ value /\ blank gap = true.
(** the same with LOCK *)
Definition lock_line (value line : string) : Prop := exists gap, line = "LOCK " ++ gap ++ ":" ++ value /\ blank gap = true.
(** what [value] asks for: to lock the previous value, to lock the value in the range, or both in either order *)
Inductive asks : bool -> bool -> string -> Prop :=
| asks_previous s : padded "PREVIOUS" s -> asks true false s
| asks_range s : padded "RANGE" s -> asks false true s
| asks_both a b : padded "PREVIOUS" a -> padded "RANGE" b -> asks true true (a ++ "|" ++ b)
| asks_both_back a b : padded "RANGE" a -> padded "PREVIOUS" b -> asks true true (a ++ "|" ++ b).
Definition flag (b : bool) : string := if b then "TRUE" else "FALSE".
(** a line "key = value" of FIS with blanks around key and value *)
Definition setting (key value line : string) : Prop := exists k v, line = k ++ "=" ++ v /\ padded key k /\ padded value v.
(** a word: not empty, no blanks and no equals sign *)
Definition plain_value (s : string) : Prop := s <> "" /\ sforall (fun c => negb (is_space c)) s = true /\ lacks "=" s = true.
Section Objects.
Context {T : Type}.
(** the same but for the switch *)
Definition switched (b : bool) (v : variable T) : variable T :=
  mkVariable (v_name v) (v_description v) (v_value v) (v_minimum v) (v_maximum v) b (v_lock_range v) (v_terms v).
Definition switched_output (b : bool) (o : output T) : output T :=
  mkOutput (switched b (o_var o)) (o_fuzzy o) (o_aggregation o) (o_defuzzifier o) (o_previous o) (o_default o) (o_lock_previous o).
Definition switched_block (b : bool) (l : block T) : block T :=
  mkBlock b (b_name l) (b_description l) (b_rules l) (b_conjunction l) (b_disjunction l) (b_implication l) (b_activation l).
(** the same but for the lock of the value in the range, the lock of the previous value, the default value *)
Definition range_locked (b : bool) (o : output T) : output T :=
  let v := o_var o in
  mkOutput (mkVariable (v_name v) (v_description v) (v_value v) (v_minimum v) (v_maximum v) (v_enabled v) b (v_terms v))
    (o_fuzzy o) (o_aggregation o) (o_defuzzifier o) (o_previous o) (o_default o) (o_lock_previous o).
Definition previous_locked (b : bool) (o : output T) : output T := mkOutput (o_var o) (o_fuzzy o) (o_aggregation o) (o_defuzzifier o) (o_previous o) (o_default o) b.
Definition defaulted (x : T) (o : output T) : output T := mkOutput (o_var o) (o_fuzzy o) (o_aggregation o) (o_defuzzifier o) (o_previous o) x (o_lock_previous o).
End Objects.
