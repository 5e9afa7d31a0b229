(** What a session of the interactive console shows. *)
From Coq Require Import ZArith String List Bool Ascii.
From Verif Require Import Base Text Var Activation Engine SpecEngine SpecFld.
Import ListNotations.
Local Open Scope string_scope.

Definition ht : string := String "009" "".
Definition eol : string := String "010" "".
(** the keys with a meaning, in both cases; Ctrl-D *)
Definition restart_keys := ["r"; "R"]%char. Definition discard_keys := ["d"; "D"]%char. Definition process_keys := ["p"; "P"]%char.
Definition quit_keys := ["q"; "Q"; "004"]%char. Definition help_keys := ["h"; "H"]%char.
Definition reserved := (restart_keys ++ discard_keys ++ process_keys ++ quit_keys ++ help_keys)%list.
(** what can be typed for a number: visible characters which are not reserved *)
Definition plain_word (w : string) : Prop := forall c, In c (list_ascii_of_string w) -> (32 < nat_of_ascii c < 127)%nat /\ ~ In c reserved.
(** characters that end a word: blanks, tabs and line breaks *)
Definition blank (c : ascii) : Prop := (9 <= nat_of_ascii c <= 13)%nat \/ nat_of_ascii c = 32%nat.
(** the keys typed for a row of words *)
Definition typed (row : list (string * ascii)) : list ascii := flat_map (fun p => list_ascii_of_string (fst p) ++ [snd p])%list row.

Section Spec.
Context {T : Type} `{S : Scalar T}.
Variable drain : drainer T.
Variables (d : nat) (what : exc -> string).
(** a word is a number, or else the variable keeps its current value [v], which is shown *)
Inductive entry (v : T) (word : string) : T -> string -> Prop :=
| entry_number x : to_scalar word = Ok x -> entry v word x word
| entry_kept : (forall x, to_scalar word <> Ok x) -> entry v word v (word ++ "[" ++ str d v ++ "]").
(** the values and what is shown for words typed when the variables have the values [now] *)
Inductive reading : list T -> list (string * ascii) -> list T -> string -> Prop :=
| reading_none now : reading now [] [] ""
| reading_word v now word c row x shown xs text : plain_word word -> blank c -> entry v word x shown -> reading now row xs text ->
  reading (v :: now) ((word, c) :: row) (x :: xs) (shown ++ ht ++ text).
(** the result for input values: the values of the output variables after one evaluation of the engine, or the error *)
Inductive answer (e : engine T) (xs : list T) : string -> Prop :=
| answer_values outs : evaluation drain e xs = (Ok tt, outs) -> answer e xs (join_scalars d outs ht ++ eol ++ ">")
| answer_error x : fst (evaluation drain e xs) = Throw x -> answer e xs ("#[Error: " ++ what x ++ "]").
Definition values_of (e : engine T) : list T := map (@v_value T) (e_inputs e).
(** what is shown for the keys typed, from the beginning of a row.  The engine is only a configuration with the current input values: it is evaluated for every row anew. *)
Inductive transcript (help : string) : engine T -> list ascii -> string -> Prop :=
(** the end of the keys, or a key to quit, possibly in the middle of a row *)
| tr_end e row xs shown w keys : reading (values_of e) row xs shown -> (length row < length (e_inputs e))%nat -> plain_word w ->
  match keys with [] => True | c :: _ => In c quit_keys end ->
  transcript help e (typed row ++ list_ascii_of_string w ++ keys) (shown ++ w)
(** a complete row *)
| tr_row e row xs shown ans keys text : reading (values_of e) row xs shown -> row <> [] -> length row = length (e_inputs e) -> answer e xs ans ->
  transcript help (set_inputs xs e) keys text -> transcript help e (typed row ++ keys) (shown ++ "=" ++ ht ++ ans ++ text)
(** P: variables without a value keep theirs; an unfinished word is ignored *)
| tr_process e row xs shown w c ans keys text : reading (values_of e) row xs shown -> (length row < length (e_inputs e))%nat -> plain_word w -> In c process_keys -> answer e xs ans ->
  transcript help (set_inputs xs e) keys text ->
  transcript help e (typed row ++ list_ascii_of_string w ++ c :: keys) (shown ++ w ++ join_scalars d (skipn (length row) (values_of e)) ht ++ ht ++ "=" ++ ht ++ ans ++ text)
(** D: the row is forgotten *)
| tr_discard e row xs shown w c keys text : reading (values_of e) row xs shown -> (length row < length (e_inputs e))%nat -> plain_word w -> In c discard_keys ->
  transcript help e keys text -> transcript help e (typed row ++ list_ascii_of_string w ++ c :: keys) (shown ++ w ++ "#[Discard]" ++ eol ++ ">" ++ text)
(** R at the beginning of a row *)
| tr_restart e c keys text : In c restart_keys -> transcript help (restart e) keys text -> transcript help e (c :: keys) ("#[Restart]" ++ text)
(** H before the first value of a row; an unfinished word is forgotten *)
| tr_help e w c keys text : plain_word w -> In c help_keys -> transcript help e keys text ->
  transcript help e (list_ascii_of_string w ++ c :: keys) (w ++ eol ++ ">" ++ help ++ eol ++ ">" ++ text).
End Spec.
