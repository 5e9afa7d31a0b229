(** Texts which the importers of the Fuzzy Control Language and of Fuzzy Inference System files do not accept. *)
From Coq Require Import List Bool String Ascii Arith.
From Verif Require Import Base Text Fll SpecFll.
Import ListNotations.
Local Open Scope string_scope.

(** ** what is left of a line *)
(** the text before the first occurrence of [pat] *)
Fixpoint upto (pat s : string) : string := if prefix pat s then "" else match s with "" => "" | String c r => String c (upto pat r) end.
Fixpoint without (x : ascii) (s : string) : string := match s with "" => "" | String c r => if Ascii.eqb c x then without x r else String c (without x r) end.
Definition percent (s : string) : string := match s with String c _ => if Ascii.eqb c "%" then "" else s | "" => "" end.
Definition fcl_content (line : string) : string := percent (trim (without ";" (upto "#" (upto "//" line)))).
Definition fis_content (line : string) : string := percent (trim (upto "#" (upto "//" line))).
(** the lines of a text which are not blank *)
Definition contents (content : string -> string) (text : string) : list string := filter nonempty (map content (chop newline text)).
(** the texts between separators, without empty ones *)
Definition fields (c : ascii) (s : string) : list string := filter nonempty (chop c s).
(** the first word *)
Definition word1 (s : string) : string := hd "" (tokens s).
Definition starts (pat s : string) : Prop := exists r, s = pat ++ r.

(** ** Fuzzy Control Language *)
Definition sections : list (string * string) :=
  [("VAR_INPUT", "END_VAR"); ("VAR_OUTPUT", "END_VAR"); ("FUZZIFY", "END_FUZZIFY"); ("DEFUZZIFY", "END_DEFUZZIFY"); ("RULEBLOCK", "END_RULEBLOCK")].
Definition openings : list string := map fst sections.
(** the section which is open after lines with the first words [ws], if [open] is open before *)
Fixpoint open_after (open : option string) (ws : list string) : option string :=
  match ws with
  | [] => open
  | w :: ws => open_after (match open with
                           | None => if mem w openings then Some w else None
                           | Some t => if existsb (fun p => String.eqb (fst p) t && String.eqb (snd p) w) sections then None else Some t
                           end) ws
  end.
(** lines which cannot be inside of a section *)
Definition fcl_alien (section line : string) : Prop :=
  if (String.eqb section "VAR_INPUT" || String.eqb section "VAR_OUTPUT")%bool then List.length (fields ":" line) <> 2
  else if String.eqb section "FUZZIFY" then ~ In (word1 line) ["RANGE"; "ENABLED"; "TERM"]
  else if String.eqb section "DEFUZZIFY" then ~ In (word1 line) ["RANGE"; "ENABLED"; "TERM"; "METHOD"; "ACCU"; "DEFAULT"; "LOCK"]
  else forall key, In key ["AND"; "OR"; "ACT"; "ENABLED"; "RULE"] -> line <> key /\ ~ starts (key ++ " ") line.
(** a line that cannot come after [before]: outside of sections only those which open one; inside of a section neither another opening nor the end
    of the function block, and nothing but what it knows *)
Definition fcl_rejected (before : list string) (line : string) : Prop :=
  let w := word1 line in w <> "FUNCTION_BLOCK" /\
  match open_after None (map word1 before) with
  | None => w <> "END_FUNCTION_BLOCK" /\ ~ In w openings
  | Some t => w = "END_FUNCTION_BLOCK" \/ In w openings \/ (~ In (t, w) sections /\ fcl_alien t line)
  end.

(** ** Fuzzy Inference System files *)
Definition headings : list string := ["[System]"; "[Input"; "[Output"; "[Rules]"].
Definition heading_of (line : string) : option string := find (fun h => prefix h line) headings.
(** the section of the lines after [lines] *)
Fixpoint section_after (lines : list string) : option string :=
  match lines with
  | [] => None
  | l :: r => match section_after r with Some h => Some h | None => heading_of l end
  end.
Definition system_keys : list string := ["Name"; "AndMethod"; "OrMethod"; "ImpMethod"; "AggMethod"; "DefuzzMethod"; "Type"; "Version"; "NumInputs"; "NumOutputs"; "NumRules"; "NumMFs"].
Definition input_keys : list string := ["Name"; "Enabled"; "Range"; "NumMFs"].
Definition output_keys : list string := (input_keys ++ ["Default"; "LockPrevious"; "LockRange"])%list.
(** no pair of one of the keys, or of one that starts with MF, and a value *)
Definition no_pair (keys : list string) (line : string) : Prop :=
  match fields "=" line with [key; value] => ~ In (trim key) keys /\ ~ starts "MF" (trim key) | _ => True end.
Definition fis_alien (section line : string) : Prop :=
  if String.eqb section "[System]" then ~ In (trim (hd "" (fields "=" line))) system_keys
  else if String.eqb section "[Input" then no_pair input_keys line
  else if String.eqb section "[Output" then no_pair output_keys line
  else match fields "," line with [_; rest] => List.length (fields ":" rest) <> 2 | _ => True end.
(** a line (without quotes, of which it does not consist) that cannot come after [before] *)
Definition fis_rejected (before : list string) (line : string) : Prop :=
  line <> "" /\ heading_of line = None /\ match section_after before with None => True | Some h => fis_alien h line end.
