(** Reading a script of R: its string literals. *)
From Coq Require Import String List Bool Ascii.
From Verif Require Import Base Op Text Rule Var Activation Engine Grid.
Import ListNotations.
Local Open Scope string_scope.

(** where the reader is: in code, with the text since the beginning of the line or the last literal; in a comment; in a literal
    delimited by [q], with the code before it; after a backslash in a literal *)
Inductive mode := Code (text : string) | Comment | Literal (before : string) (q : ascii) (body : string) | Escape (before : string) (q : ascii) (body : string).
Definition line_break : ascii := "010". Definition backslash : ascii := "092".
Definition delimiter (c : ascii) : bool := (Ascii.eqb c "034" || Ascii.eqb c "039" || Ascii.eqb c "096")%bool.
(** of the escapes only those of line breaks and tabs differ from the character (R has a few more; raw literals are left out) *)
Definition escaped (c : ascii) : ascii := if Ascii.eqb c "n" then line_break else if Ascii.eqb c "t" then "009"%char else c.
Definition snoc (s : string) (c : ascii) : string := s ++ String c "".
(** one character: where the reader is then, and the literal which ends there, with the code before it *)
Definition advance (m : mode) (c : ascii) : mode * list (string * string) :=
  match m with
  | Code text => if Ascii.eqb c line_break then (Code "", []) else if Ascii.eqb c "#" then (Comment, []) else if delimiter c then (Literal text c "", []) else (Code (snoc text c), [])
  | Comment => (if Ascii.eqb c line_break then Code "" else Comment, [])
  | Literal before q body => if Ascii.eqb c q then (Code "", [(before, body)]) else if Ascii.eqb c backslash then (Escape before q body, []) else (Literal before q (snoc body c), [])
  | Escape before q body => (Literal before q (snoc body (escaped c)), [])
  end.
Fixpoint read (m : mode) (s : string) : mode * list (string * string) :=
  match s with
  | "" => (m, [])
  | String c s => let '(m, l) := advance m c in let '(m, k) := read m s in (m, (l ++ k)%list)
  end.
(** the literals of a script that ends in code *)
Definition literals (s : string) : option (list (string * string)) := match read (Code "") s with (Code _, l) => Some l | _ => None end.

(** texts that can stand in a literal as they are; names that can stand in code and in a literal *)
Definition quotable (s : string) : bool := sforall (fun c => negb (Ascii.eqb c "034" || Ascii.eqb c backslash)) s.
Definition codable (s : string) : bool := sforall (fun c => negb (delimiter c || Ascii.eqb c backslash || Ascii.eqb c "#" || Ascii.eqb c line_break)) s.
Definition single_line (s : string) : bool := sforall (fun c => negb (Ascii.eqb c line_break)) s.
(** the literal for the description, if there is one; the literals for a dataset *)
Definition described (text : string) : list (string * string) := match text with "" => [] | _ => [("engine.description = ", text)] end.
Definition dataset (data : string) : list (string * string) := [("engine.fld = ", data); ("engine.df = read.delim(textConnection(engine.fld), header=TRUE, sep=", " ")].
Section Names.
Context {T : Type}.
Definition names_of (e : engine T) : list string := (map (@v_name T) (e_inputs e) ++ map (fun o => v_name (o_var o)) (e_outputs e))%list.
(** texts for which a script is as intended: [fll] is the engine in FLL, [zs] are the names of the variables plotted *)
Definition fitting (library low high contour fll : string) (e : engine T) (zs : list string) : Prop :=
  single_line library = true /\ quotable low = true /\ quotable high = true /\ quotable contour = true /\ quotable (e_name e) = true /\ quotable (e_description e) = true /\ quotable fll = true /\
  forallb codable (names_of e) = true /\ forallb codable zs = true.
End Names.

(** the literals expected in the code of the plots: tiles with contour lines; lines *)
Definition tiles (low high contour x y z : string) : list (string * string) :=
  [("    scale_fill_gradient(low=", low); (", high=", high); ("    stat_contour(aes(x=" ++ x ++ ", y=" ++ y ++ ", z=" ++ z ++ "), color=", contour); ("    ggtitle(", "(" ++ x ++ ", " ++ y ++ ") = " ++ z)].
Definition curve (low high z title : string) : list (string * string) :=
  [("    geom_line(aes(color=" ++ z ++ "), size=3, lineend=", "round"); (", linejoin=", "mitre"); ("    scale_color_gradient(low=", low); (", high=", high); ("    ggtitle(", title)].
Definition plotted (low high contour : string) (same : bool) (a b : string) (zs : list string) : list (string * string) :=
  flat_map (fun z => if same then curve low high z (a ++ " vs " ++ z) ++ curve low high z (z ++ " vs " ++ a) else tiles low high contour a b z ++ tiles low high contour b a z)%list zs.
(** [line] is a whole line of [s], with [before] before it *)
Definition line_at (before line s : string) : Prop := exists after, s = before ++ line ++ String line_break after /\ (before = "" \/ exists b, before = b ++ String line_break "").
