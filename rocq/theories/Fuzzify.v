(** Fuzzy values as text (/repo/src/term/Activated.cpp, Aggregated.cpp, /repo/src/variable/*.cpp).
    [d] is the number of decimals of Op::str (fuzzylite::decimals()). *)
From Coq Require Import ZArith String List Bool.
From Verif Require Import Base Op Norm Aggregated Text Var.
Import ListNotations.
Local Open Scope scalar_scope. Local Open Scope string_scope.

Section Fuzzify.
Context {T : Type} `{S : Scalar T}.

(** Activated.cpp:110-115; [name] is the name of the term *)
Definition ac_fuzzy_value {A} (d : nat) (name : A -> string) (a : activated T A) : string :=
  let y := ac_degree a in
  (if (y >=? s_0) || isNaN y then "+" else "-") ++ str d (s_abs y) ++ "/" ++ name (ac_term a).
(** Aggregated.cpp:274-287; [first] is i == 0.  at(0) cannot fail: the text of an activated term starts with its sign *)
Fixpoint fuzzy_value_from {A} (first : bool) (d : nat) (name : A -> string) (l : list (activated T A)) : string :=
  match l with
  | [] => ""
  | a :: r =>
    let text := ac_fuzzy_value d name a in
    let sign := substring 0 1 text in
    let value := substring 1 (String.length text - 1) text in
    (if first && String.eqb sign "-" then sign else "") ++ (if first then "" else " " ++ sign ++ " ") ++ value ++ fuzzy_value_from false d name r
  end.
Definition fuzzy_value {A} (d : nat) (name : A -> string) (l : list (activated T A)) : string := fuzzy_value_from true d name l.

(** the name of the term at a position (Term::getName) *)
Definition term_name_at (v : variable T) (t : nat) : string := match nth_error (v_terms v) t with Some tm => tm_name tm | None => "" end.
(** Variable.cpp:155-157 *)
Definition v_fuzzify (vw : view T) (d : nat) (v : variable T) (x : T) : res string :=
  do l <- v_activations vw v x; Ok (fuzzy_value d (term_name_at v) l).
(** Variable.cpp:159-161 *)
Definition v_max_activations (vw : view T) (v : variable T) (x : T) : res (list (activated T nat)) :=
  do l <- v_activations vw v x; Ok (maximally_activated l).
(** OutputVariable.cpp:186-195; Aggregated() has no aggregation operator (Aggregated.h:60-66) *)
Definition fuzzy_output_value (d : nat) (o : output T) : string :=
  let v := o_var o in
  let name := term_name_at v in
  let zeros := map (fun i => mkActivated i s_0 None) (seq 0 (List.length (v_terms v))) in
  fuzzy_value d name (grouped_terms name None (zeros ++ grouped_terms name (o_aggregation o) (o_fuzzy o))%list).
End Fuzzify.
