(** Rule blocks and the activation methods (/repo/src/rule/RuleBlock.cpp, /repo/src/activation/*.cpp). *)
From Coq Require Import ZArith String List Bool.
From Verif Require Import Base Op Norm Aggregated Text Function Rule Var.
Import ListNotations.
Local Open Scope scalar_scope.

(** Threshold.h:47-60 *)
Inductive comparison := LessThan | LessThanOrEqualTo | EqualTo | NotEqualTo | GreaterThanOrEqualTo | GreaterThan.
(** Threshold.cpp:75-92 *)
Definition comparison_operator (c : comparison) : string :=
  (match c with
   | LessThan => "<" | LessThanOrEqualTo => "<=" | EqualTo => "==" | NotEqualTo => "!="
   | GreaterThanOrEqualTo => ">=" | GreaterThan => ">" end)%string.
(** Threshold.cpp:105-119 *)
Definition parse_comparison (name : string) : res comparison :=
  (if String.eqb name "<" then Ok LessThan else if String.eqb name "<=" then Ok LessThanOrEqualTo
   else if String.eqb name "==" then Ok EqualTo else if String.eqb name "!=" then Ok NotEqualTo
   else if String.eqb name ">=" then Ok GreaterThanOrEqualTo else if String.eqb name ">" then Ok GreaterThan
   else Throw ESyntax)%string.

Section Activation.
Context {T : Type} `{S : Scalar T}.

(** the registered activation methods (/repo/src/factory/ActivationFactory.cpp:30-39).
    Simplification: numbers of rules are C++ ints, here unbounded integers. *)
Inductive activation :=
| General | First (n : Z) (threshold : T) | Last (n : Z) (threshold : T) | Highest (n : Z) | Lowest (n : Z)
| Proportional | Threshold (c : comparison) (value : T).

(** Threshold.cpp:139-156 *)
Definition activates_with (c : comparison) (value d : T) : bool :=
  match c with
  | LessThan => isLt d value | LessThanOrEqualTo => isLE d value | EqualTo => isEq d value
  | NotEqualTo => negb (isEq d value) | GreaterThanOrEqualTo => isGE d value | GreaterThan => isGt d value
  end.

(** The terms added to the fuzzy output of each output variable, in order *)
Definition fuzzy := list (list (activated T nat)).
(** Aggregated::addTerm (/repo/src/term/Aggregated.cpp:230-233); a dangling variable is UB *)
Fixpoint add_term (j : nat) (a : activated T nat) (fz : fuzzy) : res fuzzy :=
  match fz, j with
  | [], _ => UB
  | l :: fz, 0 => Ok ((l ++ [a]) :: fz)
  | l :: fz, Datatypes.S j => do fz <- add_term j a fz; Ok (l :: fz)
  end.
Fixpoint add_terms (implication : option tnorm) (added : list (nat * nat * T)) (fz : fuzzy) : res fuzzy :=
  match added with
  | [] => Ok fz
  | (j, t, d) :: added => do fz <- add_term j (mkActivated t d implication) fz; add_terms implication added fz
  end.

Section Methods.
(** [enabled]: Variable::isEnabled; [degree]: degree of a term of a variable given the current fuzzy outputs *)
Variable enabled : varref -> bool.
Variable degree : fuzzy -> varref -> nat -> res T.
Variables (conjunction : option tnorm) (disjunction : option snorm) (implication : option tnorm).
Variable drain : drainer T.

Definition activate_with (fz : fuzzy) (r : rule T) : res (rule T) :=
  rule_activate enabled (degree fz) conjunction disjunction r.
Definition trigger (fz : fuzzy) (r : rule T) : res (rule T * fuzzy) :=
  do (r, added) <- rule_trigger enabled r; do fz <- add_terms implication added fz; Ok (r, fz).
Definition fail {A} (e : res A) : res unit :=
  match e with Ok _ => Ok tt | Throw e => Throw e | UB => UB | Diverge => Diverge end.

(** The loop shared by General.cpp:49-56, First.cpp:63-75, Last.cpp:79-93 and Threshold.cpp:164-172: each rule is
    deactivated, activated if loaded, and triggered at once if [choose] says so, given the number of rules chosen
    before and the degree.  The result is the rules, the fuzzy outputs and the outcome; an exception ends the loop. *)
Fixpoint pass (choose : Z -> T -> bool) (k : Z) (rules : list (rule T)) (fz : fuzzy) : list (rule T) * fuzzy * res unit :=
  match rules with
  | [] => ([], fz, Ok tt)
  | r :: rest =>
    let r := rule_deactivate r in
    if rule_loaded r then
      match activate_with fz r with
      | Ok r =>
        if choose k (rl_degree r) then
          match trigger fz r with
          | Ok (r, fz) => let '(rs, fz, e) := pass choose (k + 1) rest fz in (r :: rs, fz, e)
          | err => (r :: rest, fz, fail err)
          end
        else let '(rs, fz, e) := pass choose k rest fz in (r :: rs, fz, e)
      | err => (r :: rest, fz, fail err)
      end
    else let '(rs, fz, e) := pass choose k rest fz in (r :: rs, fz, e)
  end.

(** General.cpp:42-57 *)
Definition general (rules : list (rule T)) (fz : fuzzy) := pass (fun _ _ => true) 0 rules fz.
(** First.cpp:65-73, Last.cpp:85-91 *)
Definition first_choice (n : Z) (threshold : T) (k : Z) (d : T) : bool :=
  (Z.ltb k n && isGt d s_0 && isGE d threshold)%bool.
(** First.cpp:56-76 *)
Definition first (n : Z) (threshold : T) (rules : list (rule T)) (fz : fuzzy) := pass (first_choice n threshold) 0 rules fz.
(** Last.cpp:72-94 *)
Definition last_rules (n : Z) (threshold : T) (rules : list (rule T)) (fz : fuzzy) : list (rule T) * fuzzy * res unit :=
  let '(rs, fz, e) := pass (first_choice n threshold) 0 (rev rules) fz in (rev rs, fz, e).
(** Threshold.cpp:158-173 *)
Definition threshold_rules (c : comparison) (value : T) (rules : list (rule T)) (fz : fuzzy) :=
  pass (fun _ d => activates_with c value d) 0 rules fz.

(** The first loop of Highest.cpp:68-76, Lowest.cpp:69-77 and Proportional.cpp:50-58: no rule is triggered *)
Fixpoint degrees_pass (fz : fuzzy) (rules : list (rule T)) : list (rule T) * res unit :=
  match rules with
  | [] => ([], Ok tt)
  | r :: rest =>
    let r := rule_deactivate r in
    if rule_loaded r then
      match activate_with fz r with
      | Ok r => let '(rs, e) := degrees_pass fz rest in (r :: rs, e)
      | err => (r :: rest, fail err)
      end
    else let '(rs, e) := degrees_pass fz rest in (r :: rs, e)
  end.
Fixpoint set_nth {A} (i : nat) (x : A) (l : list A) : list A :=
  match l, i with
  | [], _ => []
  | _ :: l, 0 => x :: l
  | y :: l, Datatypes.S i => y :: set_nth i x l
  end.
(** trigger the rules at the given positions, in that order *)
Fixpoint trigger_at (is_ : list nat) (rules : list (rule T)) (fz : fuzzy) : list (rule T) * fuzzy * res unit :=
  match is_ with
  | [] => (rules, fz, Ok tt)
  | i :: is_ =>
    match nth_error rules i with
    | None => (rules, fz, UB)
    | Some r => match trigger fz r with
                | Ok (r, fz) => trigger_at is_ (set_nth i r rules) fz
                | err => (rules, fz, fail err)
                end
    end
  end.
(** positions of the rules pushed on the queue (Highest.cpp:71-75, Lowest.cpp:72-76) *)
Definition candidates (rules : list (rule T)) : list nat :=
  map fst (filter (fun p => (rule_loaded (snd p) && isGt (rl_degree (snd p)) s_0)%bool)
             (combine (seq 0 (length rules)) rules)).
Definition degree_at (rules : list (rule T)) (i : nat) : T :=
  match nth_error rules i with Some r => rl_degree r | None => s_0 end.
(** Highest.cpp:61-84 and Lowest.cpp:61-85; [less] is Descending (Highest.cpp:55-59) or Ascending (Lowest.cpp:55-59).
    Triggering changes no degree, so the order in which the queue yields the rules is known when the first loop ends. *)
Definition queue_rules (less : T -> T -> bool) (n : Z) (rules : list (rule T)) (fz : fuzzy) : list (rule T) * fuzzy * res unit :=
  let '(rules, e) := degrees_pass fz rules in
  match e with
  | Ok _ =>
    let cand := candidates rules in
    let order := map (fun k => nth k cand 0%nat) (drain less (map (degree_at rules) cand)) in
    trigger_at (firstn (Z.to_nat n) order) rules fz
  | _ => (rules, fz, e)
  end.
Definition highest := queue_rules (fun a b => a <? b).
Definition lowest := queue_rules (fun a b => a >? b).

(** Proportional.cpp:60-65 for the rules which are loaded *)
Fixpoint share_pass (sum : T) (rules : list (rule T)) (fz : fuzzy) : list (rule T) * fuzzy * res unit :=
  match rules with
  | [] => ([], fz, Ok tt)
  | r :: rest =>
    if rule_loaded r then
      let d := rl_degree r / sum in
      let r := set_degree (if isNaN d then s_0 else d) r in
      match trigger fz r with
      | Ok (r, fz) => let '(rs, fz, e) := share_pass sum rest fz in (r :: rs, fz, e)
      | err => (r :: rest, fz, fail err)
      end
    else let '(rs, fz, e) := share_pass sum rest fz in (r :: rs, fz, e)
  end.
(** Proportional.cpp:41-66 *)
Definition proportional (rules : list (rule T)) (fz : fuzzy) : list (rule T) * fuzzy * res unit :=
  let '(rules, e) := degrees_pass fz rules in
  match e with
  | Ok _ => let sum := fold_left (fun s r => if rule_loaded r then s + rl_degree r else s) rules s_0 in
            share_pass sum rules fz
  | _ => (rules, fz, e)
  end.

(** Activation::activate *)
Definition activate (a : activation) : list (rule T) -> fuzzy -> list (rule T) * fuzzy * res unit :=
  match a with
  | General => general
  | First n t => first n t
  | Last n t => last_rules n t
  | Highest n => highest n
  | Lowest n => lowest n
  | Proportional => proportional
  | Threshold c v => threshold_rules c v
  end.
End Methods.

(** RuleBlock (/repo/fuzzylite/rule/RuleBlock.h:47-54) *)
Record block := mkBlock {
  b_enabled : bool; b_name : string; b_description : string; b_rules : list (rule T);
  b_conjunction : option tnorm; b_disjunction : option snorm; b_implication : option tnorm;
  b_activation : option activation }.
Definition set_rules (rs : list (rule T)) (b : block) : block :=
  mkBlock (b_enabled b) (b_name b) (b_description b) rs (b_conjunction b) (b_disjunction b) (b_implication b) (b_activation b).
Definition set_activation (a : option activation) (b : block) : block :=
  mkBlock (b_enabled b) (b_name b) (b_description b) (b_rules b) (b_conjunction b) (b_disjunction b) (b_implication b) a.
(** RuleBlock.cpp:89-93: a missing activation is replaced by General *)
Definition block_activate (enabled : varref -> bool) (degree : fuzzy -> varref -> nat -> res T) (drain : drainer T)
  (b : block) (fz : fuzzy) : block * fuzzy * res unit :=
  let a := match b_activation b with Some a => a | None => General end in
  let '(rs, fz, e) := activate enabled degree (b_conjunction b) (b_disjunction b) (b_implication b) drain a (b_rules b) fz in
  (set_activation (Some a) (set_rules rs b), fz, e).
End Activation.
Arguments activation : clear implicits. Arguments fuzzy : clear implicits. Arguments block : clear implicits.
