(** What the activation methods are to achieve, independently of how they loop. *)
From Coq Require Import ZArith String List Bool Permutation.
From Verif Require Import Base Op Norm Aggregated Function Rule Var Activation.
Import ListNotations.

Section Spec.
Context {T : Type} `{S : Scalar T}.

(** [less] is an order fit for std::priority_queue on the given keys (the C++ requirements on Compare) *)
Definition strict_weak (less : T -> T -> bool) (keys : list T) : Prop :=
  (forall a, In a keys -> less a a = false) /\
  (forall a b, In a keys -> In b keys -> less a b = true -> less b a = false) /\
  (forall a b c, In a keys -> In b keys -> In c keys -> less a b = true -> less b c = true -> less a c = true) /\
  (forall a b c, In a keys -> In b keys -> In c keys -> less a b = false -> less b a = false ->
     less b c = false -> less c b = false -> less a c = false /\ less c a = false).
(** What the C++ standard says of std::priority_queue: every element comes out once, and no later one is greater than
    an earlier one *)
Definition drain_spec (drain : drainer T) : Prop :=
  forall less keys, strict_weak less keys ->
    Permutation (drain less keys) (seq 0 (length keys)) /\
    forall i j a b x y, (i < j)%nat -> nth_error (drain less keys) i = Some a -> nth_error (drain less keys) j = Some b ->
      nth_error keys a = Some x -> nth_error keys b = Some y -> less x y = false.

(** a rule keeps everything but its activation degree and its triggered flag *)
Definition same_rule (r r' : rule T) : Prop :=
  rl_enabled r' = rl_enabled r /\ rl_text r' = rl_text r /\ rl_weight r' = rl_weight r /\
  rl_antecedent_text r' = rl_antecedent_text r /\ rl_antecedent r' = rl_antecedent r /\
  rl_consequent_text r' = rl_consequent_text r /\ rl_consequent r' = rl_consequent r.

(** the activated terms which a list of additions gives to output variable [j] *)
Definition for_variable (implication : option tnorm) (j : nat) (added : list (nat * nat * T)) : list (activated T nat) :=
  map (fun a => mkActivated (snd (fst a)) (snd a) implication) (filter (fun a => Nat.eqb (fst (fst a)) j) added).
(** the fuzzy outputs [f'] are [f] with the additions appended *)
Definition extended (implication : option tnorm) (added : list (nat * nat * T)) (f f' : fuzzy T) : Prop :=
  length f' = length f /\
  forall j l, nth_error f j = Some l -> nth_error f' j = Some (l ++ for_variable implication j added).

Section Methods.
Variable enabled : varref -> bool.
Variable degree : fuzzy T -> varref -> nat -> res T.
Variables (conjunction : option tnorm) (disjunction : option snorm) (implication : option tnorm).

(** [r'] is the loaded rule [r] with its degree computed while the fuzzy outputs are [f] *)
Definition has_degree (f : fuzzy T) (r r' : rule T) : Prop :=
  exists d, antecedent_degree enabled (degree f) conjunction disjunction (rl_antecedent r) = Ok d /\
            rl_degree r' = (rl_weight r * d)%S.
(** from [f] to [f'] the rule [r'] contributes its conclusions if triggered, nothing otherwise *)
Definition contributed (r' : rule T) (f f' : fuzzy T) : Prop :=
  if rl_triggered r' then
    exists added, consequent_modify enabled (rl_degree r') (rl_consequent r') = Ok added /\ extended implication added f f'
  else f' = f.

(** The rules are dealt with one after the other; [fires] says, from the rules before it and from the rule itself
    (after activation), whether a loaded rule is triggered. *)
Definition one_by_one (fires : list (rule T) -> rule T -> bool) (rules rules' : list (rule T)) (f0 fn : fuzzy T) : Prop :=
  length rules' = length rules /\
  exists states : list (fuzzy T),
    length states = Datatypes.S (length rules) /\ hd_error states = Some f0 /\ nth_error states (length rules) = Some fn /\
    forall i r r' f f',
      nth_error rules i = Some r -> nth_error rules' i = Some r' ->
      nth_error states i = Some f -> nth_error states (Datatypes.S i) = Some f' ->
      same_rule r r' /\ contributed r' f f' /\
      (rule_loaded r = false -> rl_degree r' = s_0 /\ rl_triggered r' = false) /\
      (rule_loaded r = true -> has_degree f r r' /\ rl_triggered r' = fires (firstn i rules') r').

(** General: enabled and positive *)
Definition fires_general (before : list (rule T)) (r : rule T) : bool := rl_enabled r && isGt (rl_degree r) s_0.
(** First (Last): moreover at least the threshold, and fewer than [n] such rules before (after) it *)
Definition eligible (threshold : T) (r : rule T) : bool :=
  rule_loaded r && isGt (rl_degree r) s_0 && isGE (rl_degree r) threshold.
Definition fires_first (n : Z) (threshold : T) (before : list (rule T)) (r : rule T) : bool :=
  rl_enabled r && isGt (rl_degree r) s_0 && isGE (rl_degree r) threshold &&
  Z.ltb (Z.of_nat (length (filter (eligible threshold) before))) n.
(** Threshold: moreover the comparison holds *)
Definition compares (c : comparison) (d v : T) : bool :=
  match c with
  | LessThan => isLt d v | LessThanOrEqualTo => isLE d v | EqualTo => isEq d v
  | NotEqualTo => negb (isEq d v) | GreaterThanOrEqualTo => isGE d v | GreaterThan => isGt d v end.
Definition fires_threshold (c : comparison) (v : T) (before : list (rule T)) (r : rule T) : bool :=
  rl_enabled r && isGt (rl_degree r) s_0 && compares c (rl_degree r) v.

(** All degrees are computed first, from the same fuzzy outputs [f]; [r'] is [r] activated and not yet triggered *)
Definition activated_rule (f : fuzzy T) (r r' : rule T) : Prop :=
  same_rule r r' /\ rl_triggered r' = false /\
  (rule_loaded r = false -> rl_degree r' = s_0) /\ (rule_loaded r = true -> has_degree f r r').
(** the rules at [order], in that order, contribute from [f] to [f'] *)
Inductive contributed_by (rules : list (rule T)) : list nat -> fuzzy T -> fuzzy T -> Prop :=
| CNil f : contributed_by rules [] f f
| CCons i order r f f1 f2 :
    nth_error rules i = Some r -> contributed r f f1 -> contributed_by rules order f1 f2 -> contributed_by rules (i :: order) f f2.

(** Highest (Lowest): [above a b] says that degree [a] may be preferred to degree [b] *)
Definition positive_rule (r : rule T) : bool := rule_loaded r && isGt (rl_degree r) s_0.
Definition selection (above : T -> T -> bool) (n : Z) (rules rules' : list (rule T)) (f0 fn : fuzzy T) : Prop :=
  length rules' = length rules /\
  exists order : list nat,
    NoDup order /\
    length order = Nat.min (Z.to_nat n) (length (filter positive_rule rules')) /\
    (forall i, In i order -> exists r', nth_error rules' i = Some r' /\ positive_rule r' = true) /\
    (forall i j r' q', In i order -> ~ In j order -> nth_error rules' i = Some r' -> nth_error rules' j = Some q' ->
       positive_rule q' = true -> above (rl_degree r') (rl_degree q') = true) /\
    (forall i j a b r' q', (i < j)%nat -> nth_error order i = Some a -> nth_error order j = Some b ->
       nth_error rules' a = Some r' -> nth_error rules' b = Some q' -> above (rl_degree r') (rl_degree q') = true) /\
    contributed_by rules' order f0 fn /\
    forall i r r', nth_error rules i = Some r -> nth_error rules' i = Some r' ->
      same_rule r r' /\
      (rule_loaded r = false -> rl_degree r' = s_0 /\ rl_triggered r' = false) /\
      (rule_loaded r = true -> has_degree f0 r r') /\
      (rl_triggered r' = true <-> In i order /\ rl_enabled r = true).
End Methods.
End Spec.

Section Proportional.
Context {T : Type} `{S : Scalar T}.
Variable enabled : varref -> bool.
Variable degree : fuzzy T -> varref -> nat -> res T.
Variables (conjunction : option tnorm) (disjunction : option snorm) (implication : option tnorm).

(** the sum of the degrees of the loaded rules, added in order *)
Definition total_degree (rules : list (rule T)) : T := fold_left s_add (map (@rl_degree T) (filter rule_loaded rules)) s_0.
(** Proportional: with [mids] the rules with their own degrees, the degree of each loaded rule becomes its share of the
    total, NaN being replaced by zero; then the rules are triggered one after the other *)
Definition shares (rules rules' : list (rule T)) (f0 fn : fuzzy T) : Prop :=
  length rules' = length rules /\
  exists mids, Forall2 (activated_rule enabled degree conjunction disjunction f0) rules mids /\
  exists states : list (fuzzy T),
    length states = Datatypes.S (length rules) /\ hd_error states = Some f0 /\ nth_error states (length rules) = Some fn /\
    forall i r m r' f f',
      nth_error rules i = Some r -> nth_error mids i = Some m -> nth_error rules' i = Some r' ->
      nth_error states i = Some f -> nth_error states (Datatypes.S i) = Some f' ->
      same_rule r r' /\ contributed enabled implication r' f f' /\
      (rule_loaded r = false -> rl_degree r' = s_0 /\ rl_triggered r' = false) /\
      (rule_loaded r = true ->
         (let q := (rl_degree m / total_degree mids)%S in rl_degree r' = if isNaN q then s_0 else q) /\
         rl_triggered r' = (rl_enabled r && isGt (rl_degree r') s_0)%bool).
End Proportional.

Section History.
Context {T : Type} `{S : Scalar T}.
(** a rule as every activation method leaves it: unloaded rules have degree zero and are not triggered; a triggered rule is
    enabled, loaded and has a positive degree *)
Definition settled (r : rule T) : Prop :=
  (rule_loaded r = false -> rl_degree r = s_0 /\ rl_triggered r = false) /\
  (rl_triggered r = true -> rl_enabled r = true /\ rule_loaded r = true /\ isGt (rl_degree r) s_0 = true).
(** rules which differ at most in activation degree and triggered flag *)
Definition same_rules (l l' : list (rule T)) : Prop := Forall2 same_rule l l'.
End History.
