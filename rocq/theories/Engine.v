(** Engines (/repo/src/Engine.cpp). *)
From Coq Require Import ZArith String List Bool.
From Verif Require Import Base Op Norm Shape Discrete Defuzz Aggregated Text Function Rule Var Activation.
Import ListNotations.

Section Engine.
Context {T : Type} `{S : Scalar T}.
Variable drain : drainer T.

(** /repo/fuzzylite/Engine.h:50-54.  Simplification: no variable, rule block or rule is null. *)
Record engine := mkEngine {
  e_name : string; e_description : string; e_inputs : list (variable T); e_outputs : list (output T); e_blocks : list (block T) }.

(** What rule parsing sees *)
Definition var_names (v : variable T) : pvar := mkPvar (v_name v) (map (@tm_name T) (v_terms v)).
Definition engine_env (ins : list (variable T)) (outs : list (output T)) : penv :=
  mkPenv (map var_names ins) (map (fun o => var_names (o_var o)) outs).
(** What terms see (Function.cpp:382-391, Linear.cpp:46-50) *)
Definition engine_view (ins : list (variable T)) (outs : list (output T)) : view T :=
  mkView (map (@v_value T) ins)
    (map (fun v => (v_name v, v_value v)) ins ++ map (fun o => (v_name (o_var o), v_value (o_var o))) outs).

(** Variable::isEnabled of the variable of a proposition; for a dangling reference see [engine_degree] *)
Definition engine_enabled (ins : list (variable T)) (outs : list (output T)) (v : varref) : bool :=
  match v with
  | VIn i => match nth_error ins i with Some v => v_enabled v | None => true end
  | VOut j => match nth_error outs j with Some o => v_enabled (o_var o) | None => true end
  end.
(** /repo/src/rule/Antecedent.cpp:88-99; a dangling reference is UB *)
Definition engine_degree (vw : view T) (ins : list (variable T)) (aggregations : list (option snorm)) (fz : fuzzy T)
  (v : varref) (t : nat) : res T :=
  match v with
  | VIn i =>
    match nth_error ins i with
    | Some v => match nth_error (v_terms v) t with Some tm => term_membership vw tm (v_value v) | None => UB end
    | None => UB
    end
  | VOut j =>
    match nth_error fz j, nth_error aggregations j with
    | Some l, Some a => Ok (agg_degree (Nat.eqb t) a l)
    | _, _ => UB
    end
  end.

(** Engine.cpp:316-323: the loop over the rule blocks *)
Fixpoint run_blocks (enabled : varref -> bool) (degree : fuzzy T -> varref -> nat -> res T) (bs : list (block T)) (fz : fuzzy T)
  : list (block T) * fuzzy T * res unit :=
  match bs with
  | [] => ([], fz, Ok tt)
  | b :: rest =>
    if b_enabled b then
      match block_activate enabled degree drain b fz with
      | (b, fz, Ok _) => let '(bs, fz, e) := run_blocks enabled degree rest fz in (b :: bs, fz, e)
      | (b, fz, err) => (b :: rest, fz, err)
      end
    else let '(bs, fz, e) := run_blocks enabled degree rest fz in (b :: bs, fz, e)
  end.
(** Engine.cpp:325-326: the outputs are defuzzified in order; a later one sees the new values of the earlier *)
Fixpoint defuzzify_from (ins : list (variable T)) (done rest : list (output T)) : list (output T) * res unit :=
  match rest with
  | [] => (done, Ok tt)
  | o :: rest =>
    match defuzzify (engine_view ins (done ++ o :: rest)) o with
    | (o, Ok _) => defuzzify_from ins (done ++ [o]) rest
    | (o, err) => (done ++ o :: rest, err)
    end
  end.
Definition put_fuzzy (outs : list (output T)) (fz : fuzzy T) : list (output T) :=
  map (fun p => set_fuzzy (snd p) (fst p)) (combine outs fz).

(** Engine::process (Engine.cpp:297-350): the engine afterwards, also if an exception is thrown.  Debug output left out. *)
Definition process (e : engine) : engine * res unit :=
  let ins := e_inputs e in
  let outs := map (set_fuzzy []) (e_outputs e) in
  let enabled := engine_enabled ins outs in
  let degree := engine_degree (engine_view ins outs) ins (map (@o_aggregation T) outs) in
  let '(bs, fz, r) := run_blocks enabled degree (e_blocks e) (map (fun _ => []) outs) in
  let outs := put_fuzzy outs fz in
  match r with
  | Ok _ => let '(outs, r) := defuzzify_from ins [] outs in (mkEngine (e_name e) (e_description e) ins outs bs, r)
  | _ => (mkEngine (e_name e) (e_description e) ins outs bs, r)
  end.

(** Engine::restart (Engine.cpp:290-295) *)
Definition restart (e : engine) : engine :=
  mkEngine (e_name e) (e_description e) (map (set_value s_nan) (e_inputs e)) (map clear_output (e_outputs e)) (e_blocks e).

(** setting the values of the input variables in order: setInputValue (Engine.cpp:527-530), InputVariable::setValue *)
Definition set_inputs (values : list T) (e : engine) : engine :=
  mkEngine (e_name e) (e_description e)
    (map (fun p => set_value (snd p) (fst p)) (combine (e_inputs e) values) ++ skipn (length values) (e_inputs e))
    (e_outputs e) (e_blocks e).

(** Engine::updateReferences (Engine.cpp:106-113) *)
Definition update_variable (vw : view T) (v : variable T) : variable T := set_terms (map (term_update_reference vw) (v_terms v)) v.
(** Engine::copyFrom (Engine.cpp:85-104).  Terms, norms, defuzzifiers and activations are copied by value.
    Simplification: in the copied fuzzy outputs the terms are those of the copy, whereas in C++ they point to the terms
    of the original until the next process() or restart() clears them. *)
Definition engine_copy (e : engine) : engine :=
  let vw := engine_view (e_inputs e) (e_outputs e) in
  let ins := map (update_variable vw) (e_inputs e) in
  let outs := map (fun o => set_var (update_variable vw (o_var o)) o) (e_outputs e) in
  let env := engine_env ins outs in
  mkEngine (e_name e) (e_description e) ins outs
    (map (fun b => set_rules (fst (load_rules env (map rule_copy (b_rules b)))) b) (e_blocks e)).

(** Engine::configure (Engine.cpp:154-187) *)
Definition configure (conjunction : option tnorm) (disjunction : option snorm) (implication : option tnorm)
  (aggregation : option snorm) (d : option defuzzifier) (a : option (activation T)) (e : engine) : engine :=
  mkEngine (e_name e) (e_description e) (e_inputs e) (map (set_operators aggregation d) (e_outputs e))
    (map (fun b => mkBlock (b_enabled b) (b_name b) (b_description b) (b_rules b) conjunction disjunction implication
                     (Some (match a with Some a => a | None => General end))) (e_blocks e)).

(** position of the first occurrence: std::string::find *)
Definition index_of (pat s : string) : option nat :=
  match find_sub pat s with Some (b, _) => Some (String.length b) | None => None end.
(** Engine.cpp:240-246: the keyword occurs, and before the keyword `then` if that occurs (npos is the largest size) *)
Definition before_then (keyword text : string) : bool :=
  match index_of keyword text, index_of " then " text with
  | Some i, Some t => Nat.ltb i t
  | Some _, None => true
  | None, _ => false
  end.
(** Engine.cpp:247-258 *)
Definition needs_implication (outs : list (output T)) (r : rule T) : bool :=
  rule_loaded r &&
  existsb (fun p => match pr_var p with
                    | VOut j => match nth_error outs j with Some o => is_integral (o_defuzzifier o) | None => false end
                    | VIn _ => false end) (rl_consequent r).
Definition has {A} (o : option A) : bool := match o with Some _ => true | None => false end.
(** Engine.cpp:224-283 *)
Definition block_ready (outs : list (output T)) (b : block T) : bool :=
  negb (match b_rules b with [] => true | _ => false end) &&
  (negb (existsb (fun r => before_then " and " (rl_text r)) (b_rules b)) || has (b_conjunction b)) &&
  (negb (existsb (fun r => before_then " or " (rl_text r)) (b_rules b)) || has (b_disjunction b)) &&
  (negb (existsb (needs_implication outs) (b_rules b)) || has (b_implication b)).
(** Engine.cpp:206-219 *)
Definition output_ready (o : output T) : bool :=
  negb (match v_terms (o_var o) with [] => true | _ => false end) && has (o_defuzzifier o) &&
  (negb (is_integral (o_defuzzifier o)) || has (o_aggregation o)).
(** Engine::isReady (Engine.cpp:189-288); the status text is left out *)
Definition is_ready (e : engine) : bool :=
  negb (match e_inputs e with [] => true | _ => false end) &&
  negb (match e_outputs e with [] => true | _ => false end) && forallb output_ready (e_outputs e) &&
  negb (match e_blocks e with [] => true | _ => false end) && forallb (block_ready (e_outputs e)) (e_blocks e).

(** Engine.h:197-219 *)
Inductive etype := EtUnknown | EtMamdani | EtLarsen | EtTakagiSugeno | EtTsukamoto | EtInverseTsukamoto | EtHybrid.
(** Engine.cpp:416-434: a weighted defuzzifier whose type is Automatic or [ty] *)
Definition weighted_type (ty : wtype) (o : output T) : bool :=
  match o_defuzzifier o with Some (DWeighted _ w) => wtype_eqb w WAutomatic || wtype_eqb w ty | _ => false end.
Definition is_weighted (o : output T) : bool := match o_defuzzifier o with Some (DWeighted _ _) => true | _ => false end.
Definition tnorm_is_product (n : option tnorm) : bool := match n with Some AlgebraicProduct => true | _ => false end.
(** Engine::type (Engine.cpp:372-510); name and reason are left out *)
Definition engine_type (e : engine) : etype :=
  let outs := e_outputs e in
  match outs with
  | [] => EtUnknown
  | _ =>
    if forallb (fun o => is_integral (o_defuzzifier o)) outs then
      if negb (match e_blocks e with [] => true | _ => false end) && forallb (fun b => tnorm_is_product (b_implication b)) (e_blocks e)
      then EtLarsen else EtMamdani
    else if forallb (fun o => weighted_type WTakagiSugeno o &&
                              forallb (fun t => wtype_eqb (term_wtype t) WTakagiSugeno) (v_terms (o_var o))) outs
    then EtTakagiSugeno
    else if forallb (fun o => weighted_type WTsukamoto o && forallb term_monotonic (v_terms (o_var o))) outs
    then EtTsukamoto
    else if forallb is_weighted outs then EtInverseTsukamoto
    else if forallb (fun o => has (o_defuzzifier o)) outs then EtHybrid
    else EtUnknown
  end.
End Engine.
Arguments engine : clear implicits.
