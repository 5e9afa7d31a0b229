(** Terms of any kind, variables and their defuzzification
    (/repo/src/term, /repo/src/variable/Variable.cpp, InputVariable.cpp, OutputVariable.cpp). *)
From Coq Require Import ZArith String List Bool.
From Verif Require Import Base Op Norm Shape Discrete Defuzz Aggregated Text Function Rule.
Import ListNotations.
Local Open Scope scalar_scope.

(** The order in which a std::priority_queue yields its elements.  [drain less keys] lists positions in [keys], the
    sequence of keys pushed.  The C++ standard does not fix the order of equivalent elements, so the model is
    parametric in this function; what is known of it is [drain_spec] (see SpecActivation.v). *)
Definition drainer (T : Type) := (T -> T -> bool) -> list T -> list nat.

Section Vars.
Context {T : Type} `{S : Scalar T}.

(** The classes of terms.  [TLinear] and [TFunction] refer to an engine or to none; a reference is always to the engine
    which owns the variable (Engine::updateReferences). *)
Inductive tbody :=
| TShape (s : shape T)
| TDiscrete (xy : list (T * T))
| TConstant (value : T)
| TLinear (coefficients : list T) (engine : bool)
| TFunction (f : fstate T).
(** Term.h:43-46 *)
Record term := mkTerm { tm_name : string; tm_height : T; tm_body : tbody }.

(** What terms see of the engine: the values of the input variables (Linear.cpp:46-50) and the names and values of
    input, then output variables (Function.cpp:382-391) *)
Record view := mkView { vw_inputs : list T; vw_context : context T }.

(** Term::membership of each class: see Shape.v, Discrete.v, Function.v.
    Simplification: Function::membership also stores the values in the map Function::variables; it overwrites them
    at the next call, so the map is left unchanged here (see [fn_membership_again] in EngineProofs.v). *)
Definition term_membership (vw : view) (t : term) (x : T) : res T :=
  match tm_body t with
  | TShape s => Ok (sh_membership s (tm_height t) x)
  | TDiscrete xy => disc_membership xy (tm_height t) x
  | TConstant v => Ok (const_membership v x)
  | TLinear cs engine => linear_membership cs (if engine then Some (vw_inputs vw) else None)
  | TFunction f => snd (fn_membership f (vw_context vw) x)
  end.
(** Term::isMonotonic (/repo/src/term/Term.cpp:60-62, Shape.v); no other class overrides it *)
Definition term_monotonic (t : term) : bool := match tm_body t with TShape s => sh_monotonic s | _ => false end.
(** Term::tsukamoto (Term.cpp:55-58, Shape.v) *)
Definition term_tsukamoto (t : term) (y : T) : res T :=
  match tm_body t with TShape s => sh_tsukamoto s (tm_height t) y | _ => Throw ETerm end.
(** WeightedDefuzzifier::inferType of a term (/repo/src/defuzzifier/WeightedDefuzzifier.cpp:102-118) *)
Definition term_wtype (t : term) : wtype :=
  match tm_body t with
  | TConstant _ | TLinear _ _ | TFunction _ => WTakagiSugeno
  | _ => if term_monotonic t then WTsukamoto else WAutomatic
  end.
(** Term::updateReference: Term.cpp:50-53, Linear.cpp:100-102, Function.cpp:478-485 *)
Definition term_update_reference (vw : view) (t : term) : term :=
  match tm_body t with
  | TLinear cs _ => mkTerm (tm_name t) (tm_height t) (TLinear cs true)
  | TFunction f => mkTerm (tm_name t) (tm_height t) (TFunction (fn_update_reference default_table f true (vw_context vw)))
  | _ => t
  end.

(** Variable (/repo/fuzzylite/variable/Variable.h:49-55) *)
Record variable := mkVariable {
  v_name : string; v_description : string; v_value : T; v_minimum : T; v_maximum : T;
  v_enabled : bool; v_lock_range : bool; v_terms : list term }.
(** Variable.cpp:31-39 *)
Definition variable_new (name : string) (minimum maximum : T) (terms : list term) : variable :=
  mkVariable name "" s_nan minimum maximum true false terms.
(** Variable.cpp:88-90 *)
Definition set_value (value : T) (v : variable) : variable :=
  mkVariable (v_name v) (v_description v) (if v_lock_range v then bound value (v_minimum v) (v_maximum v) else value)
    (v_minimum v) (v_maximum v) (v_enabled v) (v_lock_range v) (v_terms v).
Definition set_terms (ts : list term) (v : variable) : variable :=
  mkVariable (v_name v) (v_description v) (v_value v) (v_minimum v) (v_maximum v) (v_enabled v) (v_lock_range v) ts.
(** Variable.cpp:96-131: setters; none of them touches the value *)
Definition set_range (minimum maximum : T) (v : variable) : variable :=
  mkVariable (v_name v) (v_description v) (v_value v) minimum maximum (v_enabled v) (v_lock_range v) (v_terms v).
Definition set_lock_range (b : bool) (v : variable) : variable :=
  mkVariable (v_name v) (v_description v) (v_value v) (v_minimum v) (v_maximum v) (v_enabled v) b (v_terms v).
Definition enable_variable (b : bool) (v : variable) : variable :=
  mkVariable (v_name v) (v_description v) (v_value v) (v_minimum v) (v_maximum v) b (v_lock_range v) (v_terms v).

(** Variable.cpp:141-153: exceptions give NaN *)
Definition v_activations (vw : view) (v : variable) (x : T) : res (list (activated T nat)) :=
  rmapM (fun p => match term_membership vw (snd p) x with
                  | Ok y => Ok (mkActivated (fst p) y None)
                  | Throw _ => Ok (mkActivated (fst p) s_nan None)
                  | UB => UB | Diverge => Diverge end)
    (combine (seq 0 (length (v_terms v))) (v_terms v)).
(** Variable.cpp:163-171: term (None is null) and degree *)
Definition highest_membership (vw : view) (v : variable) (x : T) : res (option nat * T) :=
  do l <- v_activations vw v x;
  Ok (match maximally_activated l with [] => (None, s_nan) | a :: _ => (Some (ac_term a), ac_degree a) end).

(** Variable.cpp:189-215.  [resolution] is IntegralDefuzzifier::defaultResolution() (IntegralDefuzzifier.cpp:22-31). *)
Definition sort_key (vw : view) (resolution : Z) (v : variable) (t : term) : res T :=
  match (match tm_body t with
         | TConstant _ | TLinear _ _ => term_membership vw t s_0
         | _ => centroid (term_membership vw t) (v_minimum v) (v_maximum v) resolution
         end) with
  | Throw _ => Ok s_inf
  | r => r
  end.
Definition sort_terms (drain : drainer T) (vw : view) (resolution : Z) (v : variable) : res variable :=
  do keys <- rmapM (sort_key vw resolution v) (v_terms v);
  let order := drain (fun a b => a >? b) keys in
  Ok (set_terms (flat_map (fun i => match nth_error (v_terms v) i with Some t => [t] | None => [] end) order) v).

(** Operations of std::vector used for terms, variables, rule blocks and rules.
    insert (Variable.cpp:221-223, Engine.cpp:542-544, 615-617, 683-685): an index beyond the end is UB *)
Definition vector_insert {A} (x : A) (i : nat) (l : list A) : res (list A) :=
  if Nat.ltb (length l) i then UB else Ok (firstn i l ++ x :: skipn i l).
(** at (Variable.cpp:225-227) *)
Definition vector_at {A} (i : nat) (l : list A) : res A :=
  match nth_error l i with Some x => Ok x | None => Throw EOutOfRange end.
(** remove by index (Variable.cpp:249-253, Engine.cpp:564-568, 637-641, 705-709): the element and the rest *)
Definition vector_remove {A} (i : nat) (l : list A) : res (A * list A) :=
  do x <- vector_at i l; Ok (x, firstn i l ++ skipn (Datatypes.S i) l).
(** get by name (Variable.cpp:229-241; Engine.cpp:550-555, 623-628, 691-696): position of the element *)
Definition get_named {A} (name_of : A -> string) (e : exc) (name : string) (l : list A) : res nat :=
  match find_name name (map name_of l) with Some i => Ok i | None => Throw e end.
(** has by name (Variable.cpp:242-247; Engine.cpp:557-562, 630-635, 698-703) *)
Definition has_named {A} (name_of : A -> string) (name : string) (l : list A) : bool :=
  existsb (fun x => String.eqb (name_of x) name) l.
(** remove by name (Engine.cpp:570-579, 643-652, 711-720) *)
Definition remove_named {A} (name_of : A -> string) (e : exc) (name : string) (l : list A) : res (A * list A) :=
  do i <- get_named name_of e name l; vector_remove i l.

(** the registered defuzzifiers (/repo/src/factory/DefuzzifierFactory.cpp:30-38) *)
Inductive defuzzifier := DIntegral (k : integral_kind) (resolution : Z) | DWeighted (k : weighted_kind) (ty : wtype).
Definition is_integral (d : option defuzzifier) : bool := match d with Some (DIntegral _ _) => true | _ => false end.

(** OutputVariable (/repo/fuzzylite/variable/OutputVariable.h:86-91).  The fuzzy output is an Aggregated; its name and range
    follow those of the variable and are left out.  Its terms are positions in the terms of the variable. *)
Record output := mkOutput {
  o_var : variable; o_fuzzy : list (activated T nat); o_aggregation : option snorm; o_defuzzifier : option defuzzifier;
  o_previous : T; o_default : T; o_lock_previous : bool }.
Definition set_fuzzy (l : list (activated T nat)) (o : output) : output :=
  mkOutput (o_var o) l (o_aggregation o) (o_defuzzifier o) (o_previous o) (o_default o) (o_lock_previous o).
Definition set_previous (p : T) (o : output) : output :=
  mkOutput (o_var o) (o_fuzzy o) (o_aggregation o) (o_defuzzifier o) p (o_default o) (o_lock_previous o).
Definition set_var (v : variable) (o : output) : output :=
  mkOutput v (o_fuzzy o) (o_aggregation o) (o_defuzzifier o) (o_previous o) (o_default o) (o_lock_previous o).
Definition set_operators (a : option snorm) (d : option defuzzifier) (o : output) : output :=
  mkOutput (o_var o) (o_fuzzy o) a d (o_previous o) (o_default o) (o_lock_previous o).
Definition set_output_value (x : T) (o : output) : output := set_var (set_value x (o_var o)) o.
(** OutputVariable.cpp:197-201 *)
Definition clear_output (o : output) : output := set_previous s_nan (set_output_value s_nan (set_fuzzy [] o)).

(** Defuzzifier::defuzzify(fuzzyOutput(), minimum, maximum): see Defuzz.v and Aggregated.v *)
Definition defuzzified (vw : view) (d : defuzzifier) (o : output) : res T :=
  let terms := v_terms (o_var o) in
  let memb t x := match nth_error terms t with Some tm => term_membership vw tm x | None => UB end in
  let tsuk t y := match nth_error terms t with Some tm => term_tsukamoto tm y | None => UB end in
  let name t := match nth_error terms t with Some tm => tm_name tm | None => EmptyString end in
  let wt t := match nth_error terms t with Some tm => term_wtype tm | None => WAutomatic end in
  match d with
  | DIntegral k n =>
    integral_defuzzify k (agg_membership memb (o_aggregation o) (o_fuzzy o)) (v_minimum (o_var o)) (v_maximum (o_var o)) n
  | DWeighted k ty => weighted_defuzzify k ty name memb tsuk wt (o_aggregation o) (o_fuzzy o)
  end.
(** OutputVariable.cpp:131-139 once the defuzzifier has given [value] *)
Definition settle (value : T) (o : output) : output :=
  let value := if (o_lock_previous o && isNaN value)%bool then o_previous o else value in
  let value := if isNaN value then o_default o else value in
  set_output_value value (set_previous (v_value (o_var o)) o).
(** OutputVariable::defuzzify (OutputVariable.cpp:122-140); a missing defuzzifier is [EDefuzzify] *)
Definition defuzzify (vw : view) (o : output) : output * res unit :=
  if negb (v_enabled (o_var o)) then (o, Ok tt) else
  match o_defuzzifier o with
  | None => (o, Throw EDefuzzify)
  | Some d => match defuzzified vw d o with
              | Ok value => (settle value o, Ok tt)
              | Throw e => (o, Throw e) | UB => (o, UB) | Diverge => (o, Diverge)
              end
  end.
End Vars.
Arguments tbody : clear implicits. Arguments term : clear implicits. Arguments view : clear implicits.
Arguments variable : clear implicits. Arguments output : clear implicits.
