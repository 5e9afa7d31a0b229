(** Term Function: tokenizer, shunting-yard parser, expression trees, printers, evaluation, state.
    /repo/src/term/Function.cpp, /repo/fuzzylite/term/Function.h, /repo/src/factory/FunctionFactory.cpp *)
From Coq Require Import ZArith List Bool String Ascii Arith.
From Verif Require Import Base Op Text.
Import ListNotations.
Local Open Scope string_scope.

Section Function.
Context {T : Type} `{S : Scalar T}.
Local Open Scope scalar_scope.

(** Function.cpp:34-76, Function.h: Element.  [el_fn] is the pointer that is set, [FnNone] if both are null. *)
Inductive el_fn := FnNone | FnUnary (f : T -> T) | FnBinary (f : T -> T -> T).
Record element := {
  el_name : string;
  el_operator : bool;       (* type: Operator or Function *)
  el_fun : el_fn;
  el_arity : Z;
  el_precedence : Z;
  el_associativity : Z
}.
Definition el_unary (name : string) (op : bool) (f : T -> T) (prec assoc : Z) : element :=
  {| el_name := name; el_operator := op; el_fun := FnUnary f; el_arity := 1; el_precedence := prec; el_associativity := assoc |}.
Definition el_binary (name : string) (op : bool) (f : T -> T -> T) (prec assoc : Z) : element :=
  {| el_name := name; el_operator := op; el_fun := FnBinary f; el_arity := 2; el_precedence := prec; el_associativity := assoc |}.
(** Function.h:100-116: default arguments precedence = 0, associativity = -1 *)
Definition fn1 (name : string) (f : T -> T) : string * element := (name, el_unary name false f 0 (-1)).
Definition fn2 (name : string) (f : T -> T -> T) : string * element := (name, el_binary name false f 0 (-1)).
Definition un (name : string) (f : T -> T) (prec assoc : Z) : string * element := (name, el_unary name true f prec assoc).
Definition bin (name : string) (f : T -> T -> T) (prec assoc : Z) : string * element := (name, el_binary name true f prec assoc).

(** the registered objects: std::map ordered by key.  FunctionFactory.cpp:38-153 *)
Definition table := list (string * element).
Definition default_table : table :=
  [ un "!" logicalNot 100 1;
    bin "%" (s_fn2 LFmod) 80 (-1);
    bin "*" s_mul 80 (-1);
    bin "+" s_add 70 (-1);
    bin "-" s_sub 70 (-1);
    bin "/" s_div 80 (-1);
    bin "^" (s_fn2 LPow) 90 1;
    fn1 "abs" s_abs; fn1 "acos" (s_fn1 LAcos); fn1 "acosh" (s_fn1 LAcosh);
    bin "and" logicalAnd 60 (-1);
    fn1 "asin" (s_fn1 LAsin); fn1 "asinh" (s_fn1 LAsinh); fn1 "atan" (s_fn1 LAtan); fn2 "atan2" (s_fn2 LAtan2); fn1 "atanh" (s_fn1 LAtanh);
    fn1 "ceil" s_ceil; fn1 "cos" (s_fn1 LCos); fn1 "cosh" (s_fn1 LCosh); fn2 "eq" op_eq; fn1 "exp" (s_fn1 LExp); fn1 "fabs" s_abs;
    fn1 "floor" s_floor; fn2 "fmod" (s_fn2 LFmod); fn2 "ge" op_ge; fn2 "gt" op_gt; fn2 "le" op_le; fn1 "log" (s_fn1 LLog);
    fn1 "log10" (s_fn1 LLog10); fn1 "log1p" (s_fn1 LLog1p); fn2 "lt" op_lt; fn2 "max" op_max; fn2 "min" op_min; fn2 "neq" op_neq;
    bin "or" logicalOr 50 (-1);
    fn2 "pow" (s_fn2 LPow); fn1 "round" op_round; fn1 "sin" (s_fn1 LSin); fn1 "sinh" (s_fn1 LSinh); fn1 "sqrt" s_sqrt;
    fn1 "tan" (s_fn1 LTan); fn1 "tanh" (s_fn1 LTanh);
    un "~" s_neg 100 1 ].

(** /repo/fuzzylite/factory/CloningFactory.h:164-171 *)
Fixpoint get_object (tb : table) (key : string) : option element :=
  match tb with
  | [] => None
  | (k, e) :: r => if String.eqb k key then Some e else get_object r key
  end.
(** FunctionFactory.cpp:155-164 *)
Definition available_operators (tb : table) : list string := map fst (filter (fun p => el_operator (snd p)) tb).

(** Function.h: Node; Function.cpp:124-158 *)
Inductive node := Node (el : option element) (left right : option node) (variable : string) (constant : T).

(** Function.cpp:179-188 *)
Definition node_value (d : nat) (n : node) : string :=
  let '(Node el _ _ v c) := n in
  match el with Some e => el_name e | None => if negb (sempty v) then v else str d c end.

(** variables: std::map<std::string, scalar> *)
Definition vars := list (string * T).
Fixpoint vget (m : vars) (k : string) : option T :=
  match m with [] => None | (k', v) :: r => if String.eqb k' k then Some v else vget r k end.
Fixpoint vset (m : vars) (k : string) (v : T) : vars :=
  match m with
  | [] => [(k, v)]
  | (k', v') :: r => if String.eqb k' k then (k', v) :: r else (k', v') :: vset r k v
  end.

(** Function.cpp:190-230.  C++ leaves the order of evaluation of the two arguments open; both only read. *)
Fixpoint node_evaluate (variables : vars) (n : node) : res T :=
  let '(Node el l r v c) := n in
  match el with
  | Some e =>
    match el_fun e with
    | FnUnary f =>
      match l with
      | Some x => do a <- node_evaluate variables x; Ok (f a)
      | None => match r with
                | Some x => do a <- node_evaluate variables x; Ok (f a)
                | None => Throw EFunction
                end
      end
    | FnBinary f =>
      match l, r with
      | Some x, Some y => do a <- node_evaluate variables x; do b <- node_evaluate variables y; Ok (f a b)
      | _, _ => Throw EFunction
      end
    | FnNone => Throw EFunction
    end
  | None =>
    if negb (sempty v) then match vget variables v with Some x => Ok x | None => Throw EFunction end
    else Ok c
  end.

(** Function.cpp:232-243 *)
Fixpoint tree_size (n : node) : nat :=
  let '(Node el l r _ _) := n in
  (match l with Some x => tree_size x | None => 0 end + match r with Some x => tree_size x | None => 0 end
   + match el with Some _ => 1 | None => 0 end)%nat.

(** Function.cpp:267-283 *)
Fixpoint node_prefix (d : nat) (n : node) : string :=
  let '(Node el l r v c) := n in
  if negb (isNaN c) then str d c
  else if negb (sempty v) then v
  else node_value d n ++ (match l with Some x => " " ++ node_prefix d x | None => "" end)
       ++ (match r with Some x => " " ++ node_prefix d x | None => "" end).
(** Function.cpp:285-309 *)
Fixpoint node_infix (d : nat) (n : node) : string :=
  let '(Node el l r v c) := n in
  if negb (isNaN c) then str d c
  else if negb (sempty v) then v
  else
    let children := ((match l with Some x => [node_infix d x] | None => [] end)
                    ++ (match r with Some x => [node_infix d x] | None => [] end))%list in
    if (match el with Some e => negb (el_operator e) | None => false end)
    then node_value d n ++ " ( " ++ join children " " ++ " )"
    else match children with
         | [x] => node_value d n ++ " " ++ x
         | _ => join children (" " ++ node_value d n ++ " ")
         end.
(** Function.cpp:311-327 *)
Fixpoint node_postfix (d : nat) (n : node) : string :=
  let '(Node el l r v c) := n in
  if negb (isNaN c) then str d c
  else if negb (sempty v) then v
  else (match l with Some x => node_postfix d x ++ " " | None => "" end)
       ++ (match r with Some x => node_postfix d x ++ " " | None => "" end) ++ node_value d n.

(** Function.cpp:487-502: every "(", ")", "," and operator other than "and", "or" is surrounded by spaces *)
Definition space_chars (tb : table) : list string :=
  ["("; ")"; ","] ++ filter (fun o => negb (String.eqb o "and" || String.eqb o "or")) (available_operators tb).
Fixpoint space_loop (chars : list string) (s : string) : res string :=
  match chars with
  | [] => Ok s
  | c :: r => do s' <- replace_all s c (" " ++ c ++ " "); space_loop r s'
  end.
Definition space_formula (tb : table) (formula : string) : res string := space_loop (space_chars tb) formula.

Definition is_delimiter (t : string) : bool := (String.eqb t "(" || String.eqb t ")" || String.eqb t ",")%bool.

(** `while (not stack.empty() and stack.top() != "(")`: moved to the queue, and what is left; Function.cpp:530-533, 565-568 *)
Fixpoint pop_to_paren (stack : list string) : list string * list string :=
  match stack with
  | [] => ([], [])
  | t :: r => if String.eqb t "(" then ([], stack) else let '(q, s) := pop_to_paren r in (t :: q, s)
  end.
(** Function.cpp:542-556 *)
Definition pops (op1 op2 : element) : bool :=
  (((el_associativity op1 <? 0) && (el_precedence op1 =? el_precedence op2)) || (el_precedence op1 <? el_precedence op2))%Z%bool.
Fixpoint pop_operators (tb : table) (op1 : element) (stack : list string) : list string * list string :=
  match stack with
  | [] => ([], [])
  | t :: r => match get_object tb t with
              | Some op2 => if pops op1 op2 then let '(q, s) := pop_operators tb op1 r in (t :: q, s) else ([], stack)
              | None => ([], stack)
              end
  end.
(** one round of the loop, Function.cpp:518-588.  State: queue (front first) and stack (top first). *)
Definition yard_step (tb : table) (st : list string * list string) (token : string) : res (list string * list string) :=
  let '(queue, stack) := st in
  match get_object tb token with
  | None =>
    if String.eqb token "," then
      let '(q, s) := pop_to_paren stack in
      match s with [] => Throw ESyntax | _ => Ok (queue ++ q, s)%list end
    else if String.eqb token "(" then Ok (queue, token :: stack)
    else if String.eqb token ")" then
      let '(q, s) := pop_to_paren stack in
      match s with
      | [] => Throw ESyntax
      | _ :: s' =>
        match s' with
        | f :: s'' => match get_object tb f with
                      | Some e => if el_operator e then Ok (queue ++ q, s')%list else Ok (queue ++ q ++ [f], s'')%list
                      | None => Ok (queue ++ q, s')%list
                      end
        | [] => Ok (queue ++ q, s')%list
        end
      end
    else Ok (queue ++ [token], stack)%list
  | Some e =>
    if negb (el_operator e) then Ok (queue, token :: stack)
    else if String.eqb token "," then (* a registered operator named "," is treated as "," : Function.cpp:529 comes first *)
      let '(q, s) := pop_to_paren stack in
      match s with [] => Throw ESyntax | _ => Ok (queue ++ q, s)%list end
    else let '(q, s) := pop_operators tb e stack in Ok (queue ++ q, token :: s)%list
  end.
Fixpoint yard (tb : table) (st : list string * list string) (ts : list string) : res (list string * list string) :=
  match ts with
  | [] => Ok st
  | t :: r => do st' <- yard_step tb st t; yard tb st' r
  end.
(** Function.cpp:590-598 *)
Fixpoint yard_end (queue stack : list string) : res (list string) :=
  match stack with
  | [] => Ok queue
  | t :: r => if (String.eqb t "(" || String.eqb t ")")%bool then Throw ESyntax else yard_end (queue ++ [t])%list r
  end.
Definition yard_tokens (tb : table) (ts : list string) : res (list string) :=
  do st <- yard tb ([], []) ts; yard_end (fst st) (snd st).
(** Function.cpp:510-605 *)
Definition to_postfix (tb : table) (formula : string) : res string :=
  do spaced <- space_formula tb formula;
  do q <- yard_tokens tb (tokens spaced);
  Ok (join q " ").

(** Function.cpp:612-651: one token; stack of trees (top first).  stack.top() of an empty stack is undefined behaviour. *)
Definition mk_constant (c : T) : node := Node None None None "" c.
Definition mk_variable (v : string) : node := Node None None None v s_nan.
Definition build_step (tb : table) (stack : list node) (token : string) : res (list node) :=
  match get_object tb token with
  | Some e =>
    if (el_arity e >? Z.of_nat (List.length stack))%Z then Throw EFunction else
    match stack with
    | [] => UB
    | r :: rest =>
      if (el_arity e =? 2)%Z then match rest with [] => UB | l :: rest' => Ok (Node (Some e) (Some l) (Some r) "" s_nan :: rest') end
      else Ok (Node (Some e) None (Some r) "" s_nan :: rest)
    end
  | None =>
    if is_delimiter token then Ok stack
    else match to_scalar token with
         | Ok v => Ok (mk_constant v :: stack)
         | _ => Ok (mk_variable token :: stack)
         end
  end.
Fixpoint build (tb : table) (stack : list node) (ts : list string) : res (list node) :=
  match ts with
  | [] => Ok stack
  | t :: r => do st <- build_step tb stack t; build tb st r
  end.
Definition build_tree (tb : table) (ts : list string) : res node :=
  do st <- build tb [] ts;
  match st with [n] => Ok n | _ => Throw EFunction end.
(** Function.cpp:607-658 *)
Definition parse (tb : table) (formula : string) : res node :=
  if sempty formula then Throw EFunction else
  do postfix <- to_postfix tb formula;
  build_tree tb (tokens postfix).

(** * the term *)
(** Function.h: state of the object.  [fn_engine]: whether _engine is set. *)
Record fstate := { fn_formula : string; fn_root : option node; fn_vars : vars; fn_engine : bool }.
(** names and values of the engine's input variables, then of its output variables, in order *)
Definition context := list (string * T).
(** Function.cpp:379-394: membership of x; new variables and outcome *)
Definition fn_fill (m : vars) (ctx : context) : vars := fold_left (fun m p => vset m (fst p) (snd p)) ctx m.
Definition fn_membership (st : fstate) (ctx : context) (x : T) : fstate * res T :=
  match fn_root st with
  | None => (st, Throw EFunction)
  | Some root =>
    let m := if fn_engine st then fn_fill (fn_vars st) ctx else fn_vars st in
    let m := vset m "x" x in
    ({| fn_formula := fn_formula st; fn_root := fn_root st; fn_vars := m; fn_engine := fn_engine st |}, node_evaluate m root)
  end.
(** Function.cpp:396-409 *)
Definition fn_evaluate (st : fstate) (locals : vars) : fstate * res T :=
  match fn_root st with
  | None => (st, Throw EFunction)
  | Some root =>
    let m := fn_fill (fn_vars st) locals in
    ({| fn_formula := fn_formula st; fn_root := fn_root st; fn_vars := m; fn_engine := fn_engine st |}, node_evaluate m root)
  end.
(** Function.cpp:442-448 *)
Definition fn_load (tb : table) (st : fstate) (formula : string) (engine : bool) (ctx : context) : fstate * res unit :=
  let st1 := {| fn_formula := formula; fn_root := fn_root st; fn_vars := fn_vars st; fn_engine := engine |} in
  match parse tb formula with
  | Ok n =>
    let st2 := {| fn_formula := formula; fn_root := Some n; fn_vars := fn_vars st; fn_engine := engine |} in
    let '(st3, r) := fn_membership st2 ctx s_0 in
    (st3, do _ <- r; Ok tt)
  | Throw e => (st1, Throw e)
  | UB => (st1, UB)
  | Diverge => (st1, Diverge)
  end.
(** Function.cpp:431-434 *)
Definition fn_unload (st : fstate) : fstate :=
  {| fn_formula := fn_formula st; fn_root := None; fn_vars := []; fn_engine := fn_engine st |}.
(** Function.cpp:478-485: exceptions are swallowed *)
Definition fn_update_reference (tb : table) (st : fstate) (engine : bool) (ctx : context) : fstate :=
  fst (fn_load tb st (fn_formula st) engine ctx).
End Function.
Arguments element : clear implicits. Arguments node : clear implicits. Arguments table : clear implicits.
Arguments vars : clear implicits. Arguments fstate : clear implicits. Arguments context : clear implicits. Arguments el_fn : clear implicits.
