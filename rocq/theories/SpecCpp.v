(** The meaning of a small part of C++: statements which declare objects of the library and call their methods.  Anything else is an error,
    as if it did not compile. *)
From Coq Require Import ZArith List Bool String Ascii.
From Verif Require Import Base Op Norm Hedge Shape Discrete Defuzz Aggregated Text Function Rule Var Activation Engine Factory Fll SpecFll.
Import ListNotations.
Local Open Scope string_scope.

(** ** tokens: words (names, numbers, with their qualifications), literals of strings, and single characters *)
Inductive token := TWord (w : string) | TText (s : string) | TSymbol (c : ascii).
(** inside of code, after a slash, in a comment, in a literal *)
Inductive mode := InCode | AfterSlash | InComment | InText.
Record lexer := Lexer { lx_mode : mode; lx_word : string; lx_tokens : list token }.
Definition word_char (c : ascii) : bool := (is_alnum c || Ascii.eqb c "_" || Ascii.eqb c "." || Ascii.eqb c ":")%bool.
Definition flush (w : string) (ts : list token) : list token := if sempty w then ts else (ts ++ [TWord w])%list.
(** escape sequences are outside of this part of the language, and so are lines ending inside of a literal *)
Definition lex_char (st : lexer) (c : ascii) : option lexer :=
  let '(Lexer m w ts) := st in
  match m with
  | InCode =>
    if word_char c then Some (Lexer InCode (w ++ char c) ts)
    else let ts := flush w ts in
         if is_space c then Some (Lexer InCode "" ts)
         else if Ascii.eqb c "034" then Some (Lexer InText "" ts)
         else if Ascii.eqb c "/" then Some (Lexer AfterSlash "" ts)
         else Some (Lexer InCode "" (ts ++ [TSymbol c])%list)
  | AfterSlash => if Ascii.eqb c "/" then Some (Lexer InComment "" ts) else None
  | InComment => if Ascii.eqb c newline then Some (Lexer InCode "" ts) else Some (Lexer InComment "" ts)
  | InText => if Ascii.eqb c "034" then Some (Lexer InCode "" (ts ++ [TText w])%list)
              else if (Ascii.eqb c newline || Ascii.eqb c "\")%bool then None else Some (Lexer InText (w ++ char c) ts)
  end.
Fixpoint lex_from (st : lexer) (s : string) : option lexer :=
  match s with "" => Some st | String c r => match lex_char st c with Some st => lex_from st r | None => None end end.
Definition tokenize (s : string) : option (list token) :=
  match lex_from (Lexer InCode "" []) s with
  | Some (Lexer InCode w ts) | Some (Lexer InComment w ts) => Some (flush w ts)
  | _ => None
  end.

(** ** statements *)
Inductive atom := AText (s : string) | AWord (w : string) | ANegative (w : string).
Inductive expr := EAtom (a : atom) | ENew (class : string) (arguments : list atom) | ECall (function : string) (arguments : list atom).
Inductive statement := SUsing (namespace : string) | SDeclare (type x class : string) | SMethod (x method : string) (arguments : list expr).

(** the parts of [ts] before each [c] outside of parentheses; [open]: how many are open *)
Fixpoint parts (c : ascii) (open : nat) (cur : list token) (ts : list token) : list (list token) :=
  match ts with
  | [] => [cur]
  | TSymbol x :: r =>
    if (Ascii.eqb x c && Nat.eqb open 0)%bool then cur :: parts c open [] r
    else parts c (if Ascii.eqb x "(" then Datatypes.S open else if Ascii.eqb x ")" then Nat.pred open else open) (cur ++ [TSymbol x])%list r
  | t :: r => parts c open (cur ++ [t])%list r
  end.
Definition parse_atom (ts : list token) : option atom :=
  match ts with [TText s] => Some (AText s) | [TWord w] => Some (AWord w) | [TSymbol "-"; TWord w] => Some (ANegative w) | _ => None end.
Definition all_some {A B} (f : A -> option B) (l : list A) : option (list B) :=
  fold_right (fun a acc => match f a, acc with Some b, Some bs => Some (b :: bs) | _, _ => None end) (Some []) l.
(** what is between parentheses, [ts] being what follows the first *)
Definition inside (ts : list token) : option (list token) :=
  match rev ts with TSymbol ")" :: r => Some (rev r) | _ => None end.
Definition parse_list {A} (item : list token -> option A) (ts : list token) : option (list A) :=
  match ts with [] => Some [] | _ => all_some item (parts "," 0 [] ts) end.
Definition option_bind {A B} (o : option A) (f : A -> option B) : option B := match o with Some a => f a | None => None end.
Definition parse_expr (ts : list token) : option expr :=
  match ts with
  | TWord k :: TWord class :: r =>
    if String.eqb k "new" then
      match r with
      | [] => Some (ENew class [])
      | TSymbol "(" :: r => option_bind (inside r) (fun l => option_map (ENew class) (parse_list parse_atom l))
      | _ => None
      end
    else None
  | TWord f :: TSymbol "(" :: r => option_bind (inside r) (fun l => option_map (ECall f) (parse_list parse_atom l))
  | _ => option_map EAtom (parse_atom ts)
  end.
Definition parse_statement (ts : list token) : option statement :=
  match ts with
  | [TWord u; TWord k; TWord n] => if (String.eqb u "using" && String.eqb k "namespace")%bool then Some (SUsing n) else None
  | [TWord type; TSymbol "*"; TWord x; TSymbol "="; TWord k; TWord class] => if String.eqb k "new" then Some (SDeclare type x class) else None
  | TWord x :: TSymbol "-" :: TSymbol ">" :: TWord m :: TSymbol "(" :: r => option_bind (inside r) (fun l => option_map (SMethod x m) (parse_list parse_expr l))
  | _ => None
  end.
(** every statement ends with a semicolon *)
Definition parse_program (ts : list token) : option (list statement) :=
  let l := parts ";" 0 [] ts in
  match last l [] with [] => all_some parse_statement (removelast l) | _ => None end.

(** ** names *)
Definition keywords : list string :=
  ["alignas"; "alignof"; "and"; "and_eq"; "asm"; "auto"; "bitand"; "bitor"; "bool"; "break"; "case"; "catch"; "char"; "char16_t"; "char32_t"; "class"; "compl"; "const";
   "constexpr"; "const_cast"; "continue"; "decltype"; "default"; "delete"; "do"; "double"; "dynamic_cast"; "else"; "enum"; "explicit"; "export"; "extern"; "false"; "float";
   "for"; "friend"; "goto"; "if"; "inline"; "int"; "long"; "mutable"; "namespace"; "new"; "noexcept"; "not"; "not_eq"; "nullptr"; "operator"; "or"; "or_eq"; "private";
   "protected"; "public"; "register"; "reinterpret_cast"; "return"; "short"; "signed"; "sizeof"; "static"; "static_assert"; "static_cast"; "struct"; "switch"; "template";
   "this"; "thread_local"; "throw"; "true"; "try"; "typedef"; "typeid"; "typename"; "union"; "unsigned"; "using"; "virtual"; "void"; "volatile"; "wchar_t"; "while"; "xor"; "xor_eq"].
Definition is_identifier (x : string) : bool :=
  match x with
  | "" => false
  | String c _ => (negb (is_digit c) && sforall (fun c => is_alnum c || Ascii.eqb c "_") x && negb (existsb (String.eqb x) keywords))%bool
  end.
Fixpoint strip (pat s : string) : option string :=
  match pat, s with "", _ => Some s | String a p, String b r => if Ascii.eqb a b then strip p r else None | _, "" => None end.

Section Run.
Context {T : Type} `{S : Scalar T}.
Inductive object := OInput (v : variable T) | OOutput (o : output T) | OBlock (b : block T).
(** whether the namespace is used, the names declared, the engine and its name, the objects which are not yet part of it.  Simplification:
    an object is not changed any more after it has been added to the engine (an error here). *)
Record cstate := CState { cs_using : bool; cs_declared : list string; cs_engine : option (string * engine T); cs_objects : list (string * object) }.
Definition start : cstate := CState false [] None [].

(** what fails here does not compile *)
Definition broken {A} : res A := Throw ESyntax.
(** a name of the library: qualified with fl:: (`namespace fl = fuzzylite`, fuzzylite.h:485), or not if the namespace is used and the name does not
    mean a variable *)
Definition library_name (st : cstate) (w : string) : res string :=
  match strip "fl::" w with Some c => Ok c | None => if (cs_using st && negb (existsb (String.eqb w) (cs_declared st)))%bool then Ok w else broken end.
(** literals of numbers: digits with at most one point.  They are converted like texts (C60). *)
Definition is_literal (w : string) : bool :=
  match w with "" => false | String c _ => (is_digit c && sforall (fun c => is_digit c || Ascii.eqb c ".") w)%bool end.
Definition scalar_of (a : atom) : res T :=
  match a with
  | AWord w => if String.eqb w "fl::nan" then Ok s_nan else if String.eqb w "fl::inf" then Ok s_inf else if is_literal w then to_scalar w else broken
  | ANegative w => if String.eqb w "fl::inf" then Ok (s_neg s_inf) else if is_literal w then to_scalar (String "-" w) else broken
  | AText _ => broken
  end.
(** literals of type double *)
Definition double_of (a : atom) : res T :=
  match a with AWord w | ANegative w => if existsb (Ascii.eqb ".") (list_ascii_of_string w) then scalar_of a else broken | AText _ => broken end.
Definition int_of (a : atom) : res Z :=
  match a with
  | AWord w => if sforall is_digit w then to_int (T := T) w else broken
  | ANegative w => if sforall is_digit w then to_int (T := T) (String "-" w) else broken
  | AText _ => broken
  end.
Definition bool_of (e : expr) : res bool :=
  match e with EAtom (AWord w) => if String.eqb w "true" then Ok true else if String.eqb w "false" then Ok false else broken | _ => broken end.
Definition text_of_atom (a : atom) : res string := match a with AText s => Ok s | _ => broken end.
Definition engine_of (st : cstate) (a : atom) : res (engine T) :=
  match a, cs_engine st with AWord w, Some (x, e) => if String.eqb w x then Ok e else broken | _, _ => broken end.

(** ** objects *)
Definition by_class {A} (class : A -> string) (l : list A) (c : string) : res A := match find (fun a => String.eqb (class a) c) l with Some a => Ok a | None => broken end.
(** new objects of classes without parameters *)
Definition norm_of {A} (class : A -> string) (l : list A) (st : cstate) (e : expr) : res (option A) :=
  match e with
  | EAtom (AWord w) => if String.eqb w "fl::null" then Ok None else broken
  | ENew c [] => do c <- library_name st c; do n <- by_class class l c; Ok (Some n)
  | _ => broken
  end.
Definition tnorms : list tnorm := [AlgebraicProduct; BoundedDifference; DrasticProduct; EinsteinProduct; HamacherProduct; Minimum; NilpotentMinimum].
Definition snorms : list snorm := [AlgebraicSum; BoundedSum; DrasticSum; EinsteinSum; HamacherSum; Maximum; NilpotentMaximum; NormalizedSum; UnboundedSum].
(** constructors: Bisector.h:41, Centroid.h:48, LargestOfMaximum.h:43, MeanOfMaximum.h:40, SmallestOfMaximum.h:43, WeightedAverage.h:46, WeightedSum.h:46,
    WeightedDefuzzifier.cpp:38-42 *)
Definition defuzzifier_of (st : cstate) (e : expr) : res (option defuzzifier) :=
  match e with
  | EAtom (AWord w) => if String.eqb w "fl::null" then Ok None else broken
  | ENew c [a] =>
    do c <- library_name st c;
    match a with
    | AText ty => do k <- by_class (fun k => defuzzifier_class (DWeighted k WAutomatic)) [WeightedAverage; WeightedSum] c;
                  Ok (Some (DWeighted k (match wtype_of_name ty with Ok w => w | _ => WAutomatic end)))
    | _ => do k <- by_class (fun k => defuzzifier_class (DIntegral k 0)) [Bisector; Centroid; LargestOfMaximum; MeanOfMaximum; SmallestOfMaximum] c;
           do n <- int_of a; Ok (Some (DIntegral k n))
    end
  | _ => broken
  end.
(** constructors: First.h:60, Last.h:60, Highest.h:59, Lowest.h:59, Threshold.h:93-94 with Threshold.cpp:105-119, General.h, Proportional.h *)
Definition activation_of (st : cstate) (e : expr) : res (option (activation T)) :=
  match e with
  | EAtom (AWord w) => if String.eqb w "fl::null" then Ok None else broken
  | ENew c l =>
    do c <- library_name st c;
    if String.eqb c "General" then match l with [] => Ok (Some General) | _ => broken end
    else if String.eqb c "Proportional" then match l with [] => Ok (Some Proportional) | _ => broken end
    else if String.eqb c "First" then match l with [n; t] => do n <- int_of n; do t <- scalar_of t; Ok (Some (First n t)) | _ => broken end
    else if String.eqb c "Last" then match l with [n; t] => do n <- int_of n; do t <- scalar_of t; Ok (Some (Last n t)) | _ => broken end
    else if String.eqb c "Highest" then match l with [n] => do n <- int_of n; Ok (Some (Highest n)) | _ => broken end
    else if String.eqb c "Lowest" then match l with [n] => do n <- int_of n; Ok (Some (Lowest n)) | _ => broken end
    else if String.eqb c "Threshold" then match l with [o; t] => do o <- text_of_atom o; do o <- parse_comparison o; do t <- scalar_of t; Ok (Some (Threshold o t)) | _ => broken end
    else broken
  | _ => broken
  end.
(** constructors of shapes (headers in /repo/fuzzylite/term) with all parameters; Triangle.cpp:22-31, Trapezoid.cpp:22-36 *)
Definition shape_of (c : string) (l : list T) : option (shape T) :=
  match l with
  | [x; y] =>
    if String.eqb c "Binary" then Some (Binary x y) else if String.eqb c "Concave" then Some (Concave x y) else if String.eqb c "Cosine" then Some (Cosine x y)
    else if String.eqb c "Gaussian" then Some (Gaussian x y) else if String.eqb c "Ramp" then Some (Ramp x y) else if String.eqb c "Rectangle" then Some (Rectangle x y)
    else if String.eqb c "SShape" then Some (SShape x y) else if String.eqb c "Sigmoid" then Some (Sigmoid x y) else if String.eqb c "Spike" then Some (Spike x y)
    else if String.eqb c "ZShape" then Some (ZShape x y) else None
  | [x; y; z] =>
    if String.eqb c "Bell" then Some (Bell x y z)
    else if String.eqb c "Triangle" then Some (if isNaN z then Triangle x (s_mul s_half (s_add x y)) y else Triangle x y z) else None
  | [x; y; z; w] =>
    if String.eqb c "GaussianProduct" then Some (GaussianProduct x y z w) else if String.eqb c "PiShape" then Some (PiShape x y z w)
    else if String.eqb c "SigmoidDifference" then Some (SigmoidDifference x y z w) else if String.eqb c "SigmoidProduct" then Some (SigmoidProduct x y z w)
    else if String.eqb c "Trapezoid" then
      Some (if (isNaN z && isNaN w)%bool then let range := s_sub y x in
              Trapezoid x (s_add x (s_div (s_mul range s_1) (s_int 5))) (s_add x (s_div (s_mul range (s_int 4)) (s_int 5))) y
            else Trapezoid x y z w)
    else None
  | _ => None
  end.
(** `new` of a shape or Constant (Constant.h:48), with the height as last parameter or not *)
Definition new_term_of (c name : string) (l : list T) : res (term T) :=
  if String.eqb c "Constant" then match l with [x] => Ok (mkTerm name s_1 (TConstant x)) | _ => broken end
  else match shape_of c l with
  | Some s => Ok (mkTerm name s_1 (TShape s))
  | None => match shape_of c (removelast l) with Some s => Ok (mkTerm name (last l s_nan) (TShape s)) | None => broken end
  end.
(** Discrete::create (Discrete.h:269-287): as many numbers are read as announced, which is undefined behaviour if there are fewer;
    Linear::create (Linear.h:164-182): one number more than the engine has input variables by now; Function::create (Function.cpp:419-423) *)
Definition term_of (st : cstate) (e : expr) : res (term T) :=
  match e with
  | ENew c (name :: l) => do c <- library_name st c; do name <- text_of_atom name; do l <- rmapM scalar_of l; new_term_of c name l
  | ECall f (name :: a :: l) =>
    do f <- library_name st f; do name <- text_of_atom name;
    if String.eqb f "Discrete::create" then
      do n <- int_of a; do l <- rmapM double_of l;
      if Nat.ltb (List.length l) 2 then broken else if (n <? 2)%Z then Throw EOutOfRange else
      if (Z.of_nat (List.length l) <? n)%Z then UB else
      let l := firstn (Z.to_nat n) l in
      let '(h, l) := if Nat.even (List.length l) then (s_1, l) else (last l s_nan, removelast l) in
      do xy <- to_pairs l; Ok (mkTerm name h (TDiscrete xy))
    else if String.eqb f "Linear::create" then
      do e <- engine_of st a; do l <- rmapM double_of l;
      if Nat.ltb (List.length l) 1 then broken else
      let n := Datatypes.S (List.length (e_inputs e)) in
      if Nat.ltb (List.length l) n then UB else Ok (mkTerm name s_1 (TLinear (firstn n l) true))
    else if String.eqb f "Function::create" then
      match l with
      | [x] =>
        do e <- engine_of st x; do formula <- text_of_atom a;
        let '(f, r) := fn_load default_table {| fn_formula := ""; fn_root := None; fn_vars := []; fn_engine := false |} formula true (vw_context (engine_view (e_inputs e) (e_outputs e))) in
        do _ <- r; Ok (mkTerm name s_1 (TFunction f))
      | _ => broken
      end
    else broken
  | _ => broken
  end.
(** Rule::parse (Rule.cpp:249-253) *)
Definition rule_of (st : cstate) (e : expr) : res (rule T) :=
  match e with
  | ECall f [text; x] =>
    do f <- library_name st f; do text <- text_of_atom text; do e <- engine_of st x;
    if String.eqb f "Rule::parse" then let '(r, out) := rule_load (engine_env (e_inputs e) (e_outputs e)) text (rule_new "" s_1) in do _ <- out; Ok r
    else broken
  | _ => broken
  end.

(** ** methods *)
Definition text_arg (l : list expr) : res string := match l with [EAtom a] => text_of_atom a | _ => broken end.
Definition bool_arg (l : list expr) : res bool := match l with [e] => bool_of e | _ => broken end.
Definition one_arg {A} (f : expr -> res A) (l : list expr) : res A := match l with [e] => f e | _ => broken end.
Definition scalar_arg (l : list expr) : res T := match l with [EAtom a] => scalar_of a | _ => broken end.
(** methods of Variable; [None]: it is none of them *)
Definition variable_method (st : cstate) (m : string) (l : list expr) (v : variable T) : option (res (variable T)) :=
  if String.eqb m "setName" then Some (do s <- text_arg l; Ok (set_v_name s v))
  else if String.eqb m "setDescription" then Some (do s <- text_arg l; Ok (set_v_description s v))
  else if String.eqb m "setEnabled" then Some (do b <- bool_arg l; Ok (enable_variable b v))
  else if String.eqb m "setRange" then Some (match l with [EAtom a; EAtom b] => do x <- scalar_of a; do y <- scalar_of b; Ok (set_range x y v) | _ => broken end)
  else if String.eqb m "setLockValueInRange" then Some (do b <- bool_arg l; Ok (set_lock_range b v))
  else if String.eqb m "addTerm" then Some (do t <- one_arg (term_of st) l; Ok (set_terms (v_terms v ++ [t])%list v))
  else None.
Definition output_method (st : cstate) (m : string) (l : list expr) (o : output T) : res (output T) :=
  match variable_method st m l (o_var o) with
  | Some r => do v <- r; Ok (set_var v o)
  | None =>
    if String.eqb m "setAggregation" then do n <- one_arg (norm_of snorm_class snorms st) l; Ok (set_operators n (o_defuzzifier o) o)
    else if String.eqb m "setDefuzzifier" then do z <- one_arg (defuzzifier_of st) l; Ok (set_operators (o_aggregation o) z o)
    else if String.eqb m "setDefaultValue" then
      do x <- scalar_arg l; Ok (mkOutput (o_var o) (o_fuzzy o) (o_aggregation o) (o_defuzzifier o) (o_previous o) x (o_lock_previous o))
    else if String.eqb m "setLockPreviousValue" then
      do b <- bool_arg l; Ok (mkOutput (o_var o) (o_fuzzy o) (o_aggregation o) (o_defuzzifier o) (o_previous o) (o_default o) b)
    else broken
  end.
Definition block_method (st : cstate) (m : string) (l : list expr) (b : block T) : res (block T) :=
  if String.eqb m "setName" then
    do s <- text_arg l; Ok (mkBlock (b_enabled b) s (b_description b) (b_rules b) (b_conjunction b) (b_disjunction b) (b_implication b) (b_activation b))
  else if String.eqb m "setDescription" then
    do s <- text_arg l; Ok (mkBlock (b_enabled b) (b_name b) s (b_rules b) (b_conjunction b) (b_disjunction b) (b_implication b) (b_activation b))
  else if String.eqb m "setEnabled" then
    do x <- bool_arg l; Ok (mkBlock x (b_name b) (b_description b) (b_rules b) (b_conjunction b) (b_disjunction b) (b_implication b) (b_activation b))
  else if String.eqb m "setConjunction" then
    do n <- one_arg (norm_of tnorm_class tnorms st) l; Ok (mkBlock (b_enabled b) (b_name b) (b_description b) (b_rules b) n (b_disjunction b) (b_implication b) (b_activation b))
  else if String.eqb m "setDisjunction" then
    do n <- one_arg (norm_of snorm_class snorms st) l; Ok (mkBlock (b_enabled b) (b_name b) (b_description b) (b_rules b) (b_conjunction b) n (b_implication b) (b_activation b))
  else if String.eqb m "setImplication" then
    do n <- one_arg (norm_of tnorm_class tnorms st) l; Ok (mkBlock (b_enabled b) (b_name b) (b_description b) (b_rules b) (b_conjunction b) (b_disjunction b) n (b_activation b))
  else if String.eqb m "setActivation" then do a <- one_arg (activation_of st) l; Ok (set_activation a b)
  else if String.eqb m "addRule" then do r <- one_arg (rule_of st) l; Ok (set_rules (b_rules b ++ [r])%list b)
  else broken.
Definition lookup (x : string) (l : list (string * object)) : option object := option_map snd (find (fun p => String.eqb (fst p) x) l).
Definition remove (x : string) (l : list (string * object)) : list (string * object) := filter (fun p => negb (String.eqb (fst p) x)) l.
Definition object_arg (st : cstate) (l : list expr) : res (string * object) :=
  match l with [EAtom (AWord x)] => match lookup x (cs_objects st) with Some o => Ok (x, o) | None => broken end | _ => broken end.
Definition engine_method (st : cstate) (m : string) (l : list expr) (e : engine T) : res (engine T * list (string * object)) :=
  if String.eqb m "setName" then do s <- text_arg l; Ok (mkEngine s (e_description e) (e_inputs e) (e_outputs e) (e_blocks e), cs_objects st)
  else if String.eqb m "setDescription" then do s <- text_arg l; Ok (mkEngine (e_name e) s (e_inputs e) (e_outputs e) (e_blocks e), cs_objects st)
  else do p <- object_arg st l;
  let '(x, o) := p in
  match o with
  | OInput v => if String.eqb m "addInputVariable" then Ok (mkEngine (e_name e) (e_description e) (e_inputs e ++ [v])%list (e_outputs e) (e_blocks e), remove x (cs_objects st)) else broken
  | OOutput o => if String.eqb m "addOutputVariable" then Ok (mkEngine (e_name e) (e_description e) (e_inputs e) (e_outputs e ++ [o])%list (e_blocks e), remove x (cs_objects st)) else broken
  | OBlock b => if String.eqb m "addRuleBlock" then Ok (mkEngine (e_name e) (e_description e) (e_inputs e) (e_outputs e) (e_blocks e ++ [b])%list, remove x (cs_objects st)) else broken
  end.

(** ** statements *)
Definition put (x : string) (o : object) (st : cstate) : cstate := CState (cs_using st) (cs_declared st) (cs_engine st) ((x, o) :: remove x (cs_objects st)).
Definition run_statement (st : cstate) (s : statement) : res cstate :=
  match s with
  | SUsing n => if String.eqb n "fuzzylite" then Ok (CState true (cs_declared st) (cs_engine st) (cs_objects st)) else broken
  | SDeclare type x class =>
    do type <- library_name st type; do class <- library_name st class;
    if (negb (is_identifier x) || existsb (String.eqb x) (cs_declared st) || negb (String.eqb type class))%bool then broken else
    let declared := x :: cs_declared st in
    if String.eqb class "Engine" then match cs_engine st with None => Ok (CState (cs_using st) declared (Some (x, new_engine)) (cs_objects st)) | Some _ => broken end
    else if String.eqb class "InputVariable" then Ok (CState (cs_using st) declared (cs_engine st) ((x, OInput new_variable) :: cs_objects st))
    else if String.eqb class "OutputVariable" then Ok (CState (cs_using st) declared (cs_engine st) ((x, OOutput new_output) :: cs_objects st))
    else if String.eqb class "RuleBlock" then Ok (CState (cs_using st) declared (cs_engine st) ((x, OBlock new_block) :: cs_objects st))
    else broken
  | SMethod x m l =>
    match lookup x (cs_objects st) with
    | Some (OInput v) => match variable_method st m l v with Some r => do v <- r; Ok (put x (OInput v) st) | None => broken end
    | Some (OOutput o) => do o <- output_method st m l o; Ok (put x (OOutput o) st)
    | Some (OBlock b) => do b <- block_method st m l b; Ok (put x (OBlock b) st)
    | None =>
      match cs_engine st with
      | Some (y, e) => if String.eqb x y then do r <- engine_method st m l e; Ok (CState (cs_using st) (cs_declared st) (Some (y, fst r)) (snd r)) else broken
      | None => broken
      end
    end
  end.
(** the engine built by a program; no object is left apart from it *)
Definition run_cpp (text : string) : res (engine T) :=
  match option_bind (tokenize text) parse_program with
  | None => broken
  | Some p =>
    do st <- rfold run_statement start p;
    match cs_engine st, cs_objects st with Some (_, e), [] => Ok e | _, _ => broken end
  end.
End Run.
Arguments object : clear implicits. Arguments cstate : clear implicits.

(** ** engines for which there is such a program: texts which may stand between quotation marks, finite numbers in terms and activations, *)
Definition literal (s : string) : Prop := lacks "034" s = true /\ lacks newline s = true /\ lacks "\" s = true.
Section Expressible.
Context {T : Type} `{S : Scalar T}.
(** [inputs]: how many input variables the engine has before; what is not shown in the code is the height of Discrete *)
Definition term_expressible (inputs : nat) (t : term T) : Prop :=
  literal (tm_name t) /\
  match tm_body t with
  | TShape s => Forall (fun x => isFinite x = true) (shape_list s) /\ (isEq (tm_height t) s_1 = true \/ isFinite (tm_height t) = true)
  | TDiscrete xy => xy <> [] /\ int_range (Z.of_nat (List.length xy * 2)) /\ Forall (fun p => isFinite (fst p) = true /\ isFinite (snd p) = true) xy /\ isEq (tm_height t) s_1 = true
  | TConstant v => isFinite v = true
  | TLinear cs _ => Forall (fun x => isFinite x = true) cs /\ List.length cs = Datatypes.S inputs
  | TFunction f => literal (fn_formula f)
  end.
Definition variable_expressible (inputs : nat) (v : variable T) : Prop :=
  literal (v_name v) /\ literal (v_description v) /\ Forall (term_expressible inputs) (v_terms v).
(** the classes of weighted defuzzifiers are written without namespace *)
Definition output_expressible (namespaced : bool) (inputs : nat) (o : output T) : Prop :=
  variable_expressible inputs (o_var o) /\
  match o_defuzzifier o with None => True | Some (DIntegral _ n) => int_range n | Some (DWeighted _ _) => namespaced = false end.
Definition block_expressible (b : block T) : Prop :=
  literal (b_name b) /\ literal (b_description b) /\ Forall (fun r => literal (rl_text r)) (b_rules b) /\
  match b_activation b with
  | Some (First n t) | Some (Last n t) => int_range n /\ isFinite t = true
  | Some (Highest n) | Some (Lowest n) => int_range n
  | Some (Threshold _ v) => isFinite v = true
  | _ => True
  end.
Fixpoint inputs_expressible (before : nat) (vs : list (variable T)) : Prop :=
  match vs with [] => True | v :: vs => variable_expressible before v /\ inputs_expressible (Datatypes.S before) vs end.
(** names of variables of the program: different identifiers, none of which hides a class of the library *)
Definition library_classes : list string :=
  (["Engine"; "InputVariable"; "OutputVariable"; "RuleBlock"] ++ map tnorm_class tnorms ++ map snorm_class snorms ++
   ["Bisector"; "Centroid"; "LargestOfMaximum"; "MeanOfMaximum"; "SmallestOfMaximum"; "WeightedAverage"; "WeightedSum"] ++
   ["First"; "General"; "Highest"; "Last"; "Lowest"; "Proportional"; "Threshold"] ++
   ["Bell"; "Binary"; "Concave"; "Constant"; "Cosine"; "Gaussian"; "GaussianProduct"; "PiShape"; "Ramp"; "Rectangle"; "SShape"; "Sigmoid"; "SigmoidDifference"; "SigmoidProduct"; "Spike"; "Trapezoid"; "Triangle"; "ZShape"])%list.
Fixpoint block_names (i n : nat) (bs : list (block T)) : list string :=
  match bs with
  | [] => []
  | b :: bs => (if sempty (b_name b) then "ruleBlock" ++ (if Nat.ltb 1 n then str_int (Z.of_nat (Datatypes.S i)) else "") else b_name b) :: block_names (Datatypes.S i) n bs
  end.
Definition program_names (e : engine T) : list string :=
  ("engine" :: map v_name (e_inputs e) ++ map (fun o => v_name (o_var o)) (e_outputs e) ++ block_names 0 (List.length (e_blocks e)) (e_blocks e))%list.
Definition names_usable (e : engine T) : Prop :=
  NoDup (program_names e) /\ Forall (fun x => is_identifier x = true /\ ~ In x library_classes) (program_names e).
Definition expressible (namespaced named : bool) (e : engine T) : Prop :=
  literal (e_name e) /\ literal (e_description e) /\ inputs_expressible 0 (e_inputs e) /\
  Forall (output_expressible namespaced (List.length (e_inputs e))) (e_outputs e) /\ Forall block_expressible (e_blocks e) /\
  (named = true -> names_usable e).
Definition activations_given (e : engine T) : Prop := Forall (fun b => b_activation b <> None) (e_blocks e).
(** every rule can be loaded *)
Definition rules_load (e : engine T) : Prop :=
  Forall (fun b => Forall (fun r => snd (rule_load (engine_env (e_inputs e) (e_outputs e)) (rl_text r) (rule_new (rl_text r) s_1)) = Ok tt) (b_rules b)) (e_blocks e).
End Expressible.
