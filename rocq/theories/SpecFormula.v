(** What formulas mean: tokens, precedence, associativity and parentheses, independently of how they are parsed. *)
From Coq Require Import ZArith List Bool String Ascii.
Import ListNotations.
Local Open Scope string_scope.

(** what a name stands for: prefix operator (precedence), infix operator (precedence, grouping to the left?), function *)
Inductive kind := KPrefix (prec : Z) | KInfix (prec : Z) (left : bool) | KFun1 | KFun2.
Definition signature := list (string * kind).
Fixpoint kind_in (sg : signature) (t : string) : option kind :=
  match sg with [] => None | (k, x) :: r => if String.eqb k t then Some x else kind_in r t end.

(** the documented operators and functions *)
Definition documented : signature :=
  [ ("!", KPrefix 100); ("~", KPrefix 100); ("^", KInfix 90 false); ("*", KInfix 80 true); ("/", KInfix 80 true); ("%", KInfix 80 true);
    ("+", KInfix 70 true); ("-", KInfix 70 true); ("and", KInfix 60 true); ("or", KInfix 50 true);
    ("abs", KFun1); ("acos", KFun1); ("acosh", KFun1); ("asin", KFun1); ("asinh", KFun1); ("atan", KFun1); ("atanh", KFun1);
    ("ceil", KFun1); ("cos", KFun1); ("cosh", KFun1); ("exp", KFun1); ("fabs", KFun1); ("floor", KFun1); ("log", KFun1); ("log10", KFun1);
    ("log1p", KFun1); ("round", KFun1); ("sin", KFun1); ("sinh", KFun1); ("sqrt", KFun1); ("tan", KFun1); ("tanh", KFun1);
    ("atan2", KFun2); ("eq", KFun2); ("fmod", KFun2); ("ge", KFun2); ("gt", KFun2); ("le", KFun2); ("lt", KFun2); ("max", KFun2);
    ("min", KFun2); ("neq", KFun2); ("pow", KFun2) ].

(** expressions *)
Inductive expr :=
| Operand (t : string)
| Pre (op : string) (e : expr)
| In_ (op : string) (a b : expr)
| Call1 (f : string) (e : expr)
| Call2 (f : string) (a b : expr).

Definition delimiter (t : string) : Prop := t = "(" \/ t = ")" \/ t = ",".

(** [Renders sg p e ts]: the tokens [ts] are a way to write [e] where only operators of precedence at least [p] may stand
    outside parentheses; superfluous parentheses are allowed *)
Inductive Renders (sg : signature) : Z -> expr -> list string -> Prop :=
| r_operand p t : kind_in sg t = None -> ~ delimiter t -> Renders sg p (Operand t) [t]
| r_paren p q e ts : Renders sg q e ts -> Renders sg p e ("(" :: ts ++ [")"])
| r_prefix p op q e ts : kind_in sg op = Some (KPrefix q) -> (p <= q)%Z -> Renders sg q e ts -> Renders sg p (Pre op e) (op :: ts)
| r_left p op q a b ts us : kind_in sg op = Some (KInfix q true) -> (p <= q)%Z ->
    Renders sg q a ts -> Renders sg (q + 1) b us -> Renders sg p (In_ op a b) (ts ++ op :: us)
| r_right p op q a b ts us : kind_in sg op = Some (KInfix q false) -> (p <= q)%Z ->
    Renders sg (q + 1) a ts -> Renders sg q b us -> Renders sg p (In_ op a b) (ts ++ op :: us)
| r_call1 p q f e ts : kind_in sg f = Some KFun1 -> Renders sg q e ts -> Renders sg p (Call1 f e) (f :: "(" :: ts ++ [")"])
| r_call2 p q r f a b ts us : kind_in sg f = Some KFun2 -> Renders sg q a ts -> Renders sg r b us ->
    Renders sg p (Call2 f a b) (f :: "(" :: ts ++ "," :: us ++ [")"]).

(** one way to write [e]: parentheses only where needed *)
Definition wrap (b : bool) (ts : list string) : list string := if b then "(" :: ts ++ [")"] else ts.
Fixpoint minimal (sg : signature) (p : Z) (e : expr) : list string :=
  match e with
  | Operand t => [t]
  | Pre op e => match kind_in sg op with
                | Some (KPrefix q) => wrap (q <? p)%Z (op :: minimal sg q e)
                | _ => []
                end
  | In_ op a b => match kind_in sg op with
                  | Some (KInfix q true) => wrap (q <? p)%Z (minimal sg q a ++ op :: minimal sg (q + 1) b)
                  | Some (KInfix q false) => wrap (q <? p)%Z (minimal sg (q + 1) a ++ op :: minimal sg q b)
                  | _ => []
                  end
  | Call1 f e => f :: "(" :: minimal sg 0 e ++ [")"]
  | Call2 f a b => f :: "(" :: minimal sg 0 a ++ "," :: minimal sg 0 b ++ [")"]
  end.
(** the names in [e] are used according to their kind *)
Fixpoint well_formed (sg : signature) (e : expr) : Prop :=
  match e with
  | Operand t => kind_in sg t = None /\ ~ delimiter t
  | Pre op e => (exists q, kind_in sg op = Some (KPrefix q)) /\ well_formed sg e
  | In_ op a b => (exists q l, kind_in sg op = Some (KInfix q l)) /\ well_formed sg a /\ well_formed sg b
  | Call1 f e => kind_in sg f = Some KFun1 /\ well_formed sg e
  | Call2 f a b => kind_in sg f = Some KFun2 /\ well_formed sg a /\ well_formed sg b
  end.

(** signatures for which precedence parsing is possible: parentheses and comma are not names; operators of equal
    precedence group the same way; prefix operators bind at least as tightly as all other operators *)
Definition prec_of (k : kind) : option (Z * bool) :=
  match k with KPrefix q => Some (q, false) | KInfix q l => Some (q, l) | _ => None end.
Definition consistent (sg : signature) : Prop :=
  (forall t, delimiter t -> kind_in sg t = None) /\
  (forall s t k l q b c, kind_in sg s = Some k -> kind_in sg t = Some l -> prec_of k = Some (q, b) -> prec_of l = Some (q, c) -> b = c) /\
  (forall s t q l r b, kind_in sg s = Some (KPrefix q) -> kind_in sg t = Some l -> prec_of l = Some (r, b) -> (r <= q)%Z).

(** * Text: delimiters and one-character operators are tokens wherever they stand, other tokens are separated by space *)
Section Lex.
Variable blank special : ascii -> bool.
Definition flush (cur : string) : list string := match cur with "" => [] | _ => [cur] end.
Fixpoint lex_from (cur : string) (s : string) : list string :=
  match s with
  | "" => flush cur
  | String c r => if blank c then flush cur ++ lex_from "" r
                  else if special c then flush cur ++ String c "" :: lex_from "" r
                  else lex_from (cur ++ String c "") r
  end.
End Lex.

(** value of an expression, given the values of operands and the meaning of the names *)
Section Value.
Context {T : Type}.
Variable operand : string -> option T.
Variable f1 : string -> T -> T.
Variable f2 : string -> T -> T -> T.
Fixpoint value (e : expr) : option T :=
  match e with
  | Operand t => operand t
  | Pre op e | Call1 op e => option_map (f1 op) (value e)
  | In_ op a b | Call2 op a b => match value a, value b with Some x, Some y => Some (f2 op x y) | _, _ => None end
  end.
End Value.
