(** The meaning of a small part of Java: statements which declare objects of the library and call their methods.  The classes and methods of the
    Java library are understood as those of the same names in C++ (SpecCpp); anything else is an error, as if it did not compile. *)
From Coq Require Import ZArith List Bool String Ascii.
From Verif Require Import Base Op Norm Hedge Shape Discrete Defuzz Aggregated Text Function Rule Var Activation Engine Factory Fll SpecFll SpecCpp.
Import ListNotations.
Local Open Scope string_scope.

(** ** statements.  Tokens are those of SpecCpp: points belong to words *)
(** [x.m]: what is before and after the only point *)
Fixpoint member (w : string) : option (string * string) :=
  match w with
  | "" => None
  | String c r => if Ascii.eqb c "." then (if lacks "." r then Some ("", r) else None) else option_map (fun p => (String c (fst p), snd p)) (member r)
  end.
(** unlike in C++, [new] always has parentheses *)
Definition java_expr (ts : list token) : option expr := match ts with [TWord _; TWord _] => None | _ => parse_expr ts end.
Definition java_statement (ts : list token) : option statement :=
  match ts with
  | [TWord type; TWord x; TSymbol "="; TWord k; TWord class; TSymbol "("; TSymbol ")"] => if String.eqb k "new" then Some (SDeclare type x class) else None
  | TWord w :: TSymbol "(" :: r =>
    option_bind (member w) (fun p => option_bind (inside r) (fun l => option_map (SMethod (fst p) (snd p)) (parse_list java_expr l)))
  | _ => None
  end.
Definition java_program (ts : list token) : option (list statement) :=
  let l := parts ";" 0 [] ts in
  match last l [] with [] => all_some java_statement (removelast l) | _ => None end.

(** ** the same in C++ *)
(** the keywords of Java which are not keywords of C++ *)
Definition java_keywords : list string :=
  ["abstract"; "assert"; "boolean"; "byte"; "extends"; "final"; "finally"; "implements"; "import"; "instanceof"; "interface"; "native"; "null"; "package"; "strictfp"; "super";
   "synchronized"; "throws"; "transient"].
Definition java_word (w : string) : bool := lacks ":" w.
Definition cpp_atom (a : atom) : option atom :=
  match a with
  | AText _ => Some a
  | AWord w =>
    if String.eqb w "Double.NaN" then Some (AWord "fl::nan") else if String.eqb w "Double.POSITIVE_INFINITY" then Some (AWord "fl::inf")
    else if String.eqb w "Double.NEGATIVE_INFINITY" then Some (ANegative "fl::inf") else if String.eqb w "null" then Some (AWord "fl::null")
    else if java_word w then Some a else None
  | ANegative w => if java_word w then Some a else None
  end.
(** Discrete.create takes the numbers without how many they are *)
Definition cpp_expr (e : expr) : option expr :=
  match e with
  | EAtom a => option_map EAtom (cpp_atom a)
  | ENew c l => if java_word c then option_map (ENew c) (all_some cpp_atom l) else None
  | ECall f l =>
    option_bind (all_some cpp_atom l) (fun l =>
      if String.eqb f "Rule.parse" then Some (ECall "Rule::parse" l) else if String.eqb f "Function.create" then Some (ECall "Function::create" l)
      else if String.eqb f "Linear.create" then Some (ECall "Linear::create" l)
      else if String.eqb f "Discrete.create" then match l with name :: xy => Some (ECall "Discrete::create" (name :: AWord (str_int (Z.of_nat (List.length xy))) :: xy)) | [] => None end
      else None)
  end.
Definition cpp_statement (s : statement) : option statement :=
  match s with
  | SUsing _ => None
  | SDeclare type x class => if (java_word type && java_word x && java_word class && negb (existsb (String.eqb x) java_keywords))%bool then Some s else None
  | SMethod x m l => if (java_word x && java_word m)%bool then option_map (SMethod x m) (all_some cpp_expr l) else None
  end.
Section Run.
Context {T : Type} `{S : Scalar T}.
(** the engine built by a program, with the classes of the library imported *)
Definition run_java (text : string) : res (engine T) :=
  match option_bind (option_bind (tokenize text) java_program) (all_some cpp_statement) with
  | None => broken
  | Some p =>
    do st <- rfold run_statement start (SUsing "fuzzylite" :: p);
    match cs_engine st, cs_objects st with Some (_, e), [] => Ok e | _, _ => broken end
  end.
(** engines for which there is such a program *)
Definition java_expressible (named : bool) (e : engine T) : Prop :=
  expressible false named e /\ (named = true -> Forall (fun x => ~ In x java_keywords) (program_names e)).
End Run.
