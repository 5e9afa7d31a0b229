(** What is expected of factories: tables from names to entries. *)
From Coq Require Import ZArith String List Bool Sorted.
From Verif Require Import Base Op Norm Hedge Shape Discrete Defuzz Aggregated Function Var Activation Factory.
Import ListNotations.

Section Spec.
Context {V : Type}.
(** a history of registrations, and the table it leaves *)
Inductive command := Register (k : string) (v : V) | Deregister (k : string).
Definition apply (c : command) (t : string -> option V) : string -> option V :=
  match c with
  | Register k v => fun j => if String.eqb j k then Some v else t j
  | Deregister k => fun j => if String.eqb j k then None else t j
  end.
Definition table_after (cs : list command) (t : string -> option V) : string -> option V := fold_left (fun t c => apply c t) cs t.
End Spec.
Arguments command : clear implicits.
(** order of names *)
Definition before (a b : string) : Prop := String.compare a b = Lt.
(** the factory after a history *)
Section Histories.
Context {A : Type}.
Definition run_constructors (cs : list (command (option A))) : cfactory A :=
  fold_left (fun f c => match c with Register k v => register k v f | Deregister k => deregister k f end) cs [].
Definition run_objects (cs : list (command (option A))) : ofactory :=
  fold_left (fun f c => match c with Register k v => register_object k v f | Deregister k => deregister_object k f end) cs [].
End Histories.
(** a built-in factory constructs exactly its classes, by their names; the empty name gives null; any other name is refused *)
Definition constructs {A} (class : A -> string) (f : cfactory A) (l : list A) : Prop :=
  (forall a, In a l -> construct (class a) f = Ok (Some a)) /\ construct ""%string f = Ok None /\
  (forall k, k <> ""%string -> ~ In k (map class l) -> construct k f = Throw EFactory) /\
  (forall k, In k (available f) <-> k = ""%string \/ In k (map class l)).
(** ** the names, written out: className() of each class as documented *)
Definition documented_tnorms : list (string * tnorm) :=
  [("AlgebraicProduct", AlgebraicProduct); ("BoundedDifference", BoundedDifference); ("DrasticProduct", DrasticProduct); ("EinsteinProduct", EinsteinProduct);
   ("HamacherProduct", HamacherProduct); ("Minimum", Minimum); ("NilpotentMinimum", NilpotentMinimum)]%string.
Definition documented_snorms : list (string * snorm) :=
  [("AlgebraicSum", AlgebraicSum); ("BoundedSum", BoundedSum); ("DrasticSum", DrasticSum); ("EinsteinSum", EinsteinSum); ("HamacherSum", HamacherSum);
   ("Maximum", Maximum); ("NilpotentMaximum", NilpotentMaximum); ("NormalizedSum", NormalizedSum); ("UnboundedSum", UnboundedSum)]%string.
Definition documented_hedges : list (string * hedge) :=
  [("any", Any); ("extremely", Extremely); ("not", Not); ("seldom", Seldom); ("somewhat", Somewhat); ("very", Very)]%string.
Definition documented_defuzzifiers (n : Z) : list (string * defuzzifier) :=
  [("Bisector", DIntegral Bisector n); ("Centroid", DIntegral Centroid n); ("LargestOfMaximum", DIntegral LargestOfMaximum n);
   ("MeanOfMaximum", DIntegral MeanOfMaximum n); ("SmallestOfMaximum", DIntegral SmallestOfMaximum n);
   ("WeightedAverage", DWeighted WeightedAverage WAutomatic); ("WeightedSum", DWeighted WeightedSum WAutomatic)]%string.
Section Documented.
Context {T : Type} `{S : Scalar T}.
Definition documented_activations : list (string * activation T) :=
  [("First", First 1 s_0); ("General", General); ("Highest", Highest 1); ("Last", Last 1 s_0); ("Lowest", Lowest 1);
   ("Proportional", Proportional); ("Threshold", Threshold GreaterThanOrEqualTo s_0)]%string.
(** a new term has no name, height 1 and parameters that are not numbers yet *)
Definition documented_terms : list (string * tbody T) :=
  [("Bell", TShape (Bell s_nan s_nan s_nan)); ("Binary", TShape (Binary s_nan s_nan)); ("Concave", TShape (Concave s_nan s_nan));
   ("Constant", TConstant s_nan); ("Cosine", TShape (Cosine s_nan s_nan)); ("Discrete", TDiscrete []);
   ("Function", TFunction {| fn_formula := ""; fn_root := None; fn_vars := []; fn_engine := false |});
   ("Gaussian", TShape (Gaussian s_nan s_nan)); ("GaussianProduct", TShape (GaussianProduct s_nan s_nan s_nan s_nan)); ("Linear", TLinear [] false);
   ("PiShape", TShape (PiShape s_nan s_nan s_nan s_nan)); ("Ramp", TShape (Ramp s_nan s_nan)); ("Rectangle", TShape (Rectangle s_nan s_nan));
   ("SShape", TShape (SShape s_nan s_nan)); ("Sigmoid", TShape (Sigmoid s_nan s_nan)); ("SigmoidDifference", TShape (SigmoidDifference s_nan s_nan s_nan s_nan));
   ("SigmoidProduct", TShape (SigmoidProduct s_nan s_nan s_nan s_nan)); ("Spike", TShape (Spike s_nan s_nan));
   ("Trapezoid", TShape (Trapezoid s_nan s_nan s_nan s_nan)); ("Triangle", TShape (Triangle s_nan s_nan s_nan)); ("ZShape", TShape (ZShape s_nan s_nan))]%string.
End Documented.
