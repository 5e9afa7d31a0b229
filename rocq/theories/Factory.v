(** Factories (/repo/fuzzylite/factory/ConstructionFactory.h, CloningFactory.h, /repo/src/factory). *)
From Coq Require Import ZArith String List Bool.
From Verif Require Import Base Op Norm Hedge Shape Discrete Defuzz Aggregated Function Var Activation.
Import ListNotations.
Local Open Scope string_scope.

(** std::map<std::string, V>: pairs in the order of the keys (std::less<std::string>, bytes as unsigned numbers) *)
Definition fmap (V : Type) := list (string * V).
Section Maps.
Context {V : Type}.
(** std::map::find *)
Fixpoint map_find (k : string) (m : fmap V) : option V :=
  match m with [] => None | (j, v) :: r => if String.eqb k j then Some v else map_find k r end.
(** `map[key] = value` *)
Fixpoint map_set (k : string) (v : V) (m : fmap V) : fmap V :=
  match m with
  | [] => [(k, v)]
  | (j, w) :: r => match String.compare k j with Lt => (k, v) :: m | Eq => (j, v) :: r | Gt => (j, w) :: map_set k v r end
  end.
(** std::map::erase of what find yields, if anything *)
Fixpoint map_erase (k : string) (m : fmap V) : fmap V :=
  match m with [] => [] | (j, w) :: r => if String.eqb k j then r else (j, w) :: map_erase k r end.
End Maps.

(** ** construction factories *)
Section Construction.
Context {A : Type}.
(** The map of constructors.  A constructor is a pointer to a function, null here being [None].  Simplification: calling one
    yields a new object equal to a fixed one. *)
Definition cfactory := fmap (option A).
(** ConstructionFactory.h:144-146 *)
Definition register (k : string) (c : option A) (f : cfactory) : cfactory := map_set k c f.
(** ConstructionFactory.h:149-153 *)
Definition deregister (k : string) (f : cfactory) : cfactory := map_erase k f.
(** ConstructionFactory.h:156-159 *)
Definition has_constructor (k : string) (f : cfactory) : bool := match map_find k f with Some _ => true | None => false end.
(** ConstructionFactory.h:162-168 *)
Definition get_constructor (k : string) (f : cfactory) : option A := match map_find k f with Some c => c | None => None end.
(** ConstructionFactory.h:172-182; [None] is a null pointer *)
Definition construct (k : string) (f : cfactory) : res (option A) := match map_find k f with Some c => Ok c | None => Throw EFactory end.
(** ConstructionFactory.h:185-193 *)
Definition available (f : cfactory) : list string := map fst f.
(** the constructors of all built-in factories: the empty name first, then the classes *)
Definition builtin (l : list (string * A)) : cfactory := fold_left (fun f p => register (fst p) (Some (snd p)) f) l (register "" None []).
End Construction.
Arguments cfactory : clear implicits.

(** ** cloning factories *)
Section Cloning.
Context {A : Type}.
Variable clone : A -> A.
(** CloningFactory.h: the map of objects; null is [None].  Ownership and deletion are left out. *)
Definition ofactory := fmap (option A).
(** CloningFactory.h:159-161 *)
Definition register_object (k : string) (o : option A) (f : ofactory) : ofactory := map_set k o f.
(** CloningFactory.h:164-171 *)
Definition deregister_object (k : string) (f : ofactory) : ofactory := map_erase k f.
(** CloningFactory.h:174-177 *)
Definition has_object (k : string) (f : ofactory) : bool := match map_find k f with Some _ => true | None => false end.
(** CloningFactory.h:180-187 *)
Definition get_object (k : string) (f : ofactory) : option A := match map_find k f with Some o => o | None => None end.
(** CloningFactory.h:190-198 *)
Definition clone_object (k : string) (f : ofactory) : res (option A) :=
  match map_find k f with Some (Some o) => Ok (Some (clone o)) | Some None => Ok None | None => Throw EFactory end.
(** CloningFactory.h:233-245, the name apart *)
Definition copy_from (other f : ofactory) : ofactory :=
  fold_left (fun f p => register_object (fst p) (option_map clone (snd p)) (deregister_object (fst p) f)) other f.
(** CloningFactory.h:135-137 and 140-146 (a different object; after clear(), 222-230) *)
Definition copy_objects (other : ofactory) : ofactory := copy_from other [].
End Cloning.

(** ** class names *)
(** className() of each class: /repo/src/norm/t *)
Definition tnorm_class (n : tnorm) : string :=
  match n with
  | AlgebraicProduct => "AlgebraicProduct" | BoundedDifference => "BoundedDifference" | DrasticProduct => "DrasticProduct"
  | EinsteinProduct => "EinsteinProduct" | HamacherProduct => "HamacherProduct" | Minimum => "Minimum" | NilpotentMinimum => "NilpotentMinimum" end.
(** /repo/src/norm/s *)
Definition snorm_class (n : snorm) : string :=
  match n with
  | AlgebraicSum => "AlgebraicSum" | BoundedSum => "BoundedSum" | DrasticSum => "DrasticSum" | EinsteinSum => "EinsteinSum" | HamacherSum => "HamacherSum"
  | Maximum => "Maximum" | NilpotentMaximum => "NilpotentMaximum" | NormalizedSum => "NormalizedSum" | UnboundedSum => "UnboundedSum" end.
(** /repo/src/defuzzifier *)
Definition defuzzifier_class (d : defuzzifier) : string :=
  match d with
  | DIntegral Bisector _ => "Bisector" | DIntegral Centroid _ => "Centroid" | DIntegral LargestOfMaximum _ => "LargestOfMaximum"
  | DIntegral MeanOfMaximum _ => "MeanOfMaximum" | DIntegral SmallestOfMaximum _ => "SmallestOfMaximum"
  | DWeighted WeightedAverage _ => "WeightedAverage" | DWeighted WeightedSum _ => "WeightedSum" end.
(** WeightedDefuzzifier::typeName (/repo/src/defuzzifier/WeightedDefuzzifier.cpp:46-57) *)
Definition wtype_name (t : wtype) : string := match t with WAutomatic => "Automatic" | WTakagiSugeno => "TakagiSugeno" | WTsukamoto => "Tsukamoto" end.
(** WeightedDefuzzifier::setType from a name (WeightedDefuzzifier.cpp:67-76) *)
Definition wtype_of_name (s : string) : res wtype :=
  if String.eqb s "Automatic" then Ok WAutomatic else if String.eqb s "TakagiSugeno" then Ok WTakagiSugeno
  else if String.eqb s "Tsukamoto" then Ok WTsukamoto else Throw EDefuzzifier.

(** ** the factories *)
(** /repo/src/factory/TNormFactory.cpp:31-40 *)
Definition tnorm_factory : cfactory tnorm := builtin (map (fun n => (tnorm_class n, n))
  [AlgebraicProduct; BoundedDifference; DrasticProduct; EinsteinProduct; HamacherProduct; Minimum; NilpotentMinimum]).
(** /repo/src/factory/SNormFactory.cpp:33-44 *)
Definition snorm_factory : cfactory snorm := builtin (map (fun n => (snorm_class n, n))
  [AlgebraicSum; BoundedSum; DrasticSum; EinsteinSum; HamacherSum; Maximum; NilpotentMaximum; NormalizedSum; UnboundedSum]).
(** /repo/src/factory/HedgeFactory.cpp:29-37 *)
Definition hedge_factory : cfactory hedge := builtin (map (fun h => (hedge_name h, h)) [Any; Extremely; Not; Seldom; Somewhat; Very]).
(** /repo/src/factory/DefuzzifierFactory.cpp:30-39; default arguments in the headers in /repo/fuzzylite/defuzzifier.  [resolution] is
    IntegralDefuzzifier::defaultResolution(), 1000 unless set otherwise (/repo/src/defuzzifier/IntegralDefuzzifier.cpp:22-30). *)
Definition defuzzifier_factory (resolution : Z) : cfactory defuzzifier := builtin (map (fun d => (defuzzifier_class d, d))
  [DIntegral Bisector resolution; DIntegral Centroid resolution; DIntegral LargestOfMaximum resolution; DIntegral MeanOfMaximum resolution;
   DIntegral SmallestOfMaximum resolution; DWeighted WeightedAverage WAutomatic; DWeighted WeightedSum WAutomatic]).
(** DefuzzifierFactory.cpp:43-52 *)
Definition construct_defuzzifier (key : string) (resolution : Z) (type : wtype) (f : cfactory defuzzifier) : res (option defuzzifier) :=
  do d <- construct key f;
  Ok (match d with Some (DIntegral k _) => Some (DIntegral k resolution) | Some (DWeighted k _) => Some (DWeighted k type) | None => None end).
(** DefuzzifierFactory.cpp:54-56, 58-61 *)
Definition construct_integral key resolution f := construct_defuzzifier key resolution WAutomatic f.
Definition construct_weighted key type f := construct_defuzzifier key 0%Z type f.

Section Scalars.
Context {T : Type} `{S : Scalar T}.
(** className() of the terms (see also [shape_class]): /repo/src/term *)
Definition body_class (b : tbody T) : string :=
  match b with
  | TShape s => shape_class s | TDiscrete _ => "Discrete" | TConstant _ => "Constant" | TLinear _ _ => "Linear" | TFunction _ => "Function" end.
(** new objects by the default arguments of the constructors (headers in /repo/fuzzylite/term); the height is 1, the name empty *)
Definition new_term (b : tbody T) : term T := mkTerm "" s_1 b.
Definition new_bodies : list (tbody T) :=
  [TShape (Bell s_nan s_nan s_nan); TShape (Binary s_nan s_nan); TShape (Concave s_nan s_nan); TConstant s_nan; TShape (Cosine s_nan s_nan);
   TDiscrete []; TFunction {| fn_formula := ""; fn_root := None; fn_vars := []; fn_engine := false |};
   TShape (Gaussian s_nan s_nan); TShape (GaussianProduct s_nan s_nan s_nan s_nan); TLinear [] false;
   TShape (PiShape s_nan s_nan s_nan s_nan); TShape (Ramp s_nan s_nan); TShape (Rectangle s_nan s_nan); TShape (SShape s_nan s_nan);
   TShape (Sigmoid s_nan s_nan); TShape (SigmoidDifference s_nan s_nan s_nan s_nan); TShape (SigmoidProduct s_nan s_nan s_nan s_nan);
   TShape (Spike s_nan s_nan); TShape (Trapezoid s_nan s_nan s_nan s_nan); TShape (Triangle s_nan s_nan s_nan); TShape (ZShape s_nan s_nan)].
(** /repo/src/factory/TermFactory.cpp:45-67.  Simplification: the default arguments of Triangle and Trapezoid are replaced by their
    constructors by values computed from NaN (/repo/src/term/Triangle.cpp:22-31, Trapezoid.cpp:22-36), which are NaN. *)
Definition term_factory : cfactory (term T) := builtin (map (fun b => (body_class b, new_term b)) new_bodies).
(** className() of the activation methods: /repo/src/activation *)
Definition activation_class (a : activation T) : string :=
  match a with
  | First _ _ => "First" | General => "General" | Highest _ => "Highest" | Last _ _ => "Last" | Lowest _ => "Lowest"
  | Proportional => "Proportional" | Threshold _ _ => "Threshold" end.
(** /repo/src/factory/ActivationFactory.cpp:31-39; default arguments in the headers in /repo/fuzzylite/activation *)
Definition activation_factory : cfactory (activation T) := builtin (map (fun a => (activation_class a, a))
  [First 1 s_0; General; Highest 1; Last 1 s_0; Lowest 1; Proportional; Threshold GreaterThanOrEqualTo s_0]).
End Scalars.
