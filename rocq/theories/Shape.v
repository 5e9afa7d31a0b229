(** Membership functions of the shape terms (/repo/src/term).

    A term is modelled by its height and one of these shapes; getters and setters are record projections.
    Terms with other behaviour (Discrete, Constant, Linear, Function) are in their own files. *)
From Coq Require Import ZArith List Bool String.
From Verif Require Import Base Op.
Import ListNotations.
Local Open Scope scalar_scope.

(** The fields of each class in the order of its parameters() method. *)
Inductive shape (T : Type) :=
| Bell (center width slope : T)                     (* /repo/src/term/Bell.cpp:40-43 *)
| Binary (start direction : T)                      (* Binary.cpp:43-46 *)
| Concave (inflection finish : T)                   (* Concave.cpp:58-61 *)
| Cosine (center width : T)                         (* Cosine.cpp:33-36 *)
| Gaussian (mean sd : T)                            (* Gaussian.cpp:39-42 *)
| GaussianProduct (meanA sdA meanB sdB : T)         (* GaussianProduct.cpp:55-58 *)
| PiShape (bottomLeft topLeft topRight bottomRight : T) (* PiShape.cpp:64-67 *)
| Ramp (start finish : T)                           (* Ramp.cpp:64-67 *)
| Rectangle (start finish : T)                      (* Rectangle.cpp:41-44 *)
| SShape (start finish : T)                         (* SShape.cpp:65-68 *)
| Sigmoid (inflection slope : T)                    (* Sigmoid.cpp:51-54 *)
| SigmoidDifference (lft rising falling rgt : T) (* SigmoidDifference.cpp:46-49 *)
| SigmoidProduct (lft rising falling rgt : T)    (* SigmoidProduct.cpp:45-48 *)
| Spike (center width : T)                          (* Spike.cpp:39-42 *)
| Trapezoid (a b c d : T)                           (* Trapezoid.cpp:70-73 *)
| Triangle (a b c : T)                              (* Triangle.cpp:59-62 *)
| ZShape (start finish : T).                        (* ZShape.cpp:65-68 *)
Arguments Bell {T}. Arguments Binary {T}. Arguments Concave {T}. Arguments Cosine {T}. Arguments Gaussian {T}.
Arguments GaussianProduct {T}. Arguments PiShape {T}. Arguments Ramp {T}. Arguments Rectangle {T}.
Arguments SShape {T}. Arguments Sigmoid {T}. Arguments SigmoidDifference {T}. Arguments SigmoidProduct {T}.
Arguments Spike {T}. Arguments Trapezoid {T}. Arguments Triangle {T}. Arguments ZShape {T}.

(** className() of each class *)
Definition shape_class {T} (s : shape T) : string :=
  match s with
  | Bell _ _ _ => "Bell" | Binary _ _ => "Binary" | Concave _ _ => "Concave" | Cosine _ _ => "Cosine"
  | Gaussian _ _ => "Gaussian" | GaussianProduct _ _ _ _ => "GaussianProduct" | PiShape _ _ _ _ => "PiShape"
  | Ramp _ _ => "Ramp" | Rectangle _ _ => "Rectangle" | SShape _ _ => "SShape" | Sigmoid _ _ => "Sigmoid"
  | SigmoidDifference _ _ _ _ => "SigmoidDifference" | SigmoidProduct _ _ _ _ => "SigmoidProduct"
  | Spike _ _ => "Spike" | Trapezoid _ _ _ _ => "Trapezoid" | Triangle _ _ _ => "Triangle" | ZShape _ _ => "ZShape"
  end%string.

(** apply a function to every parameter *)
Definition shape_map {A B} (f : A -> B) (s : shape A) : shape B :=
  match s with
  | Bell a b c => Bell (f a) (f b) (f c) | Binary a b => Binary (f a) (f b) | Concave a b => Concave (f a) (f b)
  | Cosine a b => Cosine (f a) (f b) | Gaussian a b => Gaussian (f a) (f b)
  | GaussianProduct a b c d => GaussianProduct (f a) (f b) (f c) (f d)
  | PiShape a b c d => PiShape (f a) (f b) (f c) (f d) | Ramp a b => Ramp (f a) (f b)
  | Rectangle a b => Rectangle (f a) (f b) | SShape a b => SShape (f a) (f b) | Sigmoid a b => Sigmoid (f a) (f b)
  | SigmoidDifference a b c d => SigmoidDifference (f a) (f b) (f c) (f d)
  | SigmoidProduct a b c d => SigmoidProduct (f a) (f b) (f c) (f d)
  | Spike a b => Spike (f a) (f b) | Trapezoid a b c d => Trapezoid (f a) (f b) (f c) (f d)
  | Triangle a b c => Triangle (f a) (f b) (f c) | ZShape a b => ZShape (f a) (f b)
  end.

Section Shape.
Context {T : Type} `{S : Scalar T}.

(** std::pow(x, 2): the int argument is promoted to double *)
Definition pow2 (x : T) : T := s_fn2 LPow x s_2.
Definition s_exp (x : T) : T := s_fn1 LExp x.
Definition s_5 : T := s_int 5.
Definition s_4 : T := s_int 4.
Definition s_10 : T := s_int 10.

(** constructor defaults: /repo/src/term/Triangle.cpp:22-31 *)
Definition mk_triangle (a b c : T) : shape T :=
  if isNaN c then Triangle a (s_half * (a + b)) b else Triangle a b c.
(** /repo/src/term/Trapezoid.cpp:22-36 *)
Definition mk_trapezoid (a b c d : T) : shape T :=
  if isNaN c && isNaN d then
    let range := b - a in
    Trapezoid a (a + range * s_1 / s_5) (a + range * s_4 / s_5) b
  else Trapezoid a b c d.

(** membership(x) with height [h].  Each class starts with `if (Op::isNaN(x)) return fl::nan;`.
    Bell.cpp:34-38, Binary.cpp:33-41, Concave.cpp:33-44, Cosine.cpp:54-61, Gaussian.cpp:33-37,
    GaussianProduct.cpp:42-53, PiShape.cpp:37-62, Ramp.cpp:33-50, Rectangle.cpp:33-39, SShape.cpp:33-47,
    Sigmoid.cpp:33-37, SigmoidDifference.cpp:37-44, SigmoidProduct.cpp:37-43, Spike.cpp:33-37,
    Trapezoid.cpp:44-68, Triangle.cpp:39-57, ZShape.cpp:33-47 *)
Definition sh_membership (s : shape T) (h x : T) : T :=
  if isNaN x then s_nan else
  match s with
  | Bell center width slope =>
      h * (s_1 / (s_1 + s_fn2 LPow (s_abs ((x - center) / width)) (s_2 * slope)))
  | Binary start direction =>
      if (direction >? start) && isGE x start then h * s_1
      else if (direction <? start) && isLE x start then h * s_1
      else h * s_0
  | Concave inflection finish =>
      if isLE inflection finish then
        if isLt x finish then h * (finish - inflection) / (s_2 * finish - inflection - x) else h * s_1
      else
        if isGt x finish then h * (inflection - finish) / (inflection - s_2 * finish + x) else h * s_1
  | Cosine center width =>
      if isLt x (center - s_half * width) || isGt x (center + s_half * width) then h * s_0
      else
        let pi := s_4 * s_fn1 LAtan s_1 in
        h * (s_half * (s_1 + s_fn1 LCos (s_2 / width * pi * (x - center))))
  | Gaussian mean sd =>
      h * s_exp ((- (x - mean)) * (x - mean) / (s_2 * sd * sd))
  | GaussianProduct meanA sdA meanB sdB =>
      let a := if isLt x meanA then s_exp ((- (x - meanA)) * (x - meanA) / (s_2 * sdA * sdA)) else s_1 in
      let b := if isGt x meanB then s_exp ((- (x - meanB)) * (x - meanB) / (s_2 * sdB * sdB)) else s_1 in
      h * a * b
  | PiShape bl tl tr br =>
      let sshape :=
        if isLE x bl then s_0
        else if isLE x (s_half * (bl + tl)) then s_2 * pow2 ((x - bl) / (tl - bl))
        else if isLt x tl then s_1 - s_2 * pow2 ((x - tl) / (tl - bl))
        else s_1 in
      let zshape :=
        if isLE x tr then s_1
        else if isLE x (s_half * (tr + br)) then s_1 - s_2 * pow2 ((x - tr) / (br - tr))
        else if isLt x br then s_2 * pow2 ((x - br) / (br - tr))
        else s_0 in
      h * sshape * zshape
  | Ramp start finish =>
      if isEq start finish then s_nan
      else if isLt start finish then
        if isLE x start then h * s_0
        else if isGE x finish then h * s_1
        else h * (x - start) / (finish - start)
      else
        if isGE x start then h * s_0
        else if isLE x finish then h * s_1
        else h * (start - x) / (start - finish)
  | Rectangle start finish =>
      if isGE x start && isLE x finish then h * s_1 else h * s_0
  | SShape start finish =>
      if isLE x start then h * s_0
      else if isLE x (s_half * (start + finish)) then h * (s_2 * pow2 ((x - start) / (finish - start)))
      else if isLt x finish then h * (s_1 - s_2 * pow2 ((x - finish) / (finish - start)))
      else h * s_1
  | Sigmoid inflection slope =>
      h * s_1 / (s_1 + s_exp ((- slope) * (x - inflection)))
  | SigmoidDifference lft rising falling rgt =>
      let a := s_1 / (s_1 + s_exp ((- rising) * (x - lft))) in
      let b := s_1 / (s_1 + s_exp ((- falling) * (x - rgt))) in
      h * s_abs (a - b)
  | SigmoidProduct lft rising falling rgt =>
      let a := s_1 + s_exp ((- rising) * (x - lft)) in
      let b := s_1 + s_exp ((- falling) * (x - rgt)) in
      h * s_1 / (a * b)
  | Spike center width =>
      h * s_exp (- s_abs (s_10 / width * (x - center)))
  | Trapezoid a b c d =>
      if isLt x a || isGt x d then h * s_0
      else if isLt x b then
        if a =? - s_inf then h * s_1
        else h * op_min s_1 ((x - a) / (b - a))
      else if isLE x c then h * s_1
      else if isLt x d then
        if d =? s_inf then h * s_1
        else h * (d - x) / (d - c)
      else if d =? s_inf then h * s_1
      else h * s_0
  | Triangle a b c =>
      if isLt x a || isGt x c then h * s_0
      else if isEq x b then h * s_1
      else if isLt x b then
        if a =? - s_inf then h * s_1
        else h * (x - a) / (b - a)
      else if c =? s_inf then h * s_1
      else h * (c - x) / (c - b)
  | ZShape start finish =>
      if isLE x start then h * s_1
      else if isLE x (s_half * (start + finish)) then h * (s_1 - s_2 * pow2 ((x - start) / (finish - start)))
      else if isLt x finish then h * (s_2 * pow2 ((x - finish) / (finish - start)))
      else h * s_0
  end.

(** isMonotonic(): Concave.cpp:54-56, Ramp.cpp:60-62, SShape.cpp:61-63, Sigmoid.cpp:47-49, ZShape.cpp:61-63;
    false in Term.cpp:60-62 *)
Definition sh_monotonic (s : shape T) : bool :=
  match s with Concave _ _ | Ramp _ _ | SShape _ _ | Sigmoid _ _ | ZShape _ _ => true | _ => false end.

(** tsukamoto(y): Concave.cpp:46-52, Ramp.cpp:52-58, SShape.cpp:49-59, Sigmoid.cpp:39-45, ZShape.cpp:49-59;
    otherwise Term.cpp:55-58 throws *)
Definition sh_tsukamoto (s : shape T) (h y : T) : res T :=
  match s with
  | Concave i e => Ok (h * (i - e) / y + s_2 * e - i)
  | Ramp s e => Ok (s + (e - s) * y / h)
  | SShape s e =>
      Ok (if y <=? h / s_2 then s + (e - s) * s_sqrt (y / (s_2 * h))
          else e - (e - s) * s_sqrt ((h - y) / (s_2 * h)))
  | Sigmoid i s => Ok (i + s_fn1 LLog (h / y - s_1) / (- s))
  | ZShape s e =>
      Ok (if y <=? h / s_2 then e - (e - s) * s_sqrt (y / (s_2 * h))
          else s + (e - s) * s_sqrt ((h - y) / (s_2 * h)))
  | _ => Throw ETerm
  end.
End Shape.
