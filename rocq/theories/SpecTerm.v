(** The membership functions of the shape terms as documented in /repo/fuzzylite/term/*.h, written as real
    functions with exact comparisons and without reference to the code; the parameter conditions under which
    the documentation makes sense; and the points at which the documented formula changes. *)
From Coq Require Import Reals List.
From Verif Require Import Shape.
Import ListNotations.
Local Open Scope R_scope.

Definition sq (x : R) : R := x * x.
Definition logistic (s z : R) : R := / (1 + exp (- s * z)).
Definition bell_curve (m sd x : R) : R := exp (- sq (x - m) / (2 * sq sd)).

(** Sources: Bell.h:68, Binary.h:77-81 (with the direction only as a side, see C11_binary_finite_direction_refuted),
    Concave.h:62-68, Cosine.h:63-66, Gaussian.h:63, GaussianProduct.h:71-86, PiShape.h:71-79, Ramp.h:69-85 for
    s <> e, Rectangle.h:62-65, SShape.h:62-67, Sigmoid.h:73, SigmoidDifference.h:70-74 (absolute difference),
    SigmoidProduct.h:70-74, Spike.h:62, Trapezoid.h:67-73, Triangle.h:68-73, ZShape.h:63-68 *)
Definition doc_membership (sh : shape R) (h x : R) : R :=
  match sh with
  | Bell c w s =>
      if Req_EM_T x c then (if Rlt_dec 0 s then h else if Req_EM_T s 0 then h / 2 else 0)
      else h / (1 + Rpower (Rabs (x - c) / Rabs w) (2 * s))
  | Binary s d =>
      if Rlt_dec s d then (if Rle_dec s x then h else 0)
      else if Rlt_dec d s then (if Rle_dec x s then h else 0) else 0
  | Concave i e =>
      if Rle_dec i e then (if Rlt_dec x e then h * (e - i) / (2 * e - i - x) else h)
      else (if Rlt_dec e x then h * (i - e) / (- 2 * e + i + x) else h)
  | Cosine c w =>
      if Rlt_dec x (c - w / 2) then 0 else if Rlt_dec (c + w / 2) x then 0
      else h / 2 * (1 + cos (2 / w * PI * (x - c)))
  | Gaussian m sd => h * bell_curve m sd x
  | GaussianProduct ma sa mb sb =>
      h * (if Rle_dec x ma then bell_curve ma sa x else 1) * (if Rle_dec mb x then bell_curve mb sb x else 1)
  | PiShape bl tl tr br =>
      if Rle_dec x bl then 0
      else if Rle_dec x ((bl + tl) / 2) then 2 * h * sq ((x - bl) / (tl - bl))
      else if Rlt_dec x tl then h * (1 - 2 * sq ((x - tl) / (tl - bl)))
      else if Rle_dec x tr then h
      else if Rle_dec x ((tr + br) / 2) then h * (1 - 2 * sq ((x - tr) / (br - tr)))
      else if Rlt_dec x br then 2 * h * sq ((x - br) / (br - tr))
      else 0
  | Ramp s e =>
      if Rlt_dec s e then
        (if Rle_dec x s then 0 else if Rle_dec e x then h else h * (x - s) / (e - s))
      else
        (if Rle_dec s x then 0 else if Rle_dec x e then h else h * (s - x) / (s - e))
  | Rectangle s e => if Rle_dec s x then (if Rle_dec x e then h else 0) else 0
  | SShape s e =>
      if Rle_dec x s then 0
      else if Rle_dec x ((s + e) / 2) then h * (2 * sq ((x - s) / (e - s)))
      else if Rlt_dec x e then h * (1 - 2 * sq ((x - e) / (e - s)))
      else h
  | Sigmoid i s => h * logistic s (x - i)
  | SigmoidDifference il sl sr ir => h * Rabs (logistic sl (x - il) - logistic sr (x - ir))
  | SigmoidProduct il sl sr ir => h * (logistic sl (x - il) * logistic sr (x - ir))
  | Spike c w => h * exp (- Rabs (10 / w * (x - c)))
  | Trapezoid a b c d =>
      if Rlt_dec x a then 0 else if Rlt_dec d x then 0
      else if Rlt_dec x b then h * Rmin 1 ((x - a) / (b - a))
      else if Rle_dec x c then h
      else if Rlt_dec x d then h * (d - x) / (d - c)
      else 0
  | Triangle a b c =>
      if Rlt_dec x a then 0 else if Rlt_dec c x then 0
      else if Req_EM_T x b then h
      else if Rlt_dec x b then h * (x - a) / (b - a)
      else h * (c - x) / (c - b)
  | ZShape s e =>
      if Rle_dec x s then h
      else if Rle_dec x ((s + e) / 2) then h * (1 - 2 * sq ((x - s) / (e - s)))
      else if Rlt_dec x e then h * (2 * sq ((x - e) / (e - s)))
      else 0
  end.

(** The parameters are in the documented order. *)
Definition well_ordered (sh : shape R) : Prop :=
  match sh with
  | Bell _ w _ | Cosine _ w | Gaussian _ w | Spike _ w => w <> 0
  | GaussianProduct _ sa _ sb => sa <> 0 /\ sb <> 0
  | PiShape bl tl tr br => bl < tl /\ tl <= tr /\ tr < br
  | Ramp s e => s <> e
  | SShape s e | ZShape s e => s < e
  | Trapezoid a b c d => a <= b /\ b <= c /\ c <= d
  | Triangle a b c => a <= b /\ b <= c
  | _ => True
  end.

(** [v] and [x] are equal or at least the tolerance apart *)
Definition off (eps v x : R) : Prop := x = v \/ eps <= Rabs (x - v).

(** The points where the documented formula changes. *)
Definition breakpoints (sh : shape R) : list R :=
  match sh with
  | Binary s _ => [s]
  | Concave _ e => [e]
  | Cosine c w => [c - w / 2; c + w / 2]
  | GaussianProduct ma _ mb _ => [ma; mb]
  | PiShape bl tl tr br => [bl; (bl + tl) / 2; tl; tr; (tr + br) / 2; br]
  | Ramp s e | Rectangle s e => [s; e]
  | SShape s e | ZShape s e => [s; (s + e) / 2; e]
  | Trapezoid a b c d => [a; b; c; d]
  | Triangle a b c => [a; b; c]
  | _ => []
  end.

(** The two parameters whose order selects the direction of the shape are not confused by the tolerance. *)
Definition oriented (eps : R) (sh : shape R) : Prop :=
  match sh with
  | Ramp s e => off eps s e
  | Concave i e => off eps i e
  | _ => True
  end.

(** The curved parts are wide enough for the tolerance (5 times: 2 (1/2 + 1/5)^2 < 1). *)
Definition wide (eps : R) (sh : shape R) : Prop :=
  match sh with
  | PiShape bl tl tr br => bl + 5 * eps <= tl /\ tr + 5 * eps <= br
  | SShape s e | ZShape s e => s + 5 * eps <= e
  | _ => True
  end.

(** [x] lies in the tolerance band just outside a vertex that the code still treats as inside the support *)
Definition in_vertex_band (eps : R) (sh : shape R) (x : R) : Prop :=
  match sh with
  | Triangle a b c => a - eps < x < a \/ c < x < c + eps
  | Trapezoid a b c d => a - eps < x < a
  | _ => False
  end.

(** [tail_ok] sh: the shape has a limit at infinity (sigmoids need a nonzero slope) *)
Definition tail_ok (sh : shape R) : Prop :=
  match sh with
  | Sigmoid _ s => s <> 0
  | SigmoidDifference _ sl sr _ | SigmoidProduct _ sl sr _ => sl <> 0 /\ sr <> 0
  | _ => True
  end.
