(** Engines whose degrees stay within the unit interval, whatever the arithmetic. *)
From Coq Require Import ZArith String List Bool Reals.
From Verif Require Import Base Op Norm Hedge Shape Discrete Defuzz Aggregated Function Rule Var Activation Engine XR SpecTerm SpecDiscrete DiscreteProofs SpecDegree.
Import ListNotations.

Section Sound.
Context {T : Type} `{S : Scalar T}.
(** [D]: the degrees; [fit]: the S-norms which do not lead out of them *)
Variables (D : T -> Prop) (fit : snorm -> Prop).

(** the operations of the library on degrees give degrees *)
Record degrees : Prop := {
  dg_0 : D s_0; dg_1 : D s_1;
  dg_hedges : forall hs x, D x -> D (hedges_apply hs x);
  dg_tnorm : forall n a b, D a -> D b -> D (tnorm_compute n a b);
  dg_snorm : forall n a b, fit n -> D a -> D b -> D (snorm_compute n a b);
  dg_weight : forall w a, D w -> D a -> D (s_mul w a);
  dg_share : forall ds d, Forall D ds -> In d ds -> D (let q := s_div d (fold_left s_add ds s_0) in if isNaN q then s_0 else q) }.

(** the enabled rule blocks have weights which are degrees and fit disjunctions; the input variables have values at which their terms are
    degrees; the output variables consulted by antecedents have fit aggregations *)
Record sound (e : engine T) : Prop := {
  so_weights : forall b r, In b (e_blocks e) -> b_enabled b = true -> In r (b_rules b) -> D (rl_weight r);
  so_disjunctions : forall b n, In b (e_blocks e) -> b_enabled b = true -> b_disjunction b = Some n -> fit n;
  so_inputs : forall v t m, In v (e_inputs e) -> v_enabled v = true -> In t (v_terms v) ->
    term_membership (engine_view (e_inputs e) (e_outputs e)) t (v_value v) = Ok m -> D m;
  so_consulted : forall b r ex j t o, In b (e_blocks e) -> b_enabled b = true -> In r (b_rules b) -> rl_antecedent r = Some ex -> Uses (VOut j) t ex ->
    nth_error (e_outputs e) j = Some o -> exists n, o_aggregation o = Some n /\ fit n }.
(** every activated term has a degree *)
Definition fuzzy_degrees (l : list (activated T nat)) : Prop := Forall (fun a => D (ac_degree a)) l.
(** every rule of an enabled block has a degree *)
Definition rule_degrees (b : block T) : Prop := b_enabled b = true -> Forall (fun r => D (rl_degree r)) (b_rules b).
End Sound.

(** ** exact arithmetic *)
Local Open Scope R_scope.
(** a term of finite height up to 1 whose shape is well formed, at a finite value outside the tolerance bands of its vertices *)
Inductive proper (eps : R) : term xr -> xr -> Prop :=
| pr_shape name h s x : 0 <= h <= 1 -> well_ordered s -> oriented eps s -> wide eps s -> ~ in_vertex_band eps s x ->
    proper eps (mkTerm name (XFin h) (TShape (shape_map XFin s))) (XFin x)
| pr_discrete name h l x : 0 <= h <= 1 -> l <> [] -> nondecreasing l -> Forall (fun p => 0 <= snd p <= 1) l ->
    proper eps (mkTerm name (XFin h) (TDiscrete (xpts l))) (XFin x).
(** a value in the closed interval from [a] to [b] which is nearest to [w] *)
Definition clamp (a b : R) (w : xr) : xr :=
  match w with XNaN => XNaN | XPInf => XFin b | XNInf => XFin a | XFin r => XFin (Rmax a (Rmin b r)) end.
(** the value of the output variable [p], which was [o] before processing and has the range [a, b], is within [lo, hi], or else is the default
    or the locked previous value *)
Definition kept_within (a b lo hi : R) (o p : output xr) : Prop :=
  let keep w := if v_lock_range (o_var o) then clamp a b w else w in
  (exists z, v_value (o_var p) = XFin z /\ lo <= z <= hi) \/ v_value (o_var p) = keep (o_default o) \/
  o_lock_previous o = true /\ v_value (o_var p) = keep (o_previous o).
(** the degrees an activated term can have once activations of the same term have been aggregated *)
Definition admissible (o : output xr) (y : xr) : Prop :=
  exists r, y = XFin r /\ 0 <= r /\ forall n, o_aggregation o = Some n -> n <> UnboundedSum -> r <= 1.
