(** C75: fuzzification. *)
From Coq Require Import ZArith String Ascii List Bool Reals.
From Flocq Require Import IEEE754.BinarySingleNaN.
From Verif Require Import Base Op XR F64 F64Facts OrdVal Norm Shape Aggregated Text Function Var Fuzzify SpecDefuzz SpecAgg SpecFll SpecFuzzify AggBundle FuzzifyProofs FuzzifyBundle EngineBundle.
Import ListNotations.
Local Open Scope string_scope.
#[local] Hint Extern 9 (Scalar _) => exact (F64Scalar fp_default) : typeclass_instances.

(** * C75 *)
(** every term takes part, in the order of the terms; an exception gives NaN *)
Theorem C75_activations : forall T (S : Scalar T) vw (v : variable T) x l, v_activations vw v x = Ok l <->
  List.length l = List.length (v_terms v) /\
  forall i t, nth_error (v_terms v) i = Some t -> exists y, nth_error l i = Some (mkActivated i y None) /\ takes_part vw t x y.
Proof. exact @activations. Qed.
Print Assumptions C75_activations.
Theorem C75_total : forall T (S : Scalar T) vw (v : variable T) x,
  (forall t, In t (v_terms v) -> (exists y, term_membership vw t x = Ok y) \/ exists e, term_membership vw t x = Throw e) -> exists l, v_activations vw v x = Ok l.
Proof. exact @activations_total. Qed.
Print Assumptions C75_total.
(** the first of the terms with the greatest positive membership; no term and NaN if there is none *)
Theorem C75_highest : forall T (S : Scalar T) (value : T -> xr), ord_val S value -> forall vw (w : variable T) x l, v_activations vw w x = Ok l ->
  (forall t y, highest_membership vw w x = Ok (t, y) ->
    match t with
    | None => y = s_nan /\ forall a, In a l -> xltb (XFin 0) (value (ac_degree a)) = false
    | Some i => nth_error l i = Some (mkActivated i y None) /\ xmax_of (map (fun a => value (ac_degree a)) l) (value y) /\
        forall j a, (j < i)%nat -> nth_error l j = Some a -> xeqb (value (ac_degree a)) (value y) = false
    end) /\ exists r, highest_membership vw w x = Ok r.
Proof. exact @highest. Qed.
Print Assumptions C75_highest.
(** Variable::maxActivations: all terms of the greatest positive membership, in their order *)
Theorem C75_maximal : forall T (S : Scalar T) (value : T -> xr), ord_val S value -> forall vw (w : variable T) x l, v_activations vw w x = Ok l ->
  exists m, v_max_activations vw w x = Ok m /\
  ((m = [] /\ forall a, In a l -> xltb (XFin 0) (value (ac_degree a)) = false) \/
   (m <> [] /\ exists y, xmax_of (map (fun a => value (ac_degree a)) l) y /\ m = filter (fun a => xeqb (value (ac_degree a)) y) l)).
Proof. exact @maximal_terms. Qed.
Print Assumptions C75_maximal.
(** the text is the sum of the memberships over the names of the terms *)
Theorem C75_text : forall T (S : Scalar T) (value : T -> xr), ord_val S value -> forall vw d (w : variable T) x s, v_fuzzify vw d w x = Ok s ->
  exists ys, Forall2 (fun t y => takes_part vw t x y) (v_terms w) ys /\
    s = sum_text (map (fun p => (xltb (value (fst p)) (XFin 0), str d (s_abs (fst p)), snd p)) (combine ys (map (@tm_name T) (v_terms w)))).
Proof. exact @fuzzified. Qed.
Print Assumptions C75_text.
(** that of an output variable is the sum over all terms of the degrees put together by the aggregation operator *)
Theorem C75_output : forall T (S : Scalar T) (value : T -> xr), ord_val S value ->
  (forall x : T, s_abs (s_0 + x)%S = s_abs x /\ xltb (value (s_0 + x)%S) (XFin 0) = xltb (value x) (XFin 0)) ->
  forall d (o : output T), NoDup (map (@tm_name T) (v_terms (o_var o))) -> Forall (fun a => (ac_term a < List.length (v_terms (o_var o)))%nat) (o_fuzzy o) ->
  fuzzy_output_value d o = sum_text (map (fun p => (xltb (value (fst p)) (XFin 0), str d (s_abs (fst p)), snd p))
    (combine (map (fun t => together (o_aggregation o) (degrees_of t (o_fuzzy o))) (seq 0 (List.length (v_terms (o_var o))))) (map (@tm_name T) (v_terms (o_var o))))).
Proof. exact @output_written. Qed.
Print Assumptions C75_output.
(** signs, numbers and names can be read from the text if names have no blanks *)
Theorem C75_read_back : forall T (S : Scalar T) (value : T -> xr), (forall x : T, s_ltb (s_abs x) s_0 = false) ->
  forall d (l l' : list (T * string)), let addends := map (fun p : T * string => (xltb (value (fst p)) (XFin 0), str d (s_abs (fst p)), snd p)) in
  Forall (fun p => lacks " "%char (snd p) = true) l -> Forall (fun p => lacks " "%char (snd p) = true) l' -> sum_text (addends l) = sum_text (addends l') -> addends l = addends l'.
Proof. exact @told_apart. Qed.
Print Assumptions C75_read_back.
(** extended reals and doubles are such scalars *)
Theorem C75_scalars : (forall P, ord_val (XRScalar P) (fun x => x) /\ (forall x, @s_ltb xr (XRScalar P) (@s_abs xr (XRScalar P) x) (@s_0 xr (XRScalar P)) = false) /\
    forall x, @s_abs xr (XRScalar P) (@s_add xr (XRScalar P) (@s_0 xr (XRScalar P)) x) = @s_abs xr (XRScalar P) x /\ xltb (@s_add xr (XRScalar P) (@s_0 xr (XRScalar P)) x) (XFin 0) = xltb x (XFin 0)) /\
  (forall P, ord_val (F64Scalar P) f2x /\ (forall x, @s_ltb f64 (F64Scalar P) (@s_abs f64 (F64Scalar P) x) (@s_0 f64 (F64Scalar P)) = false) /\
    forall x, @s_abs f64 (F64Scalar P) (@s_add f64 (F64Scalar P) (@s_0 f64 (F64Scalar P)) x) = @s_abs f64 (F64Scalar P) x /\
      xltb (f2x (@s_add f64 (F64Scalar P) (@s_0 f64 (F64Scalar P)) x)) (XFin 0) = xltb (f2x x) (XFin 0)).
Proof. exact (conj (fun P => conj (ord_val_XR P) (conj (abs_pos_XR P) (plus0_XR P))) (fun P => conj (ord_val_F64 P) (conj (abs_pos_F64 P) (plus0_F64 P)))). Qed.
Print Assumptions C75_scalars.
(** a name with blanks can look like a sum *)
Definition plain (v : variable f64) : view f64 := mkView [] [].
Definition constant (name : string) (y : f64) : term f64 := mkTerm name (f64_lit 1 1) (TConstant y).
Definition two : variable f64 := variable_new "x" (f64_lit 0 1) (f64_lit 1 1) [constant "a" (f64_lit 1 4); constant "b" (f64_lit (-1) 2)].
Definition one : variable f64 := variable_new "x" (f64_lit 0 1) (f64_lit 1 1) [constant "a - 0.500/b" (f64_lit 1 4)].
Theorem C75_blank_name_refuted : exists v w : variable f64, List.length (v_terms v) <> List.length (v_terms w) /\ v_fuzzify (plain v) 3 v (f64_lit 1 2) = v_fuzzify (plain w) 3 w (f64_lit 1 2).
Proof. exists one, two. split; [discriminate|vm_compute; reflexivity]. Qed.
Print Assumptions C75_blank_name_refuted.

Definition three : variable f64 := variable_new "x" (f64_lit 0 1) (f64_lit 1 1)
  [constant "a" (f64_lit (-1) 4); mkTerm "n" (f64_lit 1 1) (TLinear [f64_lit 1 1] false); constant "b" (f64_lit 1 2); constant "c" (f64_lit 1 2)].
Definition shown : output f64 := mkOutput three [mkActivated 2 (f64_lit 1 4) None; mkActivated 0 (f64_lit 1 2) None; mkActivated 2 (f64_lit 1 8) None] (Some Maximum) None (f64_lit 0 1) (f64_lit 0 1) false.
Example C75_case : v_fuzzify (plain three) 3 three (f64_lit 1 2) = Ok "-0.250/a + nan/n + 0.500/b + 0.500/c" /\
  match highest_membership (plain three) three (f64_lit 1 2) with Ok (t, _) => t | _ => None end = Some 2%nat /\
  match v_activations (plain three) three (f64_lit 1 2) with Ok l => List.length l | _ => 0%nat end = 4%nat /\
  fuzzy_output_value 3 shown = "0.500/a + 0.000/n + 0.250/b + 0.000/c".
Proof.
  split; [vm_compute; reflexivity|]. split; [vm_compute; reflexivity|]. split; [vm_compute; reflexivity|]. vm_compute. reflexivity.
Qed.
Example C75_case_output : NoDup (map (@tm_name f64) (v_terms (o_var shown))) /\ Forall (fun a => (ac_term a < List.length (v_terms (o_var shown)))%nat) (o_fuzzy shown) /\
  Forall (fun t => lacks " "%char (tm_name t) = true) (v_terms three).
Proof. split; [change (NoDup ["a"; "n"; "b"; "c"]); repeat constructor; cbn; intuition discriminate|]. split; repeat constructor. Qed.
