(** C42-C45: variables. *)
From Coq Require Import ZArith String List Bool Permutation Reals Lra.
From Flocq Require Import IEEE754.BinarySingleNaN.
From Verif Require Import Base Op XR F64 F64Arith Norm Shape Discrete Defuzz Aggregated Function Rule Var Activation Engine
  SpecVar SpecActivation SpecEngine ActivationProofs3 VarProofs EngineBundle.
Import ListNotations.
Local Open Scope string_scope.
#[local] Hint Extern 9 (Scalar _) => exact (F64Scalar fp_default) : typeclass_instances.

(** * C42 *)
(** any sequence of setting inputs, processing and restarting, exceptions included *)
Theorem C42_binary64 : forall (P : fparam) drain cs (e : engine f64), @all_in_range f64 (F64Scalar P) e ->
  @all_in_range f64 (F64Scalar P) (@run f64 (F64Scalar P) drain cs e).
Proof. exact run_in_range_f. Qed.
Print Assumptions C42_binary64.
Theorem C42_exact : forall (P : xparam) drain cs (e : engine xr), @all_in_range xr (XRScalar P) e ->
  @all_in_range xr (XRScalar P) (@run xr (XRScalar P) drain cs e).
Proof. exact run_in_range_x. Qed.
Print Assumptions C42_exact.
(** the single operations, whatever the value was before *)
Theorem C42_order_binary64 : forall P : fparam, @sane_order f64 (F64Scalar P).
Proof. exact sane_f64. Qed.
Print Assumptions C42_order_binary64.
Theorem C42_order_exact : forall P : xparam, @sane_order xr (XRScalar P).
Proof. exact sane_xr. Qed.
Print Assumptions C42_order_exact.
Theorem C42_set_value : forall T (S : Scalar T), sane_order -> forall x (v : variable T), in_range (set_value x v).
Proof. exact @set_value_in. Qed.
Print Assumptions C42_set_value.
Theorem C42_defuzzify : forall T (S : Scalar T), sane_order -> forall vw (o o' : output T) r, defuzzify vw o = (o', r) ->
  in_range (o_var o) -> in_range (o_var o').
Proof. exact @defuzzify_in. Qed.
Print Assumptions C42_defuzzify.
Theorem C42_clear : forall T (S : Scalar T), sane_order -> forall o : output T, in_range (o_var (clear_output o)).
Proof. exact @clear_in. Qed.
Print Assumptions C42_clear.
(** values are not altered without need *)
Theorem C42_unlocked : forall T (S : Scalar T) x (v : variable T), v_lock_range v = false -> v_value (set_value x v) = x.
Proof. exact @set_value_kept. Qed.
Print Assumptions C42_unlocked.
Theorem C42_within : forall T (S : Scalar T) x (v : variable T), (x <? v_minimum v)%S = false -> (v_maximum v <? x)%S = false ->
  v_value (set_value x v) = x.
Proof. exact @set_value_within. Qed.
Print Assumptions C42_within.
(** the setters do not put the value back into the range: it may be outside of it until it is set again *)
Theorem C42_setters_refuted : exists v : variable f64, in_range v /\ ~ in_range (set_range (f64_lit 1 2) (f64_lit 1 1) v) /\
  exists w : variable f64, in_range w /\ ~ in_range (set_lock_range true w).
Proof.
  exists x_var. split; [intros _ _; right; split; reflexivity|]. split.
  - intros H. destruct (H eq_refl eq_refl) as [K|[K _]]; vm_compute in K; discriminate.
  - exists (set_lock_range false (set_range (f64_lit 1 2) (f64_lit 1 1) x_var)). split; [intros K; discriminate|].
    intros H. destruct (H eq_refl eq_refl) as [K|[K _]]; vm_compute in K; discriminate.
Qed.
Print Assumptions C42_setters_refuted.
Example C42_case : all_in_range sample /\ let e := run stable_drain [CInputs [f64_lit 7 1]; CProcess; CInputs [f64_lit (-3) 2]; CProcess] sample in
  all_equal (input_values e) [f64_lit 0 1] = true /\ all_equal (values e) [f64_lit 1 4] = true.
Proof.
  split; [|vm_compute; auto]. split; (constructor; [|constructor]); intros _ _; [right; split; reflexivity|left; reflexivity].
Qed.

(** * C43 *)
Theorem C43_held : forall T (S : Scalar T) (o o' : output T) raws values, v_enabled (o_var o) = true -> Steps o raws values o' ->
  values = held o (o_previous o) (v_value (o_var o)) raws /\ same_output o (set_fuzzy (o_fuzzy o') o').
Proof. exact @steps_held. Qed.
Print Assumptions C43_held.
(** OutputVariable.h documents that the value of the step before is held *)
Definition triangle_only : output f64 :=
  mkOutput (mkVariable "y" "" s_nan (f64_lit 0 1) (f64_lit 1 1) true false y_terms) [] (Some Maximum) (Some (DIntegral Centroid 4)) s_nan s_nan true.
Fixpoint steps_of (vw : view f64) (fs : list (list (activated f64 nat))) (o : output f64) : option (list f64 * list f64 * output f64) :=
  match fs with
  | [] => Some ([], [], o)
  | f :: fs =>
    match o_defuzzifier o with
    | None => None
    | Some d =>
      match defuzzified vw d (set_fuzzy f o), defuzzify vw (set_fuzzy f o) with
      | Ok raw, (o1, Ok tt) => match steps_of vw fs o1 with Some (raws, values, o2) => Some (raw :: raws, v_value (o_var o1) :: values, o2) | None => None end
      | _, _ => None
      end
    end
  end.
Lemma steps_of_ok vw fs : forall o raws values o', steps_of vw fs o = Some (raws, values, o') -> Steps o raws values o'.
Proof.
  induction fs as [|f fs IH]; intros o raws values o' H; cbn [steps_of] in H; [inversion H; subst; constructor|].
  destruct (o_defuzzifier o) as [d|] eqn:D; [|discriminate]. destruct (defuzzified vw d (set_fuzzy f o)) as [raw| | |] eqn:E; try discriminate.
  destruct (defuzzify vw (set_fuzzy f o)) as [o1 [[]| | |]] eqn:F; try discriminate.
  destruct (steps_of vw fs o1) as [[[rs vs] o2]|] eqn:G; [|discriminate]. inversion H; subst. econstructor; eauto.
Qed.
Theorem C43_documented_refuted : exists (o o' : output f64) raws values, v_enabled (o_var o) = true /\ Steps o raws values o' /\
  forallb (fun r => isNaN r) (skipn 2 raws) = true /\ all_equal values (documented_held o (v_value (o_var o)) raws) = false.
Proof.
  exists triangle_only.
  set (p := steps_of (mkView [] []) [[mkActivated 0 (f64_lit 1 1) (Some Minimum)]; [mkActivated 1 (f64_lit 1 1) (Some Minimum)]; []] triangle_only).
  assert ((match p with Some (raws, values, _) => forallb (fun r => isNaN r) (skipn 2 raws) &&
    negb (all_equal values (documented_held triangle_only (v_value (o_var triangle_only)) raws)) | None => false end)%bool = true) as H by (vm_compute; reflexivity).
  pose proof (steps_of_ok (mkView [] []) [[mkActivated 0 (f64_lit 1 1) (Some Minimum)]; [mkActivated 1 (f64_lit 1 1) (Some Minimum)]; []] triangle_only) as K.
  fold p in K. clearbody p. destruct p as [[[raws values] o']|]; [|discriminate]. apply andb_prop in H. destruct H as [H1 H2].
  exists o', raws, values. split; [reflexivity|]. split; [apply K; reflexivity|]. split; [exact H1|]. apply negb_true_iff. exact H2.
Qed.
Print Assumptions C43_documented_refuted.
(** 1/4, 3/4, nothing, nothing: the value jumps back to 1/4, then to 3/4 *)
Example C43_case : all_equal (held triangle_only s_nan s_nan [f64_lit 1 4; f64_lit 3 4; s_nan; s_nan]) [f64_lit 1 4; f64_lit 3 4; f64_lit 1 4; f64_lit 3 4] = true.
Proof. vm_compute. reflexivity. Qed.

(** * C44 *)
Theorem C44_get : forall (A : Type) (name_of : A -> string) e name l i, get_named name_of e name l = Ok i <-> exists x, first_of_name name_of name l i x.
Proof. exact @get_iff. Qed.
Print Assumptions C44_get.
Theorem C44_get_fails : forall (A : Type) (name_of : A -> string) e name l,
  (exists i, get_named name_of e name l = Ok i) \/ get_named name_of e name l = Throw e.
Proof. exact @get_fails. Qed.
Print Assumptions C44_get_fails.
Theorem C44_has : forall (A : Type) (name_of : A -> string) name l, has_named name_of name l = true <-> exists x, In x l /\ name_of x = name.
Proof. exact @has_spec. Qed.
Print Assumptions C44_has.
Theorem C44_has_get : forall (A : Type) (name_of : A -> string) e name l, has_named name_of name l = true <-> exists i, get_named name_of e name l = Ok i.
Proof. exact @has_iff. Qed.
Print Assumptions C44_has_get.
Theorem C44_remove_named : forall (A : Type) (name_of : A -> string) e name (l : list A) x rest, remove_named name_of e name l = Ok (x, rest) <->
  exists i, first_of_name name_of name l i x /\ rest = (firstn i l ++ skipn (Datatypes.S i) l)%list.
Proof. exact @remove_named_iff. Qed.
Print Assumptions C44_remove_named.
Theorem C44_remove_missing : forall (A : Type) (name_of : A -> string) e name (l : list A), ~ (exists x, In x l /\ name_of x = name) ->
  remove_named name_of e name l = Throw e.
Proof. exact @remove_named_throw. Qed.
Print Assumptions C44_remove_missing.
Theorem C44_insert : forall (A : Type) (x : A) i l l', vector_insert x i l = Ok l' -> forall k,
  nth_error l' k = if Nat.ltb k i then nth_error l k else if Nat.eqb k i then Some x else nth_error l (k - 1).
Proof. exact @insert_nth. Qed.
Print Assumptions C44_insert.
Theorem C44_remove : forall (A : Type) (x : A) i l l', vector_remove i l = Ok (x, l') ->
  nth_error l i = Some x /\ length l = Datatypes.S (length l') /\ forall k,
  nth_error l' k = if Nat.ltb k i then nth_error l k else nth_error l (Datatypes.S k).
Proof. exact @remove_nth. Qed.
Print Assumptions C44_remove.
Theorem C44_remove_inserted : forall (A : Type) (x : A) i l l', vector_insert x i l = Ok l' -> vector_remove i l' = Ok (x, l).
Proof. exact @remove_insert. Qed.
Print Assumptions C44_remove_inserted.
Theorem C44_insert_removed : forall (A : Type) (x : A) i l l', vector_remove i l = Ok (x, l') -> vector_insert x i l' = Ok l.
Proof. exact @insert_remove. Qed.
Print Assumptions C44_insert_removed.
Example C44_case : get_named (@tm_name f64) EOutOfRange "big" y_terms = Ok 1%nat /\ has_named (@tm_name f64) "large" y_terms = false /\
  match remove_named (@tm_name f64) EOutOfRange "small" y_terms with Ok (t, rest) => tm_name t = "small" /\ map (@tm_name f64) rest = ["big"] | _ => False end.
Proof. vm_compute. auto. Qed.

(** * C45 *)
Theorem C45_exact : forall (P : xparam) drain vw n (v v' : variable xr) keys, drain_spec drain ->
  rmapM (@sort_key xr (XRScalar P) vw n v) (v_terms v) = Ok keys -> ~ In XNaN keys ->
  @sort_terms xr (XRScalar P) drain vw n v = Ok v' ->
  Permutation (v_terms v') (v_terms v) /\ v' = set_terms (v_terms v') v /\
  (forall i j s t a b, (i < j)%nat -> nth_error (v_terms v') i = Some s -> nth_error (v_terms v') j = Some t ->
     @sort_key xr (XRScalar P) vw n v s = Ok a -> @sort_key xr (XRScalar P) vw n v t = Ok b -> xltb b a = false).
Proof. exact sort_x. Qed.
Print Assumptions C45_exact.
Theorem C45_binary64 : forall (P : fparam) drain vw n (v v' : variable f64) keys, drain_spec drain ->
  rmapM (@sort_key f64 (F64Scalar P) vw n v) (v_terms v) = Ok keys -> (forall a, In a keys -> is_nan a = false) ->
  @sort_terms f64 (F64Scalar P) drain vw n v = Ok v' ->
  Permutation (v_terms v') (v_terms v) /\ v' = set_terms (v_terms v') v /\
  (forall i j s t a b, (i < j)%nat -> nth_error (v_terms v') i = Some s -> nth_error (v_terms v') j = Some t ->
     @sort_key f64 (F64Scalar P) vw n v s = Ok a -> @sort_key f64 (F64Scalar P) vw n v t = Ok b -> Bltb b a = false).
Proof. exact sort_f. Qed.
Print Assumptions C45_binary64.
(** what is compared: values of Constant and Linear terms, centroids of the others, +infinity where there is an exception *)
Theorem C45_key_constant : forall T (S : Scalar T) vw n (v : variable T) t c, tm_body t = TConstant c -> sort_key vw n v t = Ok c.
Proof. exact @key_constant. Qed.
Print Assumptions C45_key_constant.
Theorem C45_key_linear : forall T (S : Scalar T) vw n (v : variable T) t cs en, tm_body t = TLinear cs en -> sort_key vw n v t =
  match term_membership vw t s_0 with Throw _ => Ok s_inf | r => r end.
Proof. exact @key_linear. Qed.
Print Assumptions C45_key_linear.
Theorem C45_key_centroid : forall T (S : Scalar T) vw n (v : variable T) t, (forall c, tm_body t <> TConstant c) -> (forall cs en, tm_body t <> TLinear cs en) ->
  sort_key vw n v t = match centroid (term_membership vw t) (v_minimum v) (v_maximum v) n with Throw _ => Ok s_inf | r => r end.
Proof. exact @key_other. Qed.
Print Assumptions C45_key_centroid.
Example C45_case : match sort_terms stable_drain (mkView [] []) 8 (set_terms (rev y_terms) (o_var y_var)) with Ok v => map (@tm_name f64) (v_terms v) = ["small"; "big"] | _ => False end /\
  forallb (fun t => match sort_key (mkView [] []) 8 (o_var y_var) t with Ok k => negb (is_nan k) | _ => false end) y_terms = true.
Proof. vm_compute. auto. Qed.
