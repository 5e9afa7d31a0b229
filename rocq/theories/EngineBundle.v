(** Facts about variables and engines, in the form of the property theorems; an engine for examples. *)
From Coq Require Import ZArith String List Bool Permutation Reals Lia.
From Flocq Require Import IEEE754.BinarySingleNaN.
From Verif Require Import Base Op XR F64 F64Facts F64Arith Norm Shape Discrete Defuzz Aggregated Function FunctionTable Rule Var Activation Engine
  SpecText SpecRule SpecVar SpecActivation SpecEngine ActivationProofs3 VarProofs EngineProofs EngineProofs2 EngineProofs3 EngineReady EngineProofs4.
Import ListNotations.
Local Open Scope string_scope.

Lemma nan_f64 (P : fparam) : @nan_unordered f64 (F64Scalar P).
Proof. intros x. split; destruct x; reflexivity. Qed.
Lemma nan_xr (P : xparam) : @nan_unordered xr (XRScalar P).
Proof. intros x. split; destruct x; reflexivity. Qed.

Lemma run_in_range_f (P : fparam) drain cs (e : engine f64) : @all_in_range f64 (F64Scalar P) e ->
  @all_in_range f64 (F64Scalar P) (@run f64 (F64Scalar P) drain cs e).
Proof. exact (run_in_range drain (sane_f64 P) cs e). Qed.
Lemma run_in_range_x (P : xparam) drain cs (e : engine xr) : @all_in_range xr (XRScalar P) e ->
  @all_in_range xr (XRScalar P) (@run xr (XRScalar P) drain cs e).
Proof. exact (run_in_range drain (sane_xr P) cs e). Qed.

Section Variables.
Context {T : Type} `{S : Scalar T}.
Lemma set_value_kept x (v : variable T) : v_lock_range v = false -> v_value (set_value x v) = x.
Proof. intros H. unfold set_value. cbn. rewrite H. reflexivity. Qed.
Lemma set_value_within x (v : variable T) : (x <? v_minimum v)%S = false -> (v_maximum v <? x)%S = false -> v_value (set_value x v) = x.
Proof. intros A B. unfold set_value, bound. cbn. rewrite A. change (s_ltb (v_maximum v) x = false) in B. rewrite B. destruct (v_lock_range v); reflexivity. Qed.
(** key of a term: its value if that is constant; the value of the linear function; else the centroid *)
Lemma key_constant vw n (v : variable T) t c : tm_body t = TConstant c -> sort_key vw n v t = Ok c.
Proof. intros E. unfold sort_key, term_membership. rewrite E. reflexivity. Qed.
Lemma key_linear vw n (v : variable T) t cs en : tm_body t = TLinear cs en -> sort_key vw n v t =
  match term_membership vw t s_0 with Throw _ => Ok s_inf | r => r end.
Proof. intros E. unfold sort_key. rewrite E. reflexivity. Qed.
Lemma key_shape vw n (v : variable T) t s : tm_body t = TShape s -> sort_key vw n v t =
  match centroid (fun x => Ok (sh_membership s (tm_height t) x)) (v_minimum v) (v_maximum v) n with Throw _ => Ok s_inf | r => r end.
Proof. intros E. unfold sort_key, term_membership. rewrite E. reflexivity. Qed.
Lemma key_other vw n (v : variable T) t : (forall c, tm_body t <> TConstant c) -> (forall cs en, tm_body t <> TLinear cs en) -> sort_key vw n v t =
  match centroid (term_membership vw t) (v_minimum v) (v_maximum v) n with Throw _ => Ok s_inf | r => r end.
Proof. intros A B. unfold sort_key. destruct (tm_body t) eqn:E; try reflexivity; exfalso; [eapply A|eapply B]; reflexivity. Qed.
Lemma disabled_proposition enabled (degree : varref -> nat -> res T) p : enabled (pr_var p) = false -> proposition_degree enabled degree p = Ok s_0.
Proof. intros E. unfold proposition_degree. rewrite E. reflexivity. Qed.
Lemma disabled_input (ins : list (variable T)) outs degree i v hs t : nth_error ins i = Some v -> v_enabled v = false ->
  proposition_degree (engine_enabled ins outs) degree (mkProp (VIn i) hs t) = Ok s_0.
Proof. intros E D. apply disabled_proposition. cbn. rewrite E. exact D. Qed.
Lemma restart_all (e : engine T) : nan_unordered -> unused (restart e) /\ same_engine e (restart e) /\ e_blocks (restart e) = e_blocks e.
Proof. intros N. split; [exact (restart_unused e N)|]. split; [exact (restart_same e)|reflexivity]. Qed.
Lemma ready_neat drain env (e : engine T) : is_ready e = true ->
  Forall (fun b => Forall (fun r => neat (rl_text r) /\ loaded_from_text env r) (b_rules b)) (e_blocks e) -> fine (snd (process drain e)).
Proof.
  intros Rd N. apply ready_process; [exact Rd|]. eapply Forall_impl; [|exact N]. intros b H _. eapply Forall_impl; [|exact H].
  intros r [h1 h2]. eapply neat_visible; eassumption.
Qed.
Lemma no_formula (e : engine T) : forallb (fun t => match tm_body t with TFunction _ => false | _ => true end) (all_terms e) = true -> ignores_outputs e.
Proof. intros H t f n v I B. rewrite forallb_forall in H. apply H in I. rewrite B in I. discriminate. Qed.
Lemma attached_plain (e : engine T) : forallb (fun t => match tm_body t with TLinear _ _ | TFunction _ => false | _ => true end) (all_terms e) = true ->
  Forall term_attached (all_terms e).
Proof. intros H. apply Forall_forall. intros t I. rewrite forallb_forall in H. apply H in I. unfold term_attached. destruct (tm_body t); auto; discriminate. Qed.
Fixpoint inputs_only (e : expression) : bool :=
  match e with Prp p => match pr_var p with VIn _ => true | VOut _ => false end | Opr _ l r => inputs_only l && inputs_only r end.
Lemma reads_inputs_only (rules : list (rule T)) : forallb (fun r => match rl_antecedent r with Some e => inputs_only e | None => true end) rules = true ->
  Forall reads_inputs rules.
Proof.
  intros H. apply Forall_forall. intros r I e v t E. rewrite forallb_forall in H. apply H in I. rewrite E in I. clear - I.
  induction e as [p|n l IHl r0 IHr]; cbn in *.
  - intros [<- _]. destruct (pr_var p); [eauto|discriminate].
  - apply andb_prop in I. destruct I as [I1 I2]. intros [C|C]; auto.
Qed.
Lemma load_text env text (r : rule T) : rl_text (fst (rule_load env text r)) = text.
Proof. unfold rule_load. destruct (rule_split text) as [[[a c] w]|?| |]; try reflexivity. destruct (antecedent_load env a); try reflexivity. destruct (consequent_load env c); reflexivity. Qed.
Lemma loaded_sample env (rules : list (rule T)) : snd (load_rules env rules) = Ok tt -> Forall (fun r => neat (rl_text r)) rules ->
  Forall (fun r => neat (rl_text r) /\ loaded_from_text env r) (fst (load_rules env rules)).
Proof.
  unfold load_rules. cbn [fst snd]. induction rules as [|r rules IH]; intros H N; [constructor|]. inversion N; subst. cbn [map fold_right] in *.
  set (r0 := if rule_loaded r then rule_unload r else r) in *. destruct (rule_load env (rl_text r) r0) as [r1 [[]|?| |]] eqn:E; cbn [snd fst] in *; try discriminate.
  - pose proof (load_text env (rl_text r) r0) as Q. rewrite E in Q. cbn in Q. constructor; [rewrite Q|apply IH; assumption]. split; [assumption|].
    exists r0, r1. rewrite Q. split; [exact E|]. repeat split.
  - destruct (fold_right _ _ _) in H; discriminate.
Qed.
End Variables.

Lemma sort_x (P : xparam) drain vw n (v v' : variable xr) keys : drain_spec drain ->
  rmapM (@sort_key xr (XRScalar P) vw n v) (v_terms v) = Ok keys -> ~ In XNaN keys ->
  @sort_terms xr (XRScalar P) drain vw n v = Ok v' ->
  Permutation (v_terms v') (v_terms v) /\ v' = set_terms (v_terms v') v /\
  (forall i j s t a b, (i < j)%nat -> nth_error (v_terms v') i = Some s -> nth_error (v_terms v') j = Some t ->
     @sort_key xr (XRScalar P) vw n v s = Ok a -> @sort_key xr (XRScalar P) vw n v t = Ok b -> xltb b a = false).
Proof.
  intros D K N H. refine (sort_ok drain vw n v keys v' D K _ H). apply (strict_flip xltb). apply x_strict. intros a I ->. exact (N I).
Qed.
Lemma sort_f (P : fparam) drain vw n (v v' : variable f64) keys : drain_spec drain ->
  rmapM (@sort_key f64 (F64Scalar P) vw n v) (v_terms v) = Ok keys -> (forall a, In a keys -> is_nan a = false) ->
  @sort_terms f64 (F64Scalar P) drain vw n v = Ok v' ->
  Permutation (v_terms v') (v_terms v) /\ v' = set_terms (v_terms v') v /\
  (forall i j s t a b, (i < j)%nat -> nth_error (v_terms v') i = Some s -> nth_error (v_terms v') j = Some t ->
     @sort_key f64 (F64Scalar P) vw n v s = Ok a -> @sort_key f64 (F64Scalar P) vw n v t = Ok b -> Bltb b a = false).
Proof.
  intros D K N H. refine (sort_ok drain vw n v keys v' D K _ H). apply (strict_flip Bltb). apply f_strict. intros a I. specialize (N a I). destruct a as [[]|[]| |]; cbn [f2x is_nan] in *; congruence.
Qed.

(** ** an engine: x in [0,1] is low or high; y in [0,1] is small or big *)
#[local] Hint Extern 9 (Scalar _) => exact (F64Scalar fp_default) : typeclass_instances.
Notation q := f64_lit.
Definition x_var : variable f64 := mkVariable "x" "" (q 1 4) (q 0 1) (q 1 1) true true
  [mkTerm "low" (q 1 1) (TShape (Ramp (q 1 1) (q 0 1))); mkTerm "high" (q 1 1) (TShape (Ramp (q 0 1) (q 1 1)))].
Definition y_terms : list (term f64) :=
  [mkTerm "small" (q 1 1) (TShape (Triangle (q 0 1) (q 1 4) (q 1 2))); mkTerm "big" (q 1 1) (TShape (Triangle (q 1 2) (q 3 4) (q 1 1)))].
Definition y_var : output f64 :=
  mkOutput (mkVariable "y" "" s_nan (q 0 1) (q 1 1) true true y_terms) [] (Some Maximum) (Some (DIntegral Centroid 4)) s_nan s_nan false.
Definition texts : list string := ["if x is low then y is small"; "if x is high and x is not low then y is big"].
Definition sample_rules (texts : list string) : list (rule f64) :=
  fst (load_rules (engine_env [x_var] [y_var]) (map (fun t => mkRule true t (q 1 1) (q 0 1) false "" None "" []) texts)).
Definition sample_block (texts : list string) : block f64 :=
  mkBlock true "" "" (sample_rules texts) (Some Minimum) None (Some Minimum) (Some General).
Definition sample : engine f64 := mkEngine "sample" "" [x_var] [y_var] [sample_block texts].
(** the values of the outputs *)
Definition values (e : engine f64) : list f64 := map (fun o => v_value (o_var o)) (e_outputs e).
Definition all_equal (l m : list f64) : bool := Nat.eqb (length l) (length m) && forallb (fun p => Beqb (fst p) (snd p)) (combine l m).
Definition processed (e : engine f64) : engine f64 := fst (process stable_drain e).
