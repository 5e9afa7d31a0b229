(** Proofs about engines: engines which are alike behave alike. *)
From Coq Require Import ZArith String List Bool Permutation Lia.
From Verif Require Import Base Op Norm Shape Discrete Defuzz Aggregated Text Function FunctionProofs2 Rule Var Activation Engine
  SpecVar SpecActivation SpecEngine ActivationProofs ActivationProofs2 ActivationProofs3 VarProofs.
Import ListNotations.
Local Open Scope string_scope.

(** ** Function terms: what a call of membership leaves in the map of variables does not matter *)
Section Terms.
Context {T : Type} `{S : Scalar T}.
Lemma lookup_some (ctx : context T) v : In v (map fst ctx) -> exists y, lookup_last ctx v = Some y.
Proof.
  induction ctx as [|[k y] ctx IH]; cbn; [tauto|]. intros H. destruct (lookup_last ctx v) eqn:L; [eauto|].
  destruct (String.eqb_spec k v) as [E|N]; [eauto|]. destruct H as [H|H]; [contradiction|]. destruct (IH H); congruence.
Qed.
Lemma fn_membership_again (st : fstate T) ctx ctx' x x' : map fst ctx = map fst ctx' ->
  snd (fn_membership (fst (fn_membership st ctx x)) ctx' x') = snd (fn_membership st ctx' x').
Proof.
  intros M. destruct (fn_root st) as [n|] eqn:Rt; [|unfold fn_membership; now rewrite Rt; cbn; rewrite Rt].
  assert (fn_root (fst (fn_membership st ctx x)) = Some n) as Rt' by (unfold fn_membership; now rewrite Rt; cbn).
  assert (fn_engine (fst (fn_membership st ctx x)) = fn_engine st) as En by (unfold fn_membership; now rewrite Rt; cbn).
  destruct (membership_value _ n ctx' x' Rt') as [-> V1]. destruct (membership_value st n ctx' x' Rt) as [-> V2].
  apply eval_ext. intros v I. rewrite V1, V2, En. unfold environment. destruct (String.eqb_spec "x" v) as [|N]; [reflexivity|].
  destruct (fn_engine st) eqn:E.
  - destruct (lookup_last ctx' v) eqn:L; [reflexivity|]. rewrite (proj2 (membership_value st n ctx x Rt)). unfold environment. rewrite E.
    destruct (String.eqb_spec "x" v); [congruence|]. destruct (lookup_last ctx v) eqn:L2; [|reflexivity].
    exfalso. assert (In v (map fst ctx)) as J.
    { clear - L2. induction ctx as [|[k y] ctx IH]; cbn in *; [discriminate|]. destruct (lookup_last ctx v); [auto|]. destruct (String.eqb_spec k v); [auto|discriminate]. }
    rewrite M in J. destruct (lookup_some _ _ J). congruence.
  - cbn [lookup_last]. rewrite (proj2 (membership_value st n ctx x Rt)). unfold environment. rewrite E. destruct (String.eqb_spec "x" v); [congruence|reflexivity].
Qed.
End Terms.

(** ** extensionality of defuzzification *)
Section Ext.
Context {T : Type} `{S : Scalar T}.
Lemma rfold_ext {A B} (f g : A -> B -> res A) : (forall a b, f a b = g a b) -> forall l a, rfold f a l = rfold g a l.
Proof. intros E. induction l as [|b l IH]; intros a; cbn [rfold]; [reflexivity|]. rewrite E. destruct (g a b); cbn [rbind]; auto. Qed.
Lemma integral_ext k (f g : T -> res T) lo hi n : (forall x, f x = g x) -> integral_defuzzify k f lo hi n = integral_defuzzify k g lo hi n.
Proof.
  intros E. destruct k; cbn [integral_defuzzify]; unfold bisector, centroid, lom, mom, som.
  all: destruct (negb _); [reflexivity|].
  1: destruct (Z.ltb n 0); [reflexivity|].
  all: match goal with |- rbind ?a _ = rbind ?b _ => assert (a = b) as ->; [|reflexivity] end.
  all: apply rfold_ext; intros a b; unfold bisector_step, centroid_step, lom_step, mom_step, som_step; rewrite E; reflexivity.
Qed.
Lemma agg_ext {A} (f g : A -> T -> res T) a l x : (forall t x, f t x = g t x) -> agg_membership f a l x = agg_membership g a l x.
Proof.
  intros E. unfold agg_membership. destruct (isNaN x) eqn:N; [reflexivity|]. destruct l as [|t l]; [reflexivity|]. destruct a as [s|]; [|reflexivity].
  apply rfold_ext. intros b c. unfold ac_membership. rewrite N. destruct (ac_implication c); [|reflexivity]. rewrite E. reflexivity.
Qed.
Lemma group_ext {A} (name name' : A -> string) (E : forall t, name t = name' t) a (l : list (activated T A)) : grouped_terms name a l = grouped_terms name' a l.
Proof.
  unfold grouped_terms. set (s := match a with Some s => s | None => UnboundedSum end).
  assert (forall (l : list (activated T A)) m, fold_left (group_step name s) l m = fold_left (group_step name' s) l m) as G.
  { induction l0 as [|x l0 IH]; intros m; cbn [fold_left]; [reflexivity|]. rewrite <- IH. f_equal. unfold group_step. rewrite E. reflexivity. }
  assert (forall (l : list (activated T A)) m, fold_left (pick_step name) l m = fold_left (pick_step name') l m) as Pk.
  { induction l0 as [|x l0 IH]; intros m; cbn [fold_left]; [reflexivity|]. rewrite <- IH. f_equal. unfold pick_step. rewrite E. reflexivity. }
  rewrite G, Pk. reflexivity.
Qed.
Lemma weighted_ext {A} k ty (name name' : A -> string) (memb memb' tsuk tsuk' : A -> T -> res T) wt wt' a (l : list (activated T A)) :
  (forall t, name t = name' t) -> (forall t x, memb t x = memb' t x) -> (forall t x, tsuk t x = tsuk' t x) -> (forall t, wt t = wt' t) ->
  weighted_defuzzify k ty name memb tsuk wt a l = weighted_defuzzify k ty name' memb' tsuk' wt' a l.
Proof.
  intros E1 E2 E3 E4. unfold weighted_defuzzify. destruct l as [|t l]; [reflexivity|].
  assert (map (fun a => wt (ac_term a)) (t :: l) = map (fun a => wt' (ac_term a)) (t :: l)) as -> by (apply map_ext; intros; apply E4).
  match goal with |- rbind ?a _ = _ => destruct a as [w|?| |]; cbn [rbind]; try reflexivity end.
  assert (forall z z' : A -> T -> res T, (forall t x, z t x = z' t x) -> weighted_with k name z a (t :: l) = weighted_with k name' z' a (t :: l)) as G.
  { intros z z' E. unfold weighted_with. rewrite (group_ext name name' E1).
    match goal with |- rbind ?a _ = rbind ?b _ => assert (a = b) as ->; [|reflexivity] end.
    apply rfold_ext. intros c d. unfold weighted_step. rewrite E. reflexivity. }
  destruct w; auto.
Qed.
End Ext.

(** ** what triggering rules does to the fuzzy outputs *)
Section Grow.
Context {T : Type} `{S : Scalar T}.
Variable enabled : varref -> bool.
Variable drain : drainer T.
Variable I : fuzzy T -> fuzzy T -> Prop.
Hypothesis I_refl : forall f, I f f.
Hypothesis I_trans : forall f g h, I f g -> I g h -> I f h.
Hypothesis I_trigger : forall implication f r r' f', trigger enabled implication f r = Ok (r', f') -> I f f'.
Section Methods.
Variable degree : fuzzy T -> varref -> nat -> res T.
Variables (conjunction : option tnorm) (disjunction : option snorm) (implication : option tnorm).
Lemma pass_grow choose : forall rules k f rules' f' e, pass enabled degree conjunction disjunction implication choose k rules f = (rules', f', e) -> I f f'.
Proof.
  induction rules as [|r rules IH]; intros k f rules' f' e H; cbn [pass] in H; [inversion H; subst; apply I_refl|].
  destruct (rule_loaded (rule_deactivate r)).
  - destruct (activate_with _ _ _ _ f (rule_deactivate r)) as [r1|x| |]; try (inversion H; subst; apply I_refl).
    destruct (choose k (rl_degree r1)).
    + destruct (trigger enabled implication f r1) as [[r2 f2]|x| |] eqn:G; try (inversion H; subst; apply I_refl).
      apply I_trigger in G. destruct (pass _ _ _ _ _ _ _ rules f2) as [[rs g] e'] eqn:E. inversion H; subst. apply IH in E. eapply I_trans; eassumption.
    + destruct (pass _ _ _ _ _ _ _ rules f) as [[rs g] e'] eqn:E. inversion H; subst. eapply IH; exact E.
  - destruct (pass _ _ _ _ _ _ _ rules f) as [[rs g] e'] eqn:E. inversion H; subst. eapply IH; exact E.
Qed.
Lemma trigger_at_grow : forall order rules f rules' f' e, trigger_at enabled implication order rules f = (rules', f', e) -> I f f'.
Proof.
  induction order as [|i order IH]; intros rules f rules' f' e H; cbn [trigger_at] in H; [inversion H; subst; apply I_refl|].
  destruct (nth_error rules i) as [r|]; [|inversion H; subst; apply I_refl].
  destruct (trigger enabled implication f r) as [[r1 f1]|x| |] eqn:G; try (inversion H; subst; apply I_refl).
  apply I_trigger in G. apply IH in H. eapply I_trans; eassumption.
Qed.
Lemma share_grow sum : forall rules f rules' f' e, share_pass enabled implication sum rules f = (rules', f', e) -> I f f'.
Proof.
  induction rules as [|r rules IH]; intros f rules' f' e H; cbn [share_pass] in H; [inversion H; subst; apply I_refl|].
  destruct (rule_loaded r).
  - destruct (trigger enabled implication f _) as [[r1 f1]|x| |] eqn:G; try (inversion H; subst; apply I_refl).
    apply I_trigger in G. destruct (share_pass _ _ _ rules f1) as [[rs g] e'] eqn:E. inversion H; subst. apply IH in E. eapply I_trans; eassumption.
  - destruct (share_pass _ _ _ rules f) as [[rs g] e'] eqn:E. inversion H; subst. eapply IH; exact E.
Qed.
Lemma activate_grow a rules f rules' f' e : activate enabled degree conjunction disjunction implication drain a rules f = (rules', f', e) -> I f f'.
Proof.
  destruct a; cbn [activate]; intros H; try (eapply pass_grow; exact H).
  - unfold last_rules in H. destruct (pass _ _ _ _ _ _ _ (rev rules) f) as [[rs g] e'] eqn:E. inversion H; subst. eapply pass_grow; exact E.
  - unfold highest, queue_rules in H. destruct (degrees_pass _ _ _ _ f rules) as [r1 e1]. destruct e1; try (inversion H; subst; apply I_refl). eapply trigger_at_grow; exact H.
  - unfold lowest, queue_rules in H. destruct (degrees_pass _ _ _ _ f rules) as [r1 e1]. destruct e1; try (inversion H; subst; apply I_refl). eapply trigger_at_grow; exact H.
  - unfold proportional in H. destruct (degrees_pass _ _ _ _ f rules) as [r1 e1]. destruct e1; try (inversion H; subst; apply I_refl). eapply share_grow; exact H.
Qed.
End Methods.
Lemma run_grow degree : forall bs f bs' f' e, run_blocks drain enabled degree bs f = (bs', f', e) -> I f f'.
Proof.
  induction bs as [|b bs IH]; intros f bs' f' e H; cbn [run_blocks] in H; [inversion H; subst; apply I_refl|].
  destruct (b_enabled b).
  - unfold block_activate in H. destruct (activate _ _ _ _ _ _ _ (b_rules b) f) as [[rs g] u] eqn:E. apply activate_grow in E.
    destruct u as [[]|x| |]; try (inversion H; subst; exact E).
    destruct (run_blocks drain enabled degree bs g) as [[bs1 h] u] eqn:R. inversion H; subst. apply IH in R. eapply I_trans; eassumption.
  - destruct (run_blocks drain enabled degree bs f) as [[bs1 h] u] eqn:R. inversion H; subst. eapply IH; exact R.
Qed.
End Grow.
Section Length.
Context {T : Type} `{S : Scalar T}.
(** fuzzy outputs only grow; those of disabled variables do not *)
Definition grown (enabled : varref -> bool) (f f' : fuzzy T) : Prop :=
  length f' = length f /\ forall j l, nth_error f j = Some l -> exists l', nth_error f' j = Some (l ++ l')%list /\ (enabled (VOut j) = false -> l' = []).
Lemma grown_refl enabled f : grown enabled f f.
Proof. split; [reflexivity|]. intros j l H. exists []. rewrite app_nil_r. auto. Qed.
Lemma grown_trans enabled f g h : grown enabled f g -> grown enabled g h -> grown enabled f h.
Proof.
  intros [A1 A2] [B1 B2]. split; [congruence|]. intros j l H. destruct (A2 j l H) as (l1 & H1 & D1). destruct (B2 j _ H1) as (l2 & H2 & D2).
  exists (l1 ++ l2)%list. rewrite app_assoc. split; [exact H2|]. intros D. rewrite D1, D2 by exact D. reflexivity.
Qed.
Lemma modify_enabled enabled d : forall cs added, conclusions_modify enabled d cs = Ok added -> forall j t x, In (j, t, x) added -> enabled (VOut j) = true.
Proof.
  intros cs. revert d. induction cs as [|p cs IH]; intros d added H j t x I; cbn [conclusions_modify] in H; [inversion H; subst; contradiction|].
  destruct (enabled (pr_var p)) eqn:E; [|eapply IH; eassumption].
  destruct (pr_var p) as [i|i]; [discriminate|]. destruct (pr_term p) as [k|]; [|discriminate].
  destruct (conclusions_modify enabled _ cs) as [rest|?| |] eqn:G; cbn [rbind] in H; try discriminate. inversion H; subst.
  destruct I as [I|I]; [inversion I; subst; exact E|eapply IH; eassumption].
Qed.
Lemma trigger_grown enabled implication f r r' f' : trigger enabled implication f r = Ok (r', f') -> grown enabled f f'.
Proof.
  unfold trigger. destruct (rule_trigger enabled r) as [[r1 added]|?| |] eqn:E; cbn [rbind]; try discriminate.
  destruct (add_terms implication added f) as [f1|?| |] eqn:A; cbn [rbind]; try discriminate. intros H. inversion H; subst.
  apply add_terms_extended in A. destruct A as [A1 A2]. split; [exact A1|]. intros j l Hl. exists (for_variable implication j added). split; [apply A2; exact Hl|].
  intros D. unfold rule_trigger in E. destruct (negb (rule_loaded r)); [discriminate|].
  destruct (_ && _)%bool; [|inversion E; subst; reflexivity].
  unfold consequent_modify in E. destruct (rl_consequent r) as [|p cs]; [discriminate|].
  destruct (conclusions_modify enabled (rl_degree r) (p :: cs)) as [ad|?| |] eqn:M; cbn [rbind] in E; try discriminate. inversion E; subst.
  unfold for_variable. match goal with |- map _ ?l = [] => assert (l = []) as ->; [|reflexivity] end.
  pose proof (modify_enabled _ _ _ _ M) as Q. clear - Q D. induction added as [|[[i t] x] added IH]; [reflexivity|]. cbn.
  destruct (Nat.eqb_spec i j) as [->|N].
  - rewrite (Q j t x) in D by (left; reflexivity). discriminate.
  - apply IH. intros k u y I. apply (Q k u y). right. exact I.
Qed.
Lemma run_grown drain enabled degree bs f bs' f' e : run_blocks drain enabled degree bs f = (bs', f', e) -> grown enabled f f'.
Proof. apply run_grow; [apply grown_refl|apply grown_trans|apply trigger_grown]. Qed.
End Length.

(** ** engines which are alike *)
Section Like.
Context {T : Type} `{S : Scalar T}.
Variable drain : drainer T.
(** names of the input and of the output variables; with [strict], also the values of the outputs are alike *)
Variables (inames onames : list string) (strict : bool).
Definition readable (v : string) : Prop := strict = true \/ ~ In v onames.
Definition term_like (a b : term T) : Prop :=
  tm_name a = tm_name b /\ tm_height a = tm_height b /\
  match tm_body a, tm_body b with
  | TFunction f, TFunction g =>
    fn_root f = fn_root g /\ fn_engine f = fn_engine g /\
    forall n v, fn_root f = Some n -> In v (free n) -> v = "x" \/
      (if fn_engine f then readable v /\ (In v (inames ++ onames) \/ vget (fn_vars f) v = vget (fn_vars g) v) else vget (fn_vars f) v = vget (fn_vars g) v)
  | s, t => s = t
  end.
Definition view_like (a b : view T) : Prop :=
  vw_inputs a = vw_inputs b /\ map fst (vw_context a) = (inames ++ onames)%list /\ map fst (vw_context b) = (inames ++ onames)%list /\
  forall v, readable v -> lookup_last (vw_context a) v = lookup_last (vw_context b) v.
Definition var_like (a b : variable T) : Prop :=
  v_name a = v_name b /\ v_minimum a = v_minimum b /\ v_maximum a = v_maximum b /\ v_enabled a = v_enabled b /\
  v_lock_range a = v_lock_range b /\ Forall2 term_like (v_terms a) (v_terms b).
Definition in_like (a b : variable T) : Prop := var_like a b /\ v_value a = v_value b.
Definition out_like (a b : output T) : Prop :=
  var_like (o_var a) (o_var b) /\ o_aggregation a = o_aggregation b /\ o_defuzzifier a = o_defuzzifier b /\
  o_default a = o_default b /\ o_lock_previous a = o_lock_previous b /\
  (strict = true -> v_value (o_var a) = v_value (o_var b) /\ o_previous a = o_previous b).

Lemma membership_like a b s t x : view_like a b -> term_like s t -> term_membership a s x = term_membership b t x.
Proof.
  intros (V1 & V2 & V3 & V4) (H1 & H2 & H3). unfold term_membership. rewrite H2.
  destruct (tm_body s) eqn:Es, (tm_body t) eqn:Et; try discriminate; try (inversion H3; subst; rewrite ?V1; reflexivity).
  destruct H3 as (R1 & E1 & F). destruct (fn_root f) as [n|] eqn:Rt.
  - destruct (membership_value f n (vw_context a) x Rt) as [-> W1].
    destruct (membership_value f0 n (vw_context b) x (eq_sym R1)) as [-> W2].
    apply eval_ext. intros v I. rewrite W1, W2, <- E1. unfold environment. destruct (String.eqb_spec "x" v) as [|N]; [reflexivity|].
    destruct (F n v eq_refl I) as [-> | G]; [congruence|]. destruct (fn_engine f); [|cbn [lookup_last]; exact G].
    destruct G as [Rd G]. rewrite (V4 v Rd). destruct (lookup_last (vw_context b) v) eqn:L; [reflexivity|].
    destruct G as [G|G]; [|exact G]. rewrite <- V3 in G. destruct (lookup_some _ _ G). congruence.
  - unfold fn_membership. rewrite Rt, <- R1. reflexivity.
Qed.
Lemma tsukamoto_like s t y : term_like s t -> term_tsukamoto s y = term_tsukamoto t y.
Proof.
  intros (H1 & H2 & H3). unfold term_tsukamoto. rewrite H2.
  destruct (tm_body s), (tm_body t); try discriminate; try reflexivity. injection H3 as <-. reflexivity.
Qed.
Lemma wtype_like s t : term_like s t -> term_wtype s = term_wtype t.
Proof.
  intros (H1 & H2 & H3). unfold term_wtype, term_monotonic.
  destruct (tm_body s), (tm_body t); try discriminate; try reflexivity. injection H3 as <-. reflexivity.
Qed.
Lemma nth_like {A} (R : A -> A -> Prop) l l' (H : Forall2 R l l') i :
  match nth_error l i, nth_error l' i with Some x, Some y => R x y | None, None => True | _, _ => False end.
Proof. revert i. induction H; intros [|i]; cbn; auto. apply IHForall2. Qed.
Lemma defuzzified_like a b d o p : view_like a b -> out_like o p -> o_fuzzy o = o_fuzzy p -> defuzzified a d o = defuzzified b d p.
Proof.
  intros V ((N & Mi & Ma & En & Lk & Tm) & Ag & De & Df & Lp & _) Fz. unfold defuzzified. rewrite Mi, Ma, Ag, Fz.
  assert (forall t x, match nth_error (v_terms (o_var o)) t with Some tm => term_membership a tm x | None => UB end =
                      match nth_error (v_terms (o_var p)) t with Some tm => term_membership b tm x | None => UB end) as E1.
  { intros t x. pose proof (nth_like _ _ _ Tm t) as Q. destruct (nth_error _ t), (nth_error _ t); try contradiction; [|reflexivity]. now apply membership_like. }
  destruct d as [k n|k ty].
  - apply integral_ext. intros x. apply agg_ext. exact E1.
  - apply weighted_ext; [|exact E1| |].
    + intros t. pose proof (nth_like _ _ _ Tm t) as Q. destruct (nth_error _ t), (nth_error _ t); try contradiction; [|reflexivity]. apply Q.
    + intros t x. pose proof (nth_like _ _ _ Tm t) as Q. destruct (nth_error _ t), (nth_error _ t); try contradiction; [|reflexivity]. now apply tsukamoto_like.
    + intros t. pose proof (nth_like _ _ _ Tm t) as Q. destruct (nth_error _ t), (nth_error _ t); try contradiction; [|reflexivity]. now apply wtype_like.
Qed.
Lemma settle_like y o p : out_like o p -> out_like (settle y o) (settle y p).
Proof.
  intros ((N & Mi & Ma & En & Lk & Tm) & Ag & De & Df & Lp & St). unfold settle.
  split; [split; [exact N|]; split; [exact Mi|]; split; [exact Ma|]; split; [exact En|]; split; [exact Lk|exact Tm]|].
  split; [exact Ag|]; split; [exact De|]; split; [exact Df|]; split; [exact Lp|].
  intros E. destruct (St E) as [E1 E2]. cbn. rewrite Mi, Ma, Lk, Df, Lp, E1, E2. split; reflexivity.
Qed.
Definition done_like (r : res unit) (o p : output T) : Prop :=
  out_like o p /\ o_fuzzy o = o_fuzzy p /\
  (r = Ok tt -> v_enabled (o_var o) = true -> o_lock_previous o = false -> v_value (o_var o) = v_value (o_var p)).
Lemma defuzzify_like a b o p : view_like a b -> out_like o p -> o_fuzzy o = o_fuzzy p ->
  snd (defuzzify a o) = snd (defuzzify b p) /\ done_like (snd (defuzzify a o)) (fst (defuzzify a o)) (fst (defuzzify b p)).
Proof.
  intros V O Fz. pose proof O as ((N & Mi & Ma & En & Lk & Tm) & Ag & De & Df & Lp & St). unfold defuzzify. rewrite <- En, <- De.
  destruct (v_enabled (o_var o)) eqn:E; cbn [negb].
  2: { cbn [fst snd]. split; [reflexivity|]. split; [exact O|]. split; [exact Fz|]. intros _ X. congruence. }
  destruct (o_defuzzifier o) as [d|]; [|cbn [fst snd]; split; [reflexivity|]; split; [exact O|]; split; [exact Fz|]; discriminate].
  rewrite (defuzzified_like a b d o p V O Fz).
  destruct (defuzzified b d p) as [y|x| |]; cbn [fst snd]; (split; [reflexivity|]); try (split; [exact O|]; split; [exact Fz|]; discriminate).
  split; [now apply settle_like|]. split; [exact Fz|]. intros _ _ L. cbn in L. cbn. rewrite <- Lp, L, Mi, Ma, Lk, Df. reflexivity.
Qed.

(** views of engines *)
Lemma context_names ins (outs : list (output T)) :
  map fst (vw_context (engine_view ins outs)) = (map (@v_name T) ins ++ map (fun o => v_name (o_var o)) outs)%list.
Proof. cbn. rewrite map_app, !map_map. reflexivity. Qed.
Lemma lookup_app (a b : context T) v : lookup_last (a ++ b)%list v = match lookup_last b v with Some y => Some y | None => lookup_last a v end.
Proof.
  induction a as [|[k y] a IH]; cbn; [destruct (lookup_last b v); reflexivity|]. rewrite IH. destruct (lookup_last b v); reflexivity.
Qed.
Lemma lookup_none (b : context T) v : ~ In v (map fst b) -> lookup_last b v = None.
Proof.
  induction b as [|[k y] b IH]; cbn; [reflexivity|]. intros H. rewrite IH by tauto. destruct (String.eqb_spec k v); [exfalso; tauto|reflexivity].
Qed.
Lemma Forall2_map_eq {A B} (R : A -> A -> Prop) (f : A -> B) l l' : (forall x y, R x y -> f x = f y) -> Forall2 R l l' -> map f l = map f l'.
Proof. intros E. induction 1; cbn; [reflexivity|]. f_equal; auto. Qed.
Lemma view_of ins ins' outs outs' : Forall2 in_like ins ins' -> Forall2 out_like outs outs' ->
  map (@v_name T) ins = inames -> map (fun o => v_name (o_var o)) outs = onames -> view_like (engine_view ins outs) (engine_view ins' outs').
Proof.
  intros HI HO NI NO.
  assert (map (@v_name T) ins' = inames) as NI' by (rewrite <- NI; symmetry; eapply Forall2_map_eq; [|exact HI]; intros x y [H _]; apply H).
  assert (map (fun o => v_name (o_var o)) outs' = onames) as NO' by (rewrite <- NO; symmetry; eapply Forall2_map_eq; [|exact HO]; intros x y [H _]; apply H).
  split; [cbn; eapply Forall2_map_eq; [|exact HI]; intros x y [_ H]; exact H|].
  split; [rewrite context_names; congruence|]. split; [rewrite context_names; congruence|].
  intros v Rd. cbn [vw_context engine_view]. rewrite !lookup_app.
  assert (map (fun v => (v_name v, v_value v)) ins = map (fun v => (v_name v, v_value v)) ins') as ->.
  { eapply Forall2_map_eq; [|exact HI]. intros x y [H E]. f_equal; [apply H|exact E]. }
  destruct Rd as [Rd|Rd].
  - assert (map (fun o => (v_name (o_var o), v_value (o_var o))) outs = map (fun o => (v_name (o_var o), v_value (o_var o))) outs') as ->; [|reflexivity].
    eapply Forall2_map_eq; [|exact HO]. intros x y H. f_equal; [apply H|]. apply H. exact Rd.
  - rewrite (lookup_none (map (fun o => (v_name (o_var o), v_value (o_var o))) outs)) by (rewrite map_map; cbn [fst]; congruence).
    rewrite (lookup_none (map (fun o => (v_name (o_var o), v_value (o_var o))) outs')) by (rewrite map_map; cbn [fst]; congruence). reflexivity.
Qed.

(** defuzzification of all outputs *)
Lemma done_out r l l' : Forall2 (done_like r) l l' -> Forall2 out_like l l'.
Proof. induction 1; constructor; auto. apply H. Qed.
Lemma done_weaken l l' r : Forall2 (fun o p => out_like o p /\ o_fuzzy o = o_fuzzy p) l l' -> r <> Ok tt -> Forall2 (done_like r) l l'.
Proof. intros H N. induction H; constructor; auto. destruct H. split; [assumption|]. split; [assumption|]. congruence. Qed.
Lemma done_forget r l l' : Forall2 (done_like r) l l' -> Forall2 (fun o p => out_like o p /\ o_fuzzy o = o_fuzzy p) l l'.
Proof. induction 1; constructor; auto. destruct H as (h1 & h2 & _). auto. Qed.
Lemma and_out l l' : Forall2 (fun o p => out_like o p /\ o_fuzzy o = o_fuzzy p) l l' -> Forall2 out_like l l'.
Proof. induction 1; constructor; auto. apply H. Qed.
Lemma out_names l l' : Forall2 out_like l l' -> map (fun o => v_name (o_var o)) l = map (fun o => v_name (o_var o)) l'.
Proof. apply Forall2_map_eq. intros x y [H _]. apply H. Qed.
Lemma defuzzify_name a (o : output T) : v_name (o_var (fst (defuzzify a o))) = v_name (o_var o).
Proof.
  destruct (defuzzify a o) as [o' r] eqn:E. apply defuzzify_same in E. destruct E as (E & _). cbn. exact E.
Qed.
Lemma from_like ins ins' : Forall2 in_like ins ins' -> map (@v_name T) ins = inames -> forall rest rest' done done',
  Forall2 (done_like (Ok tt)) done done' -> Forall2 (fun o p => out_like o p /\ o_fuzzy o = o_fuzzy p) rest rest' ->
  map (fun o => v_name (o_var o)) (done ++ rest) = onames ->
  snd (defuzzify_from ins done rest) = snd (defuzzify_from ins' done' rest') /\
  Forall2 (done_like (snd (defuzzify_from ins done rest))) (fst (defuzzify_from ins done rest)) (fst (defuzzify_from ins' done' rest')).
Proof.
  intros HI NI. induction rest as [|o rest IH]; intros rest' done done' HD HR NO; inversion HR; subst; cbn [defuzzify_from].
  - cbn. split; [reflexivity|exact HD].
  - rename y into p, l' into rest'. destruct H1 as [O Fz].
    assert (view_like (engine_view ins (done ++ o :: rest)) (engine_view ins' (done' ++ p :: rest'))) as V.
    { apply view_of; auto. apply Forall2_app; [eapply done_out; exact HD|]. constructor; [exact O|apply and_out; assumption]. }
    destruct (defuzzify_like _ _ o p V O Fz) as [Er Dn].
    pose proof (defuzzify_name (engine_view ins (done ++ o :: rest)) o) as Nm.
    destruct (defuzzify (engine_view ins (done ++ o :: rest)) o) as [o1 r1]. destruct (defuzzify (engine_view ins' (done' ++ p :: rest')) p) as [p1 r2].
    cbn [fst snd] in Er, Dn, Nm. subst r2.
    assert (Forall2 (fun o p => out_like o p /\ o_fuzzy o = o_fuzzy p) (done ++ o1 :: rest) (done' ++ p1 :: rest')) as W.
    { apply Forall2_app; [eapply done_forget; exact HD|]. constructor; [|assumption]. destruct Dn as (h1 & h2 & _). auto. }
    destruct r1 as [[]|x| |].
    + apply IH; auto.
      * apply Forall2_app; [exact HD|]. constructor; [exact Dn|constructor].
      * rewrite <- app_assoc. cbn [app]. rewrite !map_app in *. cbn [map] in *. rewrite Nm. exact NO.
    + cbn [fst snd]. split; [reflexivity|]. apply done_weaken; [exact W|discriminate].
    + cbn [fst snd]. split; [reflexivity|]. apply done_weaken; [exact W|discriminate].
    + cbn [fst snd]. split; [reflexivity|]. apply done_weaken; [exact W|discriminate].
Qed.

(** rule blocks *)
Definition blocks_done (r : res unit) (a b : block T) : Prop := same_block a b /\ (r = Ok tt -> b_enabled a = true -> b_rules a = b_rules b).
Lemma same_block_refl (b : block T) : same_block b b.
Proof. repeat split. apply sames_refl. Qed.
Lemma block_like enabled degree enabled' degree' b c fz :
  (forall v, enabled v = enabled' v) -> (forall f v t, degree f v t = degree' f v t) -> same_block b c ->
  snd (block_activate enabled degree drain b fz) = snd (block_activate enabled' degree' drain c fz) /\
  snd (fst (block_activate enabled degree drain b fz)) = snd (fst (block_activate enabled' degree' drain c fz)) /\
  blocks_done (snd (block_activate enabled degree drain b fz)) (fst (fst (block_activate enabled degree drain b fz))) (fst (fst (block_activate enabled' degree' drain c fz))).
Proof.
  intros Ee Ed (h1 & h2 & h3 & h4 & h5 & h6 & h7 & h8). unfold block_activate. fold (method_of b). fold (method_of c). rewrite h5, h6, h7, h8.
  rewrite <- (activate_ext enabled enabled' degree degree' Ee Ed _ _ _ _ _ (b_rules c)).
  pose proof (activate_same enabled degree (b_conjunction b) (b_disjunction b) (b_implication b) drain (method_of b) _ _ fz h4) as A.
  destruct (activate _ _ _ _ _ _ _ (b_rules b) fz) as [[r1 f1] e1] eqn:E1. destruct (activate _ _ _ _ _ _ _ (b_rules c) fz) as [[r2 f2] e2] eqn:E2.
  destruct A as (A1 & A2 & A3). cbn [fst snd] in *. split; [exact A2|]. split; [exact A1|]. subst e2 f2.
  split; [|intros X _; cbn; apply A3; exact X].
  split; [exact h1|]. split; [exact h2|]. split; [exact h3|]. split.
  { cbn. apply activate_keeps in E1. apply activate_keeps in E2. eapply sames_trans; [apply sames_sym; exact E1|]. eapply sames_trans; [exact h4|exact E2]. }
  split; [exact h5|]. split; [exact h6|]. split; [exact h7|]. unfold method_of. cbn. reflexivity.
Qed.
Lemma blocks_like enabled degree enabled' degree' : (forall v, enabled v = enabled' v) -> (forall f v t, degree f v t = degree' f v t) ->
  forall bs cs fz, Forall2 same_block bs cs ->
  let x := run_blocks drain enabled degree bs fz in let y := run_blocks drain enabled' degree' cs fz in
  snd x = snd y /\ snd (fst x) = snd (fst y) /\ Forall2 (blocks_done (snd x)) (fst (fst x)) (fst (fst y)).
Proof.
  intros Ee Ed bs cs fz H. revert fz. induction H as [|b c bs cs E H IH]; intros fz; cbn [run_blocks]; [cbn; auto|].
  replace (b_enabled c) with (b_enabled b) by (symmetry; apply E).
  assert (forall r, r <> Ok tt -> Forall2 (blocks_done r) bs cs) as W.
  { intros r Nr. clear - H Nr. induction H; constructor; auto. split; [assumption|congruence]. }
  destruct (b_enabled b) eqn:En.
  - destruct (block_like _ _ _ _ b c fz Ee Ed E) as (B1 & B2 & B3).
    destruct (block_activate enabled degree drain b fz) as [[b1 f1] e1]. destruct (block_activate enabled' degree' drain c fz) as [[c1 f2] e2].
    cbn [fst snd] in B1, B2, B3. subst e2 f2. destruct e1 as [[]|x| |].
    + specialize (IH f1). cbn zeta in IH. destruct (run_blocks drain enabled degree bs f1) as [[b2 g1] u1]. destruct (run_blocks drain enabled' degree' cs f1) as [[c2 g2] u2].
      cbn [fst snd] in *. destruct IH as (I1 & I2 & I3). split; [exact I1|]. split; [exact I2|]. constructor; [|exact I3].
      destruct B3 as [B3 B4]. split; [exact B3|]. auto.
    + cbn. split; [reflexivity|]. split; [reflexivity|]. constructor; [exact B3|]. apply W. discriminate.
    + cbn. split; [reflexivity|]. split; [reflexivity|]. constructor; [exact B3|]. apply W. discriminate.
    + cbn. split; [reflexivity|]. split; [reflexivity|]. constructor; [exact B3|]. apply W. discriminate.
  - specialize (IH fz). cbn zeta in IH. destruct (run_blocks drain enabled degree bs fz) as [[b2 g1] u1]. destruct (run_blocks drain enabled' degree' cs fz) as [[c2 g2] u2].
    cbn [fst snd] in *. destruct IH as (I1 & I2 & I3). split; [exact I1|]. split; [exact I2|]. constructor; [|exact I3].
    split; [exact E|]. congruence.
Qed.
(** ** process *)
Definition engine_like (a b : engine T) : Prop :=
  Forall2 in_like (e_inputs a) (e_inputs b) /\ Forall2 out_like (e_outputs a) (e_outputs b) /\ Forall2 same_block (e_blocks a) (e_blocks b) /\
  map (@v_name T) (e_inputs a) = inames /\ map (fun o => v_name (o_var o)) (e_outputs a) = onames.
Lemma put_like fz : forall outs outs', Forall2 out_like outs outs' ->
  Forall2 (fun o p => out_like o p /\ o_fuzzy o = o_fuzzy p) (put_fuzzy outs fz) (put_fuzzy outs' fz).
Proof.
  unfold put_fuzzy. revert fz. intros fz outs outs' H. revert fz. induction H; intros [|f fz]; cbn; constructor; auto.
Qed.
Lemma put_names fz : forall outs : list (output T), length fz = length outs ->
  map (fun o => v_name (o_var o)) (put_fuzzy outs fz) = map (fun o => v_name (o_var o)) outs.
Proof.
  unfold put_fuzzy. induction fz as [|f fz IH]; intros [|o outs] H; cbn in *; try discriminate; [reflexivity|]. f_equal. apply IH. lia.
Qed.
Definition processed (r : res unit) (x y : engine T) : Prop :=
  Forall2 in_like (e_inputs x) (e_inputs y) /\ Forall2 (done_like r) (e_outputs x) (e_outputs y) /\
  Forall2 (fun c d => same_block c d /\ (r = Ok tt -> b_enabled c = true -> b_rules c = b_rules d)) (e_blocks x) (e_blocks y).
Lemma process_like a b : engine_like a b ->
  snd (process drain a) = snd (process drain b) /\ processed (snd (process drain a)) (fst (process drain a)) (fst (process drain b)).
Proof.
  intros (HI & HO & HB & NI & NO). unfold process.
  set (outs := map (set_fuzzy []) (e_outputs a)). set (outs' := map (set_fuzzy []) (e_outputs b)).
  assert (Forall2 out_like outs outs') as HO'. { unfold outs, outs'. clear - HO. induction HO; constructor; auto. }
  assert (map (fun o => v_name (o_var o)) outs = onames) as NO'. { unfold outs. rewrite map_map. exact NO. }
  assert (view_like (engine_view (e_inputs a) outs) (engine_view (e_inputs b) outs')) as V by (apply view_of; auto).
  assert (forall v, engine_enabled (e_inputs a) outs v = engine_enabled (e_inputs b) outs' v) as Ee.
  { intros [i|j]; cbn.
    - pose proof (nth_like _ _ _ HI i) as Q. destruct (nth_error (e_inputs a) i), (nth_error (e_inputs b) i); try contradiction; [|reflexivity]. apply Q.
    - pose proof (nth_like _ _ _ HO' j) as Q. destruct (nth_error outs j), (nth_error outs' j); try contradiction; [|reflexivity]. apply Q. }
  assert (map (@o_aggregation T) outs = map (@o_aggregation T) outs') as Eg.
  { eapply Forall2_map_eq; [|exact HO']. intros x y H. apply H. }
  assert (forall f v t, engine_degree (engine_view (e_inputs a) outs) (e_inputs a) (map (@o_aggregation T) outs) f v t =
                        engine_degree (engine_view (e_inputs b) outs') (e_inputs b) (map (@o_aggregation T) outs') f v t) as Ed.
  { intros f [i|j] t; cbn [engine_degree]; [|rewrite Eg; reflexivity].
    pose proof (nth_like _ _ _ HI i) as Q. destruct (nth_error (e_inputs a) i) as [v|], (nth_error (e_inputs b) i) as [w|]; try contradiction; [|reflexivity].
    destruct Q as [Q1 Q2]. rewrite Q2. destruct Q1 as (_ & _ & _ & _ & _ & Q1). pose proof (nth_like _ _ _ Q1 t) as Q.
    destruct (nth_error (v_terms v) t), (nth_error (v_terms w) t); try contradiction; [|reflexivity]. now apply membership_like. }
  assert (map (fun _ : output T => @nil (activated T nat)) outs = map (fun _ : output T => @nil (activated T nat)) outs') as Ez.
  { eapply Forall2_map_eq; [|exact HO']. reflexivity. }
  rewrite <- Ez.
  pose proof (blocks_like _ _ _ _ Ee Ed (e_blocks a) (e_blocks b) (map (fun _ : output T => []) outs) HB) as BL. cbn zeta in BL.
  destruct (run_blocks drain (engine_enabled (e_inputs a) outs) _ (e_blocks a) _) as [[bs fz] r] eqn:Er.
  destruct (run_blocks drain (engine_enabled (e_inputs b) outs') _ (e_blocks b) _) as [[cs gz] r'].
  cbn [fst snd] in BL. destruct BL as (B1 & B2 & B3). subst r' gz.
  pose proof (put_like fz _ _ HO') as HP.
  assert (length fz = length outs) as Lz. { apply run_grown in Er. destruct Er as [Er _]. rewrite Er, map_length. reflexivity. }
  destruct r as [[]|x| |].
  2-4: cbn [fst snd e_inputs e_outputs e_blocks]; split; [reflexivity|]; split; [exact HI|]; split; [apply done_weaken; [exact HP|discriminate]|exact B3].
  destruct (from_like _ _ HI NI (put_fuzzy outs fz) (put_fuzzy outs' fz) [] [] ltac:(constructor) HP) as [F1 F2].
  { cbn [app]. rewrite put_names by exact Lz. exact NO'. }
  destruct (defuzzify_from (e_inputs a) [] (put_fuzzy outs fz)) as [q1 r1]. destruct (defuzzify_from (e_inputs b) [] (put_fuzzy outs' fz)) as [q2 r2].
  cbn [fst snd e_inputs e_outputs e_blocks] in *. subst r2. split; [reflexivity|]. split; [exact HI|]. split; [exact F2|].
  clear - B3. induction B3 as [|c d bs cs [E1 E2] B3 IH]; constructor; auto.
Qed.
End Like.
