(** Proofs about factories. *)
From Coq Require Import ZArith String Ascii List Bool Sorted Lia.
From Verif Require Import Base Op Norm Hedge Shape Discrete Defuzz Aggregated Function Var Activation Factory SpecFactory.
Import ListNotations.
Local Open Scope string_scope.

Lemma ascii_compare_refl c : Ascii.compare c c = Eq.
Proof. unfold Ascii.compare. apply N.compare_refl. Qed.
Lemma compare_refl s : String.compare s s = Eq.
Proof. induction s as [|c s IH]; cbn; [reflexivity|]. rewrite ascii_compare_refl. exact IH. Qed.
Lemma compare_trans a : forall b c, String.compare a b = Lt -> String.compare b c = Lt -> String.compare a c = Lt.
Proof.
  induction a as [|x a IH]; intros [|y b] [|z c]; cbn; try congruence. unfold Ascii.compare.
  destruct (N.compare_spec (N_of_ascii x) (N_of_ascii y)) as [E|E|E], (N.compare_spec (N_of_ascii y) (N_of_ascii z)) as [F|F|F];
    destruct (N.compare_spec (N_of_ascii x) (N_of_ascii z)) as [G|G|G]; try lia; try congruence. apply IH.
Qed.
Lemma compare_eqb a b : String.eqb a b = match String.compare a b with Eq => true | _ => false end.
Proof.
  destruct (String.eqb_spec a b) as [->|N]; [rewrite compare_refl; reflexivity|].
  destruct (String.compare a b) eqn:E; try reflexivity. apply String.compare_eq_iff in E. contradiction.
Qed.
Lemma compare_gt a b : String.compare a b = Gt -> before b a.
Proof. intros H. unfold before. rewrite String.compare_antisym, H. reflexivity. Qed.
Lemma before_neq a b : before a b -> String.eqb a b = false.
Proof. unfold before. intros H. rewrite compare_eqb, H. reflexivity. Qed.

Section Maps.
Context {V : Type}.
Implicit Types m : fmap V.
Definition ordered m : Prop := StronglySorted before (map fst m).
Lemma find_below k m : Forall (before k) (map fst m) -> map_find k m = None.
Proof.
  induction m as [|[j v] m IH]; [reflexivity|]. cbn. intros F. inversion F; subst. rewrite (before_neq k j) by assumption. auto.
Qed.
Lemma find_in k m : In k (map fst m) <-> map_find k m <> None.
Proof.
  induction m as [|[j v] m IH]; cbn; [tauto|]. destruct (String.eqb_spec k j) as [->|N]; [split; [discriminate|auto]|].
  rewrite <- IH. split; [intros [E|E]; [congruence|exact E]|auto].
Qed.
Lemma below_set k v m x : before x k -> Forall (before x) (map fst m) -> Forall (before x) (map fst (map_set k v m)).
Proof.
  intros B. induction m as [|[j w] m IH]; cbn; intros F; [repeat constructor; assumption|]. inversion F; subst.
  destruct (String.compare k j); cbn; constructor; auto.
Qed.
Lemma set_ordered k v m : ordered m -> ordered (map_set k v m).
Proof.
  unfold ordered. induction m as [|[j w] m IH]; cbn; intros H; [repeat constructor|]. inversion H as [|a b Sm Fm]; subst.
  destruct (String.compare k j) eqn:E; cbn.
  - constructor; assumption.
  - constructor; [assumption|]. constructor; [assumption|]. eapply Forall_impl; [|exact Fm]. intros a. apply compare_trans. exact E.
  - constructor; [apply IH; assumption|]. apply below_set; [apply compare_gt; exact E|assumption].
Qed.
Lemma set_find k v m j : ordered m -> map_find j (map_set k v m) = if String.eqb j k then Some v else map_find j m.
Proof.
  unfold ordered. induction m as [|[i w] m IH]; cbn [map_set map_find map fst]; intros H; [reflexivity|]. inversion H as [|a b Sm Fm]; subst.
  destruct (String.compare k i) eqn:E; cbn [map_find].
  - apply String.compare_eq_iff in E. subst i. destruct (String.eqb j k); reflexivity.
  - reflexivity.
  - rewrite IH by assumption. destruct (String.eqb_spec j k) as [Q|]; [|reflexivity]. rewrite Q, compare_eqb, E. reflexivity.
Qed.
Lemma below_erase k m x : Forall (before x) (map fst m) -> Forall (before x) (map fst (map_erase k m)).
Proof. induction m as [|[j w] m IH]; cbn; intros F; [assumption|]. inversion F; subst. destruct (String.eqb k j); cbn; auto. Qed.
Lemma erase_ordered k m : ordered m -> ordered (map_erase k m).
Proof.
  unfold ordered. induction m as [|[j w] m IH]; cbn; intros H; [assumption|]. inversion H; subst. destruct (String.eqb k j); cbn; [assumption|].
  constructor; [auto|apply below_erase; assumption].
Qed.
Lemma erase_find k m j : ordered m -> map_find j (map_erase k m) = if String.eqb j k then None else map_find j m.
Proof.
  unfold ordered. induction m as [|[i w] m IH]; cbn [map_erase map_find map fst]; intros H; [destruct (String.eqb j k); reflexivity|]. inversion H as [|a b Sm Fm]; subst.
  destruct (String.eqb_spec k i) as [E|N]; cbn [map_find].
  - subst i. destruct (String.eqb_spec j k) as [E|]; [subst; apply find_below; assumption|reflexivity].
  - rewrite IH by assumption. destruct (String.eqb_spec j k) as [E|]; [|reflexivity]. subst j. destruct (String.eqb_spec k i); [contradiction|reflexivity].
Qed.
Definition execute (c : command V) m : fmap V := match c with Register k v => map_set k v m | Deregister k => map_erase k m end.
Lemma execute_ordered c m : ordered m -> ordered (execute c m).
Proof. destruct c; [apply set_ordered|apply erase_ordered]. Qed.
Lemma execute_find c m t : ordered m -> (forall j, map_find j m = t j) -> forall j, map_find j (execute c m) = apply c t j.
Proof. intros O H j. destruct c; cbn; [rewrite set_find by assumption|rewrite erase_find by assumption]; rewrite H; reflexivity. Qed.
Theorem history cs : forall m t, ordered m -> (forall j, map_find j m = t j) ->
  let m' := fold_left (fun m c => execute c m) cs m in ordered m' /\ forall j, map_find j m' = table_after cs t j.
Proof.
  induction cs as [|c cs IH]; intros m t O H; [split; assumption|]. cbn [fold_left]. apply IH; [apply execute_ordered; assumption|apply execute_find; assumption].
Qed.
End Maps.

(** a factory after a history which starts empty *)
Section Construct.
Context {A : Type}.
Lemma run_execute cs (f : cfactory A) : fold_left (fun f c => match c with Register k v => register k v f | Deregister k => deregister k f end) cs f =
  fold_left (fun m c => execute c m) cs f.
Proof. revert f. induction cs as [|[k v|k] cs IH]; intros f; cbn; auto. Qed.
Theorem factory_table (cs : list (command (option A))) : let f := run_constructors cs in let t := table_after cs (fun _ => None) in
  (forall k, has_constructor k f = true <-> t k <> None) /\
  (forall k, get_constructor k f = match t k with Some c => c | None => None end) /\
  (forall k, construct k f = match t k with Some c => Ok c | None => Throw EFactory end) /\
  (forall k, In k (available f) <-> t k <> None) /\ StronglySorted before (available f).
Proof.
  intros f t. unfold f, run_constructors. rewrite run_execute. 
  destruct (history cs [] (fun _ => None) (SSorted_nil _) (fun _ => eq_refl)) as [O F]. cbv zeta in F, O.
  set (m := fold_left (fun m c => execute c m) cs []) in *.
  split; [|split; [|split; [|split]]].
  - intros k. unfold has_constructor. rewrite F. fold t. destruct (t k); [split; [discriminate|reflexivity]|split; [discriminate|congruence]].
  - intros k. unfold get_constructor. rewrite F. reflexivity.
  - intros k. unfold construct. rewrite F. reflexivity.
  - intros k. unfold available. rewrite find_in, F. reflexivity.
  - exact O.
Qed.
End Construct.

Section Clone.
Context {A : Type} (clone : A -> A).
Lemma run_objects_execute cs (f : @ofactory A) :
  fold_left (fun f c => match c with Register k v => register_object k v f | Deregister k => deregister_object k f end) cs f = fold_left (fun m c => execute c m) cs f.
Proof. revert f. induction cs as [|[k v|k] cs IH]; intros f; cbn; auto. Qed.
Theorem objects_table (cs : list (command (option A))) : let f := run_objects cs in let t := table_after cs (fun _ => None) in
  (forall k, has_object k f = true <-> t k <> None) /\
  (forall k, get_object k f = match t k with Some c => c | None => None end) /\
  (forall k, clone_object clone k f = match t k with Some c => Ok (option_map clone c) | None => Throw EFactory end) /\
  (forall k, In k (available f) <-> t k <> None) /\ StronglySorted before (available f).
Proof.
  intros f t. unfold f, run_objects. rewrite run_objects_execute.
  destruct (history cs [] (fun _ => None) (SSorted_nil _) (fun _ => eq_refl)) as [O F]. cbv zeta in F, O.
  set (m := fold_left (fun m c => execute c m) cs []) in *.
  split; [|split; [|split; [|split]]].
  - intros k. unfold has_object. rewrite F. fold t. destruct (t k); [split; [discriminate|reflexivity]|split; [discriminate|congruence]].
  - intros k. unfold get_object. rewrite F. reflexivity.
  - intros k. unfold clone_object. rewrite F. fold t. destruct (t k) as [[o|]|]; reflexivity.
  - intros k. unfold available. rewrite find_in, F. reflexivity.
  - exact O.
Qed.
Lemma copy_find (other : @ofactory A) : forall f, ordered f -> ordered other -> 
  ordered (copy_from clone other f) /\
  forall k, map_find k (copy_from clone other f) = match map_find k other with Some o => Some (option_map clone o) | None => map_find k f end.
Proof.
  unfold copy_from. induction other as [|[j o] other IH]; intros f O Oo; [split; [exact O|reflexivity]|]. cbn [fold_left fst snd].
  inversion Oo as [|a b So Fo]; subst. unfold register_object, deregister_object in *.
  destruct (IH (map_set j (option_map clone o) (map_erase j f))) as [O' F'].
  { apply set_ordered, erase_ordered, O. } { exact So. }
  split; [exact O'|]. intros k. rewrite F'. cbn [map_find]. rewrite set_find by (apply erase_ordered, O). rewrite erase_find by assumption.
  destruct (String.eqb_spec k j) as [->|]; [rewrite find_below by assumption; reflexivity|reflexivity].
Qed.
Lemma run_objects_ordered (cs : list (command (option A))) : ordered (run_objects cs).
Proof. unfold run_objects. rewrite run_objects_execute. exact (proj1 (history cs [] (fun _ => None) (SSorted_nil _) (fun _ => eq_refl))). Qed.
Theorem copy_equal (cs : list (command (option A))) : (forall o, clone o = o) -> copy_objects clone (run_objects cs) = run_objects cs.
Proof.
  intros C. pose proof (run_objects_ordered cs) as O. set (m := run_objects cs) in *. clearbody m.
  assert (forall l f : @ofactory A, ordered (f ++ l)%list -> copy_from clone l f = (f ++ l)%list) as K.
  { induction l as [|[j o] l IH]; intros f Ol; [cbn; rewrite app_nil_r; reflexivity|]. unfold copy_from in *. cbn [fold_left fst snd].
    assert (map_set j (option_map clone o) (map_erase j f) = (f ++ [(j, o)])%list) as E.
    { replace (option_map clone o) with o by (destruct o; cbn; [rewrite C|]; reflexivity). clear IH. unfold ordered in Ol. clear -Ol.
      induction f as [|[i w] f IH]; [reflexivity|]. cbn in Ol. inversion Ol as [|a b Sf Ff]; subst. cbn [map_erase].
      assert (before i j) as B by (rewrite map_app, Forall_app in Ff; destruct Ff as [_ Ff]; inversion Ff; assumption).
      assert (String.eqb j i = false) as N by (rewrite String.eqb_sym; apply before_neq; exact B).
      rewrite N. cbn [map_set]. assert (String.compare j i = Gt) as -> by (unfold before in B; rewrite String.compare_antisym, B; reflexivity).
      rewrite IH by assumption. reflexivity. }
    unfold register_object, deregister_object. rewrite E, IH; rewrite <- app_assoc; [reflexivity|exact Ol]. }
  apply (K m []). exact O.
Qed.
End Clone.

(** ** the built-in factories *)
Section Builtin.
Context {A : Type} (class : A -> string).
Lemma builtin_run (l : list (string * A)) (f : cfactory A) cs : f = run_constructors cs ->
  fold_left (fun f p => register (fst p) (Some (snd p)) f) l f = run_constructors (cs ++ map (fun p => Register (fst p) (Some (snd p))) l).
Proof.
  revert f cs. induction l as [|p l IH]; intros f cs E; cbn [fold_left map]; [rewrite app_nil_r; exact E|].
  rewrite (IH _ (cs ++ [Register (fst p) (Some (snd p))])%list); [rewrite <- app_assoc; reflexivity|].
  subst f. unfold run_constructors. rewrite fold_left_app. reflexivity.
Qed.
Lemma after_app {V} (cs ds : list (command V)) t : table_after (cs ++ ds) t = table_after ds (table_after cs t).
Proof. unfold table_after. apply fold_left_app. Qed.
Lemma after_out (l : list A) : forall t k, ~ In k (map class l) -> table_after (map (fun a => Register (class a) (Some a)) l) t k = t k.
Proof.
  induction l as [|a l IH]; intros t k N; [reflexivity|]. cbn in N. unfold table_after in *. cbn [map fold_left].
  etransitivity; [apply IH; tauto|]. cbn. destruct (String.eqb_spec k (class a)) as [E|]; [exfalso; auto|reflexivity].
Qed.
Lemma after_in (l : list A) : NoDup (map class l) -> forall t a, In a l -> table_after (map (fun a => Register (class a) (Some a)) l) t (class a) = Some (Some a).
Proof.
  induction l as [|b l IH]; intros D t a I; [destruct I|]. cbn in D. inversion D as [|x y Nb Dl]; subst. unfold table_after. cbn [map fold_left].
  destruct I as [->|I]; [|apply IH; assumption]. etransitivity; [apply after_out; exact Nb|]. cbn. rewrite String.eqb_refl. reflexivity.
Qed.
Theorem builtin_ok (l : list A) : NoDup ("" :: map class l) -> let f := builtin (map (fun a => (class a, a)) l) in
  (forall a, In a l -> construct (class a) f = Ok (Some a)) /\ construct "" f = Ok None /\
  (forall k, k <> "" -> ~ In k (map class l) -> construct k f = Throw EFactory) /\
  (forall k, In k (available f) <-> k = "" \/ In k (map class l)).
Proof.
  intros D f. inversion D as [|x y Ne Dl]; subst. unfold f, builtin. rewrite (builtin_run _ _ [Register "" None]) by reflexivity.
  rewrite map_map. cbn [fst snd].
  destruct (factory_table ([Register "" None] ++ map (fun a => Register (class a) (Some a)) l)) as (_ & _ & C & Av & _).
  assert (forall k, In k (map class l) -> exists a, In a l /\ class a = k) as Ex.
  { intros k I. apply in_map_iff in I. destruct I as (a & E & I). eauto. }
  split; [|split; [|split]].
  - intros a I. rewrite C, after_app, after_in by assumption. reflexivity.
  - rewrite C, after_app, after_out by assumption. reflexivity.
  - intros k Nk Nl. rewrite C, after_app, after_out by assumption. cbn. destruct (String.eqb_spec k ""); [contradiction|reflexivity].
  - intros k. rewrite Av, after_app. destruct (in_dec string_dec k (map class l)) as [I|N].
    + split; [auto|]. intros _. destruct (Ex k I) as (a & Ia & <-). rewrite after_in by assumption. discriminate.
    + rewrite after_out by assumption. cbn. destruct (String.eqb_spec k "") as [->|Nk]; [split; [auto|discriminate]|].
      split; [contradiction|intros [?|?]; contradiction].
Qed.
End Builtin.

Ltac distinct := repeat (constructor; [cbn; intuition discriminate|]); constructor.
Lemma only {A} (class : A -> string) l (f : cfactory A) : (forall a, In a l -> construct (class a) f = Ok (Some a)) -> construct "" f = Ok None ->
  (forall k, k <> "" -> ~ In k (map class l) -> construct k f = Throw EFactory) -> (forall a, In a l) ->
  forall k a, construct k f = Ok (Some a) <-> k = class a.
Proof.
  intros H1 H2 H3 All k a. split; [|intros ->; apply H1, All]. intros C. destruct (string_dec k "") as [->|N]; [rewrite H2 in C; discriminate|].
  destruct (in_dec string_dec k (map class l)) as [I|I]; [|rewrite H3 in C by assumption; discriminate].
  apply in_map_iff in I. destruct I as (b & <- & I). rewrite H1 in C by assumption. congruence.
Qed.
Definition tnorms := [AlgebraicProduct; BoundedDifference; DrasticProduct; EinsteinProduct; HamacherProduct; Minimum; NilpotentMinimum].
Definition snorms := [AlgebraicSum; BoundedSum; DrasticSum; EinsteinSum; HamacherSum; Maximum; NilpotentMaximum; NormalizedSum; UnboundedSum].
Definition hedges := [Any; Extremely; Not; Seldom; Somewhat; Very].
Definition defuzzifiers n := [DIntegral Bisector n; DIntegral Centroid n; DIntegral LargestOfMaximum n; DIntegral MeanOfMaximum n; DIntegral SmallestOfMaximum n;
  DWeighted WeightedAverage WAutomatic; DWeighted WeightedSum WAutomatic].
Lemma tnorms_ok : constructs tnorm_class tnorm_factory tnorms /\ forall k n, construct k tnorm_factory = Ok (Some n) <-> k = tnorm_class n.
Proof.
  assert (constructs tnorm_class tnorm_factory tnorms) as C by (apply (builtin_ok tnorm_class tnorms); distinct).
  split; [exact C|]. destruct C as (a & b & c & _). eapply only; try eassumption. intros []; cbn; auto 20.
Qed.
Lemma snorms_ok : constructs snorm_class snorm_factory snorms /\ forall k n, construct k snorm_factory = Ok (Some n) <-> k = snorm_class n.
Proof.
  assert (constructs snorm_class snorm_factory snorms) as C by (apply (builtin_ok snorm_class snorms); distinct).
  split; [exact C|]. destruct C as (a & b & c & _). eapply only; try eassumption. intros []; cbn; auto 20.
Qed.
Lemma hedges_ok : constructs hedge_name hedge_factory hedges /\ forall k h, construct k hedge_factory = Ok (Some h) <-> k = hedge_name h.
Proof.
  assert (constructs hedge_name hedge_factory hedges) as C by (apply (builtin_ok hedge_name hedges); distinct).
  split; [exact C|]. destruct C as (a & b & c & _). eapply only; try eassumption. intros []; cbn; auto 20.
Qed.
(** the table used when rules are loaded *)
Lemma hedge_lookup k : k <> "" -> hedge_of_name k = match construct k hedge_factory with Ok o => o | _ => None end.
Proof.
  intros N. destruct hedges_ok as [(A & B & C & _) D].
  destruct (in_dec string_dec k (map hedge_name hedges)) as [I|I].
  - apply in_map_iff in I. destruct I as (h & <- & I). rewrite A by assumption. destruct h; reflexivity.
  - rewrite C by assumption. unfold hedge_of_name. cbn in I. repeat match goal with |- context [String.eqb k ?s] => destruct (String.eqb_spec k s) as [Q|]; [exfalso; rewrite Q in I; tauto|] end. reflexivity.
Qed.
Lemma defuzzifiers_ok n : constructs defuzzifier_class (defuzzifier_factory n) (defuzzifiers n).
Proof. apply (builtin_ok defuzzifier_class (defuzzifiers n)); distinct. Qed.
Lemma defuzzifier_made n d : exists d0, construct (defuzzifier_class d) (defuzzifier_factory n) = Ok (Some d0) /\ In d0 (defuzzifiers n) /\ defuzzifier_class d0 = defuzzifier_class d.
Proof.
  destruct (defuzzifiers_ok n) as (A & _). 
  assert (exists d0, In d0 (defuzzifiers n) /\ defuzzifier_class d0 = defuzzifier_class d) as (d0 & I & E).
  { destruct d as [[] r|[] ty]; cbn [defuzzifier_class].
    - exists (DIntegral Bisector n). cbn; auto 20. - exists (DIntegral Centroid n). cbn; auto 20. - exists (DIntegral LargestOfMaximum n). cbn; auto 20.
    - exists (DIntegral MeanOfMaximum n). cbn; auto 20. - exists (DIntegral SmallestOfMaximum n). cbn; auto 20.
    - exists (DWeighted WeightedAverage WAutomatic). cbn; auto 20. - exists (DWeighted WeightedSum WAutomatic). cbn; auto 20. }
  exists d0. rewrite <- E. split; [apply A; exact I|auto].
Qed.
(** any defuzzifier is constructed from its class name and its parameters *)
Lemma integral_made n k r : construct_integral (defuzzifier_class (DIntegral k r)) r (defuzzifier_factory n) = Ok (Some (DIntegral k r)).
Proof.
  unfold construct_integral, construct_defuzzifier. destruct (defuzzifier_made n (DIntegral k r)) as (d0 & -> & I & E). cbn [rbind].
  destruct k; cbn in I, E; repeat destruct I as [<-|I]; try discriminate; try reflexivity; destruct I.
Qed.
Lemma weighted_made n k ty : construct_weighted (defuzzifier_class (DWeighted k ty)) ty (defuzzifier_factory n) = Ok (Some (DWeighted k ty)).
Proof.
  unfold construct_weighted, construct_defuzzifier. destruct (defuzzifier_made n (DWeighted k ty)) as (d0 & -> & I & E). cbn [rbind].
  destruct k; cbn in I, E; repeat destruct I as [<-|I]; try discriminate; try reflexivity; destruct I.
Qed.
Lemma wtype_names s ty : wtype_of_name s = Ok ty <-> s = wtype_name ty.
Proof.
  unfold wtype_of_name. repeat match goal with |- context [String.eqb s ?t] => destruct (String.eqb_spec s t) as [->|]; [destruct ty; cbn; split; congruence|] end. destruct ty; cbn; split; congruence.
Qed.

Section Scalars.
Context {T : Type} `{S : Scalar T}.
Lemma terms_ok : constructs (fun t => body_class (tm_body t)) (term_factory : cfactory (term T)) (map new_term new_bodies) /\
  Forall (fun t => tm_name t = "" /\ tm_height t = s_1) (map new_term new_bodies : list (term T)).
Proof.
  split; [|repeat constructor]. unfold constructs, term_factory.
  replace (map (fun b : tbody T => (body_class b, new_term b)) new_bodies) with (map (fun t : term T => (body_class (tm_body t), t)) (map new_term new_bodies)) by (rewrite map_map; reflexivity).
  apply (builtin_ok (fun t : term T => body_class (tm_body t)) (map new_term new_bodies)). cbn [map new_bodies new_term tm_body body_class shape_class]. distinct.
Qed.
Lemma term_made (b : tbody T) : exists t, construct (body_class b) (term_factory : cfactory (term T)) = Ok (Some t) /\ In t (map new_term new_bodies) /\ body_class (tm_body t) = body_class b.
Proof.
  destruct terms_ok as [(A & _) _].
  assert (exists t : term T, In t (map new_term new_bodies) /\ body_class (tm_body t) = body_class b) as (t & I & E).
  { assert (exists c, In c (new_bodies : list (tbody T)) /\ body_class c = body_class b) as (c & I & E).
    { set (l := new_bodies : list (tbody T)).
      assert (In (body_class b) (map body_class l)) as I by (destruct b as [[]|?|?|? ?|?]; cbn; auto 30).
      apply in_map_iff in I. destruct I as (c & E & I). eauto. }
    exists (new_term c). split; [apply in_map; exact I|exact E]. }
  exists t. rewrite <- E. split; [apply A; exact I|auto].
Qed.
Definition activations : list (activation T) := [First 1 s_0; General; Highest 1; Last 1 s_0; Lowest 1; Proportional; Threshold GreaterThanOrEqualTo s_0].
Lemma activations_ok : constructs activation_class (activation_factory : cfactory (activation T)) activations.
Proof. apply (builtin_ok activation_class activations); distinct. Qed.
Lemma activation_made (a : activation T) : exists a0, construct (activation_class a) activation_factory = Ok (Some a0) /\ In a0 activations /\ activation_class a0 = activation_class a.
Proof.
  destruct activations_ok as (A & _).
  assert (In (activation_class a) (map activation_class activations)) as I by (destruct a; cbn; auto 20).
  apply in_map_iff in I. destruct I as (c & E & I). exists c. rewrite <- E. split; [apply A; exact I|auto].
Qed.
End Scalars.
(** ** the names written out *)
Lemma constructs_pairs A (class : A -> string) f l ps : constructs class f l -> ps = map (fun a => (class a, a)) l ->
  forall k a, construct k f = Ok (Some a) <-> In (k, a) ps.
Proof.
  intros (C & N & O & _) -> k a. split.
  - intros E. destruct (string_dec k "") as [->|K]. { rewrite N in E. discriminate. }
    destruct (in_dec string_dec k (map class l)) as [I|I]; [|rewrite (O k K I) in E; discriminate].
    apply in_map_iff in I. destruct I as (b & <- & I). rewrite (C b I) in E. injection E as <-. apply in_map_iff. exists b. auto.
  - intros I. apply in_map_iff in I. destruct I as (b & E & I). injection E as <- <-. apply C. exact I.
Qed.
Lemma names_ok : (forall k a, construct k tnorm_factory = Ok (Some a) <-> In (k, a) documented_tnorms) /\
  (forall k a, construct k snorm_factory = Ok (Some a) <-> In (k, a) documented_snorms) /\
  (forall k a, construct k hedge_factory = Ok (Some a) <-> In (k, a) documented_hedges) /\
  (forall n k a, construct k (defuzzifier_factory n) = Ok (Some a) <-> In (k, a) (documented_defuzzifiers n)).
Proof.
  split; [exact (constructs_pairs _ _ _ _ _ (proj1 tnorms_ok) eq_refl)|]. split; [exact (constructs_pairs _ _ _ _ _ (proj1 snorms_ok) eq_refl)|].
  split; [exact (constructs_pairs _ _ _ _ _ (proj1 hedges_ok) eq_refl)|]. intros n. exact (constructs_pairs _ _ _ _ _ (defuzzifiers_ok n) eq_refl).
Qed.
Lemma scalar_names_ok T (S : Scalar T) : (forall k a, construct k (activation_factory : cfactory (activation T)) = Ok (Some a) <-> In (k, a) documented_activations) /\
  (forall k t, construct k (term_factory : cfactory (term T)) = Ok (Some t) <-> exists b, In (k, b) documented_terms /\ t = mkTerm "" s_1 b).
Proof.
  split; [exact (constructs_pairs _ _ _ _ _ activations_ok eq_refl)|]. intros k t.
  rewrite (constructs_pairs _ _ _ _ (map (fun p => (fst p, mkTerm "" s_1 (snd p))) documented_terms) (proj1 terms_ok) eq_refl). rewrite in_map_iff. split.
  - intros ((c, b) & E & I). injection E as <- <-. exists b. auto.
  - intros (b & I & ->). exists (k, b). auto.
Qed.
