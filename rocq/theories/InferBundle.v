(** The values of output variables, from the conclusions about them. *)
From Coq Require Import ZArith String List Bool Lia Reals Lra.
From Verif Require Import Base Op XR XRFacts Norm Hedge Shape Discrete Defuzz Aggregated Function Rule Var Activation Engine
  SpecNorm SpecDefuzz SpecAgg SpecDegree SpecRule SpecActivation SpecEngine SpecInfer NormSpec NormProofs NormBundle DegreeProofs DefuzzReal DefuzzBundle AggProofs AggProofs2 AggBundle
  SpecSound SoundBundle EngineProofs3 EngineProofs4 InferProofs.
Import ListNotations.

(** ** rules which consult input variables only *)
Section Inputs.
Context {T : Type} `{S : Scalar T}.
Variable e : engine T.
Lemma strength_inputs b known known' a d : (forall v t, consults a v t -> exists i, v = VIn i) -> Strength e b known a d -> Strength e b known' a d.
Proof.
  intros C H. induction H.
  - now apply st_inactive.
  - eapply st_any; eauto.
  - eapply st_term; eauto. destruct (C (pr_var p) t) as [i V]; [split; auto|]. rewrite V in *. inversion H2; subst. eapply holds_input; eauto.
  - apply st_and; auto; [apply IHStrength1|apply IHStrength2]; intros v t K; apply (C v t); cbn; auto.
  - apply st_or; auto; [apply IHStrength1|apply IHStrength2]; intros v t K; apply (C v t); cbn; auto.
Qed.
Lemma draws_inputs b known known' r cs : reads_inputs r -> Draws e b known r cs -> Draws e b known' r cs.
Proof.
  intros C H. inversion H; subst.
  - now apply dr_unloaded.
  - eapply dr_idle; eauto. eapply strength_inputs; [|eassumption]. intros v t. now apply C.
  - eapply dr_fires; eauto. eapply strength_inputs; [|eassumption]. intros v t. now apply C.
Qed.
Lemma rules_inputs b known rs known' : Forall reads_inputs rs -> Rules e b known rs known' ->
  exists css, Forall2 (Draws e b []) rs css /\ known' = (known ++ List.concat css)%list.
Proof.
  intros C H. induction H.
  - exists []. split; [constructor|]. cbn. now rewrite app_nil_r.
  - inversion_clear C as [|? ? C1 C2]. destruct (IHRules C2) as (css & F & ->). exists (cs :: css). split.
    + constructor; [|exact F]. eapply draws_inputs; eauto.
    + cbn. now rewrite app_assoc.
Qed.
Definition working (bs : list (block T)) : list (block T * rule T) := flat_map (fun b => if b_enabled b then map (pair b) (b_rules b) else []) bs.
Lemma map_pair_forall2 b rs css : Forall2 (Draws e b []) rs css -> Forall2 (fun br => Draws e (fst br) [] (snd br)) (map (pair b) rs) css.
Proof. induction 1; cbn; constructor; auto. Qed.
Lemma blocks_inputs known bs known' : Forall (fun b => b_enabled b = true -> Forall reads_inputs (b_rules b)) bs -> Blocks e known bs known' ->
  exists css, Forall2 (fun br => Draws e (fst br) [] (snd br)) (working bs) css /\ known' = (known ++ List.concat css)%list.
Proof.
  intros C H. induction H; [exists []; split; [constructor|cbn; now rewrite app_nil_r]| |]; inversion_clear C as [|? ? C1 C2]; destruct (IHBlocks C2) as (css & F & ->).
  - exists css. split; [|reflexivity]. unfold working. cbn [flat_map]. rewrite H. exact F.
  - destruct (rules_inputs _ _ _ _ (C1 H) H0) as (css1 & F1 & ->). exists (css1 ++ css)%list. split.
    + unfold working. cbn [flat_map]. rewrite H. apply Forall2_app; [now apply map_pair_forall2|exact F].
    + now rewrite concat_app, app_assoc.
Qed.
End Inputs.
Lemma independent {T} {S : Scalar T} (e : engine T) known : Forall (fun b => b_enabled b = true -> Forall reads_inputs (b_rules b)) (e_blocks e) -> Infers e known ->
  exists css, Forall2 (fun br => Draws e (fst br) [] (snd br)) (working (e_blocks e)) css /\ known = List.concat css.
Proof. intros C H. destruct (blocks_inputs e [] (e_blocks e) known C H) as (css & F & E). exists css. split; [exact F|exact E]. Qed.

(** ** values *)
Section Value.
Context {T : Type} `{S : Scalar T}.
Lemma value_of drain (e e' : engine T) known j o p d : general_engine e -> process drain e = (e', Ok tt) -> Infers e known ->
  nth_error (e_outputs e) j = Some o -> nth_error (e_outputs e') j = Some p -> v_enabled (o_var o) = true -> o_defuzzifier o = Some d ->
  exists v, defuzzified (engine_view (e_inputs e) (firstn j (e_outputs e') ++ skipn j (e_outputs e))) d (set_fuzzy (about j known) o) = Ok v /\ p = settle v (set_fuzzy (about j known) o).
Proof.
  intros G H K O Q En D. destruct (inference drain e e' G H) as (known' & K' & N). assert (known' = known) by (eapply infers_unique; eauto). subst known'.
  destruct (N j o O) as (p' & Q' & Z). assert (p' = p) by congruence. subst p'. unfold defuzzify in Z. cbn [set_fuzzy o_var o_defuzzifier] in Z. rewrite En, D in Z. cbn [negb] in Z.
  destruct (defuzzified _ d _) as [v| | |] eqn:E; try discriminate Z. injection Z as <-. exists v. split; reflexivity.
Qed.
End Value.

Local Open Scope R_scope.
Section Exact.
Context (P : xparam).
#[local] Hint Extern 0 (Scalar _) => exact (XRScalar P) : typeclass_instances.

Lemma settle_value (o : output xr) z : v_lock_range (o_var o) = false -> v_value (o_var (settle (XFin z) o)) = XFin z.
Proof.
  intros L. unfold settle. assert (isNaN (XFin z) = false) as N by apply (x_isNaN P). rewrite N, andb_false_r, N. cbn. now rewrite L.
Qed.
Lemma settle_within (o : output xr) z a b : v_minimum (o_var o) = XFin a -> v_maximum (o_var o) = XFin b -> a <= z <= b -> v_value (o_var (settle (XFin z) o)) = XFin z.
Proof.
  intros A B Z. unfold settle. assert (isNaN (XFin z) = false) as N by apply (x_isNaN P). rewrite N, andb_false_r, N. cbn.
  destruct (v_lock_range (o_var o)); [|reflexivity]. rewrite A, B. etransitivity; [apply (clamp_bound P); lra|]. cbn [clamp]. f_equal. rewrite Rmin_right, Rmax_right; lra.
Qed.

Lemma fold_real s : exact_s (xp_eps P) s -> s <> UnboundedSum -> forall ds z, Forall (fun d => 0 <= d <= 1) ds -> 0 <= z <= 1 ->
  fold_left (snorm_compute s) (map XFin ds) (XFin z) = XFin (fold_left (s_formula (sname_of s)) ds z) /\ 0 <= fold_left (s_formula (sname_of s)) ds z <= 1.
Proof.
  intros Xs U ds. induction ds as [|d ds IH]; intros z F Z; [split; [reflexivity|exact Z]|]. inversion_clear F as [|? ? D F'].
  cbn [map fold_left]. assert (snorm_compute s (XFin z) (XFin d) = XFin (s_formula (sname_of s) z d)) as E by (apply (proj2 (norm_formulas P _ _ Z D)); now apply Xs).
  rewrite E. apply IH; [exact F'|]. assert (SpecNorm.degree (snorm_compute s (XFin z) (XFin d))) as G by (apply (S_closed P); [exact U|exists z; auto|exists d; auto]).
  rewrite E in G. destruct G as (q & Q & B). now injection Q as ->.
Qed.
Lemma set_value_at n s (memb : nat -> xr -> res xr) mu (w : activated xr nat -> R) x : exact_t (xp_eps P) n -> exact_s (xp_eps P) s -> s <> UnboundedSum -> 0 <= xp_eps P ->
  forall cs, (forall c, In c cs -> ac_implication c = Some n /\ ac_degree c = XFin (w c) /\ 0 <= w c <= 1 /\ 0 <= mu (ac_term c) x <= 1 /\ memb (ac_term c) (XFin x) = Ok (XFin (mu (ac_term c) x))) ->
  agg_membership memb (Some s) cs (XFin x) = Ok (XFin (inferred_set n s mu w cs x)) /\ 0 <= inferred_set n s mu w cs x <= 1.
Proof.
  intros Xn Xs U Ep cs H.
  assert (Forall2 (contributes P memb (XFin x)) cs (map (fun c => XFin (t_formula (tname_of n) (mu (ac_term c) x) (w c))) cs)) as F.
  { clear - H Xn. induction cs as [|c cs IH]; cbn [map]; constructor; [|apply IH; intros; apply H; now right].
    destruct (H c (or_introl eq_refl)) as (A & D & W & M & E). exists n, (XFin (mu (ac_term c) x)). split; [exact A|]. split; [exact E|].
    split; [exists (mu (ac_term c) x); auto|]. split; [exists (w c); auto|]. rewrite D. symmetry. apply (proj1 (norm_formulas P _ _ M W)). now apply Xn. }
  assert (Forall (fun d => 0 <= d <= 1) (map (fun c => t_formula (tname_of n) (mu (ac_term c) x) (w c)) cs)) as D.
  { apply Forall_forall. intros d I. apply in_map_iff in I. destruct I as (c & <- & I). apply (AggProofs2.degrees P) in F. rewrite Forall_forall in F.
    specialize (F (XFin (t_formula (tname_of n) (mu (ac_term c) x) (w c))) (in_map _ _ _ I)). destruct F as (q & Q & B). now injection Q as ->. }
  assert (0 <= 0 <= 1) as Z by lra. destruct (fold_real s Xs U _ 0 D Z) as [E B]. split; [|exact B].
  etransitivity; [refine (agg_value P memb s cs (XFin x) _ _ F); discriminate|]. rewrite map_map in E. f_equal. exact E.
Qed.

(** the centroid of the inferred set *)
Lemma mamdani drain (e e' : engine xr) known j o p n s r a b mu w : 0 <= xp_eps P -> exact_t (xp_eps P) n -> exact_s (xp_eps P) s -> s <> UnboundedSum ->
  general_engine e -> process drain e = (e', Ok tt) -> Infers e known -> nth_error (e_outputs e) j = Some o -> nth_error (e_outputs e') j = Some p -> v_enabled (o_var o) = true ->
  o_defuzzifier o = Some (DIntegral Centroid r) -> o_aggregation o = Some s -> (1 <= r)%Z -> v_minimum (o_var o) = XFin a -> v_maximum (o_var o) = XFin b -> a <= b ->
  (forall c, In c (about j known) -> ac_implication c = Some n /\ ac_degree c = XFin (w c) /\ 0 <= w c <= 1) ->
  (forall c x vw, In c (about j known) -> a <= x <= b -> 0 <= mu (ac_term c) x <= 1 /\
     exists t, nth_error (v_terms (o_var o)) (ac_term c) = Some t /\ term_membership vw t (XFin x) = Ok (XFin (mu (ac_term c) x))) ->
  let f := inferred_set n s mu w (about j known) in let xs := mids a b (Z.to_nat r) in
  rsum (map f xs) <> 0 -> v_value (o_var p) = XFin (center_of_mass f xs).
Proof.
  intros Ep Xn Xs U G H K O Q En Dz Ag Hr Ea Eb L C M f xs NZ.
  destruct (value_of drain e e' known j o p _ G H K O Q En Dz) as (v & D & ->). unfold defuzzified in D. cbn [set_fuzzy o_var o_aggregation o_fuzzy integral_defuzzify] in D.
  rewrite Ag, Ea, Eb in D.
  set (memb := fun t x => match nth_error (v_terms (o_var o)) t with Some tm => term_membership (engine_view (e_inputs e) (firstn j (e_outputs e') ++ skipn j (e_outputs e))) tm x | None => UB end) in *.
  assert (forall x, a <= x <= b -> agg_membership memb (Some s) (about j known) (XFin x) = Ok (XFin (f x)) /\ 0 <= f x <= 1) as A.
  { intros x Hx. apply set_value_at; auto. intros c I. destruct (C c I) as (C1 & C2 & C3).
    destruct (M c x (engine_view (e_inputs e) (firstn j (e_outputs e') ++ skipn j (e_outputs e))) I Hx) as (M1 & t & M2 & M3).
    repeat (split; [assumption|]). unfold memb. rewrite M2. exact M3. }
  assert (v = XFin (center_of_mass f xs)) as ->.
  { pose proof (centroid_mass P (agg_membership memb (Some s) (about j known)) f a b r Hr L (fun x Hx => proj1 (A x Hx)) NZ) as E. rewrite E in D. now injection D as <-. }
  assert (a <= center_of_mass f xs <= b) as B.
  { pose proof (ranges P (agg_membership memb (Some s) (about j known)) a b r (XFin (center_of_mass f xs)) Hr L) as R.
    destruct R as [R|(z & R & B)]; [|discriminate R|injection R as ->; exact B]. do 4 right. split; [exact D|].
    intros x y Hx Hy. destruct (A x Hx) as [E B]. rewrite E in Hy. injection Hy as <-. exact (proj1 B). }
  apply settle_within with a b; auto.
Qed.

(** ** weighted averages *)
Lemma tsukamoto_wtype (t : term xr) : monotonic_term t -> term_wtype t = WTsukamoto.
Proof. intros M. pose proof (proj2 (monotonic_iff t) M) as E. unfold term_wtype. rewrite E. unfold monotonic_term in M. destruct (tm_body t); try contradiction; reflexivity. Qed.
Definition name_of (o : output xr) (c : activated xr nat) : string := match nth_error (v_terms (o_var o)) (ac_term c) with Some t => tm_name t | None => EmptyString end.
Lemma rsum_ext {A} (f g : A -> R) l : (forall x, In x l -> f x = g x) -> rsum (map f l) = rsum (map g l).
Proof. intros E. f_equal. now apply map_ext_in. Qed.
Lemma forall2_map {A B} (R : A -> B -> Prop) (f : A -> B) l : (forall x, In x l -> R x (f x)) -> Forall2 R l (map f l).
Proof. induction l as [|x l IH]; intros H; cbn; constructor; [apply H; now left|apply IH; intros; apply H; now right]. Qed.

Lemma tsukamoto_mean drain (e e' : engine xr) known j o p ty w z :
  general_engine e -> process drain e = (e', Ok tt) -> Infers e known -> nth_error (e_outputs e) j = Some o -> nth_error (e_outputs e') j = Some p -> v_enabled (o_var o) = true ->
  v_lock_range (o_var o) = false -> o_defuzzifier o = Some (DWeighted WeightedAverage ty) -> tsukamoto_output o ->
  let cs := about j known in NoDup (map (name_of o) cs) ->
  (forall c, In c cs -> ac_degree c = XFin (w c) /\ exists t, nth_error (v_terms (o_var o)) (ac_term c) = Some t /\ term_tsukamoto t (XFin (w c)) = Ok (XFin (z c))) ->
  rsum (map w cs) <> 0 -> v_value (o_var p) = XFin (weighted_mean w z cs).
Proof.
  intros G H K O Q En Lk Dz [(k & ty' & Ty & Ty2) Mo] cs ND C NZ. rewrite Dz in Ty. injection Ty as <- <-.
  destruct (value_of drain e e' known j o p _ G H K O Q En Dz) as (v & D & ->). unfold defuzzified in D. cbn [set_fuzzy o_var o_aggregation o_fuzzy] in D. fold cs in D.
  set (name := fun t => match nth_error (v_terms (o_var o)) t with Some tm => tm_name tm | None => EmptyString end) in *.
  set (memb := fun t x => match nth_error (v_terms (o_var o)) t with Some tm => term_membership _ tm x | None => UB end) in *.
  set (tsuk := fun t x => match nth_error (v_terms (o_var o)) t with Some tm => term_tsukamoto tm x | None => UB end) in *.
  set (wt := fun t => match nth_error (v_terms (o_var o)) t with Some tm => term_wtype tm | None => WAutomatic end) in *.
  assert (cs <> []) as NE by (intros E; rewrite E in NZ; apply NZ; reflexivity).
  assert (grouped_terms name (o_aggregation o) cs = cs) as GR.
  { rewrite (grouped_eq name (match o_aggregation o with Some x => x | None => UnboundedSum end)) by reflexivity. now apply grouped_id. }
  assert ((tsuk = memb /\ (ty = WTakagiSugeno \/ (ty = WAutomatic /\ forall a, In a cs -> wt (ac_term a) = WTakagiSugeno))) \/
          (tsuk = tsuk /\ (ty = WTsukamoto \/ (ty = WAutomatic /\ forall a, In a cs -> wt (ac_term a) = WTsukamoto)))) as KIND.
  { right. split; [reflexivity|]. destruct Ty2 as [Ty2|Ty2]; [right|now left]. split; [exact Ty2|]. intros c I. destruct (C c I) as (_ & t & Et & _). unfold wt. rewrite Et.
    rewrite Forall_forall in Mo. apply (tsukamoto_wtype t), Mo. eapply nth_error_In; eauto. }
  pose proof (weighted_main P name memb tsuk wt (o_aggregation o) ty cs (map (fun c => (w c, z c)) cs) tsuk NE KIND) as W. rewrite GR in W.
  destruct W as (_ & W & _).
  { apply forall2_map. intros c I. cbn [fst snd]. destruct (C c I) as (C1 & t & Et & C2). split; [exact C1|]. unfold tsuk. rewrite Et. exact C2. }
  assert (ws (map (fun c => (w c, z c)) cs) = rsum (map w cs)) as E1 by (unfold ws; rewrite map_map; reflexivity).
  assert (wz (map (fun c => (w c, z c)) cs) = rsum (map (fun c => w c * z c) cs)) as E2 by (unfold wz; rewrite map_map; reflexivity).
  rewrite E1, E2 in W. specialize (W NZ). rewrite W in D. injection D as <-. apply (settle_value (set_fuzzy cs o)). exact Lk.
Qed.
Lemma sugeno_mean drain (e e' : engine xr) known j o p ty w z :
  general_engine e -> process drain e = (e', Ok tt) -> Infers e known -> nth_error (e_outputs e) j = Some o -> nth_error (e_outputs e') j = Some p -> v_enabled (o_var o) = true ->
  v_lock_range (o_var o) = false -> o_defuzzifier o = Some (DWeighted WeightedAverage ty) -> takagi_sugeno_output o -> o_aggregation o = None \/ o_aggregation o = Some UnboundedSum ->
  let cs := about j known in NoDup (map (@tm_name xr) (v_terms (o_var o))) ->
  (forall c, In c cs -> ac_degree c = XFin (w c) /\ exists t, nth_error (v_terms (o_var o)) (ac_term c) = Some t /\
     forall x, term_membership (engine_view (e_inputs e) (firstn j (e_outputs e') ++ skipn j (e_outputs e))) t (XFin x) = Ok (XFin (z (ac_term c)))) ->
  rsum (map w cs) <> 0 -> v_value (o_var p) = XFin (weighted_mean w (fun c => z (ac_term c)) cs).
Proof.
  intros G H K O Q En Lk Dz [(k & ty' & Ty & Ty2) Mo] Ag cs ND C NZ. rewrite Dz in Ty. injection Ty as <- <-.
  destruct (value_of drain e e' known j o p _ G H K O Q En Dz) as (v & D & ->). unfold defuzzified in D. cbn [set_fuzzy o_var o_aggregation o_fuzzy] in D. fold cs in D.
  set (name := fun t => match nth_error (v_terms (o_var o)) t with Some tm => tm_name tm | None => EmptyString end) in *.
  set (memb := fun t x => match nth_error (v_terms (o_var o)) t with Some tm => term_membership _ tm x | None => UB end) in *.
  set (tsuk := fun t x => match nth_error (v_terms (o_var o)) t with Some tm => term_tsukamoto tm x | None => UB end) in *.
  set (wt := fun t => match nth_error (v_terms (o_var o)) t with Some tm => term_wtype tm | None => WAutomatic end) in *.
  assert (cs <> []) as NE by (intros E; rewrite E in NZ; apply NZ; reflexivity).
  assert ((memb = memb /\ (ty = WTakagiSugeno \/ (ty = WAutomatic /\ forall a, In a cs -> wt (ac_term a) = WTakagiSugeno))) \/
          (memb = tsuk /\ (ty = WTsukamoto \/ (ty = WAutomatic /\ forall a, In a cs -> wt (ac_term a) = WTsukamoto)))) as KIND.
  { left. split; [reflexivity|]. destruct Ty2 as [Ty2|Ty2]; [right|now left]. split; [exact Ty2|]. intros c I. destruct (C c I) as (_ & t & Et & _). unfold wt. rewrite Et.
    rewrite Forall_forall in Mo. destruct (wtype_eqb_spec (term_wtype t) WTakagiSugeno) as [E|E]; [exact E|].
    pose proof (proj2 (function_iff t) (Mo t (nth_error_In _ _ Et))) as F. destruct (term_wtype t); try discriminate F. reflexivity. }
  destruct (ungrouped P name (fun t _ => Ok (XFin (z t))) z w (o_aggregation o) cs Ag) as (ps & V & E2 & E1).
  - intros c I. exact (proj1 (C c I)).
  - reflexivity.
  - intros c c' I I' E. destruct (C c I) as (_ & t & Et & _). destruct (C c' I') as (_ & t' & Et' & _). unfold aname, name in E. rewrite Et, Et' in E.
    f_equal. rewrite NoDup_nth_error in ND. apply ND; [rewrite map_length; apply nth_error_Some; congruence|]. rewrite !nth_error_map, Et, Et'. cbn. now rewrite E.
  - destruct (grouped_main (S := XRScalar P) name (o_aggregation o) cs) as (_ & GM & _).
    assert (Forall2 (fun a p => ac_degree a = XFin (fst p) /\ memb (ac_term a) (XFin (fst p)) = Ok (XFin (snd p))) (grouped_terms name (o_aggregation o) cs) ps) as V'.
    { eapply EngineProofs2.Forall2_impl_in; [exact V|]. intros x q I _ [V1 V2]. split; [exact V1|]. injection V2 as V2.
      destruct (GM x I) as (a & r & Na & Ta & _). assert (In a cs) as Ia by (assert (In a (a :: r)) as J by (now left); rewrite <- Na in J; apply filter_In in J; exact (proj1 J)).
      destruct (C a Ia) as (_ & t & Et & M). unfold memb. rewrite Ta, Et, M. f_equal. f_equal. rewrite <- V2, Ta. reflexivity. }
    destruct (weighted_main P name memb tsuk wt (o_aggregation o) ty cs ps memb NE KIND V') as (_ & W & _).
    assert (ws (plain w z cs) = rsum (map w cs)) as F1 by (unfold ws, plain; rewrite map_map; reflexivity).
    assert (wz (plain w z cs) = rsum (map (fun c => w c * z (ac_term c)) cs)) as F2 by (unfold wz, plain; rewrite map_map; reflexivity).
    rewrite E1, E2, F1, F2 in W. specialize (W NZ). rewrite W in D. injection D as <-. apply (settle_value (set_fuzzy cs o)). exact Lk.
Qed.
End Exact.
