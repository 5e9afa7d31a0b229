(** Proofs about the activation methods. *)
From Coq Require Import ZArith String List Bool Permutation Lia.
From Verif Require Import Base Op Norm Aggregated Function Rule Var Activation SpecActivation.
Import ListNotations.

Section Proofs.
Context {T : Type} `{S : Scalar T}.
Notation rule := (rule T).

Lemma same_refl (r : rule) : same_rule r r.
Proof. repeat split. Qed.
Lemma same_trans (a b c : rule) : same_rule a b -> same_rule b c -> same_rule a c.
Proof. unfold same_rule. intuition congruence. Qed.
Lemma same_loaded (r r' : rule) : same_rule r r' -> rule_loaded r' = rule_loaded r.
Proof. unfold rule_loaded. intros (_ & _ & _ & _ & -> & _ & ->). reflexivity. Qed.
Lemma same_deactivate (r : rule) : same_rule r (rule_deactivate r).
Proof. repeat split. Qed.
Lemma same_degree d (r : rule) : same_rule r (set_degree d r).
Proof. repeat split. Qed.
Lemma same_triggered b (r : rule) : same_rule r (set_triggered b r).
Proof. repeat split. Qed.

Lemma add_term_spec j (a : activated T nat) : forall fz fz', add_term j a fz = Ok fz' ->
  length fz' = length fz /\ (j < length fz)%nat /\
  forall i l, nth_error fz i = Some l -> nth_error fz' i = Some (l ++ if Nat.eqb j i then [a] else []).
Proof.
  intros fz. revert j. induction fz as [|l fz IH]; intros j fz' H; [destruct j; discriminate|].
  destruct j as [|j]; cbn [add_term] in H.
  - inversion H; subst. cbn. repeat split; [lia|]. intros [|i] x; cbn; intros E; [inversion E; reflexivity|].
    rewrite app_nil_r. exact E.
  - destruct (add_term j a fz) as [f| | |] eqn:E; cbn [rbind] in H; try discriminate. inversion H; subst.
    specialize (IH _ _ E). destruct IH as (h1 & h2 & h3). cbn. repeat split; [lia|lia|].
    intros [|i] x; cbn; intros G; [inversion G; now rewrite app_nil_r|]. now apply h3.
Qed.

Lemma extended_refl imp (f : fuzzy T) : extended imp [] f f.
Proof. split; [reflexivity|]. intros j l H. unfold for_variable. cbn. now rewrite app_nil_r. Qed.
Lemma extended_app imp (a b : list (nat * nat * T)) f g h : extended imp a f g -> extended imp b g h -> extended imp (a ++ b) f h.
Proof.
  intros [l1 H1] [l2 H2]. split; [congruence|]. intros j l H. specialize (H1 _ _ H). specialize (H2 _ _ H1).
  unfold for_variable in *. rewrite filter_app, map_app, app_assoc. exact H2.
Qed.
Lemma add_terms_extended imp : forall added (fz fz' : fuzzy T), add_terms imp added fz = Ok fz' -> extended imp added fz fz'.
Proof.
  induction added as [|[[j t] d] added IH]; intros fz fz' H; cbn [add_terms] in H.
  - inversion H; subst. apply extended_refl.
  - destruct (add_term j (mkActivated t d imp) fz) as [f| | |] eqn:E; cbn [rbind] in H; try discriminate.
    apply add_term_spec in E. destruct E as (h1 & h2 & h3).
    change ((j, t, d) :: added) with ([(j, t, d)] ++ added)%list. eapply extended_app; [|apply IH; exact H].
    split; [exact h1|]. intros i l G. apply h3 in G. rewrite G. unfold for_variable. cbn.
    destruct (Nat.eqb j i); reflexivity.
Qed.
Lemma add_terms_no_throw imp e : forall added (fz : fuzzy T), add_terms imp added fz <> Throw e.
Proof.
  induction added as [|[[j t] d] added IH]; intros fz H; cbn [add_terms] in H; [discriminate|].
  assert (forall j (f : fuzzy T), add_term j (mkActivated t d imp) f <> Throw e) as N.
  { clear. intros j f. revert j. induction f as [|l f IH]; intros [|j] H; cbn [add_term] in H; try discriminate.
    destruct (add_term j _ f) eqn:E; cbn [rbind] in H; try discriminate. inversion H; subst. exact (IH _ E). }
  destruct (add_term j _ fz) eqn:E; cbn [rbind] in H; try discriminate; [exact (IH _ H)|].
  inversion H; subst. exact (N _ _ E).
Qed.

Section Methods.
Variable enabled : varref -> bool.
Variable degree : fuzzy T -> varref -> nat -> res T.
Variables (conjunction : option tnorm) (disjunction : option snorm) (implication : option tnorm).
Notation act := (activate_with enabled degree conjunction disjunction).
Notation trig := (trigger enabled implication).
Notation anted f r := (antecedent_degree enabled (degree f) conjunction disjunction (rl_antecedent r)).
Notation hasdeg := (has_degree enabled degree conjunction disjunction).
Notation contr := (contributed enabled implication).

Lemma act_ok f (r r1 : rule) : rule_loaded r = true -> act f (rule_deactivate r) = Ok r1 ->
  exists d, anted f r = Ok d /\ r1 = set_degree (rl_weight r * d)%S (rule_deactivate r).
Proof.
  intros L H. unfold activate_with, rule_activate in H. change (rule_loaded (rule_deactivate r)) with (rule_loaded r) in H.
  rewrite L in H. cbn [negb] in H. change (rl_antecedent (rule_deactivate r)) with (rl_antecedent r) in H.
  destruct (anted f r) as [d| | |]; cbn [rbind] in H; try discriminate. inversion H; subst. now exists d.
Qed.
Lemma act_throw f (r : rule) e : rule_loaded r = true -> act f (rule_deactivate r) = Throw e -> anted f r = Throw e.
Proof.
  intros L H. unfold activate_with, rule_activate in H. change (rule_loaded (rule_deactivate r)) with (rule_loaded r) in H.
  rewrite L in H. cbn [negb] in H. change (rl_antecedent (rule_deactivate r)) with (rl_antecedent r) in H.
  destruct (anted f r) as [d| | |]; cbn [rbind] in H; try discriminate. inversion H; reflexivity.
Qed.

(** what a successful trigger does *)
Lemma trig_ok f (r r1 : rule) f1 : rl_triggered r = false -> trig f r = Ok (r1, f1) ->
  r1 = set_triggered (rl_enabled r && isGt (rl_degree r) s_0)%bool r /\ contr r1 f f1.
Proof.
  intros N H. unfold trigger, rule_trigger in H. destruct (rule_loaded r) eqn:L; cbn [negb] in H; [|discriminate].
  destruct (rl_enabled r && isGt (rl_degree r) s_0)%bool eqn:B.
  - destruct (consequent_modify enabled (rl_degree r) (rl_consequent r)) as [added| | |] eqn:C; cbn [rbind] in H; try discriminate.
    destruct (add_terms implication added f) as [g| | |] eqn:A; cbn [rbind] in H; try discriminate.
    inversion H; subst. split; [reflexivity|]. unfold contributed. cbn [set_triggered rl_triggered].
    exists added. split; [exact C|]. now apply add_terms_extended.
  - cbn [rbind add_terms] in H. inversion H; subst. split.
    + clear - N. unfold set_triggered. rewrite <- N. destruct r1. reflexivity.
    + unfold contributed. rewrite N. reflexivity.
Qed.
Lemma trig_no_throw f (r : rule) e : rule_loaded r = true -> trig f r <> Throw e.
Proof.
  intros L H. unfold trigger, rule_trigger in H. rewrite L in H. cbn [negb] in H.
  destruct (rl_enabled r && isGt (rl_degree r) s_0)%bool; [|discriminate].
  assert (forall d, consequent_modify enabled d (rl_consequent r) <> Throw e) as M.
  { intros d E. unfold rule_loaded in L. destruct (rl_antecedent r); [|discriminate].
    destruct (rl_consequent r) as [|c cs] eqn:Ec; [discriminate|]. unfold consequent_modify in E.
    assert (forall (cs : list proposition) d, conclusions_modify enabled d cs <> Throw e) as Q.
    { clear. induction cs as [|p cs IH]; intros d H; cbn [conclusions_modify] in H; [discriminate|].
      destruct (enabled (pr_var p)); [|exact (IH _ H)].
      destruct (pr_var p); [discriminate|]. destruct (pr_term p); [|discriminate].
      destruct (conclusions_modify enabled _ cs) eqn:G; cbn [rbind] in H; try discriminate. inversion H; subst. exact (IH _ G). }
    exact (Q _ _ E). }
  destruct (consequent_modify enabled (rl_degree r) (rl_consequent r)) as [added| | |] eqn:C; cbn [rbind] in H; try discriminate.
  - destruct (add_terms implication added f) as [g| | |] eqn:A; cbn [rbind] in H; try discriminate.
    exact (add_terms_no_throw _ _ _ _ A).
  - inversion H; subst. exact (M _ C).
Qed.

(** ** one rule after the other *)
Notation one := (one_by_one enabled degree conjunction disjunction implication).
Notation pass := (pass enabled degree conjunction disjunction implication).

Lemma one_nil fires f : one fires [] [] f f.
Proof.
  split; [reflexivity|]. exists [f]. repeat split; try reflexivity; intros; destruct i; discriminate.
Qed.
Lemma one_cons fires (r r' : rule) rs rs' f f1 f2 :
  same_rule r r' -> contr r' f f1 ->
  (rule_loaded r = false -> rl_degree r' = s_0 /\ rl_triggered r' = false) ->
  (rule_loaded r = true -> hasdeg f r r' /\ rl_triggered r' = fires [] r') ->
  one (fun before => fires (r' :: before)) rs rs' f1 f2 -> one fires (r :: rs) (r' :: rs') f f2.
Proof.
  intros Hs Hc Hu Hl [Hlen (states & S1 & S2 & S3 & S4)]. split; [cbn; lia|]. exists (f :: states).
  split; [cbn; lia|]. split; [reflexivity|]. split; [cbn; exact S3|].
  intros [|i] q q' g g'; cbn [nth_error firstn]; intros H1 H2 H3 H4.
  - inversion H1; inversion H2; inversion H3; subst. destruct states as [|s states]; [discriminate|].
    cbn in S2, H4. assert (g' = f1) by congruence. subst. auto.
  - exact (S4 i q q' g g' H1 H2 H3 H4).
Qed.
Lemma one_ext fires fires' rules rules' f f' :
  (forall i r', nth_error rules' i = Some r' -> fires (firstn i rules') r' = fires' (firstn i rules') r') ->
  one fires rules rules' f f' -> one fires' rules rules' f f'.
Proof.
  intros E [Hlen (states & S1 & S2 & S3 & S4)]. split; [exact Hlen|]. exists states. repeat (split; [assumption|]).
  intros i r r' g g' H1 H2 H3 H4. destruct (S4 i r r' g g' H1 H2 H3 H4) as (a & b & c & d).
  split; [exact a|]. split; [exact b|]. split; [exact c|]. intros L. destruct (d L) as [d1 d2]. split; [exact d1|].
  rewrite d2. now apply E.
Qed.

(** the number of rules chosen so far *)
Fixpoint chosen (choose : Z -> T -> bool) (k : Z) (rules : list rule) : Z :=
  match rules with
  | [] => k
  | r :: rest => chosen choose (if rule_loaded r && choose k (rl_degree r) then k + 1 else k)%Z rest
  end.
Definition fires_by choose k (before : list rule) (r : rule) : bool :=
  rl_enabled r && isGt (rl_degree r) s_0 && choose (chosen choose k before) (rl_degree r).

Lemma pass_step choose k (r : rule) rs f rs' f' e : pass choose k (r :: rs) f = (rs', f', e) ->
  (* the rule is dealt with *)
  (exists r1 f1 k1 rest, pass choose k1 rs f1 = (rest, f', e) /\ rs' = r1 :: rest /\
     same_rule r r1 /\ contr r1 f f1 /\
     (rule_loaded r = false -> rl_degree r1 = s_0 /\ rl_triggered r1 = false) /\
     (rule_loaded r = true -> hasdeg f r r1 /\ rl_triggered r1 = fires_by choose k [] r1) /\
     k1 = (if rule_loaded r1 && choose k (rl_degree r1) then k + 1 else k)%Z) \/
  (* its degree cannot be computed *)
  (rule_loaded r = true /\ rs' = rule_deactivate r :: rs /\ f' = f /\
     match e with Ok _ => False | Throw x => anted f r = Throw x | UB => anted f r = UB | Diverge => anted f r = Diverge end) \/
  e = UB \/ e = Diverge.
Proof.
  intros H. cbn [Activation.pass] in H. change (rule_loaded (rule_deactivate r)) with (rule_loaded r) in H.
  destruct (rule_loaded r) eqn:L.
  - destruct (act f (rule_deactivate r)) as [r1|x| |] eqn:A.
    + destruct (act_ok _ _ _ L A) as (d & Hd & ->). set (r1 := set_degree _ _) in *.
      assert (hasdeg f r r1) as HD by (exists d; now split).
      destruct (choose k (rl_degree r1)) eqn:C.
      * destruct (trig f r1) as [[r2 f1]|x| |] eqn:E.
        -- destruct (trig_ok _ r1 _ _ eq_refl E) as [-> HC]. set (r2 := set_triggered _ _) in *.
           destruct (pass choose (k + 1) rs f1) as [[rest g] e'] eqn:P. inversion H; subst. left.
           exists r2, f1, (k + 1)%Z, rest. split; [exact P|]. split; [reflexivity|]. split; [repeat split|]. split; [first [assumption|reflexivity]|].
           split; [intros; discriminate|]. split.
           ++ intros _. split; [exact HD|]. unfold fires_by. cbn [chosen].
              change (rl_triggered r2) with (rl_enabled r1 && isGt (rl_degree r1) s_0)%bool.
              change (rl_enabled r2) with (rl_enabled r1). change (rl_degree r2) with (rl_degree r1). rewrite C. now rewrite andb_true_r.
           ++ change (rule_loaded r2) with (rule_loaded r). change (rl_degree r2) with (rl_degree r1). rewrite L, C. reflexivity.
        -- exfalso. exact (trig_no_throw f r1 x L E).
        -- inversion H; subst. auto.
        -- inversion H; subst. auto.
      * destruct (pass choose k rs f) as [[rest g] e'] eqn:P. inversion H; subst. left.
        exists r1, f, k, rest. split; [exact P|]. split; [reflexivity|]. split; [repeat split|]. split; [first [assumption|reflexivity]|].
        split; [intros; discriminate|]. split.
        -- intros _. split; [exact HD|]. unfold fires_by. cbn [chosen]. rewrite C. now rewrite andb_false_r.
        -- change (rule_loaded r1) with (rule_loaded r). rewrite L, C. reflexivity.
    + inversion H; subst. right. left. repeat split; auto. now apply act_throw.
    + inversion H; subst. auto.
    + inversion H; subst. auto.
  - destruct (pass choose k rs f) as [[rest g] e'] eqn:P. inversion H; subst. left.
    exists (rule_deactivate r), f, k, rest. split; [exact P|]. split; [reflexivity|]. split; [repeat split|]. split; [first [assumption|reflexivity]|].
    split; [intros; split; reflexivity|]. split; [intros; discriminate|]. change (rule_loaded (rule_deactivate r)) with (rule_loaded r). now rewrite L.
Qed.

Lemma pass_ok choose : forall rules k f rules' f', pass choose k rules f = (rules', f', Ok tt) ->
  one (fires_by choose k) rules rules' f f'.
Proof.
  induction rules as [|r rules IH]; intros k f rules' f' H.
  - cbn in H. inversion H; subst. apply one_nil.
  - destruct (pass_step _ _ _ _ _ _ _ _ H) as [(r1 & f1 & k1 & rest & P & -> & a & b & c & d & e) | [(_ & _ & _ & []) | [F | F]]];
      [|discriminate F|discriminate F].
    eapply one_cons; [exact a|exact b|exact c|exact d|].
    apply IH in P. eapply one_ext; [|exact P]. intros i r' G. unfold fires_by. cbn [chosen]. now rewrite <- e.
Qed.
(** an exception: the rules before are dealt with, the rule is deactivated, those after are untouched *)
Lemma pass_throw choose x : forall rules k f rules' f', pass choose k rules f = (rules', f', Throw x) ->
  exists A r B A', rules = A ++ r :: B /\ rules' = A' ++ rule_deactivate r :: B /\
    one (fires_by choose k) A A' f f' /\ rule_loaded r = true /\ anted f' r = Throw x.
Proof.
  induction rules as [|r rules IH]; intros k f rules' f' H.
  - cbn in H. inversion H.
  - destruct (pass_step _ _ _ _ _ _ _ _ H) as [(r1 & f1 & k1 & rest & P & -> & a & b & c & d & e) | [(L & -> & -> & E) | [F | F]]];
      [| |discriminate F|discriminate F].
    + destruct (IH _ _ _ _ P) as (A & q & B & A' & -> & -> & O & L & E).
      exists (r :: A), q, B, (r1 :: A'). repeat (split; [first [reflexivity|assumption]|]). split; [|auto].
      eapply one_cons; [exact a|exact b|exact c|exact d|].
      eapply one_ext; [|exact O]. intros i r' G. unfold fires_by. cbn [chosen]. now rewrite <- e.
    + exists [], r, rules, []. repeat (split; [first [reflexivity|assumption|apply one_nil]|]). exact E.
Qed.
End Methods.
End Proofs.
