(** Proofs about the activation methods, continued: First, Highest, Proportional, independence of history. *)
From Coq Require Import ZArith String List Bool Permutation Lia.
From Verif Require Import Base Op Norm Aggregated Function Rule Var Activation SpecActivation ActivationProofs.
Import ListNotations.

Lemma nth_error_Forall2 {A B} (P : A -> B -> Prop) l l' i a b :
  Forall2 P l l' -> nth_error l i = Some a -> nth_error l' i = Some b -> P a b.
Proof.
  intros H. revert i. induction H as [|x y l l' Hp H IH]; intros [|i]; cbn; intros E1 E2; try discriminate.
  - inversion E1; inversion E2; subst; exact Hp.
  - exact (IH _ E1 E2).
Qed.
Lemma set_nth_length {A} i (x : A) l : length (set_nth i x l) = length l.
Proof. revert i. induction l as [|y l IH]; intros [|i]; cbn; auto. Qed.
Lemma set_nth_same {A} i (x y : A) l : nth_error l i = Some y -> nth_error (set_nth i x l) i = Some x.
Proof. revert i. induction l as [|z l IH]; intros [|i]; cbn; intros H; try discriminate; auto. Qed.
Lemma set_nth_other {A} i j (x : A) l : i <> j -> nth_error (set_nth i x l) j = nth_error l j.
Proof. revert i j. induction l as [|z l IH]; intros [|i] [|j] H; cbn; auto; congruence. Qed.

Lemma Forall2_len {A B} (P : A -> B -> Prop) l l' : Forall2 P l l' -> length l = length l'.
Proof. induction 1; cbn; auto. Qed.

Section Proofs.
Context {T : Type} `{S : Scalar T}.
Notation rule := (rule T).

Lemma chosen_first n t : forall (rules : list rule) k,
  Z.ltb (chosen (first_choice n t) k rules) n = Z.ltb (k + Z.of_nat (length (filter (eligible t) rules))) n.
Proof.
  induction rules as [|r rules IH]; intros k; cbn [chosen filter].
  - f_equal. cbn. lia.
  - rewrite IH. unfold eligible at 2. unfold first_choice at 1.
    destruct (rule_loaded r); cbn [andb]; [|reflexivity].
    destruct (isGt (rl_degree r) s_0); [|rewrite andb_false_r; reflexivity].
    destruct (isGE (rl_degree r) t); [|rewrite !andb_false_r; reflexivity].
    rewrite !andb_true_r. cbn [andb length]. destruct (Z.ltb k n) eqn:E.
    + f_equal. lia.
    + apply Z.ltb_ge in E. transitivity false; [|symmetry]; apply Z.ltb_ge; lia.
Qed.
Lemma fires_first_eq n t before (r : rule) : fires_by (first_choice n t) 0 before r = fires_first n t before r.
Proof.
  unfold fires_by, fires_first. pose proof (chosen_first n t before 0) as H. rewrite Z.add_0_l in H. rewrite <- H.
  generalize (chosen (first_choice n t) 0 before). intros k. unfold first_choice.
  destruct (rl_enabled r), (isGt (rl_degree r) s_0), (isGE (rl_degree r) t); cbn; rewrite ?andb_true_r, ?andb_false_r; reflexivity.
Qed.

Section Methods.
Variable enabled : varref -> bool.
Variable degree : fuzzy T -> varref -> nat -> res T.
Variables (conjunction : option tnorm) (disjunction : option snorm) (implication : option tnorm).
Variable drain : drainer T.
Notation act := (activate_with enabled degree conjunction disjunction).
Notation trig := (trigger enabled implication).
Notation anted f r := (antecedent_degree enabled (degree f) conjunction disjunction (rl_antecedent r)).
Notation hasdeg := (has_degree enabled degree conjunction disjunction).
Notation contr := (contributed enabled implication).
Notation one := (one_by_one enabled degree conjunction disjunction implication).
Notation actrule := (activated_rule enabled degree conjunction disjunction).
Notation dpass := (degrees_pass enabled degree conjunction disjunction).

Lemma general_ok rules f rules' f' :
  general enabled degree conjunction disjunction implication rules f = (rules', f', Ok tt) -> one fires_general rules rules' f f'.
Proof.
  intros H. apply pass_ok in H. eapply one_ext; [|exact H]. intros i r' _. unfold fires_by, fires_general. now rewrite andb_true_r.
Qed.
Lemma first_ok n t rules f rules' f' :
  first enabled degree conjunction disjunction implication n t rules f = (rules', f', Ok tt) -> one (fires_first n t) rules rules' f f'.
Proof. intros H. apply pass_ok in H. eapply one_ext; [|exact H]. intros i r' _. apply fires_first_eq. Qed.
Lemma last_ok n t rules f rules' f' :
  last_rules enabled degree conjunction disjunction implication n t rules f = (rules', f', Ok tt) ->
  one (fires_first n t) (rev rules) (rev rules') f f'.
Proof.
  unfold last_rules. destruct (pass _ _ _ _ _ _ _ (rev rules) f) as [[rs g] e] eqn:E. intros H. inversion H; subst.
  rewrite rev_involutive. apply first_ok. exact E.
Qed.
Lemma threshold_ok c v rules f rules' f' :
  threshold_rules enabled degree conjunction disjunction implication c v rules f = (rules', f', Ok tt) ->
  one (fires_threshold c v) rules rules' f f'.
Proof.
  intros H. apply pass_ok in H. eapply one_ext; [|exact H]. intros i r' _. unfold fires_by, fires_threshold.
  destruct c; reflexivity.
Qed.

(** ** all degrees first *)
Lemma dpass_ok f : forall rules rules', dpass f rules = (rules', Ok tt) -> Forall2 (actrule f) rules rules'.
Proof.
  induction rules as [|r rules IH]; intros rules' H; cbn [degrees_pass] in H.
  - inversion H; subst. constructor.
  - change (rule_loaded (rule_deactivate r)) with (rule_loaded r) in H. destruct (rule_loaded r) eqn:L.
    + destruct (act f (rule_deactivate r)) as [r1|x| |] eqn:A; try (inversion H; fail).
      destruct (dpass f rules) as [rs e] eqn:D. inversion H; subst. constructor; [|now apply IH].
      destruct (act_ok _ _ _ _ _ _ _ L A) as (d & Hd & ->). split; [repeat split|]. split; [reflexivity|].
      split; [congruence|]. intros _. exists d. now split.
    + destruct (dpass f rules) as [rs e] eqn:D. inversion H; subst. constructor; [|now apply IH].
      split; [repeat split|]. split; [reflexivity|]. split; [reflexivity|congruence].
Qed.
Lemma dpass_throw f x : forall rules rules', dpass f rules = (rules', Throw x) ->
  exists A r B A', rules = A ++ r :: B /\ rules' = A' ++ rule_deactivate r :: B /\
    Forall2 (actrule f) A A' /\ rule_loaded r = true /\ anted f r = Throw x.
Proof.
  induction rules as [|r rules IH]; intros rules' H; cbn [degrees_pass] in H.
  - inversion H.
  - change (rule_loaded (rule_deactivate r)) with (rule_loaded r) in H. destruct (rule_loaded r) eqn:L.
    + destruct (act f (rule_deactivate r)) as [r1|y| |] eqn:A; try (inversion H; fail).
      * destruct (dpass f rules) as [rs e] eqn:D. inversion H; subst.
        destruct (IH _ eq_refl) as (A0 & q & B & A' & -> & -> & F & Lq & E).
        exists (r :: A0), q, B, (r1 :: A'). repeat (split; [first [reflexivity|assumption]|]). split; [|now split].
        constructor; [|exact F]. destruct (act_ok _ _ _ _ _ _ _ L A) as (d & Hd & ->). split; [repeat split|]. split; [reflexivity|].
        split; [congruence|]. intros _. exists d. now split.
      * inversion H; subst. exists [], r, rules, []. repeat (split; [first [reflexivity|assumption|constructor]|]).
        eapply act_throw; eassumption.
    + destruct (dpass f rules) as [rs e] eqn:D. inversion H; subst.
      destruct (IH _ eq_refl) as (A0 & q & B & A' & -> & -> & F & Lq & E).
      exists (r :: A0), q, B, (rule_deactivate r :: A'). repeat (split; [first [reflexivity|assumption]|]). split; [|now split].
      constructor; [|exact F]. split; [repeat split|]. split; [reflexivity|]. split; [reflexivity|congruence].
Qed.

(** the rule as triggering leaves it *)
Definition fired (r : rule) : rule := set_triggered (rl_enabled r && isGt (rl_degree r) s_0)%bool r.
Lemma trigger_at_ok : forall order rules f rules' f',
  NoDup order -> (forall i r, In i order -> nth_error rules i = Some r -> rl_triggered r = false) ->
  trigger_at enabled implication order rules f = (rules', f', Ok tt) ->
  length rules' = length rules /\
  (forall i, In i order -> exists r, nth_error rules i = Some r /\ nth_error rules' i = Some (fired r)) /\
  (forall i, ~ In i order -> nth_error rules' i = nth_error rules i) /\
  contributed_by enabled implication rules' order f f'.
Proof.
  induction order as [|i order IH]; intros rules f rules' f' ND NT H; cbn [trigger_at] in H.
  - inversion H; subst. repeat split; try constructor. intros i [].
  - inversion ND as [|? ? Ni ND']; subst.
    destruct (nth_error rules i) as [r|] eqn:E; [|inversion H].
    destruct (trig f r) as [[r1 f1]|x| |] eqn:G; try (inversion H; fail).
    assert (rl_triggered r = false) as Nr by (apply (NT i); [now left|exact E]).
    destruct (trig_ok _ _ _ _ _ _ Nr G) as [-> C]. change (set_triggered (rl_enabled r && isGt (rl_degree r) s_0)%bool r) with (fired r) in *.
    apply IH in H; [|exact ND'|].
    + destruct H as (h1 & h2 & h3 & h4). rewrite set_nth_length in h1. split; [exact h1|].
      assert (nth_error rules' i = Some (fired r)) as Hi.
      { rewrite h3 by exact Ni. eapply set_nth_same. exact E. }
      split; [|split].
      * intros j [<- | Hj]; [exists r; now split|]. destruct (h2 j Hj) as (q & q1 & q2).
        exists q. split; [|exact q2]. rewrite set_nth_other in q1; [exact q1|]. congruence.
      * intros j Hj. rewrite h3 by (intros X; apply Hj; now right). apply set_nth_other. intros ->. apply Hj. now left.
      * econstructor; [exact Hi|exact C|exact h4].
    + intros j q Hj Hq. rewrite set_nth_other in Hq; [|congruence]. apply (NT j q); [now right|exact Hq].
Qed.

(** ** the queue *)
Lemma combine_seq_nth {A} (l : list A) : forall s i x, In (i, x) (combine (seq s (length l)) l) <-> (s <= i)%nat /\ nth_error l (i - s) = Some x.
Proof.
  induction l as [|y l IH]; intros s i x; cbn [length seq combine].
  - split; [intros []|]. intros [_ H]. destruct (i - s)%nat; discriminate.
  - cbn [In]. rewrite IH. split.
    + intros [E | [H1 H2]]; [inversion E; subst; rewrite Nat.sub_diag; split; [lia|reflexivity]|].
      split; [lia|]. replace (i - s)%nat with (Datatypes.S (i - Datatypes.S s)) by lia. exact H2.
    + intros [H1 H2]. destruct (Nat.eq_dec s i) as [-> | N]; [left; rewrite Nat.sub_diag in H2; cbn in H2; congruence|].
      right. split; [lia|]. replace (i - s)%nat with (Datatypes.S (i - Datatypes.S s)) in H2 by lia. exact H2.
Qed.
Lemma candidates_in (rules : list rule) i : In i (candidates rules) <-> exists r, nth_error rules i = Some r /\ positive_rule r = true.
Proof.
  unfold candidates. rewrite in_map_iff. split.
  - intros ([j r] & <- & H). apply filter_In in H. destruct H as [H P]. apply combine_seq_nth in H. destruct H as [_ H].
    rewrite Nat.sub_0_r in H. exists r. split; [exact H|exact P].
  - intros (r & H & P). exists (i, r). split; [reflexivity|]. apply filter_In. split; [|exact P].
    apply combine_seq_nth. rewrite Nat.sub_0_r. split; [lia|exact H].
Qed.
Lemma filter_fst_nodup {A} (p : nat * A -> bool) l s : NoDup (map fst (filter p (combine (seq s (length l)) l))).
Proof.
  revert s. induction l as [|y l IH]; intros s; cbn [length seq combine filter map]; [constructor|].
  destruct (p (s, y)); [|apply IH]. cbn [map fst]. constructor; [|apply IH].
  intros H. apply in_map_iff in H. destruct H as ([i x] & E & H). cbn in E. subst. apply filter_In in H. destruct H as [H _].
  apply combine_seq_nth in H. lia.
Qed.
Lemma candidates_nodup (rules : list rule) : NoDup (candidates rules).
Proof. apply filter_fst_nodup. Qed.
Lemma filter_combine_length {A} (p : A -> bool) l s : length (filter (fun q => p (snd q)) (combine (seq s (length l)) l)) = length (filter p l).
Proof.
  revert s. induction l as [|y l IH]; intros s; cbn [length seq combine filter]; [reflexivity|].
  cbn [snd]. destruct (p y); cbn [length]; rewrite IH; reflexivity.
Qed.
Lemma candidates_length (rules : list rule) : length (candidates rules) = length (filter positive_rule rules).
Proof. unfold candidates. rewrite map_length. exact (filter_combine_length positive_rule rules 0). Qed.

Lemma map_nth_seq {A} (l : list A) d : map (fun k => nth k l d) (seq 0 (length l)) = l.
Proof.
  induction l as [|x l IH]; [reflexivity|]. cbn [length seq map nth]. f_equal. rewrite <- seq_shift, map_map. exact IH.
Qed.
Lemma nth_error_map_iff {A B} (f : A -> B) l i b : nth_error (map f l) i = Some b <-> exists a, nth_error l i = Some a /\ f a = b.
Proof.
  rewrite nth_error_map. destruct (nth_error l i); cbn; split.
  - intros H. inversion H. eauto.
  - intros (a' & H & E). inversion H; subst. reflexivity.
  - discriminate.
  - intros (a' & H & _). discriminate.
Qed.

Definition queue_order (less : T -> T -> bool) (rules : list rule) : list nat :=
  map (fun k => nth k (candidates rules) 0%nat) (drain less (map (degree_at rules) (candidates rules))).
Lemma queue_order_ok (less : T -> T -> bool) rules : drain_spec drain ->
  strict_weak less (map (degree_at rules) (candidates rules)) ->
  Permutation (queue_order less rules) (candidates rules) /\
  forall i j a b, (i < j)%nat -> nth_error (queue_order less rules) i = Some a -> nth_error (queue_order less rules) j = Some b ->
    less (degree_at rules a) (degree_at rules b) = false.
Proof.
  intros D W. destruct (D _ _ W) as [P O]. rewrite map_length in P. split.
  - unfold queue_order. etransitivity; [apply Permutation_map; exact P|]. rewrite map_nth_seq. reflexivity.
  - intros i j a b L Ha Hb. unfold queue_order in Ha, Hb. apply nth_error_map_iff in Ha, Hb.
    destruct Ha as (ka & Ka & <-), Hb as (kb & Kb & <-).
    assert (forall k, In k (drain less (map (degree_at rules) (candidates rules))) ->
      nth_error (map (degree_at rules) (candidates rules)) k = Some (degree_at rules (nth k (candidates rules) 0%nat))) as K.
    { intros k Hk. apply (Permutation_in _ P) in Hk. apply in_seq in Hk. apply map_nth_error. apply nth_error_nth'. lia. }
    eapply (O i j ka kb); [exact L|exact Ka|exact Kb| |]; apply K; eapply nth_error_In; eassumption.
Qed.

Lemma NoDup_firstn {A} n (l : list A) : NoDup l -> NoDup (firstn n l).
Proof.
  revert l. induction n as [|n IH]; intros [|x l] H; cbn; try constructor; inversion H; subst; [|now apply IH].
  intros X. assert (In x l); [|contradiction]. clear - X. revert n X. induction l as [|y l IHl]; intros [|n] X; cbn in X; try contradiction.
  destruct X as [-> | X]; [now left|right; eauto].
Qed.
Lemma nth_error_firstn_lt {A} n (l : list A) i : (i < n)%nat -> nth_error (firstn n l) i = nth_error l i.
Proof. revert l i. induction n as [|n IH]; intros [|x l] [|i] H; cbn; try reflexivity; try lia. apply IH. lia. Qed.

Lemma queue_ok less n rules f rules' f' : drain_spec drain ->
  (forall rules1, Forall2 (actrule f) rules rules1 -> strict_weak less (map (degree_at rules1) (candidates rules1))) ->
  queue_rules enabled degree conjunction disjunction implication drain less n rules f = (rules', f', Ok tt) ->
  selection enabled degree conjunction disjunction implication (fun a b => negb (less a b)) n rules rules' f f'.
Proof.
  intros D W H. unfold queue_rules in H. destruct (dpass f rules) as [rules1 e] eqn:Q.
  destruct e as [[]|x| |]; try (inversion H; fail).
  apply dpass_ok in Q. specialize (W _ Q). change (map _ (drain less _)) with (queue_order less rules1) in H.
  destruct (queue_order_ok less rules1 D W) as [P O].
  set (order := firstn (Z.to_nat n) (queue_order less rules1)) in *.
  assert (NoDup (queue_order less rules1)) as ND0 by (eapply Permutation_NoDup; [symmetry; exact P|apply candidates_nodup]).
  assert (NoDup order) as ND by (now apply NoDup_firstn).
  assert (forall i, In i order -> exists r, nth_error rules1 i = Some r /\ positive_rule r = true) as IC.
  { intros i Hi. apply candidates_in. eapply Permutation_in; [exact P|]. unfold order in Hi. rewrite <- (firstn_skipn (Z.to_nat n)). apply in_or_app. now left. }
  assert (forall i r, nth_error rules1 i = Some r -> rl_triggered r = false) as NT.
  { intros i r Hr. assert (exists r0, nth_error rules i = Some r0) as [r0 H0].
    { destruct (nth_error rules i) eqn:E; [eauto|]. apply nth_error_None in E. apply Forall2_len in Q. 
      assert (nth_error rules1 i <> None) as X by congruence. apply nth_error_Some in X. lia. }
    destruct (nth_error_Forall2 _ _ _ _ _ _ Q H0 Hr) as (_ & h & _). exact h. }
  apply trigger_at_ok in H; [|exact ND|intros; eapply NT; eassumption].
  destruct H as (h1 & h2 & h3 & h4).
  assert (forall i r', nth_error rules' i = Some r' -> exists r1, nth_error rules1 i = Some r1 /\ rl_degree r' = rl_degree r1 /\
     same_rule r1 r' /\ (In i order -> r' = fired r1) /\ (~ In i order -> r' = r1)) as M.
  { intros i r' Hr. destruct (in_dec Nat.eq_dec i order) as [Hi | Hi].
    - destruct (h2 i Hi) as (r1 & E1 & E2). assert (r' = fired r1) as -> by congruence. exists r1.
      split; [exact E1|]. split; [reflexivity|]. split; [repeat split|]. split; [reflexivity|contradiction].
    - rewrite h3 in Hr by exact Hi. exists r'. split; [exact Hr|]. split; [reflexivity|]. split; [repeat split|]. split; [contradiction|reflexivity]. }
  assert (forall i r' r1, nth_error rules' i = Some r' -> nth_error rules1 i = Some r1 -> positive_rule r' = positive_rule r1 /\ rl_degree r' = rl_degree r1) as PM.
  { intros i r' r1 E1 E2. destruct (M _ _ E1) as (r2 & a & b & c & _). assert (r2 = r1) as -> by congruence.
    unfold positive_rule. rewrite b, (same_loaded _ _ c). now split. }
  assert (forall i r', nth_error rules' i = Some r' -> degree_at rules1 i = rl_degree r') as DA.
  { intros i r' E. destruct (M _ _ E) as (r1 & a & b & _). unfold degree_at. rewrite a. congruence. }
  split; [rewrite h1; symmetry; eapply Forall2_len; exact Q|].
  exists order. split; [exact ND|].
  split.
  { unfold order. rewrite firstn_length. f_equal. rewrite (Permutation_length P), candidates_length.
    clear - PM h1. revert rules1 h1 PM. induction rules' as [|a l IH]; intros [|b l1] h1 PM; cbn in h1; try discriminate; [reflexivity|].
    cbn [filter]. destruct (PM 0%nat a b eq_refl eq_refl) as [-> _].
    destruct (positive_rule b); cbn [length]; rewrite (IH l1); auto; try lia; intros i; apply (PM (Datatypes.S i)). }
  split.
  { intros i Hi. destruct (IC i Hi) as (r1 & a & b). destruct (h2 i Hi) as (r2 & c & d).
    exists (fired r2). split; [exact d|]. destruct (PM _ _ _ d c) as [-> _]. congruence. }
  split.
  { intros i j r' q' Hi Hj Hr Hq Pq. apply negb_true_iff. rewrite <- (DA _ _ Hr), <- (DA _ _ Hq).
    apply In_nth_error in Hi. destruct Hi as [ki Ki].
    assert (In j (queue_order less rules1)) as Jq.
    { eapply Permutation_in; [symmetry; exact P|]. apply candidates_in. destruct (M _ _ Hq) as (q1 & a & b & _).
      exists q1. split; [exact a|]. destruct (PM _ _ _ Hq a) as [<- _]. exact Pq. }
    apply In_nth_error in Jq. destruct Jq as [kj Kj].
    assert (ki < Z.to_nat n)%nat as Li.
    { assert (ki < length order)%nat by (apply nth_error_Some; congruence). unfold order in *. rewrite firstn_length in *. lia. }
    assert (~ (kj < Z.to_nat n)%nat) as Lj.
    { intros L. apply Hj. eapply nth_error_In. unfold order. rewrite nth_error_firstn_lt; [exact Kj|exact L]. }
    apply (O ki kj); [lia| |exact Kj]. unfold order in Ki. rewrite nth_error_firstn_lt in Ki; assumption. }
  split.
  { intros i j a b r' q' L Ha Hb Hr Hq. apply negb_true_iff. rewrite <- (DA _ _ Hr), <- (DA _ _ Hq).
    assert (forall k x, nth_error order k = Some x -> nth_error (queue_order less rules1) k = Some x) as U.
    { intros k x Hk. assert (k < length order)%nat as Lk by (apply nth_error_Some; congruence). unfold order in Lk. rewrite firstn_length in Lk.
      unfold order in Hk. rewrite nth_error_firstn_lt in Hk; [exact Hk|lia]. }
    apply (O i j); auto. }
  split; [exact h4|].
  intros i r r' Hr Hr'. destruct (M _ _ Hr') as (r1 & a & b & c & d & e).
  destruct (nth_error_Forall2 _ _ _ _ _ _ Q Hr a) as (p1 & p2 & p3 & p4).
  split; [eapply same_trans; eassumption|].
  split.
  { intros L. rewrite b. specialize (p3 L). split; [exact p3|].
    destruct (in_dec Nat.eq_dec i order) as [Hi | Hi]; [|rewrite (e Hi); exact p2].
    exfalso. destruct (IC i Hi) as (r2 & x & y). assert (r2 = r1) by congruence. subst. unfold positive_rule in y.
    rewrite (same_loaded _ _ p1), L in y. discriminate. }
  split.
  { intros L. destruct (p4 L) as (v & v1 & v2). exists v. rewrite b. now split. }
  split.
  - intros Tr. destruct (in_dec Nat.eq_dec i order) as [Hi | Hi]; [|rewrite (e Hi) in Tr; congruence].
    split; [exact Hi|]. rewrite (d Hi) in Tr. cbn in Tr. apply andb_true_iff in Tr. destruct Tr as [Tr _].
    destruct p1 as (q1 & _). congruence.
  - intros [Hi En]. rewrite (d Hi). cbn. destruct p1 as (q1 & _). rewrite q1, En. destruct (IC i Hi) as (r2 & x & y).
    assert (r2 = r1) by congruence. subst. unfold positive_rule in y. apply andb_true_iff in y. now destruct y.
Qed.

(** ** shares *)
Lemma share_ok sum : forall rules f rules' f',
  (forall r, In r rules -> rl_triggered r = false /\ (rule_loaded r = false -> rl_degree r = s_0)) ->
  share_pass enabled implication sum rules f = (rules', f', Ok tt) ->
  length rules' = length rules /\
  exists states : list (fuzzy T),
    length states = Datatypes.S (length rules) /\ hd_error states = Some f /\ nth_error states (length rules) = Some f' /\
    forall i m r' g g',
      nth_error rules i = Some m -> nth_error rules' i = Some r' ->
      nth_error states i = Some g -> nth_error states (Datatypes.S i) = Some g' ->
      same_rule m r' /\ contr r' g g' /\
      (rule_loaded m = false -> rl_degree r' = s_0 /\ rl_triggered r' = false) /\
      (rule_loaded m = true ->
         (let q := (rl_degree m / sum)%S in rl_degree r' = if isNaN q then s_0 else q) /\
         rl_triggered r' = (rl_enabled m && isGt (rl_degree r') s_0)%bool).
Proof.
  assert (forall (m r' : rule) rules rules' f f1 f',
    (length rules' = length rules /\
     exists states : list (fuzzy T),
    length states = Datatypes.S (length rules) /\ hd_error states = Some f1 /\ nth_error states (length rules) = Some f' /\
    forall i m r' g g',
      nth_error rules i = Some m -> nth_error rules' i = Some r' ->
      nth_error states i = Some g -> nth_error states (Datatypes.S i) = Some g' ->
      same_rule m r' /\ contr r' g g' /\
      (rule_loaded m = false -> rl_degree r' = s_0 /\ rl_triggered r' = false) /\
      (rule_loaded m = true ->
         (let q := (rl_degree m / sum)%S in rl_degree r' = if isNaN q then s_0 else q) /\
         rl_triggered r' = (rl_enabled m && isGt (rl_degree r') s_0)%bool)) ->
    same_rule m r' /\ contr r' f f1 /\
      (rule_loaded m = false -> rl_degree r' = s_0 /\ rl_triggered r' = false) /\
      (rule_loaded m = true ->
         (let q := (rl_degree m / sum)%S in rl_degree r' = if isNaN q then s_0 else q) /\
         rl_triggered r' = (rl_enabled m && isGt (rl_degree r') s_0)%bool) ->
    length (r' :: rules') = length (m :: rules) /\
     exists states : list (fuzzy T),
    length states = Datatypes.S (length (m :: rules)) /\ hd_error states = Some f /\ nth_error states (length (m :: rules)) = Some f' /\
    forall i m0 r'0 g g',
      nth_error (m :: rules) i = Some m0 -> nth_error (r' :: rules') i = Some r'0 ->
      nth_error states i = Some g -> nth_error states (Datatypes.S i) = Some g' ->
      same_rule m0 r'0 /\ contr r'0 g g' /\
      (rule_loaded m0 = false -> rl_degree r'0 = s_0 /\ rl_triggered r'0 = false) /\
      (rule_loaded m0 = true ->
         (let q := (rl_degree m0 / sum)%S in rl_degree r'0 = if isNaN q then s_0 else q) /\
         rl_triggered r'0 = (rl_enabled m0 && isGt (rl_degree r'0) s_0)%bool)) as CONS.
  { intros m r' rules rules' f f1 f' [Hlen (states & S1 & S2 & S3 & S4)] Hm. split; [cbn; lia|]. exists (f :: states).
    split; [cbn; lia|]. split; [reflexivity|]. split; [cbn; exact S3|].
    intros [|i] q q' g g'; cbn [nth_error]; intros H1 H2 H3 H4.
    - inversion H1; inversion H2; inversion H3; subst. destruct states as [|s states]; [discriminate|].
      cbn in S2, H4. assert (g' = f1) by congruence. subst. exact Hm.
    - exact (S4 i q q' g g' H1 H2 H3 H4). }
  induction rules as [|r rules IH]; intros f rules' f' NT H; cbn [share_pass] in H.
  - inversion H; subst. split; [reflexivity|]. exists [f']. repeat split; try reflexivity; intros; destruct i; discriminate.
  - destruct (NT r (or_introl eq_refl)) as [Nr Dr].
    assert (forall q, In q rules -> rl_triggered q = false /\ (rule_loaded q = false -> rl_degree q = s_0)) as NT' by (intros; apply NT; now right).
    destruct (rule_loaded r) eqn:L.
    + set (d := if isNaN (rl_degree r / sum)%S then s_0 else (rl_degree r / sum)%S) in *.
      destruct (trig f (set_degree d r)) as [[r2 f1]|x| |] eqn:G; try (inversion H; fail).
      destruct (trig_ok _ _ _ (set_degree d r) _ _ Nr G) as [-> C].
      destruct (share_pass enabled implication sum rules f1) as [[rest g] e] eqn:P. inversion H; subst.
      eapply CONS; [apply IH; [exact NT'|exact P]|].
      split; [repeat split|]. split; [exact C|]. split; [congruence|]. intros _. split; reflexivity.
    + destruct (share_pass enabled implication sum rules f) as [[rest g] e] eqn:P. inversion H; subst.
      eapply CONS; [apply IH; [exact NT'|exact P]|].
      split; [repeat split|]. split; [unfold contributed; now rewrite Nr|]. split; [intros _; split; auto|congruence].
Qed.

Lemma fold_total (rules : list rule) : forall a,
  fold_left (fun s r => if rule_loaded r then (s + rl_degree r)%S else s) rules a =
  fold_left s_add (map (@rl_degree T) (filter rule_loaded rules)) a.
Proof. induction rules as [|r rules IH]; intros a; cbn; [reflexivity|]. destruct (rule_loaded r); cbn; apply IH. Qed.

Lemma proportional_ok rules f rules' f' :
  proportional enabled degree conjunction disjunction implication rules f = (rules', f', Ok tt) ->
  shares enabled degree conjunction disjunction implication rules rules' f f'.
Proof.
  intros H. unfold proportional in H. destruct (dpass f rules) as [mids e] eqn:Q.
  destruct e as [[]|x| |]; try (inversion H; fail). apply dpass_ok in Q. pose proof (Forall2_len _ _ _ Q) as LQ.
  apply share_ok in H.
  - rewrite fold_total in H. destruct H as [Hlen (states & S1 & S2 & S3 & S4)].
    split; [congruence|]. exists mids. split; [exact Q|]. exists states. split; [congruence|]. split; [exact S2|]. split; [rewrite LQ; exact S3|].
    intros i r m r' g g' H1 H2 H3 H4 H5. destruct (S4 i m r' g g' H2 H3 H4 H5) as (a & b & c & d).
    destruct (nth_error_Forall2 _ _ _ _ _ _ Q H1 H2) as (p1 & _). pose proof (same_loaded _ _ p1) as pl.
    split; [eapply same_trans; eassumption|]. split; [exact b|]. rewrite <- pl. split; [exact c|].
    intros L. destruct (d L) as [d1 d2]. split; [exact d1|]. rewrite d2. destruct p1 as (-> & _). reflexivity.
  - intros r Hr. apply In_nth_error in Hr. destruct Hr as [i Hi].
    assert (exists r0, nth_error rules i = Some r0) as [r0 H0].
    { destruct (nth_error rules i) eqn:E; [eauto|]. apply nth_error_None in E.
      assert (nth_error mids i <> None) as X by congruence. apply nth_error_Some in X. lia. }
    destruct (nth_error_Forall2 _ _ _ _ _ _ Q H0 Hi) as (p1 & p2 & p3 & _). split; [exact p2|].
    intros L. apply p3. now rewrite <- (same_loaded _ _ p1).
Qed.
End Methods.
End Proofs.
