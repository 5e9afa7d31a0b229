(** Proofs about the interactive console. *)
From Coq Require Import ZArith String List Bool Ascii Lia.
From Verif Require Import Base Op Text Var Activation Engine Grid Fll Console SpecVar SpecActivation SpecEngine SpecFld EngineProofs EngineProofs2 EngineProofs3 EngineProofs4 FldProofs SpecSession.
Import ListNotations.
Local Open Scope string_scope.

Lemma app_assoc_s a b c : (a ++ b) ++ c = a ++ (b ++ c).
Proof. induction a; simpl; congruence. Qed.
Lemma app_nil_s a : a ++ "" = a.
Proof. induction a; simpl; congruence. Qed.

Section Twice.
Context {T : Type} `{S : Scalar T}.
Variable drain : drainer T.
Lemma process_inputs (e : engine T) : e_inputs (fst (process drain e)) = e_inputs e.
Proof. unfold process. destruct (run_blocks _ _ _ _ _) as [[bs fz] r]. destruct r; try reflexivity. destruct (defuzzify_from _ _ _). reflexivity. Qed.
Lemma Forall2_conj {A B} (P Q : A -> B -> Prop) l l' : Forall2 P l l' -> Forall2 Q l l' -> Forall2 (fun x y => P x y /\ Q x y) l l'.
Proof. induction 1; intros K; inversion K; subst; constructor; auto. Qed.
Lemma Forall2_of_map {A B} (f : A -> B) l l' : map f l = map f l' -> Forall2 (fun x y => f x = f y) l l'.
Proof. revert l'. induction l; intros [|b l'] H; try discriminate; constructor; injection H; auto. Qed.
Lemma memoryless_same (a b : engine T) : same_engine a b -> memoryless a -> memoryless b.
Proof.
  intros (_ & _ & HI & HO & _) [Ig NL]. split.
  - intros t f n v It. assert (In t (all_terms a)).
    { unfold all_terms in *. replace (flat_map (@v_terms T) (e_inputs a)) with (flat_map (@v_terms T) (e_inputs b)).
      - replace (flat_map (fun o => v_terms (o_var o)) (e_outputs a)) with (flat_map (fun o => v_terms (o_var o)) (e_outputs b)); [exact It|].
        clear - HO. induction HO as [|x y l l' E H IH]; [reflexivity|]. cbn. rewrite IH. f_equal. apply E.
      - clear - HI. induction HI as [|x y l l' E H IH]; [reflexivity|]. cbn. rewrite IH. f_equal. apply E. }
    replace (output_names b) with (output_names a); [now apply Ig|]. unfold output_names. clear - HO. induction HO as [|x y l l' E H IH]; [reflexivity|]. cbn. f_equal; [|exact IH]. symmetry. apply E.
  - clear - HO NL. induction HO as [|x y l l' E H IH]; [constructor|]. inversion NL; subst. constructor; [|auto].
    destruct E as (_&_&_&_&E&_&_&_&_&_&F). intros X. rewrite F. apply H2. congruence.
Qed.
Lemma twice (e c : engine T) : memoryless e -> process drain e = (c, Ok tt) -> exists outs, defuzzify_from (e_inputs c) [] (e_outputs c) = (outs, Ok tt) /\
  map (fun o => v_value (o_var o)) outs = map (fun o => v_value (o_var o)) (e_outputs c) /\ Forall2 same_output (e_outputs c) outs.
Proof.
  intros M P. pose proof (process_same drain e) as SE. rewrite P in SE. cbn [fst] in SE.
  rewrite process_phases in P. destruct (activation_phase drain e) as [[bs fz] r1] eqn:A. destruct r1 as [[]| | |]; try discriminate.
  destruct (defuzzify_from (e_inputs e) [] (put_fuzzy (cleared e) fz)) as [o1 r] eqn:D. injection P as <- ->.
  set (R := put_fuzzy (cleared e) fz) in *. cbn [e_inputs e_outputs] in *. pose proof (defuzzify_from_same (e_inputs e) R []) as SO. rewrite D in SO. cbn [app fst] in SO.
  pose proof (from_fuzzy (e_inputs e) R []) as FZ. rewrite D in FZ. cbn [fst app map] in FZ.
  set (a := mkEngine (e_name e) (e_description e) (e_inputs e) R bs). set (b := mkEngine (e_name e) (e_description e) (e_inputs e) o1 bs).
  assert (SAB : same_engine a b).
  { repeat split; [apply Forall2_refl; repeat split|exact SO|apply Forall2_refl; intros; apply same_block_refl]. }
  assert (MA : memoryless a). { apply (memoryless_same b); [now apply same_engine_sym|]. now apply (memoryless_same e). }
  assert (EL : engine_like (input_names a) (output_names a) false a b).
  { apply same_like; auto; [|discriminate]. intros t f n v I1 I2 I3 I4. destruct (proj1 MA t f n v I1 I2 I3 I4); [left|right; right]; assumption. }
  destruct EL as (HI & HO & _ & NI & NO). cbn [a b e_inputs e_outputs] in HI, HO, NI, NO.
  assert (HR : Forall2 (fun o p => out_like (input_names a) (output_names a) false o p /\ o_fuzzy o = o_fuzzy p) R o1).
  { apply Forall2_conj; [exact HO|]. apply Forall2_of_map. symmetry. exact FZ. }
  destruct (from_like _ _ _ _ _ HI NI R o1 [] [] ltac:(constructor) HR NO) as [E1 E2]. rewrite D in E1, E2. cbn [fst snd] in E1, E2.
  pose proof (defuzzify_from_same (e_inputs e) o1 []) as SO2. cbn [app] in SO2.
  destruct (defuzzify_from (e_inputs e) [] o1) as [o2 r2] eqn:D2. cbn [fst snd] in *. subst r2. exists o2. split; [reflexivity|]. split; [|exact SO2].
  pose proof (from_spec _ _ _ _ _ D2) as (k & _ & L2 & KE & _ & K). cbn [length Nat.add] in L2, K. assert (KK : k = length o1) by (apply KE; reflexivity). subst k.
  assert (NL : Forall (fun o => v_enabled (o_var o) = true -> o_lock_previous o = false) o1) by (apply (memoryless_same a b SAB MA)).
  assert (Forall2 (fun o p : output T => v_value (o_var p) = v_value (o_var o)) o1 o2) as F.
  { apply Forall2_nth; [exact (eq_sym L2)|]. intros i o p Ho Hp. destruct (K i o Ho) as (q & Hq & V & _). rewrite Hp in Hq. injection Hq as <-.
    destruct (v_enabled (o_var o)) eqn:En.
    - pose proof (nth_like _ _ _ E2 i) as Q. rewrite Ho, Hp in Q. destruct Q as (_ & _ & Q). symmetry. apply Q; auto.
      eapply Forall_forall in NL; [|eapply nth_error_In; exact Ho]. auto.
    - destruct V as (vw & V); [apply nth_error_Some; congruence|]. rewrite defuzzify_disabled in V by exact En. injection V as <-. reflexivity. }
  clear - F. induction F; [reflexivity|]. cbn. congruence.
Qed.
End Twice.

(** * Sessions *)
Lemma code_ascii c : ascii_of_nat (nat_of_ascii c) = c.
Proof. apply ascii_nat_embedding. Qed.
Lemma blank_space c : blank c -> is_space c = true /\ quits c = false.
Proof.
  intro B. split.
  - unfold is_space, code. destruct B as [[A B]| ->]; [|reflexivity]. apply Nat.leb_le in A, B. now rewrite A, B, Bool.orb_true_r.
  - unfold quits, code. destruct B as [[A B]|B]; [|].
    + assert (N : nat_of_ascii c <> 81 /\ nat_of_ascii c <> 113 /\ nat_of_ascii c <> 4) by lia.
      destruct (Ascii.eqb_spec c "Q") as [->|_]; [vm_compute in N; lia|]. destruct (Ascii.eqb_spec c "q") as [->|_]; [vm_compute in N; lia|]. apply Nat.eqb_neq. tauto.
    + destruct (Ascii.eqb_spec c "Q") as [->|_]; [vm_compute in B; lia|]. destruct (Ascii.eqb_spec c "q") as [->|_]; [vm_compute in B; lia|]. now rewrite B.
Qed.
Lemma graph_not_space c : (32 < nat_of_ascii c < 127)%nat -> is_space c = false /\ is_graph c = true.
Proof.
  intros [A B]. unfold is_space, is_graph, code. split.
  - replace (Nat.eqb (nat_of_ascii c) 32) with false by (symmetry; apply Nat.eqb_neq; lia). replace (Nat.leb (nat_of_ascii c) 13) with false by (symmetry; apply Nat.leb_gt; lia). now rewrite Bool.andb_false_r.
  - apply Bool.andb_true_iff. split; apply Nat.leb_le; lia.
Qed.
Section Session.
Context {T : Type} `{S : Scalar T}.
Variable drain : drainer T.
Variables (what : exc -> string) (d : nat).
Notation loop := (interactive_loop drain what d).
Notation key := (interactive_key drain what d).
Notation at_ e vs t W := (mkSession e vs t "" W).
Lemma loop_flush keys st : loop keys st = loop keys (flush st).
Proof. assert (F : flush (flush st) = flush st) by (unfold flush; simpl; now rewrite app_nil_s). destruct keys; cbn [interactive_loop]; now rewrite F. Qed.
Lemma flush_at (e : engine T) vs t W : flush (at_ e vs t W) = at_ e vs t W.
Proof. unfold flush. simpl. now rewrite app_nil_s. Qed.
(** a character of a word *)
Lemma key_char c (st : session) : (32 < nat_of_ascii c < 127)%nat -> ~ In c reserved ->
  key c st = (mkSession (ss_engine st) (ss_values st) (ss_typed st ++ char c) (ss_buffer st ++ char c) (ss_written st), Ok tt) /\ quits c = false.
Proof.
  intros G N. destruct (graph_not_space c G) as [E1 E2]. unfold interactive_key. rewrite E1, E2. cbn [negb].
  assert (F : forall x, In x reserved -> Ascii.eqb c x = false) by (intros x I; apply Ascii.eqb_neq; intros ->; tauto).
  rewrite !F by (unfold reserved; simpl; tauto). split; [reflexivity|]. unfold quits. rewrite !F by (unfold reserved; simpl; tauto). cbn [orb]. apply Nat.eqb_neq. unfold code. lia.
Qed.
Lemma loop_word w : plain_word w -> forall keys (e : engine T) vs t W, loop (list_ascii_of_string w ++ keys) (at_ e vs t W) = loop keys (at_ e vs (t ++ w) (W ++ w)).
Proof.
  induction w as [|c w IH]; intros P keys e vs t W; [cbn [list_ascii_of_string app]; now rewrite !app_nil_s|].
  cbn [list_ascii_of_string app interactive_loop]. rewrite flush_at. destruct (P c (or_introl eq_refl)) as [G N]. destruct (key_char c (at_ e vs t W) G N) as [-> ->].
  cbn [ss_engine ss_values ss_typed ss_buffer ss_written]. rewrite loop_flush. unfold flush at 1. cbn [ss_engine ss_values ss_typed ss_buffer ss_written].
  rewrite IH by (intros x I; apply P; now right). unfold char. rewrite !app_assoc_s. reflexivity.
Qed.
(** a blank after a word *)
Lemma entry_match v w x shown : entry d v w x shown -> exists note, shown = w ++ note /\ (match to_scalar w with Ok x => (x, "") | _ => (v, "[" ++ str d v ++ "]") end) = (x, note).
Proof.
  intros [y E|N]; [exists ""; rewrite E, app_nil_s; auto|]. eexists. split; [reflexivity|]. destruct (to_scalar w) eqn:E; auto. destruct (N _ eq_refl).
Qed.
Lemma loop_blank c w v x shown keys (e : engine T) vs W : blank c -> entry d v w x shown -> nth_error (map (@v_value T) (e_inputs e)) (List.length vs) = Some v ->
  exists note, shown = w ++ note /\ loop (c :: keys) (at_ e vs w W) =
  let st := mkSession e (vs ++ [x]) "" (note ++ tab) W in
  if Nat.eqb (Datatypes.S (List.length vs)) (List.length (e_inputs e)) then match interactive_process drain what d st with (st, Ok _) => loop keys st | r => r end
  else loop keys (at_ e (vs ++ [x]) "" (W ++ note ++ tab)).
Proof.
  intros B E N. destruct (blank_space c B) as [SP Q]. rewrite nth_error_map in N. destruct (nth_error (e_inputs e) (List.length vs)) as [u|] eqn:U; [|discriminate]. injection N as <-.
  destruct (entry_match _ _ _ _ E) as (note & -> & M). exists note. split; [reflexivity|]. cbn [interactive_loop]. rewrite flush_at. unfold interactive_key. rewrite SP.
  cbn [ss_engine ss_values ss_typed ss_buffer ss_written]. rewrite U, M. cbn zeta. rewrite app_length. cbn [List.length]. replace (List.length vs + 1)%nat with (Datatypes.S (List.length vs)) by lia.
  cbn [append]. destruct (Nat.eqb _ _).
  - destruct (interactive_process _ _ _ _) as [st [[]| | |]]; try reflexivity. now rewrite Q.
  - rewrite Q. rewrite loop_flush. reflexivity.
Qed.
Lemma skipn_map {A B} (f : A -> B) k l : map f (skipn k l) = skipn k (map f l).
Proof. revert l. induction k; intros [|x l]; cbn; auto. Qed.
Lemma nth_skipn {A} k (l : list A) v now : skipn k l = v :: now -> nth_error l k = Some v.
Proof. revert l. induction k; intros [|x l]; cbn; try discriminate; auto. intros E. now injection E as ->. Qed.
Lemma skipn_next {A} k (l : list A) v now : skipn k l = v :: now -> skipn (k + 1) l = now.
Proof. revert l. induction k; intros [|x l]; cbn; try discriminate; auto. intros E. now injection E as ->. Qed.
(** a row, or part of it *)
Lemma loop_row : forall now row xs text, reading d now row xs text -> forall keys (e : engine T) vs W, map (@v_value T) (skipn (List.length vs) (e_inputs e)) = now ->
  (List.length vs + List.length row < List.length (e_inputs e))%nat -> loop (typed row ++ keys) (at_ e vs "" W) = loop keys (at_ e (vs ++ xs) "" (W ++ text)).
Proof.
  induction 1 as [now|v now word c row x shown xs text P B E R IH]; intros keys e vs W N L; [cbn [typed flat_map app]; now rewrite app_nil_s, app_nil_r|].
  cbn [typed flat_map fst snd]. rewrite <- !app_assoc. rewrite loop_word by exact P. cbn [append app]. fold (typed row).
  assert (V : nth_error (map (@v_value T) (e_inputs e)) (List.length vs) = Some v).
  { rewrite skipn_map in N. exact (nth_skipn _ _ _ _ N). }
  destruct (loop_blank c word v x shown (typed row ++ keys) e vs (W ++ word) B E V) as (note & -> & ->). cbn zeta. cbn [List.length] in L.
  replace (Nat.eqb (Datatypes.S (List.length vs)) (List.length (e_inputs e))) with false by (symmetry; apply Nat.eqb_neq; lia).
  rewrite IH; [|rewrite app_length; cbn [List.length]|rewrite app_length; cbn [List.length]; lia].
  - rewrite <- app_assoc, !app_assoc_s. reflexivity.
  - rewrite skipn_map in *. exact (skipn_next _ _ _ _ N).
Qed.
Lemma loop_full : forall now row xs text, reading d now row xs text -> forall keys (e : engine T) vs W, map (@v_value T) (skipn (List.length vs) (e_inputs e)) = now -> row <> [] ->
  (List.length vs + List.length row = List.length (e_inputs e))%nat -> exists V B, V ++ B = W ++ text /\
  loop (typed row ++ keys) (at_ e vs "" W) = match interactive_process drain what d (mkSession e (vs ++ xs) "" B V) with (st, Ok _) => loop keys st | r => r end.
Proof.
  induction 1 as [now|v now word c row x shown xs text P B E R IH]; intros keys e vs W N NE L; [congruence|].
  cbn [typed flat_map fst snd]. rewrite <- !app_assoc. rewrite loop_word by exact P. cbn [append app]. fold (typed row).
  assert (V : nth_error (map (@v_value T) (e_inputs e)) (List.length vs) = Some v).
  { rewrite skipn_map in N. exact (nth_skipn _ _ _ _ N). }
  destruct (loop_blank c word v x shown (typed row ++ keys) e vs (W ++ word) B E V) as (note & -> & ->). cbn zeta. cbn [List.length] in L.
  destruct row as [|p row].
  - inversion R; subst. cbn [List.length] in L. rewrite (proj2 (Nat.eqb_eq _ _)) by lia. exists (W ++ word), (note ++ tab). split; [|reflexivity]. change ht with tab. now rewrite app_nil_s, !app_assoc_s.
  - cbn [List.length] in L. replace (Nat.eqb (Datatypes.S (List.length vs)) (List.length (e_inputs e))) with false by (symmetry; apply Nat.eqb_neq; lia).
    destruct (IH keys e (vs ++ [x])%list (W ++ word ++ note ++ tab)) as (V' & B' & E1 & E2).
    + rewrite app_length; cbn [List.length]. rewrite skipn_map in *. exact (skipn_next _ _ _ _ N).
    + discriminate.
    + rewrite app_length; cbn [List.length]; lia.
    + exists V', B'. split; [rewrite E1; change ht with tab; now rewrite !app_assoc_s|]. rewrite <- app_assoc in E2. rewrite app_assoc_s. exact E2.
Qed.
(** * evaluations *)
Definition follows (e b : engine T) : Prop := memoryless e /\ like e b /\ input_values e = input_values b.
Lemma inputs_values (a b : engine T) xs : same_engine a b -> input_values a = input_values b -> input_values (set_inputs xs a) = input_values (set_inputs xs b).
Proof.
  intros (_ & _ & I & _) V. unfold input_values, set_inputs in *. cbn [e_inputs]. revert xs V. generalize (e_inputs b), (e_inputs a), I. clear I.
  intros l' l I. induction I as [|x y l l' E I IH]; intros [|z xs] V; try reflexivity; [exact V|].
  cbn in *. injection V as V1 V2. destruct E as (_ & _ & E3 & E4 & _ & E6 & _). f_equal; [rewrite E3, E4, E6; reflexivity|apply IH; exact V2].
Qed.
Lemma follows_same (e e' b b' : engine T) : follows e b -> same_engine e e' -> same_engine b b' -> Forall2 idle_same (e_outputs e') (e_outputs b') -> input_values e' = input_values b' -> follows e' b'.
Proof.
  intros (M & [L I] & V) SE SB Id V'. split; [now apply (memoryless_same e)|]. split; [|exact V']. split; [|exact Id].
  eapply same_engine_trans; [apply same_engine_sym; exact SE|]. eapply same_engine_trans; [exact L|exact SB].
Qed.
Lemma process_step (e b : engine T) xs t B W ans : follows e b -> answer drain d what e xs ans -> exists b',
  interactive_process drain what d (mkSession b xs t B W) =
  (mkSession b' [] "" (B ++ join_scalars d (skipn (List.length xs) (input_values e)) tab ++ (match skipn (List.length xs) (input_values e) with [] => "" | _ => tab end) ++ "=" ++ tab ++ ans) W, Ok tt) /\
  follows (set_inputs xs e) b'.
Proof.
  intros F A. pose proof F as (M & L & V). destruct (like_eval_values drain e b xs M L (inputs_values _ _ xs (proj1 L) V)) as [H1 H2].
  pose proof (like_step drain e b xs L) as L2.
  unfold interactive_process. cbn [ss_engine ss_values ss_typed ss_buffer ss_written].
  assert (MS : map (@v_value T) (skipn (List.length xs) (e_inputs (set_inputs xs b))) = skipn (List.length xs) (input_values e)).
  { rewrite V. unfold input_values. rewrite !skipn_map. unfold set_inputs. cbn [e_inputs]. clear. revert xs. induction (e_inputs b) as [|v l IH]; intros [|x xs]; try reflexivity. cbn. apply IH. }
  rewrite MS.
  assert (KEEP : forall c, same_engine b c -> Forall2 idle_same (e_outputs e) (e_outputs c) -> e_inputs c = e_inputs (set_inputs xs b) -> follows (set_inputs xs e) c).
  { intros c SC IC EC. apply (follows_same e _ b); auto; [apply set_inputs_same|]. unfold input_values at 2. rewrite EC. apply inputs_values; [apply L|exact V]. }
  assert (SP : same_engine b (fst (process drain (set_inputs xs b)))) by (eapply same_engine_trans; [apply set_inputs_same|apply process_same]).
  pose proof (process_inputs drain (set_inputs xs b)) as PI.
  destruct (process drain (set_inputs xs b)) as [c r] eqn:PR. cbn [fst snd] in *. destruct A as [outs EV|x EV].
  - unfold evaluation in EV. injection EV as EV1 EV2. rewrite EV1 in H1. subst r. specialize (H2 EV1).
    assert (MB : memoryless (set_inputs xs b)) by (apply (memoryless_same e); [eapply same_engine_trans; [apply L|apply set_inputs_same]|exact M]).
    destruct (twice drain _ _ MB PR) as (o2 & D2 & V2 & S2). rewrite D2. eexists. split.
    + cbn [e_outputs]. rewrite V2. unfold output_values in H2. rewrite H2. fold (output_values (fst (process drain (set_inputs xs e)))). rewrite EV2. rewrite !app_assoc_s. reflexivity.
    + apply KEEP; cbn [e_inputs e_outputs]; [| |exact PI].
      * eapply same_engine_trans; [exact SP|]. repeat split; [apply Forall2_refl; repeat split|exact S2|apply Forall2_refl; intros; apply same_block_refl].
      * apply (idle_trans_list _ (e_outputs c)); [apply L2|apply L2|]. apply Forall2_of_map in V2. clear - V2. induction V2; constructor; auto. intros _. congruence.
  - unfold evaluation in EV. cbn [fst] in EV. rewrite EV in H1. subst r. eexists. split; [rewrite !app_assoc_s; reflexivity|]. apply KEEP; auto. apply L2.
Qed.
Lemma follows_restart (e b : engine T) : follows e b -> follows (restart e) (restart b).
Proof.
  intro F. pose proof F as (M & [L I] & V). apply (follows_same e _ b); auto; try apply restart_same.
  - destruct L as (_ & _ & _ & L & _). cbn. clear - L. induction L as [|x y l l' E L IH]; constructor; auto. intros _. cbn. destruct E as (_&_&E3&E4&_&E6&_). now rewrite E3, E4, E6.
  - destruct L as (_ & _ & L & _). unfold input_values. cbn. clear - L. induction L as [|x y l l' E L IH]; [reflexivity|]. cbn. destruct E as (_&_&E3&E4&_&E6&_). rewrite E3, E4, E6. f_equal. exact IH.
Qed.

(** * the whole session *)
Lemma key_quit c (st : session) : In c quit_keys -> exists st', key c st = (st', Ok tt) /\ ss_written st' = ss_written st /\ quits c = true.
Proof. intros I. simpl in I. destruct I as [<-|[<-|[<-|[]]]]; eexists; (split; [reflexivity|split; reflexivity]). Qed.
Lemma loop_key c keys e vs t W st' : key c (at_ e vs t W) = (st', Ok tt) -> quits c = false -> loop (c :: keys) (at_ e vs t W) = loop keys (flush st').
Proof. intros K Q. cbn [interactive_loop]. rewrite flush_at, K, Q. apply loop_flush. Qed.
Lemma reading_length : forall now row xs text, reading d now row xs text -> List.length xs = List.length row.
Proof. induction 1; cbn; congruence. Qed.
Theorem session_shown : forall e keys text, transcript drain d what interactive_help e keys text -> forall b W, follows e b ->
  exists st, loop keys (at_ b [] "" W) = (st, Ok tt) /\ ss_written st = W ++ text.
Proof.
  induction 1 as [e row xs shown w keys R L P K|e row xs shown ans keys text R NE L A Tr IH|e row xs shown w c ans keys text R L P C A Tr IH|e row xs shown w c keys text R L P C Tr IH|e c keys text C Tr IH|e w c keys text P C Tr IH];
    intros b W F; pose proof F as (M & [Lk Id] & V); try pose proof (reading_length _ _ _ _ R) as LX;
    try (assert (LB : List.length (e_inputs b) = List.length (e_inputs e)) by (apply (f_equal (@List.length T)) in V; unfold input_values in V; rewrite !map_length in V; congruence));
    try (change (values_of e) with (input_values e) in *; rewrite V in R; unfold input_values in R).
  - rewrite (loop_row _ _ _ _ R) by (auto; cbn [List.length Nat.add]; lia). rewrite loop_word by exact P. destruct keys as [|c keys].
    + eexists. split; [cbn [interactive_loop]; reflexivity|]. cbn. now rewrite app_nil_s, !app_assoc_s.
    + cbn [interactive_loop]. rewrite flush_at. destruct (key_quit c (at_ b ([] ++ xs) ("" ++ w) ((W ++ shown) ++ w)) K) as (st' & -> & E & ->).
      eexists. split; [reflexivity|]. rewrite E. cbn. now rewrite app_assoc_s.
  - destruct (loop_full _ _ _ _ R keys b [] W eq_refl NE) as (V' & B & E & ->); [cbn [List.length Nat.add]; lia|].
    destruct (process_step e b xs "" B V' ans F A) as (b' & PS & F'). cbn [app]. rewrite PS. rewrite loop_flush. unfold flush. cbn [ss_engine ss_values ss_typed ss_buffer ss_written].
    assert (SK : skipn (List.length xs) (input_values e) = []) by (apply skipn_all2; unfold input_values; rewrite map_length; lia). rewrite SK in *.
    edestruct (IH b') as (st & S1 & S2); [exact F'|]. exists st. split; [exact S1|]. rewrite S2. cbn [join_scalars map join append]. change ht with tab. rewrite !app_assoc_s.
    rewrite <- (app_assoc_s V'), E, !app_assoc_s. reflexivity.
  - rewrite (loop_row _ _ _ _ R) by (auto; cbn [List.length Nat.add]; lia). rewrite loop_word by exact P. cbn [app append].
    destruct (process_step e b xs w "" ((W ++ shown) ++ w) ans F A) as (b' & PS & F').
    rewrite (loop_key c _ _ _ _ _ (fst (interactive_process drain what d (at_ b xs w ((W ++ shown) ++ w))))).
    + rewrite PS. unfold flush. cbn [fst ss_engine ss_values ss_typed ss_buffer ss_written append].
      edestruct (IH b') as (st & S1 & S2); [exact F'|]. exists st. split; [exact S1|]. rewrite S2, LX.
      destruct (skipn (List.length row) (input_values e)) eqn:SK; [apply (f_equal (@List.length T)) in SK; rewrite skipn_length in SK; unfold input_values in SK; rewrite map_length in SK; cbn in SK; lia|].
      change ht with tab. rewrite !app_assoc_s. reflexivity.
    + simpl in C. destruct C as [<-|[<-|[]]]; unfold interactive_key; cbn -[interactive_process]; rewrite PS; reflexivity.
    + simpl in C. destruct C as [<-|[<-|[]]]; reflexivity.
  - rewrite (loop_row _ _ _ _ R) by (auto; cbn [List.length Nat.add]; lia). rewrite loop_word by exact P. cbn [app append].
    rewrite (loop_key c _ _ _ _ _ (mkSession b [] "" ("#[Discard]" ++ char newline ++ ">") ((W ++ shown) ++ w))).
    + unfold flush. cbn [ss_engine ss_values ss_typed ss_buffer ss_written].
      edestruct (IH b) as (st & S1 & S2); [exact F|]. exists st. split; [exact S1|]. rewrite S2. change eol with (char newline). rewrite !app_assoc_s. reflexivity.
    + simpl in C. destruct C as [<-|[<-|[]]]; reflexivity.
    + simpl in C. destruct C as [<-|[<-|[]]]; reflexivity.
  - rewrite (loop_key c _ _ _ _ _ (mkSession (restart b) [] "" "#[Restart]" W)).
    + unfold flush. cbn [ss_engine ss_values ss_typed ss_buffer ss_written].
      edestruct (IH (restart b)) as (st & S1 & S2); [now apply follows_restart|]. exists st. split; [exact S1|]. rewrite S2. rewrite !app_assoc_s. reflexivity.
    + simpl in C. destruct C as [<-|[<-|[]]]; reflexivity.
    + simpl in C. destruct C as [<-|[<-|[]]]; reflexivity.
  - rewrite loop_word by exact P. cbn [append].
    rewrite (loop_key c _ _ _ _ _ (mkSession b [] "" (char newline ++ ">" ++ interactive_help ++ char newline ++ ">") (W ++ w))).
    + unfold flush. cbn [ss_engine ss_values ss_typed ss_buffer ss_written].
      edestruct (IH b) as (st & S1 & S2); [exact F|]. exists st. split; [exact S1|]. rewrite S2. change eol with (char newline). rewrite !app_assoc_s. reflexivity.
    + simpl in C. destruct C as [<-|[<-|[]]]; reflexivity.
    + simpl in C. destruct C as [<-|[<-|[]]]; reflexivity.
Qed.
Theorem session_text e keys text : memoryless e -> transcript drain d what interactive_help e keys text ->
  exists st, interactive drain what d keys e = (st, Ok tt) /\ ss_written st = ">" ++ text.
Proof.
  intros M Tr. unfold interactive. rewrite loop_flush. unfold flush. cbn [ss_engine ss_values ss_typed ss_buffer ss_written append].
  apply (session_shown e keys text Tr e ">"). split; [exact M|]. split; [apply like_refl|reflexivity].
Qed.
End Session.
