(** What is kept of an engine exported to and imported from the Fuzzy Control Language. *)
From Coq Require Import ZArith List Bool String Ascii Arith Lia.
From Verif Require Import Base Op Norm Hedge Shape Discrete Defuzz Aggregated Text Function Rule Var Activation Engine Factory
  SpecText SpecRule TextProofs TextProofs2 RuleProofs RuleProofs3 Fll SpecFll FllText FllLines FllExport FllRound FllRound2 FllFix FllSame Fis SpecFis FisBundle Fcl SpecFcl FclText FclRound FclRound2.
Import ListNotations.
Local Open Scope string_scope.

Section Same.
Context {T : Type} `{S : Scalar T}.
Variables (d : nat) (resolution : Z).
Hypothesis N : printable (T := T) d.

(** ** the configuration *)
Lemma tidy_plain v : clear_variable v -> tidy_variable v -> plain_variable (T := T) (kept_variable v).
Proof.
  intros [_ C] [A B]. split; [exact A|]. split; [split; reflexivity|]. cbn [kept_variable v_terms]. apply Forall_map. rewrite Forall_forall in *. intros t I. specialize (C t I). specialize (B t I). destruct C as [_ C].
  unfold plain_term, kept_term. destruct (tm_body t) as [s|xy|v1|cs b|f] eqn:E; cbn [tm_name tm_body]; try (split; [exact B|]; rewrite ?E; exact Logic.I). split; [exact B|]. cbn [fn_formula]. destruct C as (C1 & C2 & _). split; [|now apply squeezed_formula].
  unfold one_line, squeezed in *. rewrite lacks_sforall in *. clear - C1. induction (fn_formula f) as [|c s IH]; [reflexivity|]. cbn [sforall] in C1. apply andb_true_iff in C1. destruct C1 as [X Y]. cbn [sfilter]. destruct (negb (is_space c)); [cbn [sforall]; rewrite X; auto|auto].
Qed.
Lemma kept_same (num : T -> T -> Prop) e f : (forall x, num x (reread d x)) -> tidy_engine e -> fcl_printed d resolution e = Ok f -> same_configuration num (kept resolution e) f.
Proof.
  intros NR ((CN & CI & CO & CB & _) & TN & TI & TO & TB) H. unfold fcl_printed in H. destruct (rmapM (printed_variable d (declared e)) (e_inputs (kept resolution e))) as [ins|x| |] eqn:EI; try discriminate. cbn [rbind] in H.
  destruct (rmapM (printed_output d (declared e)) (e_outputs (kept resolution e))) as [outs|x| |] eqn:EO; try discriminate. cbn [rbind] in H. injection H as <-.
  split; [exact TN|]. split; [reflexivity|]. cbn [e_inputs e_outputs e_blocks]. split; [|split].
  - refine (rmap_forall2 _ plain_variable _ _ _ _ _ EI); [intros v w A B; exact (same_printed_variable d num NR _ _ _ A B)|].
    cbn [kept e_inputs]. apply Forall_map. rewrite Forall_forall in *. intros v I. apply tidy_plain; auto.
  - refine (rmap_forall2 _ (fun o => plain_variable (o_var o)) _ _ _ _ _ EO).
    + intros o p A B. unfold printed_output in B. destruct (printed_variable d (declared e) (o_var o)) as [v| | |] eqn:E; try discriminate. cbn [rbind] in B. injection B as <-. split; [exact (same_printed_variable d num NR _ _ _ A E)|]. repeat split; apply NR.
    + cbn [kept e_outputs]. apply Forall_map. rewrite Forall_forall in *. intros v I. cbn [kept_output o_var]. apply tidy_plain; auto.
  - cbn [kept e_blocks]. generalize (engine_env ins outs). intro env. clear - CB TB NR. induction CB as [|b bs (A & B & C) CB IH]; [constructor|]. inversion_clear TB as [|b' bs' TB1 TB2]. cbn [map]. constructor; [|auto].
    apply same_printed_block; [exact NR|]. cbn [kept_block b_name b_description b_rules b_activation]. split; [split; [apply A|]|].
    + destruct A as (_ & H & _). unfold content. rewrite hash_id by exact H. now apply trim_word.
    + split; [split; reflexivity|]. split; [|exact Logic.I]. cbn [kept_block b_rules]. rewrite Forall_forall in *. intros r I. destruct (C r I) as (C1 & C2 & _). split; [exact C1|]. unfold content. rewrite hash_id by exact C2. auto.
Qed.

(** ** success *)
Lemma kept_ok e : no_functions e -> exists f, fcl_printed (T := T) d resolution e = Ok f.
Proof.
  intros [A B]. unfold fcl_printed.
  assert (K : forall v, Forall no_function (v_terms v) -> exists w, printed_variable d (declared e) (kept_variable v) = Ok w).
  { intros v F. apply printed_variable_ok. cbn [kept_variable v_terms]. apply Forall_map. eapply Forall_impl; [|exact F]. intros t. unfold no_function, kept_term. destruct (tm_body t) eqn:E; cbn [tm_body]; rewrite ?E; auto. }
  cbn [kept e_inputs e_outputs]. destruct (rmap_ok (printed_variable d (declared e)) (fun v => exists w, printed_variable d (declared e) v = Ok w) (map kept_variable (e_inputs e))) as (ins & ->); [auto|apply Forall_map; eapply Forall_impl; [|exact A]; intros v; apply K|]. cbn [rbind].
  destruct (rmap_ok (printed_output d (declared e)) (fun o => exists w, printed_variable d (declared e) (o_var o) = Ok w) (map (kept_output resolution) (e_outputs e))) as (outs & ->).
  - intros o (w & E). unfold printed_output. rewrite E. eexists. reflexivity.
  - apply Forall_map. eapply Forall_impl; [|exact B]. intros o. apply K.
  - eexists. reflexivity.
Qed.

(** ** a second time *)
Lemma squeezed_twice s : squeezed (squeezed s) = squeezed s.
Proof. unfold squeezed. apply sfilter_id. apply sfilter_forall. Qed.
Lemma term_again vw t t1 : clear_term t -> printed_term d vw (kept_term t) = Ok t1 -> kept_term t1 = t1 /\ printed_term d vw t1 = Ok t1 /\ tm_name t1 = valid_name (tm_name t) /\
  (clear_term (kept_term t) -> clear_term t1).
Proof.
  intros [V C] H. assert (Q := printed_term_fixed d N vw (kept_term t) t1). assert (NM : tm_name (kept_term t) = tm_name t) by (unfold kept_term; destruct (tm_body t); reflexivity). rewrite NM in Q.
  split; [|split; [exact (Q V H)|]].
  - unfold printed_term in H. unfold kept_term in H at 1. destruct (tm_body t) as [s|xy|v1|cs b|f] eqn:E; cbn [tm_body rbind] in H; rewrite ?E in H; cbn [rbind] in H.
    1,3,4: injection H as <-; reflexivity.
    + injection H as <-. unfold kept_term. cbn [tm_body tm_name tm_height]. f_equal. rewrite E. unfold printed_height. cbn [tm_body tm_height]. now rewrite (pr_one d N).
    + destruct C as (_ & C & _). cbn [fn_formula] in H. rewrite (squeezed_formula _ C) in H. destruct (loaded_function vw (squeezed (fn_formula f))) as [g| | |] eqn:L; try discriminate. cbn [rbind] in H. injection H as <-. unfold kept_term at 1. cbn [tm_body tm_name tm_height].
      assert (FG := loaded_formula _ _ _ L). rewrite FG, squeezed_twice, <- FG. destruct g; reflexivity.
  - unfold printed_term in H. destruct (match tm_body (kept_term t) with TShape _ => _ | _ => _ end) as [b| | |] eqn:E in H; try discriminate. cbn [rbind] in H. injection H as <-. rewrite NM. split; [reflexivity|].
    intros [V2 C2]. split; [cbn [tm_name]; rewrite valid_idem; assumption|]. cbn [tm_body]. destruct (tm_body (kept_term t)) as [s|xy|v1|cs b1|f] eqn:B; cbn [rbind] in E; try (injection E as <-; exact Logic.I).
    + injection E as <-. destruct xy; [congruence|discriminate].
    + destruct (loaded_function vw (formula_content (fn_formula f))) as [g| | |] eqn:L; try discriminate. cbn [rbind] in E. injection E as <-. rewrite (loaded_formula _ _ _ L).
      unfold kept_term in B. destruct (tm_body t) as [s|xy|v1|cs b1|g0] eqn:B0; cbn [tm_body] in B; rewrite ?B0 in B; try discriminate. injection B as <-. cbn [fn_formula] in *. destruct C as (_ & C & _). now rewrite (squeezed_formula _ C).
Qed.
Lemma terms_again vw ts us : Forall clear_term ts -> rmapM (printed_term d vw) (map kept_term ts) = Ok us -> map kept_term us = us /\ rmapM (printed_term d vw) us = Ok us /\ (Forall clear_term (map kept_term ts) -> Forall clear_term us).
Proof.
  intro F. revert us. induction F as [|t ts C F IH]; intros us H; [injection H as <-; auto|]. cbn [map rmapM] in H. destruct (printed_term d vw (kept_term t)) as [u| | |] eqn:E; try discriminate. cbn [rbind] in H.
  destruct (rmapM (printed_term d vw) (map kept_term ts)) as [us'| | |] eqn:E2; try discriminate. cbn [rbind] in H. injection H as <-. destruct (IH us' eq_refl) as (A & B & D). destruct (term_again vw t u C E) as (A1 & B1 & _ & D1).
  cbn [map rmapM]. rewrite A1, A, B1. cbn [rbind]. rewrite B. split; [reflexivity|]. split; [reflexivity|]. intro Q. cbn [map] in Q. inversion_clear Q. constructor; auto.
Qed.
Lemma variable_again vw v w : clear_variable v -> printed_variable d vw (kept_variable v) = Ok w -> kept_variable w = w /\ printed_variable d vw w = Ok w /\ v_name w = valid_name (v_name v) /\ (clear_variable (kept_variable v) -> clear_variable w).
Proof.
  intros [V F] H. unfold printed_variable in H. cbn [kept_variable v_terms] in H. destruct (rmapM (printed_term d vw) (map kept_term (v_terms v))) as [us| | |] eqn:E; try discriminate. cbn [rbind] in H. injection H as <-.
  destruct (terms_again vw _ us F E) as (A & B & D). cbn [kept_variable v_name v_description v_enabled v_lock_range v_minimum v_maximum v_terms v_value]. unfold kept_variable. cbn [v_name v_description v_enabled v_lock_range v_minimum v_maximum v_terms v_value]. rewrite A. split; [reflexivity|].
  unfold printed_variable. cbn [v_name v_description v_enabled v_lock_range v_minimum v_maximum v_terms v_value]. rewrite B. cbn [rbind]. rewrite !(valid_idem _ V), !(reread_idem d N). split; [reflexivity|]. split; [reflexivity|].
  intros [_ Q]. split; [cbn [v_name]; now rewrite (valid_idem _ V)|]. apply D. exact Q.
Qed.
Lemma output_again vw o p : clear_variable (o_var o) -> printed_output d vw (kept_output resolution o) = Ok p ->
  kept_output resolution p = p /\ printed_output d vw p = Ok p /\ v_name (o_var p) = valid_name (v_name (o_var o)) /\ (clear_variable (kept_variable (o_var o)) -> clear_variable (o_var p)).
Proof.
  intros C H. unfold printed_output in H. cbn [kept_output o_var] in H. destruct (printed_variable d vw (kept_variable (o_var o))) as [w| | |] eqn:E; try discriminate. cbn [rbind] in H. injection H as <-.
  destruct (variable_again vw _ w C E) as (A & B & NM & D). cbn [o_var]. split; [|split; [|split; [exact NM|exact D]]].
  - unfold kept_output. cbn [o_var o_fuzzy o_aggregation o_defuzzifier o_previous o_default o_lock_previous]. rewrite A. f_equal. destruct (o_defuzzifier o) as [[k n|k t]|]; reflexivity.
  - unfold printed_output. cbn [o_var]. rewrite B. cbn [rbind o_aggregation o_defuzzifier o_default o_lock_previous]. now rewrite (reread_idem d N).
Qed.
Lemma map_again {A} (f : A -> res A) (k : A -> A) (P : A -> Prop) (nm : A -> string) (Q : A -> Prop) l :
  (forall a b, P a -> f (k a) = Ok b -> k b = b /\ f b = Ok b /\ nm b = valid_name (nm a) /\ (Q (k a) -> Q b)) -> Forall P l ->
  forall us, rmapM f (map k l) = Ok us -> map k us = us /\ rmapM f us = Ok us /\ map nm us = map (fun a => valid_name (nm a)) l /\ (Forall Q (map k l) -> Forall Q us).
Proof.
  intros H F. induction F as [|a l Pa F IH]; intros us E; [injection E as <-; auto|]. cbn [map rmapM] in E. destruct (f (k a)) as [u| | |] eqn:E1; try discriminate. cbn [rbind] in E.
  destruct (rmapM f (map k l)) as [us'| | |] eqn:E2; try discriminate. cbn [rbind] in E. injection E as <-. destruct (IH us' eq_refl) as (A1 & A2 & A3 & A4). destruct (H a u Pa E1) as (B1 & B2 & B3 & B4).
  cbn [map rmapM]. rewrite A1, A3, B1, B2, B3. cbn [rbind]. rewrite A2. repeat split; auto. intro X. inversion_clear X. constructor; auto.
Qed.
Lemma tokens_again s : tokens (join (tokens s) " ") = tokens s.
Proof.
  assert (W := tokens_words s). induction W as [|w ws W F IH]; [reflexivity|]. destruct ws as [|w2 ws]; [cbn [join]; now apply tokens_word|]. change (join (w :: w2 :: ws) " ") with (w ++ String " " (join (w2 :: ws) " ")).
  rewrite tokens_space by reflexivity. rewrite (tokens_word w W), IH. reflexivity.
Qed.
Lemma slashed_parts a b : slashed (a ++ b) = false -> slashed a = false /\ slashed b = false.
Proof.
  induction a as [|c a IH]; intro H; [auto|]. cbn [append slashed] in H. apply orb_false_iff in H. destruct H as [H1 H2]. destruct (IH H2) as [A B]. split; [|exact B]. cbn [slashed]. rewrite A, orb_false_r. destruct a; [reflexivity|exact H1].
Qed.
Lemma slashed_join w s : slashed w = false -> slashed s = false -> slashed (w ++ String " " s) = false.
Proof.
  induction w as [|c w IH]; intros A B; [cbn [append slashed]; rewrite B; destruct s; reflexivity|]. cbn [slashed] in A. apply orb_false_iff in A. destruct A as [A1 A2]. cbn [append slashed]. rewrite (IH A2 B), orb_false_r.
  destruct w; cbn [append]; [apply andb_false_r|exact A1].
Qed.
Lemma tokens_slashed s : slashed s = false -> Forall (fun w => slashed w = false) (tokens s).
Proof.
  assert (H : forall s cur, slashed (cur ++ s) = false -> Forall (fun w => slashed w = false) (tokens_from cur s)).
  { clear s. induction s as [|c s IH]; intros cur H; cbn [tokens_from].
    - rewrite sapp_nil_r in H. destruct (sempty cur); constructor; auto.
    - destruct (is_space c) eqn:E.
      + destruct (slashed_parts _ _ H) as [A B]. assert (B2 : slashed s = false) by (cbn [slashed] in B; apply orb_false_iff in B; apply B). assert (R := IH "" B2). destruct (sempty cur); [exact R|constructor; assumption].
      + apply IH. rewrite sapp_assoc. exact H. }
  exact (H s "").
Qed.
Lemma join_slashed ws : Forall (fun w => slashed w = false) ws -> slashed (join ws " ") = false.
Proof.
  intro F. induction F as [|w ws W F IH]; [reflexivity|]. destruct ws as [|w2 ws]; [exact W|]. change (join (w :: w2 :: ws) " ") with (w ++ String " " (join (w2 :: ws) " ")). now apply slashed_join.
Qed.
Lemma slashed_occurs s : slashed s = false -> ~ occurs "//" s.
Proof.
  intros H (a & b & ->). destruct (slashed_parts _ _ H) as [_ B]. discriminate B.
Qed.
Lemma tokens_sforall p s : sforall p s = true -> Forall (fun w => sforall p w = true) (tokens s).
Proof.
  assert (H : forall s cur, sforall p (cur ++ s) = true -> Forall (fun w => sforall p w = true) (tokens_from cur s)).
  { clear s. induction s as [|c s IH]; intros cur H; cbn [tokens_from].
    - rewrite sapp_nil_r in H. destruct (sempty cur); constructor; auto.
    - destruct (is_space c) eqn:E.
      + rewrite sforall_app in H. apply andb_true_iff in H. destruct H as [A B]. cbn [sforall] in B. apply andb_true_iff in B. destruct B as [_ B]. assert (R := IH "" B). destruct (sempty cur); [exact R|constructor; assumption].
      + apply IH. rewrite sapp_assoc. exact H. }
  exact (H s "").
Qed.
Lemma clear_tokens s : clear_text s -> clear_text (join (tokens s) " ").
Proof.
  intros (A & B & C & D). unfold one_line in A. rewrite lacks_sforall in A, B, C. unfold clear_text, one_line. rewrite !lacks_sforall. repeat split.
  1-3: apply join_sforall; [reflexivity|now apply tokens_sforall].
  apply slashed_occurs, join_slashed, tokens_slashed, slashed_none, D.
Qed.
Lemma clear_trim s : clear_text s -> clear_text (trim s).
Proof.
  intros (A & B & C & D). unfold clear_text, one_line. split; [now apply trim_lacks|]. split; [now apply trim_lacks|]. split; [now apply trim_lacks|]. destruct (trim_split s) as (a & b & E & _). intros (x & y & Q). apply D. exists (a ++ x), (y ++ b). rewrite E at 1. rewrite Q. now rewrite !sapp_assoc.
Qed.
Theorem again e f : clear_engine e -> clear_engine (kept resolution e) -> fcl_printed d resolution e = Ok f -> clear_engine f /\ kept resolution f = f /\ fcl_printed d resolution f = Ok f.
Proof.
  intros (CN & CI & CO & CB & NI & NO) (_ & KI & KO & _) H. unfold fcl_printed in H. cbn [kept e_inputs e_outputs e_blocks] in *.
  destruct (rmapM (printed_variable d (declared e)) (map kept_variable (e_inputs e))) as [ins|x| |] eqn:EI; try discriminate. cbn [rbind] in H.
  destruct (rmapM (printed_output d (declared e)) (map (kept_output resolution) (e_outputs e))) as [outs|x| |] eqn:EO; try discriminate. cbn [rbind] in H. injection H as <-.
  destruct (map_again _ kept_variable clear_variable (@v_name T) clear_variable _ (fun a b => variable_again (declared e) a b) CI ins EI) as (I1 & I2 & I3 & I4).
  destruct (map_again _ (kept_output resolution) (fun o => clear_variable (o_var o)) (fun o => v_name (o_var o)) (fun o => clear_variable (o_var o)) _ (fun a b => output_again (declared e) a b) CO outs EO) as (O1 & O2 & O3 & O4).
  specialize (I4 KI). specialize (O4 KO). set (env := engine_env ins outs).
  assert (DE : declared (mkEngine (join (tokens (e_name e)) " ") "" ins outs (map (printed_block d env) (map kept_block (e_blocks e)))) = declared e).
  { unfold declared. cbn [e_inputs e_outputs].
    assert (X : forall (A : Type) (l : list A) (k : list A) (f g : A -> string), map f l = map g k -> map (fun a => (valid_name (f a), s_nan : T)) l = map (fun a => (valid_name (g a), s_nan)) k).
    { clear. intros A l k f g E. assert (Y : forall (h : A -> string) m, map (fun a => (valid_name (h a), s_nan : T)) m = map (fun n => (valid_name n, s_nan)) (map h m)) by (intros h m; now rewrite map_map). now rewrite !Y, E. }
    assert (Z : forall (A : Type) (g : A -> string) l, Forall (fun a => valid_name (g a) <> "") l -> map (fun a => (valid_name (valid_name (g a)), s_nan : T)) l = map (fun a => (valid_name (g a), s_nan)) l).
    { clear. intros A g l F. apply map_ext_in. intros a I. rewrite Forall_forall in F. now rewrite (valid_idem _ (F a I)). }
    f_equal.
    - assert (L : List.length ins = List.length (e_inputs e)) by (rewrite <- (map_length (@v_name T) ins), I3; apply map_length). clear - L. revert L. generalize (e_inputs e). induction ins as [|a l IH]; intros [|b k] L; try discriminate; [reflexivity|]. cbn [map]. f_equal. apply IH. now injection L.
    - f_equal.
      + rewrite (X _ ins (e_inputs e) (@v_name T) (fun v => valid_name (v_name v)) I3). apply (Z _ (@v_name T)). eapply Forall_impl; [|exact CI]. intros v [A _]. exact A.
      + rewrite (X _ outs (e_outputs e) (fun o => v_name (o_var o)) (fun o => valid_name (v_name (o_var o))) O3). apply (Z _ (fun o => v_name (o_var o))). eapply Forall_impl; [|exact CO]. intros v [A _]. exact A. }
  assert (KB : map kept_block (map (printed_block d env) (map kept_block (e_blocks e))) = map (printed_block d env) (map kept_block (e_blocks e))) by (rewrite !map_map; apply map_ext; intro b; reflexivity).
  split; [|split].
  - unfold clear_engine. cbn [e_name e_inputs e_outputs e_blocks]. split; [now apply clear_tokens|]. split; [exact I4|]. split; [exact O4|]. split; [|split].
    + apply Forall_map, Forall_map. eapply Forall_impl; [|exact CB]. intros b (A & B & C). split; [|split]; cbn [printed_block kept_block b_name b_rules].
      * unfold content. rewrite hash_id by apply A. now rewrite trim_word.
      * unfold content. rewrite hash_id by apply A. now rewrite trim_word.
      * apply Forall_map. eapply Forall_impl; [|exact C]. intros r R. unfold printed_rule. rewrite load_text. unfold content. rewrite hash_id by apply R. now apply clear_trim.
    + assert (E : map (fun v : variable T => valid_name (v_name v)) ins = map valid_name (map (@v_name T) ins)) by now rewrite map_map. rewrite E, I3, map_map. erewrite map_ext_in; [exact NI|]. intros v I. rewrite Forall_forall in CI. apply valid_idem. apply (CI v I).
    + assert (E : map (fun o : output T => valid_name (v_name (o_var o))) outs = map valid_name (map (fun o => v_name (o_var o)) outs)) by now rewrite map_map. rewrite E, O3, map_map. erewrite map_ext_in; [exact NO|]. intros v I. rewrite Forall_forall in CO. apply valid_idem. apply (CO v I).
  - unfold kept. cbn [e_name e_inputs e_outputs e_blocks]. now rewrite I1, O1, KB.
  - unfold fcl_printed. rewrite DE. cbn [kept e_name e_inputs e_outputs e_blocks]. rewrite I1, I2. cbn [rbind]. rewrite O1, O2. cbn [rbind]. rewrite KB, tokens_again. fold env. do 2 f_equal. rewrite map_map. apply map_ext. intro b. apply printed_block_fixed. exact N.
Qed.
End Same.
