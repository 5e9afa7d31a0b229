(** The lines and the key-value pairs of exported texts; rejected lines. *)
From Coq Require Import ZArith List Bool String Ascii Arith Lia.
From Verif Require Import Base Op Norm Shape Discrete Defuzz Aggregated Text Function Rule Var Activation Engine Factory
  SpecText TextProofs TextProofs2 Fll SpecFll FllText FllLines.
Import ListNotations.
Local Open Scope string_scope.

Section Rejected.
Context {T : Type} `{S : Scalar T}.
Variable resolution : Z.
Lemma mem_in k l : mem k l = true -> In k l.
Proof. unfold mem. rewrite existsb_exists. intros (x & I & E). apply String.eqb_eq in E. now subst x. Qed.
Lemma block_after_name ls b : block_after ls = Some b -> In b block_names.
Proof.
  induction ls as [|l ls IH]; cbn [block_after]; [discriminate|]. destruct (block_after ls) as [c|]; [exact IH|].
  destruct (mem (key_of l) block_names) eqn:M; [|discriminate]. intro H. injection H as <-. now apply mem_in.
Qed.
Theorem rejected_fails before l after e : Forall one_line (before ++ l :: after)%list -> rejected before l ->
  import_all (T := T) resolution (before ++ l :: after)%list <> Ok e.
Proof.
  intros F [N K] H. unfold import_all in H. rewrite state_app in H.
  apply Forall_app in F. destruct F as [F1 F2]. inversion F2 as [|x y L F3]; subst x y.
  destruct (rfold (import_content resolution) (new_engine, "", []) before) as [st| | |] eqn:B; try discriminate. cbn [rbind] in H.
  assert (TG := tag_state resolution before _ _ B). cbn [fst snd] in TG.
  assert (G : sound_state st).
  { clear - F1 B. assert (G0 : sound_state ((new_engine, "", []) : @state T)) by exact (Forall_nil _). revert G0 B. generalize ((new_engine, "", []) : @state T). induction F1 as [|x ls L F IH]; intros st0 G0 B; [injection B as <-; exact G0|].
    simpl in B. destruct (import_line_pairs resolution st0 x L G0) as [_ G1]. destruct (import_content resolution st0 x) as [st1| | |]; try discriminate. exact (IH st1 (G1 _ eq_refl) B). }
  simpl rfold in H. destruct (import_content resolution st l) as [st1| | |] eqn:E; try discriminate. cbn [rbind] in H.
  assert (G1 := proj2 (import_line_pairs resolution st l L G) _ E).
  unfold import_content in E. destruct (sempty (content l)) eqn:C; [apply sempty_spec in C; congruence|].
  assert (KG := key_value_good l). destruct (key_value l) as [[k v]|]; [|discriminate]. destruct K as (KE & KB & K). specialize (KG _ L eq_refl).
  destruct st as [[e0 tag] ps]. cbn [fst snd] in TG. unfold import_pair in E. destruct (String.eqb_spec k "Engine") as [|_]; [congruence|].
  assert (ND : (String.eqb k "description" && match ps with [] => true | _ => false end)%bool = false).
  { destruct (String.eqb_spec k "description") as [Q|_]; [|reflexivity]. exfalso. subst k. destruct (block_after before) as [b|] eqn:BA; [|congruence].
    apply K. assert (I := block_after_name _ _ BA). unfold block_names in I. destruct I as [<-|[<-|[<-|[]]]]; cbn; auto. }
  rewrite ND in E.
  assert (NT : (String.eqb k "InputVariable" || String.eqb k "OutputVariable" || String.eqb k "RuleBlock")%bool = false).
  { destruct (String.eqb_spec k "InputVariable") as [Q|_]; [destruct KB; subst k; cbn; auto|]. destruct (String.eqb_spec k "OutputVariable") as [Q|_]; [destruct KB; subst k; cbn; auto|].
    destruct (String.eqb_spec k "RuleBlock") as [Q|_]; [destruct KB; subst k; cbn; auto|]. reflexivity. }
  rewrite NT in E. destruct (sempty tag) eqn:ST; [discriminate|]. injection E as <-.
  destruct (block_after before) as [b|] eqn:BA; [|subst tag; discriminate]. subst tag.
  assert (I : In (k, v) (ps ++ [(k, v)])%list) by (apply in_or_app; cbn; auto).
  destruct (pending resolution after (k, v) F3 (e0, b, (ps ++ [(k, v)])%list) e G1 I H) as (ps' & e1 & e2 & I' & G' & BP). cbn [fst snd] in BP.
  apply K. apply (block_pairs_keys resolution b ps' e1 e2 k v); auto. intros ->. discriminate.
Qed.
End Rejected.

(** ** contents *)
Definition solid (c : ascii) : bool := (negb (is_space c) && negb (Ascii.eqb c "#"))%bool.
Definition solid_word (w : string) : Prop := w <> "" /\ sforall solid w = true.
Lemma solid_space w : sforall solid w = true -> sforall (fun c => negb (is_space c)) w = true.
Proof. apply sforall_impl. intro c. unfold solid. rewrite andb_true_iff. tauto. Qed.
Lemma solid_hash w : sforall solid w = true -> lacks "#" w = true.
Proof. rewrite lacks_sforall. apply sforall_impl. intro c. unfold solid. rewrite andb_true_iff. tauto. Qed.
Lemma solid_lacks w c : is_space c = true -> sforall solid w = true -> lacks c w = true.
Proof.
  intro E. rewrite lacks_sforall. apply sforall_impl. intro x. unfold solid. rewrite andb_true_iff, !negb_true_iff. intros [A _]. destruct (Ascii.eqb_spec x c); congruence.
Qed.
Lemma solid_wordy w : solid_word w -> wordy w.
Proof. intros [N H]. split; auto. now apply solid_lacks. Qed.
Lemma name_solid c : name_char c = true -> solid c = true.
Proof. destruct c as [[] [] [] [] [] [] [] []]; vm_compute; auto. Qed.
Lemma valid_solid s : sforall solid (valid_name s) = true.
Proof. eapply sforall_impl; [apply name_solid|apply valid_chars]. Qed.
Lemma content_solid w : sforall solid w = true -> content w = w.
Proof. intro H. unfold content. rewrite hash_id by now apply solid_hash. apply trim_word. now apply solid_space. Qed.
Lemma rtrim_join ws : Forall solid_word ws -> rtrim (join ws " ") = join ws " ".
Proof.
  intro F. induction F as [|w ws [N W] F IH]; [reflexivity|]. destruct ws as [|w2 ws]; [apply rtrim_words; now apply solid_space|].
  change (join (w :: w2 :: ws) " ") with (w ++ " " ++ join (w2 :: ws) " "). rewrite rtrim_app; auto; [|apply rtrim_words; now apply solid_space]. f_equal.
  cbn [append]. rewrite rtrim_cons, IH. inversion F as [|? ? [N2 _] _]; subst. destruct (join (w2 :: ws) " ") eqn:E; [|reflexivity].
  exfalso. destruct w2; [congruence|]. destruct ws; discriminate.
Qed.
Lemma join_nonempty w ws sep : w <> "" -> join (w :: ws) sep <> "".
Proof. destruct w; [congruence|]. destruct ws; discriminate. Qed.
Lemma lacks_join c ws sep : lacks c sep = true -> Forall (fun w => lacks c w = true) ws -> lacks c (join ws sep) = true.
Proof. intros A F. rewrite lacks_sforall in *. apply join_sforall; auto. eapply Forall_impl; [|exact F]. intros w W. rewrite <- lacks_sforall. exact W. Qed.
Lemma content_join ws : Forall solid_word ws -> content (join ws " ") = join ws " ".
Proof.
  intro F. unfold content. rewrite hash_id by (apply lacks_join; [reflexivity|]; eapply Forall_impl; [|exact F]; intros w [_ H]; now apply solid_hash).
  rewrite trim_rl, rtrim_join by auto. destruct F as [|w ws [N W] F]; [reflexivity|].
  assert (E : exists r, join (w :: ws) " " = w ++ r) by (destruct ws; [exists ""; now rewrite sapp_nil_r|eexists; reflexivity]). destruct E as [r ->].
  apply ltrim_word; auto. now apply solid_space.
Qed.
Lemma content_idem s : content (content s) = content s.
Proof.
  unfold content. rewrite (hash_id (trim _)) by (apply trim_lacks, hash_lacks). apply trim_idem.
Qed.
Lemma content_one_line s : one_line s -> one_line (content s).
Proof. unfold one_line, content. intro H. apply trim_lacks. rewrite lacks_sforall in *. now apply hash_sforall. Qed.

(** ** exported lines *)
Definition key_ok (k : string) : bool := (nonempty k && sforall solid k && lacks ":" k)%bool.
Lemma key_line indent key v : blank indent = true -> lacks "#" indent = true -> key_ok key = true ->
  content (indent ++ (key ++ ": ") ++ v) <> "" /\ key_value (indent ++ (key ++ ": ") ++ v) = Some (key, content v).
Proof.
  intros B BH K. unfold key_ok in K. rewrite !andb_true_iff in K. destruct K as [[N W] C].
  assert (N' : key <> "") by (destruct key; [discriminate|congruence]).
  assert (E : content (indent ++ (key ++ ": ") ++ v) = (key ++ ":") ++ rtrim (" " ++ uncomment v)).
  { unfold content. rewrite hash_app by auto. rewrite hash_app by (rewrite lacks_app, (solid_hash key W); reflexivity). rewrite trim_lead by auto.
    rewrite trim_lr. rewrite !sapp_assoc. rewrite ltrim_word by (auto; now apply solid_space).
    change (": " ++ uncomment v) with (":" ++ " " ++ uncomment v). rewrite <- (sapp_assoc key ":" (" " ++ uncomment v)), <- (sapp_assoc key ":" (rtrim _)). apply rtrim_app; [|destruct key; discriminate].
    apply rtrim_words. rewrite sforall_app, (solid_space _ W). reflexivity. }
  split.
  - rewrite E. destruct key; [congruence|discriminate].
  - unfold key_value. rewrite E. rewrite sapp_assoc. change ((key ++ ":" ++ rtrim (" " ++ uncomment v))) with (key ++ String ":" (rtrim (" " ++ uncomment v))).
    change ":" with (char ":") at 1. rewrite (find_char ":" _ _ C). rewrite (trim_word key) by now apply solid_space. rewrite trim_rtrim. rewrite trim_lead by reflexivity. reflexivity.
Qed.

(** ** blocks of pairs *)
Section Pairs.
Context {T : Type} `{S : Scalar T}.
Variable resolution : Z.
Definition holds (line : string) (p : string * string) : Prop := one_line line /\ content line <> "" /\ key_value line = Some p.
Lemma import_holds ls ps : Forall2 holds ls ps -> forall st, rfold (import_content (T := T) resolution) st ls = rfold (import_pair resolution) st ps.
Proof.
  intro F. induction F as [|l p ls ps (L & N & K) F IH]; intro st; [reflexivity|]. simpl. unfold import_content at 1. rewrite K.
  destruct (sempty (content l)) eqn:E; [apply sempty_spec in E; congruence|]. destruct (import_pair resolution st p); cbn [rbind]; auto.
Qed.
Definition tagged (b : string * list (string * string)) : Prop :=
  In (fst b) block_names /\ exists v rest, snd b = (fst b, v) :: rest /\ Forall (fun p => fst p <> "Engine" /\ ~ In (fst p) block_names) rest.
Lemma import_blocks bs : Forall tagged bs -> forall (e : engine T) tag ps, (tag = "" <-> ps = []) ->
  (do st <- rfold (import_pair resolution) (e, tag, ps) (flat_map snd bs); finish resolution st) =
  (do e <- block_pairs resolution tag ps e; rfold (fun e b => block_pairs resolution (fst b) (snd b) e) e bs).
Proof.
  intro F. induction F as [|[t qs] bs TG F IH]; intros e tag ps TP.
  - cbn [flat_map rfold rbind finish]. destruct (block_pairs resolution tag ps e); reflexivity.
  - cbn [flat_map fst snd]. destruct TG as (I & v & rest & E & R). cbn [fst snd] in *. subst qs.
    change (((t, v) :: rest) ++ flat_map snd bs)%list with ((t, v) :: (rest ++ flat_map snd bs))%list. cbn [rfold].
    assert (ST : import_pair resolution (e, tag, ps) (t, v) = do e <- block_pairs resolution tag ps e; Ok (e, t, [(t, v)])).
    { unfold import_pair. unfold block_names in I. destruct I as [<-|[<-|[<-|[]]]]; reflexivity. }
    rewrite ST. destruct (block_pairs resolution tag ps e) as [e1|x| |]; cbn [rbind]; auto.
    assert (NT : t <> "") by (unfold block_names in I; destruct I as [<-|[<-|[<-|[]]]]; discriminate).
    assert (P : forall done, done <> [] -> rfold (import_pair resolution) (e1, t, done) rest = Ok (e1, t, (done ++ rest)%list)).
    { clear - R NT. induction R as [|[k x] rest [KE KB] R IH]; intros done D; [now rewrite app_nil_r|]. cbn [rfold].
      assert (IP : import_pair resolution (e1, t, done) (k, x) = Ok (e1, t, (done ++ [(k, x)])%list)).
      { unfold import_pair. cbn [fst] in *. destruct (String.eqb_spec k "Engine") as [|_]; [congruence|]. destruct done as [|d0 done]; [congruence|]. rewrite andb_false_r.
        destruct (String.eqb_spec k "InputVariable") as [Q|_]; [destruct KB; subst k; cbn; auto|]. destruct (String.eqb_spec k "OutputVariable") as [Q|_]; [destruct KB; subst k; cbn; auto|].
        destruct (String.eqb_spec k "RuleBlock") as [Q|_]; [destruct KB; subst k; cbn; auto|]. cbn [orb]. destruct t; [congruence|reflexivity]. }
      rewrite IP. cbn [rbind]. rewrite IH by (destruct done; discriminate). now rewrite <- app_assoc. }
    rewrite rfold_app, P by discriminate. cbn [rbind]. rewrite IH by (split; [congruence|discriminate]). reflexivity.
Qed.
End Pairs.
