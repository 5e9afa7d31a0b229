(** Proofs about datasets as text. *)
From Coq Require Import ZArith String List Bool Ascii Lia.
From Verif Require Import Base Op Text Var Activation Engine SpecEngine EngineProofs EngineProofs2 EngineProofs4 EngineProofs2 Grid SpecGrid Benchmark SpecFld FldProofs FldProofs2 FldBundle BenchProofs ActivationProofs2
  Fll SpecFll TextProofs TextProofs2 RuleProofs3 FllText FllExport Fis FclText SpecDataset.
Import ListNotations.
Local Open Scope string_scope.

(** ** lines *)
Lemma tokens_gap sep a b : gap sep -> tokens (a ++ sep ++ b) = (tokens a ++ tokens b)%list.
Proof.
  intros (N & B & _). destruct sep as [|c sep]; [congruence|]. unfold blank in B. cbn [sforall] in B. apply andb_true_iff in B. destruct B as [C B].
  change (String c sep ++ b) with (String c (sep ++ b)). rewrite tokens_space by exact C. now rewrite tokens_lead.
Qed.
Lemma tokens_join sep l : gap sep -> tokens (join l sep) = List.concat (map tokens l).
Proof.
  intro G. induction l as [|w l IH]; [reflexivity|]. destruct l as [|v l]; [cbn; now rewrite app_nil_r|].
  change (join (w :: v :: l) sep) with (w ++ sep ++ join (v :: l) sep). rewrite tokens_gap by exact G. rewrite IH. reflexivity.
Qed.
Lemma hash_token s : starts_hash (trim s) = true -> exists w ws, tokens s = w :: ws /\ starts_hash w = true.
Proof.
  rewrite <- (tokens_trim s). destruct (trim s) as [|c r]; [discriminate|]. cbn [starts_hash]. intro H. apply Ascii.eqb_eq in H. subst c.
  unfold tokens. cbn [tokens_from]. change (is_space "#"%char) with false. cbn iota. change ("" ++ char "#") with "#".
  enough (G : forall r cur, starts_hash cur = true -> exists w ws, tokens_from cur r = w :: ws /\ starts_hash w = true) by (apply G; reflexivity).
  clear. induction r as [|c r IH]; intros cur H; cbn [tokens_from].
  - destruct cur as [|x cur]; [discriminate|]. cbn [sempty]. eauto.
  - destruct (is_space c); [destruct cur as [|x cur]; [discriminate|]; cbn [sempty]; eauto|]. apply IH. destruct cur as [|x cur]; [discriminate|exact H].
Qed.

Section Read.
Context {T : Type} `{S : Scalar T}.
Variable d : nat.
Hypothesis read : forall x : T, exists y, to_scalar (str d x) = Ok y /\ str d y = str d x.
Hypothesis solid_text : forall x : T, str d x <> "" /\ sforall solid (str d x) = true.

Lemma again_ok (x : T) : to_scalar (str d x) = Ok (reread d x).
Proof. unfold reread. destruct (read x) as (y & -> & _). reflexivity. Qed.
Lemma again_map (l : list T) : rmapM to_scalar (map (str d) l) = Ok (map (reread d) l).
Proof. induction l as [|x l IH]; [reflexivity|]. cbn [map rmapM]. rewrite again_ok. cbn [rbind]. rewrite IH. reflexivity. Qed.
Lemma str_token (x : T) : tokens (str d x) = [str d x].
Proof.
  destruct (solid_text x) as [N A]. revert N A. generalize (str d x). intros s N A. unfold tokens.
  enough (G : forall s cur, sforall solid s = true -> tokens_from cur s = if sempty (cur ++ s) then [] else [cur ++ s]) by (rewrite G by exact A; destruct s; [congruence|reflexivity]).
  clear. induction s as [|c s IH]; intros cur A; [cbn [tokens_from]; rewrite sapp_nil_r; reflexivity|]. cbn [sforall] in A. apply andb_true_iff in A. destruct A as [C A]. cbn [tokens_from].
  assert (is_space c = false) as -> by (unfold solid in C; apply andb_true_iff in C; destruct C as [C _]; now apply negb_true_iff in C).
  rewrite IH by exact A. rewrite sapp_assoc. reflexivity.
Qed.
Lemma row_tokens sep (row : list T) : gap sep -> tokens (join_scalars d row sep) = map (str d) row.
Proof.
  intro G. unfold join_scalars. rewrite tokens_join by exact G. rewrite map_map. induction row as [|x row IH]; [reflexivity|]. cbn [map List.concat]. rewrite str_token, IH. reflexivity.
Qed.
Lemma row_one_line sep (row : list T) : gap sep -> one_line (join_scalars d row sep).
Proof.
  intros (_ & _ & L). unfold one_line, join_scalars. apply lacks_join; [exact L|]. apply Forall_map, Forall_forall. intros x _. destruct (solid_text x) as [_ A]. rewrite lacks_sforall. revert A. apply sforall_impl.
  intros c H. unfold solid in H. apply andb_true_iff in H. destruct H as [H _]. apply negb_true_iff in H. apply negb_true_iff. destruct (Ascii.eqb_spec c newline); [subst; discriminate|reflexivity].
Qed.
Lemma row_hash sep (row : list T) : gap sep -> starts_hash (trim (join_scalars d row sep)) = false.
Proof.
  intro G. destruct (starts_hash (trim (join_scalars d row sep))) eqn:H; [|reflexivity]. apply hash_token in H. destruct H as (w & ws & E & H). rewrite row_tokens in E by exact G.
  destruct row as [|x row]; [discriminate|]. injection E as <- _. destruct (solid_text x) as [_ A]. destruct (str d x) as [|c s]; [discriminate|]. cbn [starts_hash] in H. cbn [sforall] in A.
  apply Ascii.eqb_eq in H. subst c. discriminate.
Qed.
Lemma row_empty sep (row : list T) : gap sep -> sempty (trim (join_scalars d row sep)) = match row with [] => true | _ => false end.
Proof.
  intro G. destruct row as [|x row]; [reflexivity|]. destruct (trim (join_scalars d (x :: row) sep)) eqn:E; [|reflexivity]. exfalso.
  assert (Q := row_tokens sep (x :: row) G). rewrite <- tokens_trim, E in Q. discriminate.
Qed.
Lemma row_scalars sep (row : list T) : gap sep -> to_scalars (trim (join_scalars d row sep)) = Ok (map (reread d) row).
Proof. intro G. unfold to_scalars. rewrite tokens_trim, row_tokens by exact G. apply again_map. Qed.

(** ** the lines of a dataset *)
Variable x : fld.
Variable e : engine T.
Hypothesis separated : gap (fld_separator x).
Hypothesis names : Forall one_line (columns x e).
Definition header_lines : list string := if fld_headers x then [join (columns x e) (fld_separator x)] else [].
Definition row_line (row : list T) : string := join_scalars d row (fld_separator x).
Lemma dataset_lines rows : getlines (fld_text x d e rows) = (header_lines ++ map row_line rows)%list.
Proof.
  assert (E : fld_text x d e rows = text_of (header_lines ++ map row_line rows)%list).
  { rewrite text_of_app. unfold fld_text, header_lines. f_equal; [destruct (fld_headers x); reflexivity|]. induction rows as [|r rows IH]; [reflexivity|]. cbn [fold_right map text_of]. rewrite IH. reflexivity. }
  rewrite E. apply getlines_text. apply Forall_app. split.
  - unfold header_lines. destruct (fld_headers x); constructor; [|constructor]. apply lacks_join; [apply separated|exact names].
  - apply Forall_map, Forall_forall. intros r _. now apply row_one_line.
Qed.
Lemma prepared first rows : prepare_lines first (map row_line rows) = Ok (map (map (reread d)) (rows_of rows)).
Proof.
  revert first. induction rows as [|r rows IH]; intro first; [reflexivity|]. cbn [map prepare_lines]. cbv zeta. change (row_line r) with (join_scalars d r (fld_separator x)). rewrite row_hash, row_empty by exact separated. rewrite orb_false_r.
  destruct r as [|y r]; cbn [rows_of filter]; [apply IH|]. rewrite row_scalars by exact separated. rewrite IH. reflexivity.
Qed.
Lemma bad_word (ws : list string) : (exists w err, In w ws /\ to_scalar w = Throw err (A := T)) -> exists err, rmapM (to_scalar (T := T)) ws = Throw err.
Proof.
  induction ws as [|v ws IH]; intros (w & err & I & E); [destruct I|]. cbn [rmapM]. assert (Sf := to_scalar_safe (S := S) v). destruct (to_scalar v) as [y|er| |] eqn:V; try contradiction; [|exists er; reflexivity].
  destruct I as [<- | I]; [congruence|]. destruct (IH (ex_intro _ w (ex_intro _ err (conj I E)))) as (er & Q). cbn [rbind]. rewrite Q. exists er. reflexivity.
Qed.
Lemma header_throws : worded (T := T) (columns x e) -> exists err, to_scalars (trim (join (columns x e) (fld_separator x))) = Throw err (A := list T).
Proof.
  intros (name & w & err & I & J & E). unfold to_scalars. rewrite tokens_trim, tokens_join by exact separated. apply bad_word. exists w, err. split; [|exact E]. apply in_concat. exists (tokens name). split; [|exact J]. now apply in_map.
Qed.
Theorem dataset_read rows : (fld_headers x = true -> worded (T := T) (columns x e)) ->
  prepare_lines true (getlines (fld_text x d e rows)) = Ok (map (map (reread d)) (rows_of rows)).
Proof.
  intro H. rewrite dataset_lines. unfold header_lines. destruct (fld_headers x); [|apply prepared]. cbn [app prepare_lines]. destruct (header_throws (H eq_refl)) as (err & E).
  destruct (sempty _ || starts_hash _)%bool; [apply prepared|]. rewrite E. apply prepared.
Qed.
(** the columns *)
Theorem dataset_columns rows : exists ls, getlines (fld_text x d e rows) = (header_lines ++ ls)%list /\ Forall2 (shows d) ls rows.
Proof.
  exists (map row_line rows). split; [apply dataset_lines|]. induction rows as [|r rows IH]; constructor; [|exact IH]. now apply row_tokens.
Qed.

(** ** evaluating again *)
Variable drain : drainer T.
Hypothesis memory : memoryless e.
Lemma answers_rows first : forall inputs rows rows', fld_inputs x = true -> e_inputs e <> [] -> Forall2 (computed drain x e) inputs rows -> Forall2 (computed drain x e) (map (map (reread d)) inputs) rows' ->
  answers drain e (row_of x) first (map row_line rows) rows' (Ok tt).
Proof.
  intros inputs rows rows' FI NE F. revert first rows'. induction F as [|xs row inputs rows (L & outs & E & Q) F IH]; intros first rows' G; inversion G as [|? row' ? rs (L' & outs' & E' & Q') G']; subst; [constructor|].
  cbn [map]. assert (RX : forall ins o : list T, row_of x ins o = (ins ++ (if fld_outputs x then o else []))%list) by (intros; unfold row_of; now rewrite FI). rewrite (RX xs outs). set (o := if fld_outputs x then outs else []).
  assert (FN : firstn (length (e_inputs e)) (map (reread d) (xs ++ o)) = map (reread d) xs).
  { rewrite map_app, <- L, <- (map_length (reread d) xs), firstn_app, Nat.sub_diag, firstn_all. cbn [firstn]. apply app_nil_r. }
  rewrite <- FN. eapply answers_row with (values := map (reread d) (xs ++ o)).
  - now apply row_hash.
  - assert (Q := row_empty (fld_separator x) (xs ++ o) separated). intro Z. unfold row_line in Z. rewrite Z in Q. destruct xs as [|x0 xs]; [destruct (e_inputs e); [congruence|discriminate]|discriminate].
  - now apply row_scalars.
  - rewrite map_length, app_length. lia.
  - rewrite FN. exact E'.
  - now apply IH.
Qed.
Theorem exported_again inputs rows rows' : (fld_headers x = true -> worded (T := T) (columns x e) /\ starts_hash (trim (hd "" header_lines)) = false \/ starts_hash (trim (hd "" header_lines)) = true) ->
  fld_inputs x = true -> e_inputs e <> [] ->
  Forall2 (computed drain x e) inputs rows -> Forall2 (computed drain x e) (map (map (reread d)) inputs) rows' ->
  exists e', fld_lines drain x true (getlines (fld_text x d e rows)) e [] = ((e', rows'), Ok tt).
Proof.
  intros H FI NE F G. rewrite dataset_lines.
  assert (A : answers drain e (row_of x) true (header_lines ++ map row_line rows)%list rows' (Ok tt)).
  { unfold header_lines in *. destruct (fld_headers x); [|now apply answers_rows with inputs]. cbn [app hd] in *. destruct (H eq_refl) as [[W N] | N].
    - destruct (header_throws W) as (err & E). eapply answers_header; [exact N | exact E | now apply answers_rows with inputs].
    - apply answers_comment; [exact N | now apply answers_rows with inputs]. }
  destruct (lines_answers drain x e memory (header_lines ++ map row_line rows)%list true e [] (like_refl e)) as (c & more & r & E & B). cbn [app] in E.
  destruct (answers_fun drain e (row_of x) _ _ _ _ A more r B) as [Q1 Q2]. exists c. rewrite E. congruence.
Qed.

(** ** benchmarks *)
Lemma rows_evaluated (expected : list (list T)) : forall b rows, like e b -> 
  Forall2 (fun v row => (length (e_inputs e) <= length v)%nat /\ exists outs, evaluation drain e (firstn (length (e_inputs e)) v) = (Ok tt, outs) /\ row = (firstn (length (e_inputs e)) v ++ outs)%list) expected rows ->
  snd (bench_rows drain expected b) = Ok rows.
Proof.
  induction expected as [|v expected IH]; intros b rows L F; inversion F as [|? row ? rs (Hr & outs & E & Q) F']; subst; [reflexivity|]. cbn [bench_rows]. unfold bench_row.
  assert (length (e_inputs b) = length (e_inputs e)) as Lb. { destruct L as [(_ & _ & HI & _) _]. apply Forall2_len in HI. congruence. }
  rewrite Lb. destruct (Nat.ltb_spec (length v) (length (e_inputs e))) as [|_]; [lia|].
  set (xs := firstn (length (e_inputs e)) v) in *.
  assert (length xs = length (e_inputs e)) as Lx by (unfold xs; rewrite firstn_length; lia).
  destruct (like_eval drain e b xs memory L Lx) as [H1 H2]. pose proof (like_step drain e b xs L) as L2.
  unfold evaluation in E. cbv zeta in E. injection E as E1 E2. rewrite E1 in H1, H2. specialize (H2 eq_refl).
  destruct (process drain (set_inputs xs b)) as [y [[]|er| |]]; try discriminate. cbn [fst snd] in *.
  specialize (IH y rs L2 F'). destruct (bench_rows drain expected y) as [y' [rows2|er| |]]; try discriminate. cbn [snd] in *. unfold output_values in *. congruence.
Qed.
Lemma restart_idle : Forall (fun o => v_enabled (o_var o) = true) (e_outputs e) -> like e (restart e).
Proof.
  intro F. split; [apply restart_same|]. unfold restart. cbn [e_outputs]. induction F as [|o l H F IH]; cbn [map]; constructor; [|exact IH]. intro D. congruence.
Qed.
Theorem benchmarked inputs rows rows' obtained times : @nan_unordered T S -> (fld_headers x = true -> worded (T := T) (columns x e)) -> fld_inputs x = true -> fld_outputs x = true -> e_inputs e <> [] ->
  Forall (fun o => v_enabled (o_var o) = true) (e_outputs e) ->
  Forall2 (computed drain x e) inputs rows -> Forall2 (computed drain x e) (map (map (reread d)) inputs) rows' ->
  let expected := map (map (reread d)) rows in
  prepare_lines true (getlines (fld_text x d e rows)) = Ok expected /\ snd (bench_run drain (Datatypes.S times) expected obtained e) = Ok rows'.
Proof.
  intros NU H FI FO NE EN F G expected. split.
  - rewrite dataset_read by exact H. unfold expected. do 2 f_equal. clear - F FI NE. induction F as [|xs row inputs rows (L & outs & E & Q) F IH]; [reflexivity|]. cbn [rows_of filter]. subst row. unfold row_of. rewrite FI.
    destruct xs as [|x0 xs]; [destruct (e_inputs e); [congruence|discriminate]|]. cbn [app]. f_equal. exact IH.
  - rewrite (run_repeatable drain times expected obtained e e NU (same_engine_refl e)). apply rows_evaluated; [now apply restart_idle|]. unfold expected. clear - F G FI FO. revert rows' G.
    induction F as [|xs row inputs rows (L & outs & E & Q) F IH]; intros rows' G; inversion G as [|? row' ? rs (L' & outs' & E' & Q') G']; subst; [constructor|]. cbn [map]. constructor; [|now apply IH].
    unfold row_of. rewrite FI, FO. rewrite map_app, app_length, <- L, <- (map_length (reread d) xs), firstn_app, Nat.sub_diag, firstn_all. cbn [firstn]. rewrite app_nil_r. split; [lia|]. exists outs'. auto.
Qed.
End Read.
