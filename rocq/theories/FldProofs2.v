(** Datasets read from lines of text. *)
From Coq Require Import ZArith String Ascii List Bool Lia.
From Verif Require Import Base Op Text SpecText TextProofs TextProofs2 RuleProofs3 Var Activation Engine SpecVar SpecActivation SpecEngine EngineProofs EngineProofs2 EngineProofs3 EngineProofs4
  Grid SpecGrid GridProofs Benchmark SpecFld FldProofs ActivationProofs2.
Import ListNotations.

Lemma tokens_from_ne s : forall cur, cur <> EmptyString -> tokens_from cur s <> [].
Proof.
  induction s as [|c s IH]; intros cur N; cbn [tokens_from].
  - destruct cur; [congruence|discriminate].
  - destruct (is_space c); [destruct cur; [congruence|discriminate]|]. apply IH. destruct cur; discriminate.
Qed.
Lemma tokens_trim s : trim s <> EmptyString -> tokens (trim s) <> [].
Proof.
  intros N. destruct (trim_spec s) as (_ & F & _). destruct (trim s) as [|c r]; [congruence|]. specialize (F c eq_refl). unfold space in F.
  unfold tokens. cbn [tokens_from]. destruct (is_space c); [congruence|]. apply tokens_from_ne. discriminate.
Qed.
Section Lines.
Context {T : Type} `{S : Scalar T}.
Variable drain : drainer T.
Lemma to_scalars_safe s : match @to_scalars T S s with Ok values => length values = length (tokens s) | Throw _ => True | _ => False end.
Proof.
  unfold to_scalars. induction (tokens s) as [|t ts IH]; [reflexivity|]. cbn [rmapM]. pose proof (to_scalar_safe (S := S) t) as H.
  destruct (to_scalar t); cbn [rbind]; auto; try contradiction. destruct (rmapM to_scalar ts); cbn [rbind]; auto. cbn [length]. congruence.
Qed.
Lemma chosen_firstn (values : list T) : forall ins : list (variable T), 
  map (fun p : bool * (T * variable T) => if fst p then fst (snd p) else v_value (snd (snd p))) (combine (map (fun _ => true) ins) (combine values ins)) = firstn (length ins) values.
Proof. induction values as [|v values IH]; intros [|i ins]; try reflexivity. cbn. f_equal. apply IH. Qed.
Lemma lines_answers (x : fld) (e : engine T) : memoryless e -> forall lines first b rows, like e b -> exists c more r,
  fld_lines drain x first lines b rows = ((c, (rows ++ more)%list), r) /\ answers drain e (row_of x) first lines more r.
Proof.
  intros M. induction lines as [|line lines IH]; intros first b rows L; cbn [fld_lines].
  - exists b, [], (Ok tt). rewrite app_nil_r. split; [reflexivity|constructor].
  - destruct (starts_hash (trim line)) eqn:Hs.
    { destruct (IH false b rows L) as (c & more & r & E & An). exists c, more, r. split; [exact E|]. apply answers_comment; assumption. }
    unfold fld_parse. rewrite Hs, orb_false_r. destruct (sempty (trim line)) eqn:Em.
    { cbn [fld_row]. destruct (IH false b (rows ++ [[]])%list L) as (c & more & r & E & An). exists c, ([] :: more), r. rewrite E, <- app_assoc. split; [reflexivity|].
      apply answers_blank; [destruct (trim line); [reflexivity|discriminate]|exact An]. }
    assert (trim line <> EmptyString) as Ne by (destruct (trim line); discriminate).
    pose proof (to_scalars_safe (trim line)) as Sf. destruct (@to_scalars T S (trim line)) as [values|err| |] eqn:Ts; try contradiction.
    + assert (length (e_inputs b) = length (e_inputs e)) as Lb. { destruct L as [(_ & _ & HI & _) _]. apply Forall2_len in HI. congruence. }
      unfold fld_row. destruct values as [|v0 vs] eqn:Ev; [exfalso; apply (tokens_trim line Ne); destruct (tokens (trim line)); [reflexivity|discriminate]|]. rewrite <- Ev in *.
      rewrite map_length, Nat.eqb_refl. cbn [negb]. rewrite chosen_firstn, Lb.
      destruct (Nat.ltb_spec (length values) (length (e_inputs e))) as [Sh|Sh].
      { exists b, [], (Throw EExport). rewrite app_nil_r. split; [reflexivity|]. eapply answers_short; eassumption. }
      set (xs := firstn (length (e_inputs e)) values).
      assert (length xs = length (e_inputs e)) as Lx by (unfold xs; rewrite firstn_length; lia).
      destruct (like_eval drain e b xs M L Lx) as [H1 H2]. pose proof (like_step drain e b xs L) as L2.
      assert (forall r, snd (process drain (set_inputs xs b)) = r -> fst (evaluation drain e xs) = r) as Ev' by (intros r <-; unfold evaluation; cbn [fst]; congruence).
      assert (snd (process drain (set_inputs xs b)) = Ok tt -> evaluation drain e xs = (Ok tt, output_values (fst (process drain (set_inputs xs b))))) as Eo.
      { intros Hok. unfold evaluation. cbv zeta. rewrite H2 by congruence. f_equal. congruence. }
      destruct (process drain (set_inputs xs b)) as [y [[]|err| |]] eqn:Ey; cbn [fst snd] in *.
      * destruct (IH false y (rows ++ [row_of x xs (output_values y)])%list L2) as (c & more & r & E & An). exists c, (row_of x xs (output_values y) :: more), r.
        split; [rewrite <- app_assoc in E; exact E|]. eapply answers_row; try eassumption. apply Eo. reflexivity.
      * exists y, [], (Throw err). rewrite app_nil_r. split; [reflexivity|]. eapply answers_failure; try eassumption; [apply Ev'; reflexivity|discriminate].
      * exists y, [], UB. rewrite app_nil_r. split; [reflexivity|]. eapply answers_failure; try eassumption; [apply Ev'; reflexivity|discriminate].
      * exists y, [], Diverge. rewrite app_nil_r. split; [reflexivity|]. eapply answers_failure; try eassumption; [apply Ev'; reflexivity|discriminate].
    + destruct first.
      * destruct (IH false b rows L) as (c & more & r & E & An). exists c, more, r. split; [exact E|]. eapply answers_header; eassumption.
      * exists b, [], (Throw err). rewrite app_nil_r. split; [reflexivity|]. eapply answers_malformed; eassumption.
Qed.
Theorem fld_reader (x : fld) (e : engine T) lines : memoryless e -> exists e' rows r,
  fld_lines drain x true lines e [] = ((e', rows), r) /\ answers drain e (row_of x) true lines rows r.
Proof. intros M. apply (lines_answers x e M lines true e []). apply like_refl. Qed.
End Lines.
