(** Proofs about dataset export and benchmarks. *)
From Coq Require Import ZArith String List Bool Lia.
From Verif Require Import Base Op Var Activation Engine SpecVar SpecActivation SpecEngine EngineProofs EngineProofs2 EngineProofs3 EngineProofs4
  Grid SpecGrid GridProofs Benchmark SpecFld ActivationProofs2.
Import ListNotations.

Section Fld.
Context {T : Type} `{S : Scalar T}.
Variable drain : drainer T.
Notation process := (process drain).

(** ** evaluations do not depend on earlier ones *)
Definition idle_same (o p : output T) : Prop := v_enabled (o_var o) = false -> v_value (o_var p) = v_value (o_var o).
Definition like (a b : engine T) : Prop := same_engine a b /\ Forall2 idle_same (e_outputs a) (e_outputs b).
Lemma like_refl a : like a a.
Proof. split; [apply same_engine_refl|]. apply Forall2_refl. intros x _ _. reflexivity. Qed.
Lemma set_inputs_values (a b : engine T) xs : same_engine a b -> length xs = length (e_inputs a) -> input_values (set_inputs xs a) = input_values (set_inputs xs b).
Proof.
  intros (_ & _ & I & _) L. unfold input_values, set_inputs. cbn [e_inputs]. revert xs L. generalize (e_inputs b), (e_inputs a), I. clear I.
  intros l' l I. induction I as [|x y l l' E I IH]; intros [|z xs] L; try discriminate; [reflexivity|].
  cbn in *. injection L as L. destruct E as (_ & _ & E3 & E4 & _ & E6 & _). f_equal; [rewrite E3, E4, E6; reflexivity|apply IH; exact L].
Qed.
Lemma process_idle (a : engine T) xs : Forall2 idle_same (e_outputs a) (e_outputs (fst (process (set_inputs xs a)))).
Proof.
  destruct (process (set_inputs xs a)) as [e' r] eqn:E. cbn [fst]. pose proof (exceptions _ _ _ _ E) as (L & _). cbn [set_inputs e_outputs] in L.
  apply Forall2_nth; [congruence|]. intros i o p Ho Hp D. eapply disabled_output in E; [|exact Ho|exact Hp|exact D]. apply E.
Qed.
Lemma idle_trans : forall x y z, same_output x y -> idle_same x y -> idle_same y z -> idle_same x z.
Proof. intros x y z H A B D. rewrite (B ltac:(destruct H as (_&_&_&_&H&_); congruence)). apply A. exact D. Qed.
Lemma idle_trans_list a b c : Forall2 same_output a b -> Forall2 idle_same a b -> Forall2 idle_same b c -> Forall2 idle_same a c.
Proof.
  intros Sm. revert c. induction Sm; intros c A B; inversion A; subst; inversion B; subst; constructor; eauto using idle_trans.
Qed.
Lemma like_step (a b : engine T) xs : like a b -> like a (fst (process (set_inputs xs b))).
Proof.
  intros [SE I]. split.
  - eapply same_engine_trans; [exact SE|]. eapply same_engine_trans; [apply set_inputs_same|apply process_same].
  - eapply idle_trans_list; [apply SE|exact I|apply process_idle].
Qed.
Lemma like_eval_values (a b : engine T) xs : memoryless a -> like a b -> input_values (set_inputs xs a) = input_values (set_inputs xs b) ->
  snd (process (set_inputs xs b)) = snd (process (set_inputs xs a)) /\
  (snd (process (set_inputs xs a)) = Ok tt -> output_values (fst (process (set_inputs xs b))) = output_values (fst (process (set_inputs xs a)))).
Proof.
  intros [Ig NL] [SE I] L.
  assert (same_engine (set_inputs xs a) (set_inputs xs b)) as SE2.
  { eapply same_engine_trans; [apply same_engine_sym, set_inputs_same|]. eapply same_engine_trans; [exact SE|apply set_inputs_same]. }
  assert (ignores_outputs (set_inputs xs a)) as Ig2.
  { intros t f n v It. pose proof (set_inputs_same xs a) as (_ & _ & Hi & _). apply Ig. clear - It Hi. unfold all_terms in *.
    cbn [set_inputs e_outputs] in It. replace (flat_map (@v_terms T) (e_inputs a)) with (flat_map (@v_terms T) (e_inputs (set_inputs xs a))); [exact It|].
    clear It. induction Hi as [|x y l l' E H IH]; [reflexivity|]. cbn. rewrite IH. f_equal. apply E. }
  destruct (history drain _ _ SE2 L Ig2) as (H1 & H2 & _). cbn zeta in *. split; [exact H1|]. intros Hok.
  unfold output_values. rewrite Hok in *.
  pose proof (process_idle a xs) as Ia.
  assert (Forall2 idle_same (e_outputs a) (e_outputs (fst (process (set_inputs xs b))))) as Ib.
  { eapply idle_trans_list; [apply SE|exact I|apply process_idle]. }
  assert (Forall2 same_output (e_outputs a) (e_outputs (fst (process (set_inputs xs a))))) as Sa by (apply (process_same drain (set_inputs xs a))).
  clear - H2 Ia Ib Sa NL. revert NL Ia Ib H2. generalize (e_outputs (fst (process (set_inputs xs b)))). induction Sa as [|x y l l' E Sa IH]; intros m NL Ia Ib H2.
  - inversion H2. reflexivity.
  - inversion NL as [|? ? NL1 NL2]; subst. inversion Ia; subst. inversion Ib; subst. inversion H2; subst. cbn. f_equal; [|apply IH; assumption].
    match goal with H : agrees _ _ _ |- _ => destruct H as [_ Ag] end. assert (v_enabled (o_var y) = v_enabled (o_var x)) as Ey by (destruct E as (_&_&_&_&E&_); congruence).
    destruct (v_enabled (o_var x)) eqn:En.
    + apply Ag; [reflexivity|exact Ey|]. destruct E as (_&_&_&_&_&_&_&_&_&_&E). rewrite E. apply NL1. reflexivity.
    + transitivity (v_value (o_var x)); [|symmetry]; auto.
Qed.
Lemma like_eval (a b : engine T) xs : memoryless a -> like a b -> length xs = length (e_inputs a) ->
  snd (process (set_inputs xs b)) = snd (process (set_inputs xs a)) /\
  (snd (process (set_inputs xs a)) = Ok tt -> output_values (fst (process (set_inputs xs b))) = output_values (fst (process (set_inputs xs a)))).
Proof. intros M L Lx. apply like_eval_values; auto. apply set_inputs_values; auto. apply L. Qed.
Lemma eval_like (a b : engine T) xs : memoryless a -> like a b -> length xs = length (e_inputs a) ->
  fst (evaluation drain b xs) = fst (evaluation drain a xs) /\ (fst (evaluation drain a xs) = Ok tt -> evaluation drain b xs = evaluation drain a xs).
Proof.
  intros M L Lx. destruct (like_eval a b xs M L Lx) as [H1 H2]. unfold evaluation. cbn [fst]. split; [exact H1|]. intros H. rewrite (H2 H), H1. reflexivity.
Qed.

(** ** one row *)
(** inactive variables keep their values *)
Inductive kept : list bool -> list (variable T) -> list (variable T) -> Prop :=
| kept_nil : kept [] [] []
| kept_cons a v w active l l' : (a = false -> v_value w = v_value v) -> kept active l l' -> kept (a :: active) (v :: l) (w :: l').
Lemma inputs_at_eq resolution active : forall k (l : list (variable T)), 
  map (fun p : bool * (Z * variable T) => if fst p then grid_point (v_minimum (snd (snd p))) (v_maximum (snd (snd p))) resolution (fst (snd p)) else v_value (snd (snd p)))
    (combine active (combine k l)) = inputs_at resolution active k l.
Proof.
  induction active as [|a active IH]; intros [|i k] [|v l]; try reflexivity. cbn [combine map inputs_at]. rewrite IH. destruct a; reflexivity.
Qed.
Lemma inputs_at_length resolution active : forall k (l : list (variable T)), length active = length l -> length k = length l -> length (inputs_at resolution active k l) = length l.
Proof. induction active as [|a active IH]; intros [|i k] [|v l] H1 H2; try discriminate; try reflexivity. cbn in *. f_equal. apply IH; lia. Qed.
Lemma inputs_at_kept resolution active : forall k l l', kept active l l' -> Forall2 same_variable l l' -> inputs_at resolution active k l' = inputs_at resolution active k l.
Proof.
  induction active as [|a active IH]; intros k l l' K; inversion K; subst; intros F; inversion F; subst; destruct k as [|i k]; try reflexivity.
  cbn [inputs_at]. rewrite (IH _ l0 l'0) by assumption. f_equal. match goal with H : same_variable _ _ |- _ => destruct H as (_ & _ & E3 & E4 & _) end. destruct a; [rewrite E3, E4; reflexivity|auto].
Qed.
Lemma inputs_at_inactive resolution active : forall k (l : list (variable T)), length active = length l -> length k = length l ->
  forall xs, xs = inputs_at resolution active k l -> map (fun p : bool * (T * variable T) => if fst p then fst (snd p) else v_value (snd (snd p))) (combine active (combine xs l)) = xs.
Proof.
  induction active as [|a active IH]; intros [|i k] [|v l] H1 H2 xs ->; try discriminate; try reflexivity.
  cbn [inputs_at combine map fst snd]. cbn in H1, H2. f_equal; [destruct a; reflexivity|]. apply (IH k); [lia|lia|reflexivity].
Qed.
Lemma kept_inputs (a b : list (variable T)) active xs : kept active a b -> Forall2 same_variable a b -> Forall2 stable active a ->
  (forall i v x, nth_error active i = Some false -> nth_error a i = Some v -> nth_error xs i = Some x -> x = v_value v) -> length xs = length a ->
  kept active a (map (fun p => set_value (snd p) (fst p)) (combine b xs) ++ skipn (length xs) b)%list.
Proof.
  intros K. revert xs. induction K as [|q v w active l l' Hq K IH]; intros xs F St Hx L.
  - destruct xs; [constructor|discriminate].
  - destruct xs as [|x xs]; [discriminate|]. inversion F as [|? ? ? ? F1 F2]; subst. inversion St as [|? ? ? ? St1 St2]; subst. cbn [combine map length skipn app fst snd]. constructor.
    + intros ->. rewrite (Hx 0%nat v x eq_refl eq_refl eq_refl). rewrite <- (St1 eq_refl) at 2. destruct F1 as (_ & _ & E3 & E4 & _ & E6 & _).
      cbn. rewrite E3, E4, E6. reflexivity.
    + apply IH; [assumption|assumption| |cbn in L; lia]. intros i v0 x0 H1 H7 H8. apply (Hx (Datatypes.S i)); assumption.
Qed.
Lemma inputs_at_off resolution active : forall k (l : list (variable T)) i v x, nth_error active i = Some false -> nth_error l i = Some v ->
  nth_error (inputs_at resolution active k l) i = Some x -> x = v_value v.
Proof.
  induction active as [|a active IH]; intros [|j k] [|w l] [|i] v x; cbn; try discriminate.
  - intros [= ->] [= ->] [= <-]. reflexivity.
  - apply IH.
Qed.

(** ** the grid *)
Section Table.
Variables (x : fld) (resolution : Z) (active : list bool) (e : engine T).
Hypothesis M : memoryless e.
Hypothesis La : length active = length (e_inputs e).
Hypothesis St : Forall2 stable active (e_inputs e).
Hypothesis Ne : e_inputs e <> [].
Definition inv (b : engine T) : Prop := like e b /\ kept active (e_inputs e) (e_inputs b).
Lemma inv_start : inv e.
Proof.
  split; [apply like_refl|]. clear - La. revert La. generalize (e_inputs e). induction active as [|a l IH]; intros [|v m] L; try discriminate; constructor; auto.
Qed.
Lemma step_case b k rows : inv b -> length k = length (e_inputs e) ->
  let xs := inputs_at resolution active k (e_inputs e) in let p := process (set_inputs xs b) in
  inv (fst p) /\ fld_step drain x resolution active k (b, rows) =
  match snd p with
  | Ok _ => ((fst p, (rows ++ [row_of x xs (output_values (fst p))])%list), Ok tt)
  | Throw err => ((fst p, rows), Throw err) | UB => ((fst p, rows), UB) | Diverge => ((fst p, rows), Diverge)
  end.
Proof.
  intros [L K] Lk. cbn zeta.
  assert (F : Forall2 same_variable (e_inputs e) (e_inputs b)) by apply L.
  set (xs := inputs_at resolution active k (e_inputs e)).
  assert (Lb : length (e_inputs b) = length (e_inputs e)) by (apply Forall2_len in F; congruence).
  assert (Lx : length xs = length (e_inputs e)) by (apply inputs_at_length; congruence).
  assert (Ex : inputs_at resolution active k (e_inputs b) = xs) by (apply inputs_at_kept; assumption).
  split.
  - split; [apply like_step, L|]. rewrite process_inputs. apply kept_inputs; auto. intros i v y H1 H2 H3. eapply inputs_at_off; eauto.
  - unfold fld_step. rewrite inputs_at_eq, Ex.
    unfold fld_row. destruct xs as [|x0 xs0] eqn:Exs; [exfalso; destruct (e_inputs e); [auto|discriminate]|]. rewrite <- Exs in *.
    rewrite (proj2 (Nat.ltb_ge _ _)) by lia. rewrite (proj2 (Nat.eqb_eq _ _)) by lia. cbn [negb].
    rewrite (inputs_at_inactive resolution active k) by (congruence || auto).
    destruct (process (set_inputs xs b)) as [c [[]|err| |]]; reflexivity.
Qed.
Lemma grid_table ks : Forall (fun k => length k = length (e_inputs e)) ks -> forall b rows, inv b -> exists c more r,
  each (fld_step drain x resolution active) ks (b, rows) = ((c, (rows ++ more)%list), r) /\ inv c /\
  table drain e (fun k => inputs_at resolution active k (e_inputs e)) (row_of x) ks more r.
Proof.
  induction 1 as [|k ks Lk F IH]; intros b rows I.
  - exists b, [], (Ok tt). cbn [each]. rewrite app_nil_r. split; [reflexivity|]. split; [exact I|constructor].
  - cbn [each]. destruct (step_case b k rows I Lk) as [I2 ->].
    set (xs := inputs_at resolution active k (e_inputs e)) in *. destruct I as [L K].
    assert (Lx : length xs = length (e_inputs e)) by (apply inputs_at_length; congruence).
    destruct (like_eval e b xs M L Lx) as [H1 H2].
    assert (fst (evaluation drain e xs) = snd (process (set_inputs xs b))) as Ev by (unfold evaluation; cbn [fst]; congruence).
    destruct (snd (process (set_inputs xs b))) as [[]|err| |] eqn:R.
    + destruct (IH (fst (process (set_inputs xs b))) (rows ++ [row_of x xs (output_values (fst (process (set_inputs xs b))))])%list I2) as (c & more & r & E & Ic & Tb).
      exists c, (row_of x xs (output_values (fst (process (set_inputs xs b)))) :: more), r. rewrite E. split; [rewrite <- app_assoc; reflexivity|].
      split; [exact Ic|]. apply table_row with (outs := output_values (fst (process (set_inputs xs b)))); [|exact Tb].
      cbn beta. fold xs. unfold evaluation. cbv zeta. rewrite <- H1, <- H2 by congruence. reflexivity.
    + exists (fst (process (set_inputs xs b))), [], (Throw err). rewrite app_nil_r. split; [reflexivity|]. split; [exact I2|]. apply table_fail; [exact Ev|discriminate].
    + exists (fst (process (set_inputs xs b))), [], UB. rewrite app_nil_r. split; [reflexivity|]. split; [exact I2|]. apply table_fail; [exact Ev|discriminate].
    + exists (fst (process (set_inputs xs b))), [], Diverge. rewrite app_nil_r. split; [reflexivity|]. split; [exact I2|]. apply table_fail; [exact Ev|discriminate].
Qed.
End Table.

Lemma tops_length resolution active : length (tops resolution active) = length active.
Proof. apply map_length. Qed.
Theorem fld_table (x : fld) values sc active (e : engine T) resolution : memoryless e -> length active = length (e_inputs e) -> e_inputs e <> [] ->
  Forall2 stable active (e_inputs e) -> resolution_for values sc (length (e_inputs e)) = Ok resolution ->
  let origin := repeat 0%Z (length active) in
  exists ks e' rows r, visits origin (tops resolution active) origin ks origin /\
    fld_grid drain x values sc active e = ((e', rows), r) /\
    table drain e (fun k => inputs_at resolution active k (e_inputs e)) (row_of x) ks rows r.
Proof.
  intros M La Ne St Hr. cbn zeta.
  assert (L : length (repeat 0%Z (length active)) = length (tops resolution active)) by (rewrite repeat_length, tops_length; reflexivity).
  exists (grid (repeat 0%Z (length active)) (tops resolution active)).
  destruct (grid_table x resolution active e M La St Ne (grid (repeat 0%Z (length active)) (tops resolution active))) with (b := e) (rows := @nil (list T)) as (c & more & r & E & _ & Tb).
  { apply Forall_forall. intros k Hk. apply in_grid in Hk; [|exact L]. apply boxed_length in Hk. rewrite repeat_length in Hk. congruence. }
  { apply inv_start; exact La. }
  exists c, more, r. split; [rewrite <- grid_from_min by exact L; apply visits_from; [exact L|reflexivity]|].
  split; [|exact Tb]. unfold fld_grid. rewrite (proj2 (Nat.eqb_eq _ _) La). cbn [negb]. rewrite Hr.
  change (map (fun a : bool => if a then resolution else 0%Z) active) with (tops resolution active). rewrite <- La.
  rewrite loop_grid by exact L. exact E.
Qed.
End Fld.
