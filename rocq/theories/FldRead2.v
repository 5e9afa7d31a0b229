(** Datasets as text in binary64. *)
From Coq Require Import ZArith String List Bool Reals Lia Lra.
From Flocq Require Import Core IEEE754.BinarySingleNaN.
From Verif Require Import Base Op XR XRFacts F64 F64Facts F64Arith F64Err Text TextF64 Var Activation Engine SpecEngine EngineBundle Grid SpecGrid Benchmark SpecFld FldBundle BenchProofs BenchProofs2
  Fll SpecFll FllF64 FllExport SpecDataset FldRead.
Import ListNotations.
Local Open Scope R_scope.

Section Binary64.
Variable P : fparam.
Local Instance S64 : Scalar f64 := F64Scalar P.
Variable d : nat.
Lemma read64 (x : f64) : exists y, to_scalar (str d x) = Ok y /\ str d y = str d x.
Proof. exact (read_any P d x). Qed.
Lemma solid64 (x : f64) : str d x <> ""%string /\ sforall FllExport.solid (str d x) = true.
Proof. exact (str_solid_f64 P d x). Qed.
(** a number as printed and read is equal up to a tolerance above 10^-d *)
Lemma reread_equal (tol x : f64) : Bltb (f64_dec 1 (- Z.of_nat d)) tol = true -> isEq_tol tol (reread d x) x = true.
Proof.
  intro H. destruct (reread_kept P d x : number_kept P d x (@reread f64 S64 d x)) as [_ K]. destruct (is_finite x) eqn:F; [|rewrite K; apply OpProofs.isEq_refl]. destruct K as [G K]. set (y := reread d x) in *.
  unfold isEq_tol. apply orb_true_iff. left. apply orb_true_iff. right. change (Bltb (Babs (Bminus mode_NE y x)) tol = true).
  destruct (tol_correct d) as [A B]. fold (tenth d) in K. assert (T1 := tenth_le1 d).
  destruct (minus_gen y x G F) as [V W]. { apply rnd_no_overflow. apply Rabs_le_inv in K. lra. }
  assert (L : B2R (Babs (Bminus mode_NE y x)) <= B2R (f64_dec 1 (- Z.of_nat d))).
  { rewrite B2R_Babs, V, A. apply Rabs_le. apply Rabs_le_inv in K. split; [|apply rnd_mono; lra]. rewrite <- round_NE_opp. apply rnd_mono. lra. }
  assert (FA : is_finite (Babs (Bminus mode_NE y x)) = true) by (rewrite is_finite_Babs; exact W).
  rewrite f_ltb in *. rewrite f2x_finite in H by exact B. rewrite f2x_finite by exact FA. destruct (f2x tol) as [| | |z]; cbn [xltb] in *; try discriminate; try reflexivity.
  revert H. destruct (Rltb_spec (B2R (f64_dec 1 (- Z.of_nat d))) z); [intros _|discriminate]. destruct (Rltb_spec (B2R (Babs (Bminus mode_NE y x))) z); [reflexivity|lra].
Qed.
Lemma close_entries tol output n m (rows : list (list f64)) : Bltb (f64_dec 1 (- Z.of_nat d)) tol = true ->
  List.Forall (fun p => isEq_tol tol (fst p) (snd p) = true) (entries output n m (map (map (reread d)) rows) rows).
Proof.
  intro H. induction rows as [|r rows IH]; [constructor|]. unfold entries. cbn [map combine flat_map]. apply Forall_app. split; [|exact IH].
  cbn [fst snd]. unfold row_entries. apply Forall_forall. intros p I. apply in_map_iff in I. destruct I as (y & <- & _). cbn [fst snd].
  destruct (Nat.lt_ge_cases (n + y) (length r)) as [L|L].
  - rewrite (nth_indep _ s_nan (reread d s_nan)) by (rewrite map_length; exact L). rewrite map_nth. now apply reread_equal.
  - rewrite !nth_overflow by (rewrite ?map_length; exact L). apply OpProofs.isEq_refl.
Qed.

Lemma text64 (x : fld) (e : engine f64) rows : gap (fld_separator x) -> List.Forall one_line (columns x e) -> exists head lines,
  getlines (fld_text x d e rows) = (head ++ lines)%list /\ Forall2 (shows d) lines rows /\
  if fld_headers x then exists h, head = [h] /\ tokens h = List.concat (map tokens (columns x e)) else head = [].
Proof.
  intros G N. destruct (dataset_columns d solid64 x e G N rows) as (ls & E & F). exists (header_lines x e), ls. split; [exact E|]. split; [exact F|].
  unfold header_lines. destruct (fld_headers x); [|reflexivity]. eexists. split; [reflexivity|]. now apply tokens_join.
Qed.
Lemma read_rows64 (x : fld) (e : engine f64) rows : gap (fld_separator x) -> List.Forall one_line (columns x e) -> (fld_headers x = true -> worded (T := f64) (columns x e)) ->
  prepare_lines true (getlines (fld_text x d e rows)) = Ok (map (map (reread d)) (rows_of rows)).
Proof. intros. apply dataset_read; auto using read64, solid64. Qed.

Variable drain : drainer f64.
Variables (x : fld) (e : engine f64).
Hypothesis separated : gap (fld_separator x).
Hypothesis names : List.Forall one_line (columns x e).
Hypothesis header : fld_headers x = true -> worded (T := f64) (columns x e).
Hypothesis memory : memoryless e.
Hypothesis inputs_some : e_inputs e <> [].

Lemma again64 inputs rows rows' : fld_inputs x = true -> Forall2 (computed drain x e) inputs rows -> Forall2 (computed drain x e) (map (map (reread d)) inputs) rows' ->
  exists e', fld_lines drain x true (getlines (fld_text x d e rows)) e [] = ((e', rows'), Ok tt).
Proof.
  intros FI F G. eapply exported_again with (inputs := inputs); eauto using read64, solid64. intro H. destruct (starts_hash (Text.trim (hd ""%string (header_lines x e)))); auto.
Qed.
Lemma same_inputs inputs (rows : list (list f64)) : List.Forall (fun xs => map (reread d) xs = xs) inputs -> map (map (reread d)) inputs = inputs.
Proof. induction 1 as [|xs l E F IH]; [reflexivity|]. cbn [map]. now rewrite E, IH. Qed.
Lemma computed_width inputs rows : fld_inputs x = true -> fld_outputs x = true -> Forall2 (computed drain x e) inputs rows -> List.Forall (fun r => length r = (length (e_inputs e) + length (e_outputs e))%nat) rows.
Proof.
  intros FI FO F. induction F as [|xs row inputs rows (L & outs & E & Q) F IH]; constructor; [|exact IH]. subst row. unfold row_of. rewrite FI, FO, app_length, L. f_equal.
  unfold evaluation in E. cbv zeta in E. injection E as _ E. rewrite <- E. unfold output_values. rewrite map_length.
  assert (SP := EngineProofs2.process_same drain (set_inputs xs e)). destruct SP as (_ & _ & _ & HO & _). apply ActivationProofs2.Forall2_len in HO. rewrite <- HO. reflexivity.
Qed.
Lemma self_benchmark inputs rows obtained times tol output ty : fld_inputs x = true -> fld_outputs x = true -> List.Forall (fun o => v_enabled (o_var o) = true) (e_outputs e) ->
  Forall2 (computed drain x e) inputs rows -> List.Forall (fun xs => map (reread d) xs = xs) inputs -> rows <> [] -> Bltb (f64_dec 1 (- Z.of_nat d)) tol = true ->
  exists expected, prepare_lines true (getlines (fld_text x d e rows)) = Ok expected /\ snd (bench_run drain (Datatypes.S times) expected obtained e) = Ok rows /\
    number_of_errors ty tol output (length (e_inputs e)) (length (e_outputs e)) expected rows = Ok 0%Z.
Proof.
  intros FI FO EN F EX NE TL. destruct (benchmarked d read64 solid64 x e separated names drain memory inputs rows rows obtained times (nan_f64 P) header FI FO inputs_some EN F) as [B1 B2]; [now rewrite same_inputs|].
  exists (map (map (reread d)) rows). split; [exact B1|]. split; [exact B2|]. assert (WD := computed_width inputs rows FI FO F).
  assert (WD' : List.Forall (fun r => length r = (length (e_inputs e) + length (e_outputs e))%nat) (map (map (reread d)) rows)) by (apply Forall_map; eapply Forall_impl; [|exact WD]; intros r; cbn; now rewrite map_length).
  assert (CC : can_compute (length (e_inputs e)) (length (e_outputs e)) (map (map (reread d)) rows) rows = true).
  { apply can_compute_iff. split; [now rewrite map_length|]. destruct rows as [|r rows]; [congruence|]. inversion WD; subst. exists (map (reread d) r), (map (map (reread d)) rows), r, rows. rewrite map_length. auto. }
  assert (R1 : rectangular (length (e_inputs e) + length (e_outputs e)) rows) by (eapply Forall_impl; [|exact WD]; cbn; intros; lia).
  assert (R2 : rectangular (length (e_inputs e) + length (e_outputs e)) (map (map (reread d)) rows)) by (eapply Forall_impl; [|exact WD']; cbn; intros; lia).
  rewrite errors_count by assumption. unfold count. assert (C := close_entries tol output (length (e_inputs e)) (length (e_outputs e)) rows TL).
  match goal with |- context [filter ?f ?l] => assert (Z : filter f l = []); [|now rewrite Z]; change (List.Forall (fun p => isEq_tol tol (fst p) (snd p) = true) l) in C; revert C; generalize l end. clear.
  intros l C. induction C as [|p l E C IH]; [reflexivity|]. cbn [filter]. unfold faulty at 1, differs. rewrite E. exact IH.
Qed.
(** over a grid *)
Lemma grid_computed (ks : list (list Z)) at_ rows : (forall k, In k ks -> length (at_ k) = length (e_inputs e)) -> table drain e at_ (row_of x) ks rows (Ok tt) -> Forall2 (computed drain x e) (map at_ ks) rows.
Proof.
  intros L H. remember (Ok tt) as r eqn:R0. revert L. induction H as [|k ks outs rows r E H IH|k ks r E N]; intro L; [constructor| |congruence]. cbn [map]. constructor.
  - split; [apply L; now left|]. exists outs. auto.
  - apply IH; [exact R0|]. intros k' I. apply L. now right.
Qed.
Lemma inputs_at_length resolution : forall active k ins, length active = length ins -> length k = length ins -> length (@inputs_at f64 S64 resolution active k ins) = length ins.
Proof. induction active as [|a active IH]; intros [|i k] [|v ins] A B; try discriminate; [reflexivity|]. cbn [inputs_at length]. f_equal. apply IH; [now injection A | now injection B]. Qed.
End Binary64.
Lemma boxed_len min max k : boxed min max k -> length k = length min.
Proof. induction 1; cbn; congruence. Qed.
Lemma grid64 (P : fparam) d (drain : drainer f64) separator values sc (e : engine f64) e' rows resolution obtained times (tol : f64) output ty :
  let x := fld_new separator in let n := length (e_inputs e) in let active := repeat true n in
  gap separator -> List.Forall one_line (columns x e) -> @worded f64 (F64Scalar P) (columns x e) -> memoryless e -> e_inputs e <> [] ->
  List.Forall (fun o => v_enabled (o_var o) = true) (e_outputs e) -> @resolution_for f64 (F64Scalar P) values sc n = Ok resolution ->
  (forall k, boxed (repeat 0%Z n) (repeat resolution n) k -> map (@reread f64 (F64Scalar P) d) (@inputs_at f64 (F64Scalar P) resolution active k (e_inputs e)) = @inputs_at f64 (F64Scalar P) resolution active k (e_inputs e)) ->
  @fld_grid f64 (F64Scalar P) drain x values sc active e = ((e', rows), Ok tt) -> Bltb (f64_dec 1 (- Z.of_nat d)) tol = true ->
  exists expected, @prepare_lines f64 (F64Scalar P) true (getlines (@fld_text f64 (F64Scalar P) x d e rows)) = Ok expected /\
    snd (@bench_run f64 (F64Scalar P) drain (Datatypes.S times) expected obtained e) = Ok rows /\
    @number_of_errors f64 (F64Scalar P) ty tol output n (length (e_outputs e)) expected rows = Ok 0%Z.
Proof.
  intros x n active G N W M NE EN RS EX FG TL.
  assert (LA : length active = length (e_inputs e)) by apply repeat_length.
  assert (ST : Forall2 (@stable f64 (F64Scalar P)) active (e_inputs e)).
  { unfold active, n. generalize (e_inputs e). induction l as [|v l IH]; constructor; [|exact IH]. intro; discriminate. }
  destruct (fld_rows drain x values sc active e resolution M LA NE ST RS) as (ks & e2 & rows2 & r & K1 & K2 & K3 & K4 & K5 & K6 & K7). rewrite FG in K5. injection K5 as <- <- <-.
  assert (TP : tops resolution active = repeat resolution n) by (unfold tops, active; clear; induction n as [|n IH]; [reflexivity|]; cbn [repeat map]; now rewrite IH).
  rewrite TP in K1. assert (LN : length active = n) by exact LA. rewrite LN in K1.
  apply (self_benchmark P d drain x e G N (fun _ => W) M NE (map (fun k => @inputs_at f64 (F64Scalar P) resolution active k (e_inputs e)) ks) rows obtained times tol output ty eq_refl eq_refl EN).
  - apply grid_computed; [|exact K6]. intros k I. apply K1, boxed_len in I. apply inputs_at_length; [exact LA|]. rewrite I. apply repeat_length.
  - apply Forall_map, Forall_forall. intros k I. apply EX, K1, I.
  - intro Z. subst rows. assert (L0 := proj1 K7 eq_refl). rewrite <- L0 in K4. cbn [length] in K4. assert (0 < (1 + Z.max 0 resolution) ^ Z.of_nat (length (filter (fun a : bool => a) active)))%Z by (apply Z.pow_pos_nonneg; lia). lia.
  - exact TL.
Qed.
