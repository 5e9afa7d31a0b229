(** C79: datasets as text. *)
From Coq Require Import ZArith String List Bool Reals Sorted Lia.
From Flocq Require Import Core IEEE754.BinarySingleNaN.
From Verif Require Import Base Op XR F64 F64Facts F64Arith Text Var Activation Engine Grid Benchmark SpecEngine SpecGrid SpecFld ActivationProofs3 EngineBundle
  GridProofs FldProofs FldBundle BenchProofs Fll SpecFll SpecDataset FldRead FldRead2 PropGrid.
Import ListNotations.
#[local] Hint Extern 9 (Scalar _) => exact (F64Scalar fp_default) : typeclass_instances.

(** * C79 *)
(** the text: a line with the names, if wanted, and a line for each row *)
Theorem C79_text : forall (P : fparam) d (x : fld) (e : engine f64) rows, gap (fld_separator x) -> List.Forall one_line (columns x e) -> exists head lines,
  getlines (@fld_text f64 (F64Scalar P) x d e rows) = (head ++ lines)%list /\ Forall2 (@shows f64 (F64Scalar P) d) lines rows /\
  if fld_headers x then exists h, head = [h] /\ tokens h = List.concat (map tokens (columns x e)) else head = [].
Proof. exact text64. Qed.
Print Assumptions C79_text.
(** benchmarks read it back: the numbers as printed, blank rows left out *)
Theorem C79_read : forall (P : fparam) d (x : fld) (e : engine f64) rows, gap (fld_separator x) -> List.Forall one_line (columns x e) ->
  (fld_headers x = true -> @worded f64 (F64Scalar P) (columns x e)) ->
  @prepare_lines f64 (F64Scalar P) true (getlines (@fld_text f64 (F64Scalar P) x d e rows)) = Ok (map (map (@reread f64 (F64Scalar P) d)) (rows_of rows)).
Proof. exact read_rows64. Qed.
Print Assumptions C79_read.
(** exporting for the dataset exported: the rows for the inputs as printed *)
Theorem C79_again : forall (P : fparam) d (drain : drainer f64) (x : fld) (e : engine f64), gap (fld_separator x) -> List.Forall one_line (columns x e) ->
  (fld_headers x = true -> @worded f64 (F64Scalar P) (columns x e)) -> memoryless e -> e_inputs e <> [] ->
  forall inputs rows rows', fld_inputs x = true -> Forall2 (@computed f64 (F64Scalar P) drain x e) inputs rows ->
  Forall2 (@computed f64 (F64Scalar P) drain x e) (map (map (@reread f64 (F64Scalar P) d)) inputs) rows' ->
  exists e', @fld_lines f64 (F64Scalar P) drain x true (getlines (@fld_text f64 (F64Scalar P) x d e rows)) e [] = ((e', rows'), Ok tt).
Proof. exact again64. Qed.
Print Assumptions C79_again.
(** an engine benchmarked against its own dataset: the same table, no errors *)
Theorem C79_benchmark : forall (P : fparam) d (drain : drainer f64) (x : fld) (e : engine f64), gap (fld_separator x) -> List.Forall one_line (columns x e) ->
  (fld_headers x = true -> @worded f64 (F64Scalar P) (columns x e)) -> memoryless e -> e_inputs e <> [] ->
  forall inputs rows obtained times (tol : f64) output ty, fld_inputs x = true -> fld_outputs x = true -> List.Forall (fun o => v_enabled (o_var o) = true) (e_outputs e) ->
  Forall2 (@computed f64 (F64Scalar P) drain x e) inputs rows -> List.Forall (fun xs => map (@reread f64 (F64Scalar P) d) xs = xs) inputs -> rows <> [] ->
  Bltb (f64_dec 1 (- Z.of_nat d)) tol = true ->
  exists expected, @prepare_lines f64 (F64Scalar P) true (getlines (@fld_text f64 (F64Scalar P) x d e rows)) = Ok expected /\
    snd (@bench_run f64 (F64Scalar P) drain (Datatypes.S times) expected obtained e) = Ok rows /\
    @number_of_errors f64 (F64Scalar P) ty tol output (length (e_inputs e)) (length (e_outputs e)) expected rows = Ok 0%Z.
Proof. exact self_benchmark. Qed.
Print Assumptions C79_benchmark.
(** in particular over a grid *)
Theorem C79_grid : forall (P : fparam) d (drain : drainer f64) separator values sc (e : engine f64) e' rows resolution obtained times (tol : f64) output ty,
  let x := fld_new separator in let n := length (e_inputs e) in let active := repeat true n in
  gap separator -> List.Forall one_line (columns x e) -> @worded f64 (F64Scalar P) (columns x e) -> memoryless e -> e_inputs e <> [] ->
  List.Forall (fun o => v_enabled (o_var o) = true) (e_outputs e) -> @resolution_for f64 (F64Scalar P) values sc n = Ok resolution ->
  (forall k, boxed (repeat 0%Z n) (repeat resolution n) k -> map (@reread f64 (F64Scalar P) d) (@inputs_at f64 (F64Scalar P) resolution active k (e_inputs e)) = @inputs_at f64 (F64Scalar P) resolution active k (e_inputs e)) ->
  @fld_grid f64 (F64Scalar P) drain x values sc active e = ((e', rows), Ok tt) -> Bltb (f64_dec 1 (- Z.of_nat d)) tol = true ->
  exists expected, @prepare_lines f64 (F64Scalar P) true (getlines (@fld_text f64 (F64Scalar P) x d e rows)) = Ok expected /\
    snd (@bench_run f64 (F64Scalar P) drain (Datatypes.S times) expected obtained e) = Ok rows /\
    @number_of_errors f64 (F64Scalar P) ty tol output n (length (e_outputs e)) expected rows = Ok 0%Z.
Proof. exact grid64. Qed.
Print Assumptions C79_grid.

(** eleven values for the engine [sample] of C44 *)
Definition eleven : list (list f64) := snd (fst (fld_grid stable_drain (fld_new " ") 11 EachVariable [true] sample)).
Definition self_errors (tol : f64) : res Z :=
  do expected <- prepare_lines true (getlines (fld_text (fld_new " ") 3 sample eleven));
  do rows <- snd (bench_run stable_drain 1 expected [] sample);
  number_of_errors AllErrors tol None 1 1 expected rows.
Lemma map_B2SF (l m : list f64) : map B2SF l = map B2SF m -> l = m.
Proof. revert m. induction l as [|a l IH]; intros [|b m] E; try discriminate; [reflexivity|]. cbn [map] in E. injection E as E1 E2. f_equal; [now apply B2SF_inj|now apply IH]. Qed.
Lemma sample_worded : worded (T := f64) (columns (fld_new " ") sample).
Proof. exists "x"%string, "x"%string, EConversion. split; [now left|]. split; [now left|]. vm_compute. reflexivity. Qed.
Example C79_case : gap " " /\ List.Forall one_line (columns (fld_new " ") sample) /\ worded (T := f64) (columns (fld_new " ") sample) /\ memoryless sample /\ e_inputs sample <> [] /\
  List.Forall (fun o => v_enabled (o_var o) = true) (e_outputs sample) /\ resolution_for (T := f64) 11 EachVariable 1 = Ok 10%Z /\
  (forall k, boxed [0%Z] [10%Z] k -> map (reread 3) (inputs_at 10 [true] k (e_inputs sample)) = inputs_at 10 [true] k (e_inputs sample)) /\
  snd (fld_grid stable_drain (fld_new " ") 11 EachVariable [true] sample) = Ok tt /\ Bltb (f64_dec 1 (-3)) (f64_dec 2 (-3)) = true /\ self_errors (f64_dec 2 (-3)) = Ok 0%Z.
Proof.
  split; [repeat split; discriminate|]. split; [repeat constructor|]. split; [exact sample_worded|]. split; [exact sample_memoryless|]. split; [discriminate|]. split; [repeat constructor|]. split; [reflexivity|].
  split; [|repeat split; vm_compute; reflexivity]. intros k B. inversion B as [|lo hi i k0 k1 k2 I B2]; subst. inversion B2; subst. change (Z.max 0 10) with 10%Z in I.
  assert (C : exists j, (j < 11)%nat /\ i = Z.of_nat j) by (exists (Z.to_nat i); lia). destruct C as (j & J & ->). clear - J.
  apply map_B2SF. do 11 (destruct j as [|j]; [vm_compute; reflexivity|]). lia.
Qed.
(** with the default of three decimals and tolerance 1e-6 (fuzzylite.cpp:22-24) it reports errors *)
Theorem C79_default_refuted : exists n, (0 < n)%Z /\ self_errors (fp_eps fp_default) = Ok n.
Proof. exists 8%Z. split; [reflexivity|]. vm_compute. reflexivity. Qed.
Print Assumptions C79_default_refuted.
(** names that are numbers are read as a row *)
Theorem C79_names_refuted : exists (e : engine f64) rows, match prepare_lines true (getlines (fld_text (fld_new " ") 3 e rows)) with Ok read => length read = (1 + length rows)%nat | _ => False end.
Proof. exists (mkEngine "" "" [mkVariable "1" "" s_nan (q 0 1) (q 1 1) true true []] [] []), [[q 1 2]]. vm_compute. reflexivity. Qed.
Print Assumptions C79_names_refuted.
(** datasets separated otherwise cannot be read *)
Theorem C79_separator_refuted : exists err, prepare_lines (T := f64) true (getlines (fld_text (fld_new ",") 3 sample eleven)) = Throw err.
Proof. exists EConversion. vm_compute. reflexivity. Qed.
Print Assumptions C79_separator_refuted.
