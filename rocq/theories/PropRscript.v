(** C91: scripts of R. *)
From Coq Require Import ZArith String List Bool Ascii.
From Flocq Require Import IEEE754.BinarySingleNaN.
From Verif Require Import Base Op F64 F64Arith Norm Shape Discrete Defuzz Aggregated Text Function Rule Var Activation Engine Factory ActivationProofs3 EngineBundle
  Fll SpecFll FllBundle Grid Rscript SpecRscript RscriptProofs.
Import ListNotations.
Local Open Scope string_scope.
Local Notation fll d resolution e := (fll_export d resolution "  " (char Fll.newline) e).
Local Notation fits d library resolution colors e zs := (fitting library (c_minimum colors) (c_maximum colors) (c_contour colors) (fll d resolution e) e zs).
(** the literals expected: the name, the description, the engine in FLL, [data], the plots of the output variables [zs] over the inputs [x] and [y] *)
Local Notation expected d resolution colors e a b zs x y data := (("engine.name = ", e_name e) :: described (e_description e) ++ [("engine.fll = ", fll d resolution e)] ++ data ++
  plotted (c_minimum colors) (c_maximum colors) (c_contour colors) (Nat.eqb a b) (v_name x) (v_name y) zs ++ [("    ggsave(paste0(engine.name, ", ".pdf")])%list.

(** * C91 *)
(** R reads the texts of the script as they were; the dataset is the one of C64 over the two input variables *)
Theorem C91_script : forall T (S : Scalar T) d library resolution colors drain a b values sc zs (e e' : engine T) script, fits d library resolution colors e zs ->
  r_script d library resolution colors drain a b values sc zs e = (e', Ok script) ->
  exists x y rows, nth_error (e_inputs e) a = Some x /\ nth_error (e_inputs e) b = Some y /\
    fld_grid drain (fld_new " ") values sc (map (fun i => Nat.eqb i a || Nat.eqb i b)%bool (seq 0 (List.length (e_inputs e)))) e = ((e', rows), Ok tt) /\
    literals script = Some (expected d resolution colors e a b zs x y (dataset (fld_text (fld_new " ") d e rows))).
Proof. exact @script_read. Qed.
Print Assumptions C91_script.
(** the same for the values of a stream (C71), and for a dataset in a file *)
Theorem C91_lines : forall T (S : Scalar T) d library resolution colors drain a b lines zs (e e' : engine T) script, fits d library resolution colors e zs ->
  r_script_lines d library resolution colors drain a b lines zs e = (e', Ok script) ->
  exists x y rows, nth_error (e_inputs e) a = Some x /\ nth_error (e_inputs e) b = Some y /\ fld_lines drain (fld_new " ") true lines e [] = ((e', rows), Ok tt) /\
    literals script = Some (expected d resolution colors e a b zs x y (dataset (fld_text (fld_new " ") d e rows))).
Proof. exact @lines_read. Qed.
Print Assumptions C91_lines.
Theorem C91_file : forall T (S : Scalar T) d library resolution colors a b path zs (e : engine T) script, fits d library resolution colors e zs -> quotable path = true ->
  r_script_file d library resolution colors a b path zs e = Ok script ->
  exists x y, nth_error (e_inputs e) a = Some x /\ nth_error (e_inputs e) b = Some y /\
    literals script = Some (expected d resolution colors e a b zs x y [("engine.fldFile = ", path); ("    engine.df = data.table::fread(engine.fldFile, sep=", "auto"); (", header=", "auto")]).
Proof. exact @file_read. Qed.
Print Assumptions C91_file.
(** two plots for every output variable, with different names, each defined at the beginning of a line before all of them are arranged *)
Theorem C91_plots : forall T (S : Scalar T) d library resolution colors drain a b values sc zs (e e' : engine T) script, zs <> [] ->
  r_script d library resolution colors drain a b values sc zs e = (e', Ok script) ->
  exists names before, NoDup names /\ List.length names = (2 * List.length zs)%nat /\
    line_at before ("    engine.plots = arrangeGrob(" ++ join names ", " ++ ", ncol=2, top=engine.name)") script /\
    forall p, In p names -> exists b0 r, before = b0 ++ p ++ " = ggplot(engine.df, aes(" ++ r /\ (b0 = "" \/ exists c, b0 = c ++ String line_break "").
Proof. exact @script_plots. Qed.
Print Assumptions C91_plots.
(** there is a script exactly if there is a dataset; the engine is left as the dataset leaves it *)
Theorem C91_outcome : forall T (S : Scalar T) d library resolution colors drain a b values sc zs (e : engine T), (a < List.length (e_inputs e))%nat -> (b < List.length (e_inputs e))%nat ->
  let run := fld_grid drain (fld_new " ") values sc (map (fun i => Nat.eqb i a || Nat.eqb i b)%bool (seq 0 (List.length (e_inputs e)))) e in
  fst (r_script d library resolution colors drain a b values sc zs e) = fst (fst run) /\
  (forall err, snd run = Throw err -> snd (r_script d library resolution colors drain a b values sc zs e) = Throw err) /\
  (snd run = Ok tt -> exists script, snd (r_script d library resolution colors drain a b values sc zs e) = Ok script).
Proof. exact @script_outcome. Qed.
Print Assumptions C91_outcome.
Theorem C91_export : forall T (S : Scalar T) d library resolution colors drain (e : engine T), let names := map (fun o => v_name (o_var o)) (e_outputs e) in
  (e_inputs e = [] \/ e_outputs e = [] -> r_export d library resolution colors drain e = (e, Throw EExport)) /\
  (forall x, e_inputs e = [x] -> e_outputs e <> [] -> r_export d library resolution colors drain e = r_script d library resolution colors drain 0 0 1024 AllVariables names e) /\
  (forall x y l, e_inputs e = x :: y :: l -> e_outputs e <> [] -> r_export d library resolution colors drain e = r_script d library resolution colors drain 0 1 1024 AllVariables names e).
Proof. exact @export_choice. Qed.
Print Assumptions C91_export.
(** what R has in engine.fll can be imported (C55) *)
Theorem C91_engine : forall P d library resolution colors drain a b values sc zs (e e' : engine f64) script, fine_tolerance P d -> writable e ->
  fitting library (c_minimum colors) (c_maximum colors) (c_contour colors) (@fll_export f64 (F64Scalar P) d resolution "  " (char Fll.newline) e) e zs ->
  @r_script f64 (F64Scalar P) d library resolution colors drain a b values sc zs e = (e', Ok script) ->
  exists l text, literals script = Some l /\ In ("engine.fll = ", text) l /\ @fll_import f64 (F64Scalar P) resolution (char Fll.newline) text = @printed_engine f64 (F64Scalar P) d e.
Proof.
  intros P d library resolution colors drain a b values sc zs e e' script F W FT E. destruct (@C91_script f64 (F64Scalar P) d library resolution colors drain a b values sc zs e e' script FT E) as (x & y & rows & _ & _ & _ & Q).
  eexists. exists (@fll_export f64 (F64Scalar P) d resolution "  " (char Fll.newline) e). split; [exact Q|]. split; [right; apply in_or_app; right; left; reflexivity|]. exact (import_printed P d resolution "  " F eq_refl eq_refl e W).
Qed.
Print Assumptions C91_engine.

#[local] Hint Extern 9 (Scalar _) => exact (F64Scalar fp_default) : typeclass_instances.
Definition described_sample (text : string) : engine f64 := mkEngine "sample" text (e_inputs sample) (e_outputs sample) (e_blocks sample).
Definition script_of (e : engine f64) : string := match snd (r_script 3 "fuzzylite 7" 100 default_colors stable_drain 0 0 3 EachVariable ["y"] e) with Ok s => s | _ => "" end.
Definition has (code text : string) (l : option (list (string * string))) : bool := match l with Some l => existsb (fun p => String.eqb (fst p) code && String.eqb (snd p) text)%bool l | None => false end.
(** texts are not escaped: a quotation mark ends the literal, so that the rest is run as code; a backslash changes the text *)
Theorem C91_quote_refuted : exists text, single_line text = true /\
  has "engine.description = " text (literals (script_of (described_sample text))) = false /\ has "engine.description = " "" (literals (script_of (described_sample text))) = true /\
  has "; system(" "date" (literals (script_of (described_sample text))) = true.
Proof. exists (char "034" ++ "; system(" ++ char "034" ++ "date" ++ char "034" ++ "); c(" ++ char "034"). split; [reflexivity|]. split; [vm_compute; reflexivity|]. split; vm_compute; reflexivity. Qed.
Print Assumptions C91_quote_refuted.
Theorem C91_backslash_refuted : exists text, single_line text = true /\ lacks "034" text = true /\ has "engine.description = " text (literals (script_of (described_sample text))) = false.
Proof. exists ("C:" ++ char "092" ++ "new"). split; [reflexivity|]. split; [reflexivity|]. vm_compute. reflexivity. Qed.
Print Assumptions C91_backslash_refuted.
Example C91_case : fits 3 "fuzzylite 7" 100 default_colors (described_sample "it's # a sample") ["y"] /\
  snd (r_script 3 "fuzzylite 7" 100 default_colors stable_drain 0 0 3 EachVariable ["y"] (described_sample "it's # a sample")) = Ok (script_of (described_sample "it's # a sample")) /\
  (has "engine.description = " "it's # a sample" (literals (script_of (described_sample "it's # a sample"))) &&
   has "engine.fld = " ("x y" ++ char Fll.newline ++ "0.000 0.250" ++ char Fll.newline ++ "0.500 0.500" ++ char Fll.newline ++ "1.000 0.750" ++ char Fll.newline) (literals (script_of (described_sample "it's # a sample"))) &&
   has "    ggtitle(" "y vs x" (literals (script_of (described_sample "it's # a sample"))))%bool = true.
Proof. split; [repeat split; vm_compute; reflexivity|]. split; vm_compute; reflexivity. Qed.
