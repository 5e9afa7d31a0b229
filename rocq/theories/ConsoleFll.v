(** FLL files through the tool, and commands that do not do what is expected. *)
From Coq Require Import ZArith String List Bool Ascii Lia.
From Flocq Require Import IEEE754.BinarySingleNaN.
From Verif Require Import Base Op F64 F64Arith Text Var Activation Engine Grid Fll Fis Fcl Console SpecConsole SpecFll FllText FllF64 FllReject FllBundle FclText ImportProofs ConsoleProofs ActivationProofs3.
Import ListNotations.
Local Open Scope string_scope.

Lemma normal_contents text : filter nonempty (map content (chop newline (text_of (getlines text)))) = filter nonempty (map content (chop newline text)).
Proof.
  pose proof (contents_lines content (text_of (getlines text)) eq_refl) as A. pose proof (contents_lines content text eq_refl) as B. unfold SpecImport.contents in *.
  rewrite <- A, <- B. f_equal. f_equal. apply getlines_text. apply List.Forall_forall. intros l I. rewrite getlines_chop in I.
  assert (J : In l (chop newline text)). { clear - I. revert I. generalize (chop newline text). intro ls. induction ls as [|a ls IH]; simpl; auto.
    destruct ls as [|b ls]; [destruct (sempty a); simpl; tauto|]. intros [<-|I]; auto. }
  exact (chop_free _ _ _ J).
Qed.
Section Again.
Variables (P : fparam) (drain : drainer f64) (resolution : Z) (library version : string) (what : exc -> string) (java : nat -> engine f64 -> res string).
Notation main := (@console_main f64 (F64Scalar P) drain resolution library version what java).
Notation exported d e := (@fll_export f64 (F64Scalar P) d resolution "  " (char newline) e).
Notation imported text := (@fll_import f64 (F64Scalar P) resolution (char newline) text).
Theorem fll_again w a b d e f : fine_tolerance P d -> plain_engine e -> @heights_shown f64 (F64Scalar P) d e -> w_decimals w = d ->
  w_files w a = Some (exported d e) -> imported (exported d e) = Ok f -> ending a "fll" -> (forall r, a <> String "-" r) -> ending b "fll" -> w_blocked w b = false ->
  exists w', main [a; b] w = (w', Success) /\ only_written b (exported d e) w w' /\ w_printed w' = w_printed w.
Proof.
  intros F PL H D W I EA NA EB FR. assert (TN : two_names [a; b] a b).
  { repeat split.
    - simpl. now rewrite String.eqb_refl.
    - intros k [<-|[]]; reflexivity.
    - destruct EA as (base & -> & _). destruct base as [|c r]; [exists "."%char, "fll"; split; auto; discriminate|]. exists c, (r ++ "." ++ "fll"). split; auto. intros ->. exact (NA _ eq_refl). }
  assert (CV : converting [a; b]).
  { destruct EA as (base & -> & _). assert (N : forall c, base ++ "." ++ "fll" = c -> extension c = Some "fll") by (intros c <-; apply extension_ending; exists base; split; auto; intros x y X; destruct x as [|? [|? [|? [|? x]]]]; discriminate).
    repeat split; intro X; apply N in X; discriminate X. }
  rewrite (two_names_convert drain resolution library version what java [a; b] a b w CV eq_refl TN).
  assert (R : @request f64 (F64Scalar P) ["-i"; a; "-o"; b] w d a "fll" b "fll" (exported d e)).
  { constructor; simpl; auto.
    - split; [reflexivity|]. intros k [<-|[<-|[]]]; simpl; tauto.
    - unfold decimals_of. simpl. congruence.
    - destruct EB as (base & -> & _). destruct base; discriminate. }
  apply (@converts f64 (F64Scalar P) drain resolution library version what java _ _ _ _ _ _ _ _ f (exported d e) R); [discriminate| |].
  - unfold import_as. simpl. rewrite <- I. apply text_contents. apply normal_contents.
  - unfold export_as. simpl. f_equal. exact (import_text P d resolution "  " F eq_refl eq_refl e f PL H I).
Qed.
End Again.
#[local] Hint Extern 9 (Scalar _) => exact (F64Scalar fp_default) : typeclass_instances.
Definition tool : list string -> world -> world * status :=
  @console_main f64 _ (@stable_drain f64) 1000 "fuzzylite 7.0" "7.0" (fun _ => "error") (fun _ _ => Throw EExport).
Definition disk (files : list (string * string)) : world := mkWorld (fun f => option_get f files) (fun _ => false) "" [] 3.
(** a command that fails empties the file it should have written, which may be the only copy of the engine *)
Lemma overwritten : exists w args f s, w_files w f = Some s /\ s <> "" /\ snd (tool args w) = Failure /\ w_files (fst (tool args w)) f = Some "".
Proof.
  exists (disk [("a.fll", "Engine: a
InputVariable: b
  range: 0 one")]), ["a.fll"; "a.fll"], "a.fll". eexists. split; [vm_compute; reflexivity|]. split; [discriminate|]. split; vm_compute; reflexivity.
Qed.
(** fewer decimals for writing change the engine of the example that is evaluated: at 0.25 it says 1.5, and 1.4 with one decimal *)
Lemma example_changed : exists w, let grid d := tool ["-example"; "mamdani"; "-of"; "fld"; "-values"; "5"; "-decimals"; d] w in
  snd (grid "3") = Success /\ snd (grid "1") = Success /\
  w_printed (fst (grid "3")) = text_of ["ambient power"; "0.000 nan"; "0.250 1.500"; "0.500 1.000"; "0.750 0.500"; "1.000 nan"] /\
  w_printed (fst (grid "1")) = text_of ["ambient power"; "0.0 nan"; "0.2 1.4"; "0.5 1.0"; "0.8 0.6"; "1.0 nan"].
Proof. exists (disk []). vm_compute. repeat split. Qed.
Lemma console_case :
  let w := disk [("a.fll", "Engine: a
InputVariable: b
  range: 0 1"); ("c.txt", "kept")] in
  let w1 := fst (tool ["-of"; "cpp"; "-o"; "c.fll"; "-o"; "d"; "-i"; "a.fll"] w) in
  let w2 := fst (tool ["a.fll"; "b.fis"] w) in let w3 := fst (tool ["b.fis"; "c.fcl"] w2) in
  snd (tool ["-of"; "cpp"; "-o"; "c.fll"; "-o"; "d"; "-i"; "a.fll"] w) = Success /\ w_files w1 "c.fll" = None /\ w_files w1 "d" <> None /\ w_files w1 "c.txt" = Some "kept" /\
  snd (tool ["a.fll"; "b.fis"] w) = Success /\ snd (tool ["b.fis"; "c.fcl"] w2) = Success /\
  w_files w3 "c.fcl" = Some (text_of ["//Code automatically generated with fuzzylite 7.0."; ""; "FUNCTION_BLOCK a"; ""; "VAR_INPUT"; "  b: REAL;"; "END_VAR"; ""; "VAR_OUTPUT"; "END_VAR"; "";
    "FUZZIFY b"; "  RANGE := (0.000 .. 1.000);"; "END_FUZZIFY"; ""; "RULEBLOCK "; "  AND : MIN;"; "  OR : MAX;"; "  ACT : MIN;"; "END_RULEBLOCK"; ""; "END_FUNCTION_BLOCK"]).
Proof. vm_compute. repeat split; discriminate. Qed.
